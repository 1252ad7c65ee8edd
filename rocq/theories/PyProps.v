(** C77: element access, the homogeneous matrix, Python sequences and pickling. *)
From Coq Require Import Reals ZArith List Lia.
From Verif Require Import FramesModel FramesSpec FramesWitness DualModel Outcome InertiaModel KinModel JntModel MiscModel MiscSpec EqSpec PyModel PySpec PyProofs PyProofs2.
Import ListNotations.
Local Open Scope Z_scope.

(** Objects indexed by one integer. *)
Theorem C77_getitem : reads co_v py_v_get /\ reads co_w py_w_get /\ reads co_t py_t_get /\ reads co_ri py_ri_get /\
  reads (fun q : list R => q) py_jnt_get.
Proof. exact (conj v_reads (conj w_reads (conj t_reads (conj ri_reads jnt_reads)))). Qed.
Print Assumptions C77_getitem.

Theorem C77_setitem : writes co_v py_v_set /\ writes co_w py_w_set /\ writes co_t py_t_set /\ writes co_ri py_ri_set /\
  writes (fun q : list R => q) py_jnt_set /\
  determines co_v /\ determines co_w /\ determines co_t /\ determines co_ri.
Proof.
  exact (conj v_writes (conj w_writes (conj t_writes (conj ri_writes (conj jnt_writes
        (conj co_v_det (conj co_w_det (conj co_t_det co_ri_det)))))))).
Qed.
Print Assumptions C77_setitem.

Example C77_sequences : py_v_get (mkV 5 6 7) 2 = PyOk 7%R /\ py_v_get (mkV 5 6 7) 3 = PyIndexError /\
  py_v_get (mkV 5 6 7) (-1) = PyIndexError /\ py_v_get (mkV 5 6 7) (2 ^ 40) = PyTypeError /\
  py_w_set (mkW (mkV 1 2 3) (mkV 4 5 6)) 4 9 = PyOk (mkW (mkV 1 2 3) (mkV 4 9 6)) /\
  py_jnt_get [1; 2]%R 1 = PyOk 2%R /\ py_jnt_get [1; 2]%R 2 = PyIndexError.
Proof. repeat split. Qed.

(** Objects indexed by two integers. *)
Theorem C77_getitem_matrix :
  reads2 (fun _ => True) (fun _ => 3%nat) (fun _ => 3%nat) r_entry py_r_get /\
  reads2 (fun _ => True) (fun _ => 3%nat) (fun _ => 4%nat) f_entry py_f_get /\
  reads2 (fun _ => True) (fun _ => 6%nat) cols jac_entry py_jac_get /\
  reads2 square jm_n jm_n jm_entry py_jm_get.
Proof. exact (conj r_reads (conj f_reads (conj jac_reads jm_reads))). Qed.
Print Assumptions C77_getitem_matrix.

Theorem C77_setitem_matrix :
  writes2 (fun _ => True) (fun _ => 3%nat) (fun _ => 3%nat) r_entry py_r_set /\
  writes2 (fun _ => True) (fun _ => 3%nat) (fun _ => 4%nat) f_entry py_f_set /\
  writes2 (fun _ => True) (fun _ => 6%nat) cols jac_entry py_jac_set /\
  writes2 square jm_n jm_n jm_entry py_jm_set.
Proof. exact (conj r_writes (conj f_writes (conj jac_writes jm_writes))). Qed.
Print Assumptions C77_setitem_matrix.

Example C77_matrices : square (jm_make 2) /\ py_jm_get (mkJM 2 [1; 2; 3; 4]%R) 0 1 = PyOk 3%R /\
  py_f_get (mkF r_id (mkV 7 8 9)) 1 3 = PyOk 8%R /\ py_f_get (mkF r_id (mkV 7 8 9)) 3 3 = PyIndexError /\
  py_jac_get [mkT (mkV 1 2 3) (mkV 4 5 6)] 5 0 = PyOk 6%R /\ py_jac_get [mkT (mkV 1 2 3) (mkV 4 5 6)] 0 1 = PyIndexError.
Proof. repeat split. Qed.

(** list(o), and every loop over o, gives all members in order and ends.  [fuel] bounds the number of calls of __getitem__. *)
Theorem C77_iteration :
  (forall v fuel, (3 < fuel)%nat -> py_list fuel (py_v_get v) 0 = PyOk (co_v v)) /\
  (forall w fuel, (6 < fuel)%nat -> py_list fuel (py_w_get w) 0 = PyOk (co_w w)) /\
  (forall t fuel, (6 < fuel)%nat -> py_list fuel (py_t_get t) 0 = PyOk (co_t t)) /\
  (forall I fuel, (9 < fuel)%nat -> py_list fuel (py_ri_get I) 0 = PyOk (co_r (ri_data I))) /\
  (forall q fuel, Z.of_nat (length q) < 2 ^ 31 -> (length q < fuel)%nat -> py_list fuel (py_jnt_get q) 0 = PyOk q).
Proof. exact iterate_all. Qed.
Print Assumptions C77_iteration.

(** The C++ operator()(i,j) of a frame is defined for 0..3 only, and is the homogeneous matrix. *)
Theorem C77_frame_matrix_defined : forall f i j,
  (index4 i /\ index4 j -> exists x, f_at f i j = Ret x) /\ (~ (index4 i /\ index4 j) -> f_at f i j = Undef).
Proof. exact f_at_defined. Qed.
Print Assumptions C77_frame_matrix_defined.

Theorem C77_frame_matrix_action : forall f F v i,
  (forall i j, index4 i -> index4 j -> f_at f i j = Ret (F i j)) -> index4 i ->
  sum4 (fun k => F i k * hom v k)%R = hom (f_app f v) i.
Proof. exact f_at_app. Qed.
Print Assumptions C77_frame_matrix_action.

Theorem C77_frame_matrix_product : forall a b A B i j,
  (forall i j, index4 i -> index4 j -> f_at a i j = Ret (A i j) /\ f_at b i j = Ret (B i j)) ->
  index4 i -> index4 j -> f_at (f_mul a b) i j = Ret (sum4 (fun k => A i k * B k j)%R).
Proof. exact f_at_mul. Qed.
Print Assumptions C77_frame_matrix_product.

Theorem C77_frame_matrix_inverse : forall f A B i j, rigid f ->
  (forall i j, index4 i -> index4 j -> f_at f i j = Ret (A i j) /\ f_at (f_inv f) i j = Ret (B i j)) ->
  index4 i -> index4 j -> sum4 (fun k => A i k * B k j)%R = (if i =? j then 1 else 0)%R.
Proof. exact f_at_inv. Qed.
Print Assumptions C77_frame_matrix_inverse.

(** Make4x4 writes the same matrix, row by row, and nothing behind it; the buffer must hold sixteen numbers. *)
Theorem C77_Make4x4 : forall f d,
  ((16 <= length d)%nat -> exists d', f_Make4x4 f d = Ret d' /\ skipn 16 d' = skipn 16 d /\ length d' = length d /\
     forall i j, index4 i -> index4 j -> f_at f i j = Ret (nth (Z.to_nat (4 * i + j)) d' 0%R)) /\
  ((length d < 16)%nat -> f_Make4x4 f d = Undef).
Proof. exact (fun f d => conj (make4 f d) (make4_short f d)). Qed.
Print Assumptions C77_Make4x4.

Theorem C77_set_columns : forall r v,
  (r_UnitX (r_setX r v) = v /\ r_UnitY (r_setX r v) = r_UnitY r /\ r_UnitZ (r_setX r v) = r_UnitZ r) /\
  (r_UnitY (r_setY r v) = v /\ r_UnitX (r_setY r v) = r_UnitX r /\ r_UnitZ (r_setY r v) = r_UnitZ r) /\
  (r_UnitZ (r_setZ r v) = v /\ r_UnitX (r_setZ r v) = r_UnitX r /\ r_UnitY (r_setZ r v) = r_UnitY r).
Proof. exact set_columns. Qed.
Print Assumptions C77_set_columns.

(** The C++ operators have a precondition; the Python layer above checks it. *)
Theorem C77_access_precondition : forall i j, ~ (0 <= i <= 2 /\ 0 <= j <= 2) ->
  (forall r, r_at r i j = Undef) /\ (forall r x, r_put r i j x = Undef) /\ (forall f, f2_at f i j = Undef).
Proof. exact access_precondition. Qed.
Print Assumptions C77_access_precondition.

(** operator()(i,j) of a planar frame gives a homogeneous matrix with the inverse rotation. *)
Theorem C77_planar_entries : forall (f : Frame2) (v : Vector2),
  match f2_at f 0 0, f2_at f 0 1, f2_at f 0 2, f2_at f 1 0, f2_at f 1 1, f2_at f 1 2, f2_at f 2 0, f2_at f 2 1, f2_at f 2 2 with
  | Ret a, Ret b, Ret c, Ret d, Ret e, Ret g, Ret x, Ret y, Ret z =>
      mkV2 (a * v2x v + b * v2y v + c) (d * v2x v + e * v2y v + g) = v2_add (rot2_invapp (f2M f) v) (f2p f) /\ x = 0%R /\ y = 0%R /\ z = 1%R
  | _, _, _, _, _, _, _, _, _ => False
  end.
Proof. exact f2_entries. Qed.
Print Assumptions C77_planar_entries.

(** Finding: operator()(i,j) of a planar frame is not the matrix of the map. *)
Theorem C77_planar_matrix_refuted : exists f v, rigid2 f /\
  match f2_at f 0 0, f2_at f 0 1, f2_at f 0 2 with
  | Ret a, Ret b, Ret c => (a * v2x v + b * v2y v + c <> v2x (f2_app f v))%R
  | _, _, _ => False
  end.
Proof. exact f2_not_matrix. Qed.
Print Assumptions C77_planar_matrix_refuted.

(** pickle.loads(pickle.dumps(o)): an object of the same class with the same members, except that the rotation goes through
    roll, pitch and yaw: always a proper rotation, near a proper rotation, equal to it away from the singularity; pickling
    the result again changes nothing more. *)
Theorem C77_pickle : forall o, exists o', py_loads (py_dumps o) = PyOk o' /\ py_loads (py_dumps o') = PyOk o' /\
  class_of o' = class_of o /\
  (rotation_in o = None -> o' = o) /\
  (forall r, rotation_in o = Some r -> exists r', o' = with_rotation o r' /\ is_rotation r' /\
     (is_rotation r -> r_close r' r (4 * rpy_epsilon)) /\ (is_rotation r -> clear_pitch r -> r' = r)).
Proof. exact pickle_spec. Qed.
Print Assumptions C77_pickle.

(** Findings: a rigid frame that comes back changed; matrices that are not proper rotations never come back. *)
Theorem C77_pickle_exact_refuted :
  (exists f, rigid f /\ py_loads (py_dumps (PFrame f)) <> PyOk (PFrame f)) /\
  (forall o r, rotation_in o = Some r -> ~ is_rotation r -> py_loads (py_dumps o) <> PyOk o).
Proof. exact (conj pickle_not_exact pickle_improper). Qed.
Print Assumptions C77_pickle_exact_refuted.

Example C77_pickle_case : clear_pitch (r_RPY 1 0 1) /\ rotation_in (PFrame (mkF (r_RPY 1 0 1) (mkV 1 2 3))) = Some (r_RPY 1 0 1).
Proof. exact (conj clear_case eq_refl). Qed.

(** Whatever the pickle says: an object of the named class from a state of the right size, or an exception. *)
Theorem C77_unpickle_any : forall k, good (py_loads k).
Proof. exact loads_good. Qed.
Print Assumptions C77_unpickle_any.

Theorem C77_unpickle_class : forall c l o, py_loads (KObj c l) = PyOk o -> class_of o = Some c /\ length l = state_size c.
Proof. exact loads_class. Qed.
Print Assumptions C77_unpickle_class.

Theorem C77_unpickle_wrong_size : forall c l t, Forall2 (fun k o => py_loads k = PyOk o) l t -> length l <> state_size c ->
  py_loads (KObj c l) = PyRuntimeError.
Proof. exact loads_wrong_size. Qed.
Print Assumptions C77_unpickle_wrong_size.
