(** Proofs for PyProps.v: the matrix of a frame, and pickling *)
From Coq Require Import Reals ZArith List Bool Lia Lra.
From Verif Require Import FramesModel FramesSpec FramesProofs FrameOpsProofs RotationProofs RotationProofs2 FramesWitness DualModel Outcome KinModel InertiaModel JntModel MiscModel MiscSpec EqSpec PyModel PySpec PyProofs.
Import ListNotations.
Local Open Scope Z_scope.

Ltac idx4 i H := let E := fresh in
  assert (E : i = 0 \/ i = 1 \/ i = 2 \/ i = 3) by (unfold index4 in H; lia);
  destruct E as [E|[E|[E|E]]]; subst i.
Lemma f_at_defined f i j : (index4 i /\ index4 j -> exists x, f_at f i j = Ret x) /\
  (~ (index4 i /\ index4 j) -> f_at f i j = Undef).
Proof.
  split.
  - intros [H1 H2]. idx4 i H1; idx4 j H2; eexists; reflexivity.
  - intros H. unfold f_at, in_range. unfold index4 in H.
    destruct (Z.leb_spec 0 i), (Z.leb_spec i 3), (Z.leb_spec 0 j), (Z.leb_spec j 3); cbn; try reflexivity; exfalso; apply H; lia.
Qed.
Lemma at00 f : f_at f 0 0 = Ret (r0 (fM f)). Proof. reflexivity. Qed.
Lemma at01 f : f_at f 0 1 = Ret (r1 (fM f)). Proof. reflexivity. Qed.
Lemma at02 f : f_at f 0 2 = Ret (r2 (fM f)). Proof. reflexivity. Qed.
Lemma at03 f : f_at f 0 3 = Ret (vx (fp f)). Proof. reflexivity. Qed.
Lemma at10 f : f_at f 1 0 = Ret (r3 (fM f)). Proof. reflexivity. Qed.
Lemma at11 f : f_at f 1 1 = Ret (r4 (fM f)). Proof. reflexivity. Qed.
Lemma at12 f : f_at f 1 2 = Ret (r5 (fM f)). Proof. reflexivity. Qed.
Lemma at13 f : f_at f 1 3 = Ret (vy (fp f)). Proof. reflexivity. Qed.
Lemma at20 f : f_at f 2 0 = Ret (r6 (fM f)). Proof. reflexivity. Qed.
Lemma at21 f : f_at f 2 1 = Ret (r7 (fM f)). Proof. reflexivity. Qed.
Lemma at22 f : f_at f 2 2 = Ret (r8 (fM f)). Proof. reflexivity. Qed.
Lemma at23 f : f_at f 2 3 = Ret (vz (fp f)). Proof. reflexivity. Qed.
Lemma at30 f : f_at f 3 0 = Ret (0%R). Proof. reflexivity. Qed.
Lemma at31 f : f_at f 3 1 = Ret (0%R). Proof. reflexivity. Qed.
Lemma at32 f : f_at f 3 2 = Ret (0%R). Proof. reflexivity. Qed.
Lemma at33 f : f_at f 3 3 = Ret (1%R). Proof. reflexivity. Qed.
Ltac ats := rewrite ?at00, ?at01, ?at02, ?at03, ?at10, ?at11, ?at12, ?at13, ?at20, ?at21, ?at22, ?at23, ?at30, ?at31, ?at32, ?at33 in *.
Ltac mcl := f_equal; unfold v_add, f_mul, f_app, r_app, r_mul; cbn; ring.
Lemma f_at_mul a b A B i j : (forall i j, index4 i -> index4 j -> f_at a i j = Ret (A i j) /\ f_at b i j = Ret (B i j)) ->
  index4 i -> index4 j -> f_at (f_mul a b) i j = Ret (sum4 (fun k => A i k * B k j)%R).
Proof.
  intros H Hi Hj.
  assert (K : forall k, index4 k -> f_at a i k = Ret (A i k)) by (intros k Hk; apply (H i k Hi Hk)).
  assert (L : forall k, index4 k -> f_at b k j = Ret (B k j)) by (intros k Hk; apply (H k j Hk Hj)).
  assert (I0 : index4 0) by (unfold index4; lia). assert (I1 : index4 1) by (unfold index4; lia).
  assert (I2 : index4 2) by (unfold index4; lia). assert (I3 : index4 3) by (unfold index4; lia).
  pose proof (K 0 I0) as K0. pose proof (K 1 I1) as K1. pose proof (K 2 I2) as K2. pose proof (K 3 I3) as K3.
  pose proof (L 0 I0) as L0. pose proof (L 1 I1) as L1. pose proof (L 2 I2) as L2. pose proof (L 3 I3) as L3.
  clear H K L. unfold sum4.
  idx4 i Hi; idx4 j Hj; ats; injection K0 as <-; injection K1 as <-; injection K2 as <-; injection K3 as <-;
    injection L0 as <-; injection L1 as <-; injection L2 as <-; injection L3 as <-; mcl.
Qed.
Lemma f_at_app f F v i : (forall i j, index4 i -> index4 j -> f_at f i j = Ret (F i j)) -> index4 i ->
  sum4 (fun k => F i k * hom v k)%R = hom (f_app f v) i.
Proof.
  intros H Hi. unfold sum4.
  assert (I0 : index4 0) by (unfold index4; lia). assert (I1 : index4 1) by (unfold index4; lia).
  assert (I2 : index4 2) by (unfold index4; lia). assert (I3 : index4 3) by (unfold index4; lia).
  pose proof (H i 0 Hi I0) as K0. pose proof (H i 1 Hi I1) as K1. pose proof (H i 2 Hi I2) as K2. pose proof (H i 3 Hi I3) as K3.
  clear H. idx4 i Hi; ats; injection K0 as <-; injection K1 as <-; injection K2 as <-; injection K3 as <-;
   unfold hom; cbn; unfold Pos.to_nat; cbn; unfold v_add, f_app, r_app; cbn; ring.
Qed.
Lemma f_at_get f i j : index4 i -> index4 j -> i < 3 -> f_at f i j = Ret (f_entry f (Z.to_nat i) (Z.to_nat j)).
Proof.
  intros Hi Hj L. idx4 i Hi; idx4 j Hj; try lia; ats; nums; unfold f_entry, f_app, r_app, v_add; cbn; f_equal; ring.
Qed.
Lemma f_at_last f j : index4 j -> f_at f 3 j = Ret (if j =? 3 then 1 else 0)%R.
Proof.
  intros Hj. idx4 j Hj; reflexivity.
Qed.
(** The matrix of the inverse is the inverse matrix *)
Lemma f_at_inv f A B i j : rigid f ->
  (forall i j, index4 i -> index4 j -> f_at f i j = Ret (A i j) /\ f_at (f_inv f) i j = Ret (B i j)) ->
  index4 i -> index4 j -> sum4 (fun k => A i k * B k j)%R = (if i =? j then 1 else 0)%R.
Proof.
  intros RG H Hi Hj.
  assert (E := f_at_mul f (f_inv f) A B i j H Hi Hj).
  rewrite f_inv_r in E by exact RG.
  idx4 i Hi; idx4 j Hj; ats; injection E as E; exact (eq_sym E).
Qed.
(** Make4x4 *)
Lemma make4_ok f a b c d e g h i j k l m n o p q rest :
  f_Make4x4 f (a :: b :: c :: d :: e :: g :: h :: i :: j :: k :: l :: m :: n :: o :: p :: q :: rest) =
  Ret ([r0 (fM f); r1 (fM f); r2 (fM f); vx (fp f); r3 (fM f); r4 (fM f); r5 (fM f); vy (fp f);
       r6 (fM f); r7 (fM f); r8 (fM f); vz (fp f); 0; 0; 0; 1]%R ++ rest).
Proof.
  reflexivity.
Qed.
Lemma make4 f d : (16 <= length d)%nat -> exists d', f_Make4x4 f d = Ret d' /\ skipn 16 d' = skipn 16 d /\ length d' = length d /\
  forall i j, index4 i -> index4 j -> f_at f i j = Ret (nth (Z.to_nat (4 * i + j)) d' 0%R).
Proof.
  intros L. do 16 (destruct d as [|? d]; [cbn in L; lia|]). rewrite make4_ok.
  eexists; split; [reflexivity|]. split; [reflexivity|]. split; [reflexivity|].
  intros i j Hi Hj. idx4 i Hi; idx4 j Hj; reflexivity.
Qed.
Lemma make4_short f d : (length d < 16)%nat -> f_Make4x4 f d = Undef.
Proof.
  intros L. do 16 (destruct d as [|? d]; [reflexivity|]). cbn in L; lia.
Qed.
(** columns *)
Lemma set_columns r v :
  (r_UnitX (r_setX r v) = v /\ r_UnitY (r_setX r v) = r_UnitY r /\ r_UnitZ (r_setX r v) = r_UnitZ r) /\
  (r_UnitY (r_setY r v) = v /\ r_UnitX (r_setY r v) = r_UnitX r /\ r_UnitZ (r_setY r v) = r_UnitZ r) /\
  (r_UnitZ (r_setZ r v) = v /\ r_UnitX (r_setZ r v) = r_UnitX r /\ r_UnitY (r_setZ r v) = r_UnitY r).
Proof.
  destruct v, r; repeat split.
Qed.
(** planar frames *)
Lemma f2_entries f : forall v : Vector2,
  match f2_at f 0 0, f2_at f 0 1, f2_at f 0 2, f2_at f 1 0, f2_at f 1 1, f2_at f 1 2, f2_at f 2 0, f2_at f 2 1, f2_at f 2 2 with
  | Ret a, Ret b, Ret c, Ret d, Ret e, Ret g, Ret x, Ret y, Ret z =>
      mkV2 (a * v2x v + b * v2y v + c) (d * v2x v + e * v2y v + g) = v2_add (rot2_invapp (f2M f) v) (f2p f) /\ x = 0%R /\ y = 0%R /\ z = 1%R
  | _, _, _, _, _, _, _, _, _ => False
  end.
Proof.
  intros v. cbn. split; [|auto]. unfold rot2_invapp, v2_add. cbn. f_equal; ring.
Qed.
Lemma index3_no i j : ~ (0 <= i <= 2 /\ 0 <= j <= 2) -> in_range 0 2 i && in_range 0 2 j = false.
Proof.
  intros H. unfold in_range. destruct (Z.leb_spec 0 i), (Z.leb_spec i 2), (Z.leb_spec 0 j), (Z.leb_spec j 2); cbn; try reflexivity; exfalso; apply H; lia.
Qed.
Lemma access_precondition i j : ~ (0 <= i <= 2 /\ 0 <= j <= 2) ->
  (forall r, r_at r i j = Undef) /\ (forall r x, r_put r i j x = Undef) /\ (forall f, f2_at f i j = Undef).
Proof.
  intros H. unfold r_at, r_put, f2_at. rewrite (index3_no i j H). auto.
Qed.
Lemma f2_not_matrix : exists f v, rigid2 f /\
  match f2_at f 0 0, f2_at f 0 1, f2_at f 0 2 with
  | Ret a, Ret b, Ret c => (a * v2x v + b * v2y v + c <> v2x (f2_app f v))%R
  | _, _, _ => False
  end.
Proof.
  exists (mkF2 (mkR2 0 1) (mkV2 0 0)), (mkV2 0 1). split; [unfold rigid2, is_rotation2; cbn; ring|].
  change (0 * 0 + 1 * 1 + 0 <> v2x (f2_app (mkF2 (mkR2 0 1) (mkV2 0 0)) (mkV2 0 1)))%R. unfold f2_app, rot2_app, v2_add; cbn. lra.
Qed.

(** pickling *)
Definition rpy_again (r : Rotation) : Rotation := let '(a, b, c) := r_GetRPY r in r_RPY a b c.
Lemma loads_dumps o : py_loads (py_dumps o) = PyOk (match rotation_in o with None => o | Some r => with_rotation o (rpy_again r) end).
Proof.
  destruct o as [x|[]|[[] []]|[[] []]|r|[r []]|[[] []]|[[[] []] [[] []]]|[r []]|[[r []] [[] []]]]; try reflexivity;
    cbn [py_dumps rotation_in with_rotation fM fp rvR rvw fvM fvp]; unfold k_rv, k_r, rpy_again; cbn [rvR rvw];
    destruct (r_GetRPY r) as [[? ?] ?]; reflexivity.
Qed.
Local Open Scope R_scope.
Lemma atan2_half y x : 0 <= x -> - (PI / 2) <= atan2 y x <= PI / 2.
Proof.
  intros X. pose proof PI_RGT_0. unfold atan2. pose proof (atan_bound (y / x)).
  destruct (Rlt_dec 0 x); [lra|]. destruct (Rlt_dec x 0); [lra|].
  destruct (Rlt_dec 0 y); [lra|]. destruct (Rlt_dec y 0); lra.
Qed.
Lemma pitch_half r roll pitch yaw : r_GetRPY r = (roll, pitch, yaw) -> - (PI / 2) <= pitch <= PI / 2.
Proof.
  unfold r_GetRPY. intros E.
  assert (P : pitch = atan2 (- r6 r) (sqrt (sqr (r0 r) + sqr (r3 r))))
    by (destruct (Rlt_dec _ _); injection E as <- <- <-; reflexivity).
  rewrite P. apply atan2_half, sqrt_pos.
Qed.
Lemma pitch_again roll pitch yaw a b c : - (PI / 2) <= pitch <= PI / 2 ->
  r_GetRPY (r_RPY roll pitch yaw) = (a, b, c) -> b = pitch.
Proof.
  intros H E. pose proof (is_rotation_RPY roll pitch yaw) as RT.
  pose proof (pitch_half _ _ _ _ E) as HB.
  assert (P : b = atan2 (- r6 (r_RPY roll pitch yaw)) (sqrt (sqr (r0 (r_RPY roll pitch yaw)) + sqr (r3 (r_RPY roll pitch yaw)))))
    by (unfold r_GetRPY in E; destruct (Rlt_dec _ _); injection E as <- <- <-; reflexivity).
  assert (S : sin b = sin pitch).
  { rewrite P. destruct (atan2_unit (sqrt (sqr (r0 (r_RPY roll pitch yaw)) + sqr (r3 (r_RPY roll pitch yaw)))) (- r6 (r_RPY roll pitch yaw))) as [_ SS].
    - rewrite Rplus_comm. apply sqrt_col0; exact RT.
    - rewrite SS. cbn. ring. }
  destruct (Rtotal_order b pitch) as [L|[L|L]]; [|exact L|].
  - pose proof (sin_increasing_1 b pitch). lra.
  - pose proof (sin_increasing_1 pitch b). lra.
Qed.
Lemma rpy_again_rotation r : is_rotation (rpy_again r).
Proof.
  unfold rpy_again. destruct (r_GetRPY r) as [[a b] c]. apply is_rotation_RPY.
Qed.
Lemma rpy_again_twice r : rpy_again (rpy_again r) = rpy_again r.
Proof.
  unfold rpy_again at 2 3. destruct (r_GetRPY r) as [[roll p] yaw] eqn:E.
  unfold rpy_again. destruct (r_GetRPY (r_RPY roll p yaw)) as [[a b] c] eqn:F.
  pose proof (pitch_again _ _ _ _ _ _ (pitch_half _ _ _ _ E) F) as ->.
  destruct (Rlt_dec (PI / 2 - rpy_epsilon) (Rabs p)) as [L|L].
  - assert (roll = 0).
    { revert E. unfold r_GetRPY. cbv zeta. destruct (Rlt_dec _ _) as [_|N]; intros E; injection E as E1 E2 E3; [now symmetry|].
      rewrite E2 in N. contradiction. }
    subst roll.
    revert F. unfold r_GetRPY. cbv zeta. destruct (Rlt_dec _ _) as [_|N]; intros F; injection F as F1 F2 F3.
    2:{ exfalso. apply N. rewrite <- F2 in L. exact L. }
    subst a. cbn in F3.
    replace (cos yaw * sin p * sin 0 - sin yaw * cos 0) with (- sin yaw) in F3 by (rewrite sin_0, cos_0; ring).
    replace (sin yaw * sin p * sin 0 + cos yaw * cos 0) with (cos yaw) in F3 by (rewrite sin_0, cos_0; ring).
    rewrite Ropp_involutive in F3.
    destruct (atan2_unit (cos yaw) (sin yaw)) as [C S].
    { pose proof (sin2_cos2 yaw) as K. unfold Rsqr in K. lra. }
    rewrite F3 in C, S. unfold r_RPY. rewrite C, S. reflexivity.
  - apply (GetRPY_correct _ a p c (is_rotation_RPY roll p yaw) F). left. lra.
Qed.

Lemma pickle_spec o : exists o', py_loads (py_dumps o) = PyOk o' /\ py_loads (py_dumps o') = PyOk o' /\
  class_of o' = class_of o /\
  (rotation_in o = None -> o' = o) /\
  (forall r, rotation_in o = Some r -> exists r', o' = with_rotation o r' /\ is_rotation r' /\
     (is_rotation r -> r_close r' r (4 * rpy_epsilon)) /\ (is_rotation r -> clear_pitch r -> r' = r)).
Proof.
  eexists. split; [apply loads_dumps|]. split; [|split; [|split]].
  - rewrite loads_dumps. f_equal. destruct (rotation_in o) as [r|] eqn:E.
    + assert (Q : rotation_in (with_rotation o (rpy_again r)) = Some (rpy_again r)) by (destruct o; try discriminate; reflexivity).
      rewrite Q, rpy_again_twice. destruct o; try discriminate; reflexivity.
    + rewrite E. reflexivity.
  - destruct o; reflexivity.
  - intros ->. reflexivity.
  - intros r ->. exists (rpy_again r). split; [reflexivity|]. split; [apply rpy_again_rotation|].
    unfold clear_pitch, rpy_again. destruct (r_GetRPY r) as [[a b] c] eqn:E. split.
    + intros R. apply (GetRPY_every r a b c R E).
    + intros R P. apply (GetRPY_correct r a b c R E P).
Qed.
Lemma pickle_not_exact : exists f, rigid f /\ py_loads (py_dumps (PFrame f)) <> PyOk (PFrame f).
Proof.
  pose proof RPY_band_inexact as [R N]. set (r := r_RPY 1 (PI / 2 - rpy_epsilon / 2) 0) in *.
  exists (mkF r (mkV 0 0 0)). split; [exact R|]. rewrite loads_dumps. cbn. unfold rpy_again.
  destruct (r_GetRPY r) as [[a b] c]. intros E. apply N.
  exact (f_equal (fun o => match o with PyOk (PFrame f) => fM f | _ => r end) E).
Qed.
Lemma pickle_improper o r : rotation_in o = Some r -> ~ is_rotation r -> py_loads (py_dumps o) <> PyOk o.
Proof.
  intros E N. rewrite loads_dumps, E. intros K. injection K as K. apply N.
  assert (Q : rotation_in (with_rotation o (rpy_again r)) = Some (rpy_again r)) by (destruct o; try discriminate; reflexivity).
  rewrite K, E in Q. injection Q as ->. apply rpy_again_rotation.
Qed.

(** loading anything *)
Fixpoint pck_ind' (P : pck -> Prop) (HF : forall x, P (KFloat x)) (HO : forall c l, Forall P l -> P (KObj c l)) (k : pck) : P k :=
  match k with
  | KFloat x => HF x
  | KObj c l => HO c l ((fix go (l : list pck) : Forall P l :=
      match l with [] => Forall_nil P | k :: r => Forall_cons k (pck_ind' P HF HO k) (go r) end) l)
  end.
Definition items := fix items (l : list pck) : pyres (list pyobj) :=
             match l with
             | [] => PyOk []
             | k :: r => match py_loads k with
                         | PyOk o => match items r with PyOk t => PyOk (o :: t) | e => e end
                         | PyIndexError => PyIndexError | PyTypeError => PyTypeError | PyRuntimeError => PyRuntimeError
                         | PyUndef => PyUndef | PyHang => PyHang
                         end
             end.
Lemma items_good l : Forall (fun k => good (py_loads k)) l -> good (items l).
Proof.
  induction 1 as [|k l H _ IH]; cbn; [exact I|].
  destruct (py_loads k); cbn in *; try contradiction; try exact I. destruct (items l); cbn in *; auto.
Qed.
Lemma setstate_good c t : good (py_setstate c t).
Proof.
  destruct c; repeat (cbn; match goal with |- context [match ?x with _ => _ end] => is_var x; destruct x end; try exact I); exact I.
Qed.
Lemma loads_good k : good (py_loads k).
Proof.
  induction k as [x|c l IH] using pck_ind'; [exact I|].
  change (py_loads (KObj c l)) with (match items l with
    | PyOk t => py_setstate c t
    | PyIndexError => PyIndexError | PyTypeError => PyTypeError | PyRuntimeError => PyRuntimeError
    | PyUndef => PyUndef | PyHang => PyHang
    end).
  pose proof (items_good l IH) as G. destruct (items l); cbn in *; try contradiction; try exact I. apply setstate_good.
Qed.
Lemma items_length l t : items l = PyOk t -> length t = length l.
Proof.
  revert t; induction l as [|k l IH]; cbn; intros t E; [injection E as <-; reflexivity|].
  destruct (py_loads k); try discriminate. destruct (items l) eqn:F; try discriminate.
  injection E as <-. cbn. f_equal. now apply IH.
Qed.
Lemma loads_class c l o : py_loads (KObj c l) = PyOk o -> class_of o = Some c /\ length l = state_size c.
Proof.
  change (py_loads (KObj c l)) with (match items l with
    | PyOk t => py_setstate c t
    | PyIndexError => PyIndexError | PyTypeError => PyTypeError | PyRuntimeError => PyRuntimeError
    | PyUndef => PyUndef | PyHang => PyHang
    end).
  destruct (items l) as [t| | | | |] eqn:F; try discriminate. rewrite <- (items_length l t F). clear F. intros E.
  destruct c; destruct t as [|[] [|[] [|[] [|? ?]]]]; try discriminate; injection E as <-; split; reflexivity.
Qed.
Lemma loads_wrong_size c l t : Forall2 (fun k o => py_loads k = PyOk o) l t -> length l <> state_size c ->
  py_loads (KObj c l) = PyRuntimeError.
Proof.
  intros H N.
  change (py_loads (KObj c l)) with (match items l with
    | PyOk t => py_setstate c t
    | PyIndexError => PyIndexError | PyTypeError => PyTypeError | PyRuntimeError => PyRuntimeError
    | PyUndef => PyUndef | PyHang => PyHang
    end).
  assert (E : items l = PyOk t).
  { clear N. induction H as [|k o l t E _ IH]; [reflexivity|]. cbn. rewrite E, IH. reflexivity. }
  rewrite E. rewrite <- (items_length l t E) in *. symmetry in E. rewrite (items_length l t (eq_sym E)) in *.
  assert (L := items_length l t (eq_sym E)). rewrite <- L in N.
  destruct c; destruct t as [|o1 [|o2 [|o3 [|o4 t']]]]; cbn in N; try lia; try reflexivity; destruct o1; try reflexivity; destruct o2; try reflexivity; destruct o3; reflexivity.
Qed.
Lemma clear_case : clear_pitch (r_RPY 1 0 1).
Proof.
  unfold clear_pitch. destruct (r_GetRPY (r_RPY 1 0 1)) as [[a b] c] eqn:E.
  apply pitch_again in E; [|pose proof PI_RGT_0; lra]. subst b. left. rewrite Rabs_R0.
  unfold rpy_epsilon. pose proof PI_4. pose proof PI2_1. lra.
Qed.
