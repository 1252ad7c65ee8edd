(** Theorems about inertia matrices (C72), stiffness and random values (C73) and the error stack (C74). *)
From Coq Require Import Reals Ascii String List ZArith Bool Arith.
From Verif Require Import FramesModel Outcome InertiaModel KinModel JntModel JntSpec MiscModel MiscSpec MiscProofs.
Import ListNotations.
Local Open Scope list_scope.
Local Open Scope R_scope.

(** ** JntSpaceInertiaMatrix.  The destination may be one of the operands. *)
Theorem C72_Add : forall st a b d,
  square (st a) -> square (st b) -> jm_n (st a) = jm_n (st b) ->
  exists st', jm_Add st a b d = Ret st' /\ m_entries2 (fun x y => x + y) (st a) (st b) (st' d) /\ m_only_changed st st' d.
Proof. exact (@jm_add_ok). Qed.
Print Assumptions C72_Add.

Theorem C72_Subtract : forall st a b d,
  square (st a) -> square (st b) -> jm_n (st a) = jm_n (st b) ->
  exists st', jm_Subtract st a b d = Ret st' /\ m_entries2 (fun x y => x - y) (st a) (st b) (st' d) /\ m_only_changed st st' d.
Proof. exact (@jm_sub_ok). Qed.
Print Assumptions C72_Subtract.

Theorem C72_different_sizes_undefined : forall st a b d,
  jm_n (st a) <> jm_n (st b) -> jm_Add st a b d = Undef /\ jm_Subtract st a b d = Undef.
Proof. exact (@jm_sizes). Qed.
Print Assumptions C72_different_sizes_undefined.

Theorem C72_Multiply : forall st a k d,
  square (st a) ->
  exists st', jm_Multiply st a k d = Ret st' /\ m_entries (fun x => k * x) (st a) (st' d) /\ m_only_changed st st' d.
Proof. exact (@jm_mul_ok). Qed.
Print Assumptions C72_Multiply.

Theorem C72_Divide : forall st a k d,
  square (st a) -> k <> 0 ->
  exists st', jm_Divide st a k d = Ret st' /\ m_entries (fun x => x / k) (st a) (st' d) /\ m_only_changed st st' d.
Proof. exact (@jm_div_ok). Qed.
Print Assumptions C72_Divide.

Theorem C72_assign : forall st a d,
  square (st a) ->
  exists st', jm_assign st a d = Ret st' /\ m_entries (fun x => x) (st a) (st' d) /\ m_only_changed st st' d.
Proof. exact (@jm_assign_ok). Qed.
Print Assumptions C72_assign.

Theorem C72_SetToZero : forall st a,
  square (st a) ->
  exists st', jm_SetToZero st a = Ret st' /\ m_entries (fun _ => 0) (st a) (st' a) /\ m_only_changed st st' a.
Proof. exact (@jm_zero_ok). Qed.
Print Assumptions C72_SetToZero.

Theorem C72_construct : forall n,
  square (jm_make n) /\ jm_n (jm_make n) = n /\ forall i j, (i < n)%nat -> (j < n)%nat -> reads_entry (jm_make n) i j 0.
Proof. exact (@jm_make_ok). Qed.
Print Assumptions C72_construct.

Theorem C72_default : square jm_default /\ jm_n jm_default = 0%nat.
Proof. exact jm_default_ok. Qed.
Print Assumptions C72_default.

Theorem C72_set_entry : forall m i j x,
  square m -> (i < jm_n m)%nat -> (j < jm_n m)%nat ->
  exists m', jm_set m i j x = Ret m' /\ square m' /\ jm_n m' = jm_n m /\ reads_entry m' i j x /\
    forall k l, (k <> i \/ l <> j) -> jm_get m' k l = jm_get m k l.
Proof. exact (@jm_set_ok). Qed.
Print Assumptions C72_set_entry.

Theorem C72_outside_undefined : forall m i j,
  (jm_n m <= i)%nat \/ (jm_n m <= j)%nat -> jm_get m i j = Undef /\ forall x, jm_set m i j x = Undef.
Proof. exact (@jm_outside). Qed.
Print Assumptions C72_outside_undefined.

Theorem C72_Equal : forall a b eps,
  square a -> square b ->
  (jm_Equal a b eps = true <-> jm_n a = jm_n b /\ forall i j x y, reads_entry a i j x -> reads_entry b i j y -> Rabs (x - y) <= eps).
Proof. exact (@jm_equal_ok). Qed.
Print Assumptions C72_Equal.

Theorem C72_resize : forall junk m n,
  square m -> (forall k, length (junk k) = (k * k)%nat) ->
  square (jm_resize junk m n) /\ jm_n (jm_resize junk m n) = n /\ (n = jm_n m -> jm_resize junk m n = m).
Proof. exact (@jm_resize_ok). Qed.
Print Assumptions C72_resize.

Theorem C72_resize_contents_refuted : exists junk m, (forall k, length (junk k) = (k * k)%nat) /\ square m /\
  ~ reads_entry (jm_resize junk m 3) 0 0 0 /\ (exists x, reads_entry m 0 0 x /\ ~ reads_entry (jm_resize junk m 3) 0 0 x).
Proof. exact (@jm_resize_open). Qed.
Print Assumptions C72_resize_contents_refuted.

(** The product with a joint array, into another array; a wrong size; in place it is wrong. *)
Theorem C72_Multiply_array : forall m st v d,
  square m -> length (st v) = jm_n m -> v <> d ->
  exists st', jm_Multiply_vec m st v d = Ret st' /\ length (st' d) = jm_n m /\ only_changed st st' [d] /\
    forall i, (i < jm_n m)%nat -> exists a, (forall j, (j < jm_n m)%nat -> reads_entry m i j (a j)) /\
      nth i (st' d) 0 = total (fun j => a j * nth j (st v) 0) (jm_n m).
Proof. exact (@jm_mulvec_ok). Qed.
Print Assumptions C72_Multiply_array.

Theorem C72_Multiply_array_size : forall m st v d,
  length (st v) <> jm_n m -> jm_Multiply_vec m st v d = Undef.
Proof. exact (@jm_mulvec_size). Qed.
Print Assumptions C72_Multiply_array_size.

Theorem C72_Multiply_in_place_refuted : exists m st v st', square m /\ length (st v) = jm_n m /\ jm_Multiply_vec m st v v = Ret st' /\
  ~ (forall i, (i < jm_n m)%nat -> forall a, (forall j, (j < jm_n m)%nat -> reads_entry m i j (a j)) -> nth i (st' v) 0 = total (fun j => a j * nth j (st v) 0) (jm_n m)).
Proof. exact (@jm_mulvec_inplace). Qed.
Print Assumptions C72_Multiply_in_place_refuted.

Theorem C72_example : let st := fun r : ref => if Nat.eqb r 0 then mkJM 2 [1; 2; 3; 4] else mkJM 2 [10; 20; 30; 40] in
  square (st 0%nat) /\ square (st 1%nat) /\ exists st', jm_Add st 0%nat 1%nat 0%nat = Ret st' /\ reads_entry (st' 0%nat) 0 1 (3 + 30) /\ reads_entry (st' 0%nat) 1 0 (2 + 20).
Proof. exact (@jm_example). Qed.
Print Assumptions C72_example.

Theorem C72_Multiply_array_example : let st := fun r : ref => if Nat.eqb r 0 then [5; 7] else [] in
  exists st', jm_Multiply_vec (mkJM 2 [1; 2; 3; 4]) st 0%nat 1%nat = Ret st' /\ st' 1%nat = [1 * 5 + (3 * 7 + 0); 2 * 5 + (4 * 7 + 0)].
Proof. exact (@jm_mulvec_example). Qed.
Print Assumptions C72_Multiply_array_example.


(** ** Stiffness *)
Theorem C73_inverse_of_product : forall s t,
  Forall (fun x => x <> 0) (stiff_entries s) -> stiff_Inverse s (stiff_mul s t) = t.
Proof. exact (@stiff_inverse_l). Qed.
Print Assumptions C73_inverse_of_product.

Theorem C73_product_of_inverse : forall s w,
  Forall (fun x => x <> 0) (stiff_entries s) -> stiff_mul s (stiff_Inverse s w) = w.
Proof. exact (@stiff_inverse_r). Qed.
Print Assumptions C73_product_of_inverse.

Theorem C73_sum : forall a b t,
  stiff_mul (stiff_add a b) t = w_add (stiff_mul a t) (stiff_mul b t).
Proof. exact (@stiff_add_ok). Qed.
Print Assumptions C73_sum.

Theorem C73_linear : forall s t u k,
  stiff_mul s (t_add t u) = w_add (stiff_mul s t) (stiff_mul s u) /\ stiff_mul s (t_scale t k) = w_scale (stiff_mul s t) k.
Proof. exact (@stiff_linear). Qed.
Print Assumptions C73_linear.

Theorem C73_work : forall s t,
  Forall (fun x => 0 <= x) (stiff_entries s) -> 0 <= tw_dot t (stiff_mul s t).
Proof. exact (@stiff_work). Qed.
Print Assumptions C73_work.

Theorem C73_work_zero : forall s t,
  Forall (fun x => 0 < x) (stiff_entries s) -> tw_dot t (stiff_mul s t) = 0 -> t = t_zero.
Proof. exact (@stiff_work_zero). Qed.
Print Assumptions C73_work_zero.

Theorem C73_default : forall t,
  stiff_mul stiff_zero t = w_zero.
Proof. exact (@stiff_zero_ok). Qed.
Print Assumptions C73_default.

Theorem C73_from_array : forall a b c d e f,
  stiff_of_array [a; b; c; d; e; f] = Ret (stiff_make a b c d e f) /\
  stiff_entries (stiff_make a b c d e f) = [a; b; c; d; e; f].
Proof. exact (@stiff_array_ok). Qed.
Print Assumptions C73_from_array.

Theorem C73_from_short_array : forall l,
  (length l < 6)%nat -> stiff_of_array l = Undef.
Proof. exact (@stiff_array_short). Qed.
Print Assumptions C73_from_short_array.

Theorem C73_random_double : forall r m,
  (0 <= r <= m)%Z -> (0 < m)%Z -> - (99 / 100) <= rand_sym r m <= 99 / 100.
Proof. exact (@rand_sym_ok). Qed.
Print Assumptions C73_random_double.

Theorem C73_posrandom_double : forall r m,
  (0 <= r <= m)%Z -> (0 < m)%Z -> 1 / 1000 <= rand_pos r m <= 991 / 1000.
Proof. exact (@rand_pos_ok). Qed.
Print Assumptions C73_posrandom_double.

Theorem C73_random_stiffness : forall m a b c d e f,
  (0 < m)%Z -> Forall (fun r => (0 <= r <= m)%Z) [a; b; c; d; e; f] ->
  Forall (fun x => 1 / 1000 <= x <= 991 / 1000) (stiff_entries (stiff_random m a b c d e f)).
Proof. exact (@stiff_random_ok). Qed.
Print Assumptions C73_random_stiffness.

Theorem C73_example : Forall (fun x => x <> 0) (stiff_entries (stiff_make 1 2 3 4 5 6)) /\
  stiff_mul (stiff_make 1 2 3 4 5 6) (mkT (mkV 1 1 1) (mkV 1 1 1)) = mkW (mkV (1 * 1) (2 * 1) (3 * 1)) (mkV (4 * 1) (5 * 1) (6 * 1)).
Proof. exact (@stiff_example). Qed.
Print Assumptions C73_example.


(** ** The error stack *)
Theorem C74_balanced : forall l,
  balanced l -> forall e, es_run l e = Ret e.
Proof. exact (@es_balanced). Qed.
Print Assumptions C74_balanced.

Theorem C74_pop_empty_undefined : es_run [Es_Pop] [] = Undef.
Proof. exact (@es_pop_empty). Qed.
Print Assumptions C74_pop_empty_undefined.

Theorem C74_popStr : forall d e buffer size,
  (0 < size)%Z -> (Z.to_nat size <= length buffer)%nat ->
  exists b, es_popStr (d :: e) buffer size = Ret (e, b) /\ length b = length buffer /\
    c_string b (firstn (Z.to_nat size - 1) (c_str d)) /\ skipn (Z.to_nat size) b = skipn (Z.to_nat size) buffer.
Proof. exact (@es_popStr_ok). Qed.
Print Assumptions C74_popStr.

Theorem C74_popStr_empty : forall buffer size,
  (0 < size)%Z -> buffer <> [] ->
  exists b, es_popStr [] buffer size = Ret ([], b) /\ c_string b [] /\ length b = length buffer.
Proof. exact (@es_popStr_empty). Qed.
Print Assumptions C74_popStr_empty.

Theorem C74_popStr_no_room : forall e buffer size,
  (size <= 0)%Z -> es_popStr e buffer size = Ret (e, buffer).
Proof. exact (@es_popStr_none). Qed.
Print Assumptions C74_popStr_no_room.

Theorem C74_popStr_overrun : forall d e buffer size,
  (0 < size)%Z -> (length buffer < Z.to_nat size)%nat -> es_popStr (d :: e) buffer size = Undef.
Proof. exact (@es_popStr_overrun). Qed.
Print Assumptions C74_popStr_overrun.

Theorem C74_output : forall e,
  snd (es_output e) = [] /\ fst (es_output e) = concat (map (fun s => c_str s ++ ["010"%char]) e).
Proof. exact (@es_output_ok). Qed.
Print Assumptions C74_output.

Theorem C74_balanced_example : balanced [Es_Trace "a"; Es_Trace "b"; Es_Pop; Es_Trace "c"; Es_Pop; Es_Pop].
Proof. exact (@es_balanced_example). Qed.
Print Assumptions C74_balanced_example.

Theorem C74_popStr_example : exists b, es_popStr ["Vector::Read"%string] (repeat "x"%char 8) 5 = Ret ([], b) /\ b = ["V"; "e"; "c"; "t"; "000"; "x"; "x"; "x"]%char.
Proof. exact (@es_popStr_example). Qed.
Print Assumptions C74_popStr_example.

