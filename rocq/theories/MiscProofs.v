(** Proofs about inertia matrices, stiffness, random numbers and the error stack (C72). *)
From Coq Require Import Reals Ascii String List ZArith Bool Arith Lia Lra Psatz.
From Verif Require Import FramesModel Outcome LoopProofs InertiaModel KinModel JntModel JntSpec JntProofs MiscModel MiscSpec.
Import ListNotations.
Local Open Scope list_scope.
Local Open Scope R_scope.

(** ** Matrices *)
Lemma flat_lt n i j : (i < n)%nat -> (j < n)%nat -> (j * n + i < n * n)%nat.
Proof. intros. nia. Qed.
Lemma aget_nth (l : list R) k : (k < length l)%nat -> aget l k = Ret (nth k l 0).
Proof. intros H. unfold aget. rewrite (nth_error_nth' l 0 H). reflexivity. Qed.
Lemma jm_get_nth m i j : square m -> (i < jm_n m)%nat -> (j < jm_n m)%nat -> jm_get m i j = Ret (nth (j * jm_n m + i) (jm_d m) 0).
Proof.
  intros S Hi Hj. unfold jm_get. rewrite (proj2 (Nat.ltb_lt _ _) Hi), (proj2 (Nat.ltb_lt _ _) Hj). cbn [andb].
  apply aget_nth. rewrite S. apply flat_lt; assumption.
Qed.
Lemma jm_get_outside m i j : (jm_n m <= i)%nat \/ (jm_n m <= j)%nat -> jm_get m i j = Undef.
Proof.
  intros H. unfold jm_get. destruct (Nat.ltb_spec i (jm_n m)), (Nat.ltb_spec j (jm_n m)); cbn [andb]; try reflexivity; lia.
Qed.
Lemma m_put_same st r m : m_put st r m r = m. Proof. unfold m_put. rewrite Nat.eqb_refl. reflexivity. Qed.
Lemma m_put_other st r m r' : r' <> r -> m_put st r m r' = st r'.
Proof. intros H. unfold m_put. destruct (Nat.eqb_spec r' r); congruence. Qed.

Lemma jm_binary_ok op st a b d : square (st a) -> square (st b) -> jm_n (st a) = jm_n (st b) ->
  exists st', jm_binary op st a b d = Ret st' /\ m_entries2 op (st a) (st b) (st' d) /\ m_only_changed st st' d.
Proof.
  intros Sa Sb E. unfold jm_binary. rewrite (proj2 (Nat.eqb_eq _ _) E).
  assert (L : length (m_data st a) = length (m_data st b)) by (unfold m_data; rewrite Sa, Sb, E; reflexivity).
  destruct (eigen_binary_ok op (m_data st) a b d L) as (s & Es & [E1 E2] & _). rewrite Es. cbn [obind].
  eexists. split; [reflexivity|]. split.
  - unfold m_data in E1, E2. rewrite m_put_same.
    assert (Sq : square (mkJM (jm_n (st a)) (s d))) by (unfold square; cbn [jm_d jm_n]; rewrite E1; exact Sa).
    split; [exact Sq|]. split; [reflexivity|].
    intros i j Hi Hj. exists (nth (j * jm_n (st a) + i) (jm_d (st a)) 0), (nth (j * jm_n (st b) + i) (jm_d (st b)) 0).
    split; [apply jm_get_nth; assumption|]. split; [apply jm_get_nth; auto; rewrite <- E; assumption|].
    unfold reads_entry. rewrite (jm_get_nth _ i j Sq) by assumption. cbn [jm_n jm_d]. rewrite E2, E; [reflexivity|].
    rewrite Sa. apply flat_lt; assumption.
  - intros r Hr. apply m_put_other. exact Hr.
Qed.
Lemma jm_unary_ok op st a d : square (st a) ->
  exists st', jm_unary op st a d = Ret st' /\ m_entries op (st a) (st' d) /\ m_only_changed st st' d.
Proof.
  intros Sa. unfold jm_unary. destruct (eigen_unary_ok op (m_data st) a d) as (s & Es & [E1 E2] & _). rewrite Es. cbn [obind].
  eexists. split; [reflexivity|]. split.
  - unfold m_data in E1, E2. rewrite m_put_same.
    assert (Sq : square (mkJM (jm_n (st a)) (s d))) by (unfold square; cbn [jm_d jm_n]; rewrite E1; exact Sa).
    split; [exact Sq|]. split; [reflexivity|].
    intros i j Hi Hj. exists (nth (j * jm_n (st a) + i) (jm_d (st a)) 0).
    split; [apply jm_get_nth; assumption|].
    unfold reads_entry. rewrite (jm_get_nth _ i j Sq) by assumption. cbn [jm_n jm_d]. rewrite E2; [reflexivity|].
    rewrite Sa. apply flat_lt; assumption.
  - intros r Hr. apply m_put_other. exact Hr.
Qed.
Lemma jm_add_ok st a b d : square (st a) -> square (st b) -> jm_n (st a) = jm_n (st b) ->
  exists st', jm_Add st a b d = Ret st' /\ m_entries2 (fun x y => x + y) (st a) (st b) (st' d) /\ m_only_changed st st' d.
Proof. exact (jm_binary_ok Rplus st a b d). Qed.
Lemma jm_sub_ok st a b d : square (st a) -> square (st b) -> jm_n (st a) = jm_n (st b) ->
  exists st', jm_Subtract st a b d = Ret st' /\ m_entries2 (fun x y => x - y) (st a) (st b) (st' d) /\ m_only_changed st st' d.
Proof. exact (jm_binary_ok Rminus st a b d). Qed.
Lemma jm_sizes st a b d : jm_n (st a) <> jm_n (st b) -> jm_Add st a b d = Undef /\ jm_Subtract st a b d = Undef.
Proof. intros H. unfold jm_Add, jm_Subtract, jm_binary. rewrite (proj2 (Nat.eqb_neq _ _) H). split; reflexivity. Qed.
Lemma jm_mul_ok st a k d : square (st a) ->
  exists st', jm_Multiply st a k d = Ret st' /\ m_entries (fun x => k * x) (st a) (st' d) /\ m_only_changed st st' d.
Proof. exact (jm_unary_ok (fun x => k * x) st a d). Qed.
Lemma jm_div_ok st a k d : square (st a) -> k <> 0 ->
  exists st', jm_Divide st a k d = Ret st' /\ m_entries (fun x => x / k) (st a) (st' d) /\ m_only_changed st st' d.
Proof. intros S _. exact (jm_unary_ok (fun x => x / k) st a d S). Qed.
Lemma jm_assign_ok st a d : square (st a) ->
  exists st', jm_assign st a d = Ret st' /\ m_entries (fun x => x) (st a) (st' d) /\ m_only_changed st st' d.
Proof. exact (jm_unary_ok (fun x => x) st a d). Qed.
Lemma jm_zero_ok st a : square (st a) ->
  exists st', jm_SetToZero st a = Ret st' /\ m_entries (fun _ => 0) (st a) (st' a) /\ m_only_changed st st' a.
Proof.
  intros S. eexists. split; [reflexivity|]. split.
  - rewrite m_put_same. assert (Sq : square (mkJM (jm_n (st a)) (repeat 0 (length (jm_d (st a)))))) by (unfold square; cbn [jm_d jm_n]; rewrite repeat_length; exact S).
    split; [exact Sq|]. split; [reflexivity|]. intros i j Hi Hj. eexists. split; [apply jm_get_nth; assumption|].
    unfold reads_entry. rewrite (jm_get_nth _ i j Sq) by assumption. cbn [jm_n jm_d]. f_equal. apply nth_repeat.
  - intros r Hr. apply m_put_other. exact Hr.
Qed.
Lemma jm_make_ok n : square (jm_make n) /\ jm_n (jm_make n) = n /\ forall i j, (i < n)%nat -> (j < n)%nat -> reads_entry (jm_make n) i j 0.
Proof.
  assert (Sq : square (jm_make n)) by (unfold square, jm_make; cbn [jm_d jm_n]; apply repeat_length).
  split; [exact Sq|]. split; [reflexivity|]. intros i j Hi Hj. unfold reads_entry.
  rewrite (jm_get_nth _ i j Sq) by assumption. cbn [jm_make jm_n jm_d]. f_equal. apply nth_repeat.
Qed.
Lemma jm_set_outside m i j x : (jm_n m <= i)%nat \/ (jm_n m <= j)%nat -> jm_set m i j x = Undef.
Proof. intros H. unfold jm_set. destruct (Nat.ltb_spec i (jm_n m)), (Nat.ltb_spec j (jm_n m)); cbn; try reflexivity. lia. Qed.
Lemma jm_default_ok : square jm_default /\ jm_n jm_default = 0%nat.
Proof. split; reflexivity. Qed.
Lemma jm_outside m i j : (jm_n m <= i)%nat \/ (jm_n m <= j)%nat -> jm_get m i j = Undef /\ forall x, jm_set m i j x = Undef.
Proof. intros H. split; [now apply jm_get_outside | intros x; now apply jm_set_outside]. Qed.
Lemma jm_set_ok m i j x : square m -> (i < jm_n m)%nat -> (j < jm_n m)%nat ->
  exists m', jm_set m i j x = Ret m' /\ square m' /\ jm_n m' = jm_n m /\ reads_entry m' i j x /\
    forall k l, (k <> i \/ l <> j) -> jm_get m' k l = jm_get m k l.
Proof.
  intros S Hi Hj. unfold jm_set. rewrite (proj2 (Nat.ltb_lt _ _) Hi), (proj2 (Nat.ltb_lt _ _) Hj). cbn [andb].
  pose proof (flat_lt _ _ _ Hi Hj) as F. rewrite aset_ret by (rewrite S; exact F). cbn [obind]. eexists. split; [reflexivity|].
  assert (Sq : square (mkJM (jm_n m) (upd (jm_d m) (j * jm_n m + i) x))) by (unfold square; cbn [jm_d jm_n]; rewrite upd_length; exact S).
  split; [exact Sq|]. split; [reflexivity|]. split.
  - unfold reads_entry. rewrite (jm_get_nth _ i j Sq) by assumption. cbn [jm_n jm_d]. f_equal. apply nth_upd_same. rewrite S. exact F.
  - intros k l H. destruct (Nat.ltb_spec k (jm_n m)) as [Hk|Hk]; [|rewrite !jm_get_outside; auto].
    destruct (Nat.ltb_spec l (jm_n m)) as [Hl|Hl]; [|rewrite !jm_get_outside; auto].
    rewrite (jm_get_nth _ k l Sq), (jm_get_nth m k l S) by assumption. cbn [jm_n jm_d]. f_equal. apply nth_upd_other.
    intros E. destruct (Nat.div_mod_unique (jm_n m) j l i k Hi Hk) as [-> ->]; lia.
Qed.
Lemma jm_resize_ok junk m n : square m -> (forall k, length (junk k) = (k * k)%nat) ->
  square (jm_resize junk m n) /\ jm_n (jm_resize junk m n) = n /\ (n = jm_n m -> jm_resize junk m n = m).
Proof.
  intros S J. unfold jm_resize. destruct (Nat.eqb_spec n (jm_n m)) as [->|N]; [auto|].
  split; [apply J|]. split; [reflexivity|congruence].
Qed.
(** whether old entries survive, or the new ones are zero, is not settled by the code *)
Lemma jm_resize_open : exists junk m, (forall k, length (junk k) = (k * k)%nat) /\ square m /\
  ~ reads_entry (jm_resize junk m 3) 0 0 0 /\ (exists x, reads_entry m 0 0 x /\ ~ reads_entry (jm_resize junk m 3) 0 0 x).
Proof.
  exists (fun k => repeat 7 (k * k)), (mkJM 2 [1; 2; 3; 4]). split; [intros k; apply repeat_length|]. split; [reflexivity|].
  split; [intros E; injection E as E; lra|]. exists 1. split; [reflexivity|]. intros E. injection E as E; lra.
Qed.
Lemma jm_equal_ok a b eps : square a -> square b ->
  (jm_Equal a b eps = true <-> jm_n a = jm_n b /\ forall i j x y, reads_entry a i j x -> reads_entry b i j y -> Rabs (x - y) <= eps).
Proof.
  intros Sa Sb. unfold jm_Equal. destruct (Nat.eqb_spec (jm_n a) (jm_n b)) as [E|E]; [|split; [discriminate|intros [H _]; contradiction]].
  assert (L : length (jm_d a) = length (jm_d b)) by (rewrite Sa, Sb, E; reflexivity).
  assert (Q : forallb (fun p => entry_isZero eps (fst p - snd p)) (combine (jm_d a) (jm_d b)) = jnt_Equal (jm_d a) (jm_d b) eps).
  { unfold jnt_Equal. rewrite (proj2 (Nat.eqb_eq _ _) L). reflexivity. }
  rewrite Q, jnt_equal_iff. split.
  - intros [_ H]. split; [exact E|]. intros i j x y Hx Hy.
    destruct (Nat.ltb_spec i (jm_n a)) as [Hi|Hi]; [|unfold reads_entry in Hx; rewrite jm_get_outside in Hx; [discriminate Hx|auto]].
    destruct (Nat.ltb_spec j (jm_n a)) as [Hj|Hj]; [|unfold reads_entry in Hx; rewrite jm_get_outside in Hx; [discriminate Hx|auto]].
    unfold reads_entry in Hx, Hy. rewrite jm_get_nth in Hx, Hy by (auto; rewrite <- E; assumption). injection Hx as <-. injection Hy as <-.
    rewrite <- E. apply H. rewrite Sa. apply flat_lt; assumption.
  - intros [_ H]. split; [exact L|]. intros k Hk. rewrite Sa in Hk. set (n := jm_n a) in *.
    assert (N : (n <> 0)%nat) by nia.
    pose proof (Nat.mod_upper_bound k n N) as M. pose proof (Nat.div_mod k n N) as D.
    assert (J : (k / n < n)%nat) by (apply Nat.div_lt_upper_bound; assumption).
    apply (H (k mod n)%nat (k / n)%nat); unfold reads_entry; rewrite jm_get_nth; auto; fold n; try (rewrite <- E; fold n; assumption).
    + f_equal. f_equal. lia.
    + rewrite <- E. fold n. f_equal. f_equal. lia.
Qed.

(** product with a vector *)
Lemma total_shift f k : total f (S k) = f 0%nat + total (fun i => f (S i)) k.
Proof. induction k as [|k IH]; [cbn; ring|]. change (total f (S (S k))) with (total f (S k) + f (S k)). rewrite IH. cbn [total]. ring. Qed.
Lemma jm_row_ok m v i : square m -> (i < jm_n m)%nat -> length v = jm_n m ->
  forall k j, (j + k = jm_n m)%nat ->
  jm_row m v i j k = Ret (total (fun l => nth ((j + l) * jm_n m + i) (jm_d m) 0 * nth (j + l) v 0) k).
Proof.
  intros Sq Hi L. induction k as [|k IH]; intros j E; [reflexivity|].
  cbn [jm_row]. rewrite jm_get_nth by (auto; lia). cbn [obind]. rewrite aget_nth by lia. cbn [obind]. rewrite IH by lia. cbn [obind]. f_equal.
  rewrite total_shift. rewrite Nat.add_0_r. f_equal.
  assert (X : forall l, (S j + l = j + S l)%nat) by lia. clear -X. induction k as [|k IH]; [reflexivity|]. cbn [total]. rewrite <- IH, X. reflexivity.
Qed.
Lemma jm_mulvec_ok m st v d : square m -> length (st v) = jm_n m -> v <> d ->
  exists st', jm_Multiply_vec m st v d = Ret st' /\ length (st' d) = jm_n m /\ only_changed st st' [d] /\
    forall i, (i < jm_n m)%nat -> exists a, (forall j, (j < jm_n m)%nat -> reads_entry m i j (a j)) /\
      nth i (st' d) 0 = total (fun j => a j * nth j (st v) 0) (jm_n m).
Proof.
  intros S L N. unfold jm_Multiply_vec. rewrite L, Nat.eqb_refl.
  destruct (eigen_assign_ok st (jm_n m) (fun st i => jm_row m (st v) i 0 (jm_n m)) d
    (fun i => total (fun l => nth (l * jm_n m + i) (jm_d m) 0 * nth l (st v) 0) (jm_n m))) as (st' & E & H1 & H2 & H3).
  - intros k st' Hk A B C. rewrite (A v N). apply (jm_row_ok m (st v) k S Hk L (jm_n m) 0). reflexivity.
  - exists st'. split; [exact E|]. split; [exact H1|]. split.
    + intros r Hr. apply H3. intros ->. apply Hr. left. reflexivity.
    + intros i Hi. exists (fun j => nth (j * jm_n m + i) (jm_d m) 0). split; [|apply H2; exact Hi].
      intros j Hj. apply jm_get_nth; assumption.
Qed.
Lemma jm_mulvec_size m st v d : length (st v) <> jm_n m -> jm_Multiply_vec m st v d = Undef.
Proof. intros H. unfold jm_Multiply_vec. rewrite (proj2 (Nat.eqb_neq _ _)); [reflexivity|auto]. Qed.
(** in place: Multiply(M, q, q) *)
Lemma jm_mulvec_inplace : exists m st v st', square m /\ length (st v) = jm_n m /\ jm_Multiply_vec m st v v = Ret st' /\
  ~ (forall i, (i < jm_n m)%nat -> forall a, (forall j, (j < jm_n m)%nat -> reads_entry m i j (a j)) -> nth i (st' v) 0 = total (fun j => a j * nth j (st v) 0) (jm_n m)).
Proof.
  exists (mkJM 2 [0; 1; 1; 0]), (fun _ => [1; 0]), 0%nat. eexists. split; [reflexivity|]. split; [reflexivity|]. split; [reflexivity|].
  intros H. specialize (H 1%nat ltac:(cbn; lia) (fun j => nth j [1; 0] 0)).
  assert (A : forall j, (j < 2)%nat -> reads_entry (mkJM 2 [0; 1; 1; 0]) 1 j (nth j [1; 0] 0)).
  { intros [|[|j]] Hj; [reflexivity|reflexivity|cbn in Hj; lia]. }
  specialize (H A). cbn in H. lra.
Qed.

(** ** Stiffness *)
Ltac six H := repeat (apply Forall_cons_iff in H; let G := fresh "G" in destruct H as [G H]).
Lemma stiff_inverse_l s t : Forall (fun x => x <> 0) (stiff_entries s) -> stiff_Inverse s (stiff_mul s t) = t.
Proof.
  destruct s as [[a b c] [d e f]], t as [[x y z] [u v w]]. unfold stiff_entries. cbn [st_t st_r vx vy vz]. intros H. six H.
  unfold stiff_Inverse, stiff_mul, v_over, v_times. cbn. f_equal; f_equal; field; assumption.
Qed.
Lemma stiff_inverse_r s w : Forall (fun x => x <> 0) (stiff_entries s) -> stiff_mul s (stiff_Inverse s w) = w.
Proof.
  destruct s as [[a b c] [d e f]], w as [[x y z] [u v w]]. unfold stiff_entries. cbn [st_t st_r vx vy vz]. intros H. six H.
  unfold stiff_Inverse, stiff_mul, v_over, v_times. cbn. f_equal; f_equal; field; assumption.
Qed.
Lemma stiff_add_ok a b t : stiff_mul (stiff_add a b) t = w_add (stiff_mul a t) (stiff_mul b t).
Proof. unfold stiff_mul, stiff_add, w_add, v_add, v_times. cbn. f_equal; f_equal; ring. Qed.
Lemma stiff_linear s t u k : stiff_mul s (t_add t u) = w_add (stiff_mul s t) (stiff_mul s u) /\ stiff_mul s (t_scale t k) = w_scale (stiff_mul s t) k.
Proof. split; unfold stiff_mul, w_add, t_add, t_scale, w_scale, v_scale, v_add, v_times; cbn; f_equal; f_equal; ring. Qed.
Lemma stiff_work s t : Forall (fun x => 0 <= x) (stiff_entries s) -> 0 <= tw_dot t (stiff_mul s t).
Proof.
  destruct s as [[a b c] [d e f]], t as [[x y z] [u v w]]. unfold stiff_entries. cbn [st_t st_r vx vy vz]. intros H. six H.
  unfold tw_dot, stiff_mul, v_dot, v_times. cbn.
  replace (_ + _) with (a * (x * x) + b * (y * y) + c * (z * z) + (d * (u * u) + e * (v * v) + f * (w * w))) by ring.
  assert (P : forall k q, 0 <= k -> 0 <= k * (q * q)) by (intros k q Hk; apply Rmult_le_pos; [exact Hk|apply Rle_0_sqr]).
  pose proof (P a x G). pose proof (P b y G0). pose proof (P c z G1). pose proof (P d u G2). pose proof (P e v G3). pose proof (P f w G4). lra.
Qed.
Lemma stiff_work_zero s t : Forall (fun x => 0 < x) (stiff_entries s) -> tw_dot t (stiff_mul s t) = 0 -> t = t_zero.
Proof.
  destruct s as [[a b c] [d e f]], t as [[x y z] [u v w]]. unfold stiff_entries. cbn [st_t st_r vx vy vz]. intros H. six H.
  unfold tw_dot, stiff_mul, v_dot, v_times. cbn.
  replace (_ + _) with (a * (x * x) + b * (y * y) + c * (z * z) + (d * (u * u) + e * (v * v) + f * (w * w))) by ring.
  assert (P : forall k q, 0 < k -> 0 <= k * (q * q)) by (intros k q Hk; apply Rmult_le_pos; [lra|apply Rle_0_sqr]).
  assert (Z : forall k q, 0 < k -> k * (q * q) = 0 -> q = 0).
  { intros k q Hk E. apply Rmult_integral in E. destruct E as [E|E]; [lra|]. apply Rmult_integral in E. tauto. }
  pose proof (P a x G). pose proof (P b y G0). pose proof (P c z G1). pose proof (P d u G2). pose proof (P e v G3). pose proof (P f w G4).
  intros E. rewrite (Z a x G), (Z b y G0), (Z c z G1), (Z d u G2), (Z e v G3), (Z f w G4) by lra. reflexivity.
Qed.
Lemma stiff_zero_ok t : stiff_mul stiff_zero t = w_zero.
Proof. unfold stiff_mul, stiff_zero, v_times, w_zero, v_zero. cbn. f_equal; f_equal; ring. Qed.
Lemma stiff_array_ok a b c d e f : stiff_of_array [a; b; c; d; e; f] = Ret (stiff_make a b c d e f) /\
  stiff_entries (stiff_make a b c d e f) = [a; b; c; d; e; f].
Proof. split; reflexivity. Qed.
Lemma stiff_array_short l : (length l < 6)%nat -> stiff_of_array l = Undef.
Proof. intros H. do 6 (destruct l as [|? l]; [reflexivity|]). cbn in H. lia. Qed.

(** ** Random numbers *)
Lemma rand_ratio r m : (0 <= r <= m)%Z -> (0 < m)%Z -> 0 <= IZR r / IZR m <= 1.
Proof.
  intros [A B] M. apply IZR_le in A, B. apply IZR_lt in M. assert (0 < / IZR m) by (apply Rinv_0_lt_compat; exact M). split.
  - unfold Rdiv. apply Rmult_le_pos; lra.
  - apply (Rmult_le_reg_r (IZR m)); [lra|]. unfold Rdiv. rewrite Rmult_assoc, Rinv_l by lra. lra.
Qed.
Lemma rand_sym_ok r m : (0 <= r <= m)%Z -> (0 < m)%Z -> - (99 / 100) <= rand_sym r m <= 99 / 100.
Proof. intros A B. pose proof (rand_ratio r m A B). unfold rand_sym. replace (198 / 100 * IZR r / IZR m) with (198 / 100 * (IZR r / IZR m)) by (unfold Rdiv; ring). lra. Qed.
Lemma rand_pos_ok r m : (0 <= r <= m)%Z -> (0 < m)%Z -> 1 / 1000 <= rand_pos r m <= 991 / 1000.
Proof. intros A B. pose proof (rand_ratio r m A B). unfold rand_pos. replace (99 / 100 * IZR r / IZR m) with (99 / 100 * (IZR r / IZR m)) by (unfold Rdiv; ring). lra. Qed.
Lemma stiff_random_ok m a b c d e f : (0 < m)%Z -> Forall (fun r => (0 <= r <= m)%Z) [a; b; c; d; e; f] ->
  Forall (fun x => 1 / 1000 <= x <= 991 / 1000) (stiff_entries (stiff_random m a b c d e f)).
Proof. intros M H. six H. unfold stiff_entries. cbn. repeat (constructor; [apply rand_pos_ok; assumption|]). constructor. Qed.

(** ** The error stack *)
Lemma es_run_app a b e : es_run (a ++ b) e = (let! e := es_run a e in es_run b e).
Proof.
  revert e. induction a as [|[d|] a IH]; intros e; [reflexivity|apply IH|]. cbn [app es_run]. destruct (es_pop e); [apply IH|reflexivity].
Qed.
Lemma es_balanced l : balanced l -> forall e, es_run l e = Ret e.
Proof.
  induction 1 as [|d l H IH|a b Ha IHa Hb IHb]; intros e; [reflexivity| |].
  - cbn [es_run]. rewrite es_run_app, IH. reflexivity.
  - rewrite es_run_app, IHa. apply IHb.
Qed.
Lemma es_pop_empty : es_run [Es_Pop] [] = Undef.
Proof. reflexivity. Qed.
Lemma c_str_no_nul s : ~ In "000"%char (c_str s).
Proof.
  induction s as [|c s IH]; [intros []|]. cbn [c_str]. destruct (Ascii.eqb_spec c "000") as [E|E]; [intros []|]. intros [H|H]; auto.
Qed.
Lemma c_string_firstn s r : ~ In "000"%char s -> c_string (s ++ "000"%char :: r) s.
Proof. induction s as [|c s IH]; intros H; [constructor|]. cbn. constructor; [intros ->; apply H; left; reflexivity|]. apply IH. intros I. apply H. right. exact I. Qed.
Lemma upd_last (l r : list ascii) c x : upd (l ++ c :: r) (length l) x = l ++ x :: r.
Proof. induction l as [|a l IH]; [reflexivity|]. cbn. rewrite IH. reflexivity. Qed.
Lemma firstn_split (l : list ascii) k : (k < length l)%nat -> exists c, firstn (S k) l = firstn k l ++ [c].
Proof.
  revert l. induction k as [|k IH]; intros [|a l] H; cbn in H; try lia; [exists a; reflexivity|].
  destruct (IH l ltac:(lia)) as (c & E). exists c. change (a :: firstn (S k) l = (a :: firstn k l) ++ [c]). rewrite E. reflexivity.
Qed.
Lemma es_popStr_ok d e buffer size : (0 < size)%Z -> (Z.to_nat size <= length buffer)%nat ->
  exists b, es_popStr (d :: e) buffer size = Ret (e, b) /\ length b = length buffer /\
    c_string b (firstn (Z.to_nat size - 1) (c_str d)) /\ skipn (Z.to_nat size) b = skipn (Z.to_nat size) buffer.
Proof.
  intros P L. unfold es_popStr. replace (size <=? 0)%Z with false by (symmetry; apply Z.leb_gt; exact P).
  set (n := Z.to_nat size) in *. assert (N : (0 < n)%nat) by (unfold n; lia). clearbody n. destruct n as [|k]; [lia|]. clear N.
  unfold strncpy. rewrite (proj2 (Nat.leb_le _ _) L). cbn [obind].
  set (t := c_str d ++ repeat "000"%char (S k)).
  assert (T : (S k <= length t)%nat) by (unfold t; rewrite app_length, repeat_length; lia).
  destruct (firstn_split t k ltac:(lia)) as (c & F). rewrite F.
  assert (LF : length (firstn k t) = k) by (rewrite firstn_length; lia).
  replace (S k - 1)%nat with k by lia. rewrite <- app_assoc. cbn [app].
  rewrite aset_ret by (rewrite app_length; cbn [length]; lia). cbn [obind].
  assert (U : upd (firstn k t ++ c :: skipn (S k) buffer) k "000"%char = firstn k t ++ "000"%char :: skipn (S k) buffer).
  { pose proof (upd_last (firstn k t) (skipn (S k) buffer) c "000"%char) as U. rewrite LF in U. exact U. }
  rewrite U. eexists. split; [reflexivity|]. split; [|split].
  - rewrite app_length. cbn [length]. rewrite LF, skipn_length. lia.
  - destruct (Nat.le_gt_cases k (length (c_str d))) as [Q|Q].
    + assert (E : firstn k t = firstn k (c_str d)).
      { unfold t. rewrite firstn_app. replace (k - length (c_str d))%nat with 0%nat by lia. cbn [firstn]. apply app_nil_r. }
      rewrite E. apply c_string_firstn. intros I. apply (c_str_no_nul d). rewrite <- (firstn_skipn k (c_str d)). apply in_or_app. left. exact I.
    + rewrite (firstn_all2 (c_str d)) by lia.
      assert (E : exists r, firstn k t = c_str d ++ "000"%char :: r).
      { unfold t. rewrite firstn_app, (firstn_all2 (c_str d)) by lia. destruct (k - length (c_str d))%nat eqn:D; [lia|]. cbn [repeat firstn]. eexists. reflexivity. }
      destruct E as (r & ->). rewrite <- app_assoc. cbn [app]. apply c_string_firstn. apply c_str_no_nul.
  - rewrite skipn_app, LF. rewrite skipn_all2 by lia. replace (S k - k)%nat with 1%nat by lia. reflexivity.
Qed.
Lemma es_popStr_empty buffer size : (0 < size)%Z -> buffer <> [] ->
  exists b, es_popStr [] buffer size = Ret ([], b) /\ c_string b [] /\ length b = length buffer.
Proof.
  intros P N. unfold es_popStr. replace (size <=? 0)%Z with false by (symmetry; apply Z.leb_gt; exact P).
  destruct buffer as [|c r]; [congruence|]. eexists. split; [reflexivity|]. split; [constructor|reflexivity].
Qed.
Lemma es_popStr_none e buffer size : (size <= 0)%Z -> es_popStr e buffer size = Ret (e, buffer).
Proof. intros P. unfold es_popStr. replace (size <=? 0)%Z with true by (symmetry; apply Z.leb_le; exact P). reflexivity. Qed.
(** a buffer smaller than announced is overrun even if the text is short: strncpy fills it up *)
Lemma es_popStr_overrun d e buffer size : (0 < size)%Z -> (length buffer < Z.to_nat size)%nat -> es_popStr (d :: e) buffer size = Undef.
Proof.
  intros P L. unfold es_popStr. replace (size <=? 0)%Z with false by (symmetry; apply Z.leb_gt; exact P).
  unfold strncpy. replace (Nat.leb (Z.to_nat size) (length buffer)) with false by (symmetry; apply Nat.leb_gt; exact L). reflexivity.
Qed.
Lemma es_output_ok e : snd (es_output e) = [] /\ fst (es_output e) = concat (map (fun s => c_str s ++ ["010"%char]) e).
Proof.
  split; [reflexivity|]. cbn [es_output fst]. induction e as [|d e IH]; [reflexivity|]. cbn [fold_right map concat]. rewrite IH, <- app_assoc. reflexivity.
Qed.

(** ** Concrete cases *)
Lemma jm_example : let st := fun r : ref => if Nat.eqb r 0 then mkJM 2 [1; 2; 3; 4] else mkJM 2 [10; 20; 30; 40] in
  square (st 0%nat) /\ square (st 1%nat) /\ exists st', jm_Add st 0%nat 1%nat 0%nat = Ret st' /\ reads_entry (st' 0%nat) 0 1 (3 + 30) /\ reads_entry (st' 0%nat) 1 0 (2 + 20).
Proof. cbn. split; [reflexivity|]. split; [reflexivity|]. eexists. split; [reflexivity|]. split; reflexivity. Qed.
Lemma jm_mulvec_example : let st := fun r : ref => if Nat.eqb r 0 then [5; 7] else [] in
  exists st', jm_Multiply_vec (mkJM 2 [1; 2; 3; 4]) st 0%nat 1%nat = Ret st' /\ st' 1%nat = [1 * 5 + (3 * 7 + 0); 2 * 5 + (4 * 7 + 0)].
Proof. cbn. eexists. split; reflexivity. Qed.
Lemma stiff_example : Forall (fun x => x <> 0) (stiff_entries (stiff_make 1 2 3 4 5 6)) /\
  stiff_mul (stiff_make 1 2 3 4 5 6) (mkT (mkV 1 1 1) (mkV 1 1 1)) = mkW (mkV (1 * 1) (2 * 1) (3 * 1)) (mkV (4 * 1) (5 * 1) (6 * 1)).
Proof. split; [|reflexivity]. unfold stiff_entries. cbn. repeat (constructor; [lra|]). constructor. Qed.
Lemma es_balanced_example : balanced [Es_Trace "a"; Es_Trace "b"; Es_Pop; Es_Trace "c"; Es_Pop; Es_Pop].
Proof.
  apply (bal_pair "a" [Es_Trace "b"; Es_Pop; Es_Trace "c"; Es_Pop]).
  apply (bal_app [Es_Trace "b"; Es_Pop] [Es_Trace "c"; Es_Pop]); [apply (bal_pair "b" [] bal_nil)|apply (bal_pair "c" [] bal_nil)].
Qed.
Lemma es_popStr_example : exists b, es_popStr ["Vector::Read"%string] (repeat "x"%char 8) 5 = Ret ([], b) /\ b = ["V"; "e"; "c"; "t"; "000"; "x"; "x"; "x"]%char.
Proof. eexists. split; reflexivity. Qed.
