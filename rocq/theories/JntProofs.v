(** Proofs about joint arrays (C52). *)
From Coq Require Import Reals List Lia Lra Arith Bool.
From Verif Require Import FramesModel Outcome LoopProofs InertiaModel DualModel DualSpec DualProofs KinModel JntModel JntSpec.
Import ListNotations.
Local Open Scope R_scope.

Lemma s_put_same st r l : s_put st r l r = l.
Proof. unfold s_put. rewrite Nat.eqb_refl. reflexivity. Qed.
Lemma s_put_other st r l r' : r' <> r -> s_put st r l r' = st r'.
Proof. intros H. unfold s_put. destruct (Nat.eqb_spec r' r); congruence. Qed.

Lemma nth_upd_same (l : list R) i x : (i < length l)%nat -> nth i (upd l i x) 0 = x.
Proof. intros H. apply nth_error_nth. apply nth_error_upd_same; auto. Qed.
Lemma nth_upd_other (l : list R) i j x : i <> j -> nth j (upd l i x) 0 = nth j l 0.
Proof. 
  revert i j; induction l as [|h t IH]; intros [|i] [|j] H; simpl; auto; try lia.
Qed.

(** An assignment whose i-th coefficient only depends on entries that earlier
    writes leave alone. *)
Lemma eigen_assign_ok st n coeff dest (f : nat -> R) :
  (forall k st', (k < n)%nat -> (forall r, r <> dest -> st' r = st r) -> length (st' dest) = n ->
     (length (st dest) = n -> forall j, (k <= j < n)%nat -> nth j (st' dest) 0 = nth j (st dest) 0) ->
     coeff st' k = Ret (f k)) ->
  exists st', eigen_assign st n coeff dest = Ret st' /\
    length (st' dest) = n /\ (forall i, (i < n)%nat -> nth i (st' dest) 0 = f i) /\
    (forall r, r <> dest -> st' r = st r).
Proof.
  intros H. unfold eigen_assign.
  set (st0 := if Nat.eqb (length (st dest)) n then st else s_put st dest (repeat 0 n)).
  assert (H0 : (forall r, r <> dest -> st0 r = st r) /\ length (st0 dest) = n /\
               (length (st dest) = n -> st0 dest = st dest)).
  { unfold st0. destruct (Nat.eqb_spec (length (st dest)) n) as [E|E].
    - repeat split; auto.
    - repeat split.
      + intros r Hr. apply s_put_other; auto.
      + rewrite s_put_same. apply repeat_length.
      + intros; contradiction. }
  destruct H0 as (A & B & C).
  destruct (for_loop_inv
    (fun k st' => (forall r, r <> dest -> st' r = st r) /\ length (st' dest) = n /\
       (forall i, (i < k)%nat -> nth i (st' dest) 0 = f i) /\
       (length (st dest) = n -> forall j, (k <= j < n)%nat -> nth j (st' dest) 0 = nth j (st dest) 0))
    (fun i st => let! x := coeff st i in let! l := aset (st dest) i x in Ret (s_put st dest l)) n 0 st0)
    as (st' & E & P1 & P2 & P3 & _).
  - intros k st' Hk (Q1 & Q2 & Q3 & Q4).
    rewrite (H k st') by (auto; lia). cbn [obind].
    rewrite aset_ret by lia. cbn [obind].
    eexists. split; [reflexivity|]. repeat split.
    + intros r Hr. rewrite s_put_other by auto. auto.
    + rewrite s_put_same, upd_length. auto.
    + intros i Hi. rewrite s_put_same. destruct (Nat.eq_dec i k) as [->|Hn].
      * apply nth_upd_same; lia.
      * rewrite nth_upd_other by auto. apply Q3; lia.
    + intros Hl j Hj. rewrite s_put_same, nth_upd_other by lia. apply Q4; auto; lia.
  - repeat split; auto.
    + intros i Hi; lia.
    + intros Hl j _. rewrite C; auto.
  - exists st'. split; [exact E|]. repeat split; auto.
Qed.

Lemma eigen_unary_ok op st a d :
  exists st', eigen_unary op st a d = Ret st' /\ entrywise op (st a) (st' d) /\ only_changed st st' [d].
Proof.
  unfold eigen_unary.
  destruct (eigen_assign_ok st (length (st a)) (fun st i => let! x := aget (st a) i in Ret (op x)) d
    (fun i => op (nth i (st a) 0))) as (st' & E & L & V & O).
  - intros k st' Hk A B C. destruct (Nat.eq_dec a d) as [->|Hn].
    + rewrite (aget_nth _ _ 0) by lia. cbn [obind]. rewrite C; auto; lia.
    + rewrite (A a Hn). rewrite (aget_nth _ _ 0) by lia. reflexivity.
  - exists st'. split; [exact E|]. split; [split; auto|].
    intros r Hr. apply O. intros ->. apply Hr. simpl; auto.
Qed.

Lemma eigen_binary_ok op st a b d : length (st a) = length (st b) ->
  exists st', eigen_binary op st a b d = Ret st' /\ entrywise2 op (st a) (st b) (st' d) /\ only_changed st st' [d].
Proof.
  intros HL. unfold eigen_binary. rewrite HL, Nat.eqb_refl.
  destruct (eigen_assign_ok st (length (st b))
    (fun st i => let! x := aget (st a) i in let! y := aget (st b) i in Ret (op x y)) d
    (fun i => op (nth i (st a) 0) (nth i (st b) 0))) as (st' & E & L & V & O).
  - intros k st' Hk A B C.
    assert (G : forall r, r = a \/ r = b -> aget (st' r) k = Ret (nth k (st r) 0)).
    { intros r Hr. destruct (Nat.eq_dec r d) as [->|Hn].
      - rewrite (aget_nth _ _ 0) by lia. rewrite C; auto; destruct Hr; subst; lia.
      - rewrite (A r Hn). rewrite (aget_nth _ _ 0); auto. destruct Hr; subst; lia. }
    rewrite (G a) by auto. cbn [obind]. rewrite (G b) by auto. reflexivity.
  - exists st'. split; [exact E|]. split.
    + split; [congruence|]. intros i Hi. apply V. lia.
    + intros r Hr. apply O. intros ->. apply Hr. simpl; auto.
Qed.

Lemma eigen_binary_undef op st a b d : length (st a) <> length (st b) -> eigen_binary op st a b d = Undef.
Proof. intros H. unfold eigen_binary. destruct (Nat.eqb_spec (length (st a)) (length (st b))); congruence. Qed.

(** * JntArray *)

Lemma jnt_add_ok st a b d : length (st a) = length (st b) ->
  exists st', jnt_Add st a b d = Ret st' /\ entrywise2 Rplus (st a) (st b) (st' d) /\ only_changed st st' [d].
Proof. apply eigen_binary_ok. Qed.
Lemma jnt_sub_ok st a b d : length (st a) = length (st b) ->
  exists st', jnt_Subtract st a b d = Ret st' /\ entrywise2 Rminus (st a) (st b) (st' d) /\ only_changed st st' [d].
Proof. apply eigen_binary_ok. Qed.
Lemma jnt_mul_ok st a k d :
  exists st', jnt_Multiply st a k d = Ret st' /\ entrywise (fun x => k * x) (st a) (st' d) /\ only_changed st st' [d].
Proof. apply eigen_unary_ok. Qed.
Lemma jnt_div_ok st a k d : k <> 0 ->
  exists st', jnt_Divide st a k d = Ret st' /\ entrywise (fun x => x / k) (st a) (st' d) /\ only_changed st st' [d].
Proof. intros _. apply eigen_unary_ok. Qed.
Lemma jnt_assign_ok st a d :
  exists st', jnt_assign st a d = Ret st' /\ entrywise (fun x => x) (st a) (st' d) /\ only_changed st st' [d].
Proof. apply eigen_unary_ok. Qed.

Lemma jnt_add_sizes st a b d : length (st a) <> length (st b) ->
  jnt_Add st a b d = Undef /\ jnt_Subtract st a b d = Undef.
Proof. intros H. split; apply eigen_binary_undef; auto. Qed.

Lemma jnt_zero_ok st a :
  exists st', jnt_SetToZero st a = Ret st' /\ entrywise (fun _ => 0) (st a) (st' a) /\ only_changed st st' [a].
Proof.
  eexists. split; [reflexivity|]. split.
  - split.
    + rewrite s_put_same, repeat_length. auto.
    + intros i Hi. rewrite s_put_same. apply nth_repeat.
  - intros r Hr. apply s_put_other. intros ->. apply Hr; simpl; auto.
Qed.

Lemma jnt_equal_iff a b eps :
  jnt_Equal a b eps = true <->
  length a = length b /\ forall i, (i < length a)%nat -> Rabs (nth i a 0 - nth i b 0) <= eps.
Proof.
  unfold jnt_Equal. destruct (Nat.eqb_spec (length a) (length b)) as [E|E].
  - split.
    + intros H. split; auto. revert b E H.
      induction a as [|x a IH]; intros [|y b] E H i Hi; simpl in *; try lia.
      apply andb_prop in H. destruct H as [H1 H2].
      destruct i as [|i].
      * unfold entry_isZero in H1. simpl in H1. destruct (Rle_dec (Rabs (x - y)) eps); [auto|discriminate].
      * apply IH; auto; lia.
    + intros [_ H]. revert b E H.
      induction a as [|x a IH]; intros [|y b] E H; simpl in *; try lia; auto.
      apply andb_true_intro. split.
      * unfold entry_isZero; simpl. specialize (H 0%nat ltac:(lia)). simpl in H.
        destruct (Rle_dec (Rabs (x - y)) eps); [auto|contradiction].
      * apply IH; [lia|]. intros i Hi. apply (H (S i)); lia.
  - split; [discriminate|]. intros [H _]. contradiction.
Qed.

Lemma jnt_resize_ok l n : length (jnt_resize l n) = n /\
  forall i, (i < n)%nat -> nth i (jnt_resize l n) 0 = if Nat.ltb i (length l) then nth i l 0 else 0.
Proof.
  unfold jnt_resize, vec_resize. split.
  - rewrite app_length, firstn_length, repeat_length. lia.
  - intros i Hi. destruct (Nat.ltb_spec i (length l)) as [H|H].
    + rewrite app_nth1 by (rewrite firstn_length; lia).
      clear H. revert n Hi. revert i. induction l as [|x l IH]; intros i n Hi; destruct n; simpl; try lia; destruct i; auto.
      apply IH. lia.
    + rewrite app_nth2 by (rewrite firstn_length; lia).
      apply nth_repeat.
Qed.

Lemma jnt_make_ok n : length (jnt_make n) = n /\ forall i, nth i (jnt_make n) 0 = 0.
Proof. unfold jnt_make. split; [apply repeat_length|]. intros i. apply nth_repeat. Qed.

(** jntarray.hpp:106 documents that all elements are zero after resize. *)
Lemma jnt_resize_not_zero : ~ forall l n i, (i < n)%nat -> nth i (jnt_resize l n) 0 = 0.
Proof. intros H. specialize (H [1] 1%nat 0%nat ltac:(lia)). simpl in H. lra. Qed.
