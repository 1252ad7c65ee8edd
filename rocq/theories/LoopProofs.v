(** Generic facts about outcomes, arrays and loops. *)
From Coq Require Import List Arith Lia.
From Verif Require Import Outcome.
Import ListNotations.

Lemma upd_length {A} (l : list A) i a : length (upd l i a) = length l.
Proof. revert i; induction l as [|h t IH]; intros [|i]; simpl; auto. Qed.

Lemma upd_app_r {A} (p l : list A) i a : length p <= i -> upd (p ++ l) i a = p ++ upd l (i - length p) a.
Proof.
  revert i; induction p as [|h t IH]; intros i H; simpl in *.
  - f_equal; lia.
  - destruct i as [|i]; [lia|]. simpl. f_equal. apply IH; lia.
Qed.

Lemma upd_mid {A} (p : list A) x s a : upd (p ++ x :: s) (length p) a = p ++ a :: s.
Proof. rewrite upd_app_r by lia. rewrite Nat.sub_diag. reflexivity. Qed.

Lemma nth_error_upd_same {A} (l : list A) i a : i < length l -> nth_error (upd l i a) i = Some a.
Proof. revert i; induction l as [|h t IH]; intros [|i] H; simpl in *; try lia; auto. apply IH; lia. Qed.

Lemma nth_error_upd_other {A} (l : list A) i j a : i <> j -> nth_error (upd l i a) j = nth_error l j.
Proof. revert i j; induction l as [|h t IH]; intros [|i] [|j] H; simpl; auto; lia. Qed.

Lemma aget_app {A} (p : list A) x s : aget (p ++ x :: s) (length p) = Ret x.
Proof. unfold aget. rewrite nth_error_app2 by lia. rewrite Nat.sub_diag. reflexivity. Qed.

Lemma aget_ret {A} (l : list A) i : i < length l -> exists a, aget l i = Ret a /\ nth_error l i = Some a.
Proof.
  intros H. unfold aget. destruct (nth_error l i) eqn:E; eauto.
  apply nth_error_None in E; lia.
Qed.

Lemma aget_nth {A} (l : list A) i d : i < length l -> aget l i = Ret (nth i l d).
Proof. intros H. unfold aget. rewrite (nth_error_nth' l d H). reflexivity. Qed.

Lemma aget_Ret_lt {A} (l : list A) i a : aget l i = Ret a -> i < length l.
Proof.
  unfold aget. destruct (nth_error l i) eqn:E; [|discriminate]. intros _.
  apply nth_error_Some; congruence.
Qed.

Lemma aget_out {A} (l : list A) i : length l <= i -> aget l i = Undef.
Proof. intros H. unfold aget. apply nth_error_None in H. rewrite H. reflexivity. Qed.

Lemma aset_ret {A} (l : list A) i a : i < length l -> aset l i a = Ret (upd l i a).
Proof. intros H. unfold aset. apply Nat.ltb_lt in H. rewrite H. reflexivity. Qed.

Lemma aset_mid {A} (p : list A) x s a : aset (p ++ x :: s) (length p) a = Ret (p ++ a :: s).
Proof. rewrite aset_ret, upd_mid; auto. rewrite app_length; simpl; lia. Qed.

Lemma aset_Ret_inv {A} (l : list A) i a l' : aset l i a = Ret l' -> i < length l /\ l' = upd l i a.
Proof.
  unfold aset. destruct (Nat.ltb i (length l)) eqn:E; [|discriminate].
  apply Nat.ltb_lt in E. intros H; injection H as <-. auto.
Qed.

Lemma aset_out {A} (l : list A) i a : length l <= i -> aset l i a = Undef.
Proof. intros H. unfold aset. apply Nat.ltb_ge in H. rewrite H. reflexivity. Qed.

Lemma aget_app' {A} (p : list A) x s i : length p = i -> aget (p ++ x :: s) i = Ret x.
Proof. intros <-. apply aget_app. Qed.
Lemma aset_mid' {A} (p : list A) x s a i : length p = i -> aset (p ++ x :: s) i a = Ret (p ++ a :: s).
Proof. intros <-. apply aset_mid. Qed.

(** Total correctness: an indexed invariant. *)
Lemma for_loop_inv {St} (Inv : nat -> St -> Prop) (body : nat -> St -> outcome St) n :
  forall i s,
  (forall k st, i <= k < i + n -> Inv k st -> exists st', body k st = Ret st' /\ Inv (S k) st') ->
  Inv i s -> exists s', for_loop n i body s = Ret s' /\ Inv (i + n) s'.
Proof.
  induction n as [|n IH]; intros i s Hb Hi; simpl.
  - exists s. rewrite Nat.add_0_r. auto.
  - destruct (Hb i s) as (s1 & E1 & H1); [lia|auto|]. rewrite E1. simpl.
    destruct (IH (S i) s1) as (s2 & E2 & H2); auto.
    + intros k st Hk. apply Hb. lia.
    + exists s2. rewrite E2. split; auto. replace (i + S n) with (S i + n) by lia. auto.
Qed.

(** Partial correctness. *)
Lemma for_loop_pinv {St} (Inv : nat -> St -> Prop) (body : nat -> St -> outcome St) n :
  forall i s s',
  (forall k st st', i <= k < i + n -> Inv k st -> body k st = Ret st' -> Inv (S k) st') ->
  Inv i s -> for_loop n i body s = Ret s' -> Inv (i + n) s'.
Proof.
  induction n as [|n IH]; intros i s s' Hb Hi; simpl.
  - intros E; injection E as <-. rewrite Nat.add_0_r. auto.
  - destruct (body i s) as [s1|] eqn:E1; simpl; [|discriminate]. intros E2.
    replace (i + S n) with (S i + n) by lia. apply (IH (S i) s1 s'); auto.
    + intros k st st' Hk. apply Hb. lia.
    + apply (Hb i s s1); auto; lia.
Qed.

Lemma for_loop_ext {St} (b1 b2 : nat -> St -> outcome St) n : forall i s,
  (forall k st, i <= k < i + n -> b1 k st = b2 k st) -> for_loop n i b1 s = for_loop n i b2 s.
Proof.
  induction n as [|n IH]; intros i s H; simpl; auto.
  rewrite (H i s) by lia. destruct (b2 i s); simpl; auto. apply IH. intros k st Hk; apply H; lia.
Qed.

Lemma for_loop_snoc {St} (body : nat -> St -> outcome St) n : forall i s,
  for_loop (S n) i body s = (let! s' := for_loop n i body s in body (i + n) s').
Proof.
  induction n as [|n IH]; intros i s.
  - simpl. rewrite Nat.add_0_r. destruct (body i s); reflexivity.
  - change (for_loop (S (S n)) i body s) with (let! s' := body i s in for_loop (S n) (S i) body s').
    change (for_loop (S n) i body s) with (let! s' := body i s in for_loop n (S i) body s').
    destruct (body i s) as [s1|]; simpl; auto.
    specialize (IH (S i) s1). simpl in IH. rewrite IH.
    replace (i + S n) with (S (i + n)) by lia. reflexivity.
Qed.

(** A loop that walks over a list by index is a fold over the list. *)
Lemma for_loop_list {St A} (l : list A) (body : nat -> St -> outcome St) (f : A -> St -> outcome St) :
  forall pre s,
  (forall p x r st, pre ++ l = p ++ x :: r -> length pre <= length p -> body (length p) st = f x st) ->
  for_loop (length l) (length pre) body s = fold_left (fun o x => let! st := o in f x st) l (Ret s).
Proof.
  induction l as [|x l IH]; intros pre s H; simpl; auto.
  rewrite (H pre x l s eq_refl (le_n _)). destruct (f x s) as [s1|] eqn:E; simpl.
  - specialize (IH (pre ++ [x]) s1). rewrite app_length in IH. simpl in IH.
    rewrite Nat.add_1_r in IH. apply IH.
    intros p y r st Hp Hl. apply (H p y r); [rewrite <- Hp, <- app_assoc; reflexivity | lia].
  - clear. induction l; simpl; auto.
Qed.

Lemma obind_Ret_inv {A B} (x : outcome A) (f : A -> outcome B) b :
  obind x f = Ret b -> exists a, x = Ret a /\ f a = Ret b.
Proof. destruct x; simpl; [eauto|discriminate]. Qed.

Lemma firstn_snoc {A} (l : list A) k x : nth_error l k = Some x -> firstn (S k) l = firstn k l ++ [x].
Proof.
  revert k; induction l as [|h t IH]; intros [|k] H; simpl in *; try discriminate.
  - injection H as ->. reflexivity.
  - f_equal. apply IH; auto.
Qed.

Lemma nth_error_split3 {A} (l : list A) k x : nth_error l k = Some x ->
  l = firstn k l ++ x :: skipn (S k) l /\ length (firstn k l) = k.
Proof.
  revert k; induction l as [|h t IH]; intros [|k] H; simpl in *; try discriminate.
  - injection H as ->. auto.
  - destruct (IH k H) as [E L]. split; [f_equal; exact E | simpl; f_equal; exact L].
Qed.
