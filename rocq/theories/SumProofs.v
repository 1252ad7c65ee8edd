(** Finite sums of reals indexed by naturals. *)
From Coq Require Import Reals List Arith Lia Lra FunctionalExtensionality Bool.
From Verif Require Import Outcome LoopProofs LinModel LinSpec.
Import ListNotations.
Local Open Scope R_scope.

Lemma sumn_ext n f g : (forall i, (i < n)%nat -> f i = g i) -> sumn n f = sumn n g.
Proof. induction n as [|n IH]; intros H; simpl; auto. rewrite IH, (H n); auto. Qed.
Lemma sumn_zero n f : (forall i, (i < n)%nat -> f i = 0) -> sumn n f = 0.
Proof. induction n as [|n IH]; intros H; simpl; auto. rewrite IH, (H n); auto. ring. Qed.
Lemma sumn_add n f g : sumn n (fun i => f i + g i) = sumn n f + sumn n g.
Proof. induction n as [|n IH]; simpl; [ring|]. rewrite IH. ring. Qed.
Lemma sumn_sub n f g : sumn n (fun i => f i - g i) = sumn n f - sumn n g.
Proof. induction n as [|n IH]; simpl; [ring|]. rewrite IH. ring. Qed.
Lemma sumn_scale n c f : sumn n (fun i => c * f i) = c * sumn n f.
Proof. induction n as [|n IH]; simpl; [ring|]. rewrite IH. ring. Qed.
Lemma sumn_scale_r n c f : sumn n (fun i => f i * c) = sumn n f * c.
Proof. induction n as [|n IH]; simpl; [ring|]. rewrite IH. ring. Qed.
Lemma sumn_swap n m f : sumn n (fun i => sumn m (fun j => f i j)) = sumn m (fun j => sumn n (fun i => f i j)).
Proof.
  induction n as [|n IH]; simpl; [rewrite sumn_zero; auto|]. rewrite IH, <- sumn_add. reflexivity.
Qed.
Lemma sumn_split n m f : sumn (n + m) f = sumn n f + sumn m (fun i => f (n + i)%nat).
Proof. induction m as [|m IH]; [rewrite Nat.add_0_r; simpl; ring|]. rewrite Nat.add_succ_r. simpl. rewrite IH. ring. Qed.
Lemma sumn_split3 n i f : (i < n)%nat -> sumn n f = sumn i f + f i + sumn (n - S i) (fun t => f (S i + t)%nat).
Proof. intros H. replace n with (S i + (n - S i))%nat at 1 by lia. rewrite sumn_split. simpl. reflexivity. Qed.
Lemma sumn_head n f : sumn (S n) f = f 0%nat + sumn n (fun i => f (S i)).
Proof. induction n as [|n IH]; [simpl; ring|]. change (sumn (S (S n)) f) with (sumn (S n) f + f (S n)). rewrite IH. simpl. ring. Qed.
Lemma sumn_trunc n m f : (m <= n)%nat -> (forall i, (m <= i < n)%nat -> f i = 0) -> sumn n f = sumn m f.
Proof.
  intros H Z. replace n with (m + (n - m))%nat by lia. rewrite sumn_split. rewrite (sumn_zero (n - m)); [ring|].
  intros i Hi. apply Z. lia.
Qed.
Lemma sumn_one n i f : (i < n)%nat -> (forall j, (j < n)%nat -> j <> i -> f j = 0) -> sumn n f = f i.
Proof.
  intros H Z. rewrite (sumn_split3 n i f H). rewrite !sumn_zero; [ring| |]; intros j Hj; apply Z; lia.
Qed.
Lemma sumn_nonneg n f : (forall i, (i < n)%nat -> 0 <= f i) -> 0 <= sumn n f.
Proof. induction n as [|n IH]; intros H; simpl; [lra|]. pose proof (H n). assert (0 <= sumn n f) by auto. pose proof (H0 ltac:(lia)). lra. Qed.
Lemma sumn_opp n f : sumn n (fun i => - f i) = - sumn n f.
Proof. induction n as [|n IH]; simpl; [ring|]. rewrite IH. ring. Qed.

(** A loop that walks along a given sequence of states. *)
Lemma for_loop_fun {St} (F : nat -> St) (body : nat -> St -> outcome St) n : forall i,
  (forall k, (i <= k < i + n)%nat -> body k (F k) = Ret (F (S k))) -> for_loop n i body (F i) = Ret (F (i + n)%nat).
Proof.
  induction n as [|n IH]; intros i H; simpl; [rewrite Nat.add_0_r; reflexivity|].
  rewrite H by lia. simpl. rewrite IH; [f_equal; f_equal; lia|]. intros k Hk. apply H. lia.
Qed.
Lemma nth_upd_same (l : list R) i x : (i < length l)%nat -> nth i (upd l i x) 0 = x.
Proof. intros H. apply nth_error_nth. apply nth_error_upd_same. exact H. Qed.
Lemma nth_upd_other (l : list R) i j x : i <> j -> nth j (upd l i x) 0 = nth j l 0.
Proof.
  intros H. destruct (nth_error l j) as [y|] eqn:E.
  - rewrite (nth_error_nth _ _ 0 E). apply nth_error_nth. rewrite nth_error_upd_other; auto.
  - rewrite !nth_overflow; auto; [|rewrite upd_length]; apply nth_error_None; auto.
Qed.
Lemma upd_upd {A} (l : list A) i x y : upd (upd l i x) i y = upd l i y.
Proof. revert i; induction l as [|h l IH]; intros [|i]; simpl; auto. f_equal. auto. Qed.
Lemma aset_upd {A} (l : list A) i x y : (i < length l)%nat -> aset (upd l i x) i y = Ret (upd l i y).
Proof. intros H. rewrite aset_ret by (rewrite upd_length; auto). rewrite upd_upd. reflexivity. Qed.
Lemma agetR (l : list R) i : (i < length l)%nat -> aget l i = Ret (nth i l 0).
Proof. apply aget_nth. Qed.

Lemma mget_ok m i j : (i < mrows m)%nat -> (j < mcols m)%nat -> mget m i j = Ret (mentry m i j).
Proof. intros A B. unfold mget. apply Nat.ltb_lt in A, B. rewrite A, B. reflexivity. Qed.
Definition mupd (m : Mat) (i j : nat) (x : R) : Mat :=
  mkM (mrows m) (mcols m) (fun a b => if Nat.eqb a i && Nat.eqb b j then x else mentry m a b).
Lemma mset_ok m i j x : (i < mrows m)%nat -> (j < mcols m)%nat -> mset m i j x = Ret (mupd m i j x).
Proof. intros A B. unfold mset. apply Nat.ltb_lt in A, B. rewrite A, B. reflexivity. Qed.
Lemma mupd_mupd m i j x y : mupd (mupd m i j x) i j y = mupd m i j y.
Proof.
  unfold mupd. simpl. f_equal. extensionality a. extensionality b. destruct (Nat.eqb a i && Nat.eqb b j); reflexivity.
Qed.
Lemma mupd_same m i j x : mentry (mupd m i j x) i j = x.
Proof. simpl. rewrite !Nat.eqb_refl. reflexivity. Qed.
Lemma mupd_other m i j x a b : a <> i \/ b <> j -> mentry (mupd m i j x) a b = mentry m a b.
Proof. intros H. simpl. destruct (Nat.eqb_spec a i), (Nat.eqb_spec b j); simpl; auto. destruct H; contradiction. Qed.
Lemma nth_ext_R (a b : list R) : length a = length b -> (forall i, (i < length a)%nat -> nth i a 0 = nth i b 0) -> a = b.
Proof. intros L H. apply (nth_ext a b 0 0 L H). Qed.
