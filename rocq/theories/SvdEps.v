(** Proofs about the singular value routines: a small enough epsilon changes nothing. *)
From Coq Require Import Reals List ZArith Bool Arith Lia Lra.
From Verif Require Import SvdModel.
Local Open Scope R_scope.

Definition near {X} (f : R -> X) : Prop := exists e0, 0 < e0 /\ forall eps, 0 <= eps < e0 -> f eps = f 0.
Lemma near_const {X} (x : X) : near (fun _ => x).
Proof. exists 1. split; [lra|reflexivity]. Qed.
Lemma near_bind {X Y} (x : R -> run X) (f : R -> X -> run Y) : near x -> (forall a, near (fun e => f e a)) -> near (fun e => rbind (x e) (f e)).
Proof.
  intros (e1 & P1 & H1) Hf. destruct (x 0) as [a|c|] eqn:E.
  - destruct (Hf a) as (e2 & P2 & H2). exists (Rmin e1 e2). split; [apply Rmin_glb_lt; assumption|]. intros eps [L U].
    pose proof (Rmin_l e1 e2). pose proof (Rmin_r e1 e2). rewrite H1, E by lra. cbn [rbind]. apply H2. lra.
  - exists e1. split; [exact P1|]. intros eps L. rewrite (H1 eps L), E. reflexivity.
  - exists e1. split; [exact P1|]. intros eps L. rewrite (H1 eps L), E. reflexivity.
Qed.
Lemma near_cmp {X} x (a b : R -> X) : near a -> near b -> near (fun e => if Rlt_dec e (Rabs x) then a e else b e).
Proof.
  intros (e1 & P1 & H1) (e2 & P2 & H2). destruct (Req_dec x 0) as [->|N].
  - exists e2. split; [exact P2|]. intros eps L. rewrite Rabs_R0. destruct (Rlt_dec eps 0); [lra|]. destruct (Rlt_dec 0 0); [lra|]. apply H2, L.
  - apply Rabs_pos_lt in N. exists (Rmin e1 (Rabs x)). split; [apply Rmin_glb_lt; assumption|]. intros eps [L U].
    pose proof (Rmin_l e1 (Rabs x)). pose proof (Rmin_r e1 (Rabs x)). destruct (Rlt_dec eps (Rabs x)); [|lra]. destruct (Rlt_dec 0 (Rabs x)); [|lra]. apply H1. lra.
Qed.
Lemma near_if {X} (c : bool) (a b : R -> X) : near a -> near b -> near (fun e => if c then a e else b e).
Proof. intros. destruct c; assumption. Qed.
Lemma near_iter {St} n : forall i (body : R -> nat -> St -> run St) s, (forall k t, near (fun e => body e k t)) -> near (fun e => iter n i (body e) s).
Proof.
  induction n as [|n IH]; intros i body s H; cbn [iter]; [apply near_const|]. apply near_bind; [apply H|]. intros a. apply IH, H.
Qed.
Lemma near_iter_down {St} n : forall (body : R -> nat -> St -> run St) s, (forall k t, near (fun e => body e k t)) -> near (fun e => iter_down n (body e) s).
Proof.
  induction n as [|n IH]; intros body s H; cbn [iter_down]; [apply near_const|]. apply near_bind; [apply H|]. intros a. apply IH, H.
Qed.

Ltac near := repeat (cbv zeta; match goal with
  | |- near (fun _ => Go _) => apply near_const
  | |- near (fun _ => Bad) => apply near_const
  | |- near (fun _ => divisor _ _ _) => apply near_const
  | |- near (fun _ => bare_divisor _) => apply near_const
  | |- near (fun _ => radicand _ _ _) => apply near_const
  | |- near (fun e => rbind _ _) => apply near_bind; [|intros]
  | |- near (fun e => if Rlt_dec e (Rabs _) then _ else _) => apply near_cmp
  | |- near (fun e => if ?c then _ else _) => apply (near_if c)
  | |- near (fun e => let '(_, _) := ?a in _) => destruct a
  | |- near (fun e => match ?a with _ => _ end) => destruct a
  end).

Section Near.
Variables (rnd : R -> R) (checked : bool) (rows cols : nat).
Lemma near_hh i st : near (fun e => hh_step checked e rows cols i st).
Proof. unfold hh_step, hh_col, hh_row. near. Qed.
Lemma near_right U T i st : near (fun e => right_step checked e rows cols U T i st).
Proof. unfold right_step. near. Qed.
Lemma near_left S i U : near (fun e => left_step checked e rows cols S i U).
Proof. unfold left_step. near. Qed.
Lemma near_sweep j r : near (fun e => sweep_step checked e rows cols j r).
Proof. unfold sweep_step. near. Qed.
Lemma near_qr p k st : near (fun e => qr_step checked e rows cols p k st).
Proof. unfold qr_step. near. apply (near_iter _ _ (fun e => sweep_step checked e rows cols)). intros. apply near_sweep. Qed.
Lemma near_pass anorm k st : near (fun e => qr_pass rnd checked e rows cols anorm k st).
Proof. unfold qr_pass. near; try apply near_const. apply near_qr. Qed.
Lemma near_loop anorm k n : forall its st, near (fun e => qr_loop rnd checked e rows cols anorm k n its st).
Proof. induction n as [|n IH]; intros its st; cbn [qr_loop]; [apply near_const|]. apply near_bind; [apply near_pass|]. intros [d out]. destruct out; [apply near_const|apply IH]. Qed.
Lemma near_diag anorm maxiter k st : near (fun e => diag_step rnd checked e rows cols anorm maxiter k st).
Proof. unfold diag_step. near. apply near_loop. Qed.
Lemma near_core maxiter A S0 V0 T0 : near (fun e => svd_core rnd checked e rows cols maxiter A S0 V0 T0).
Proof.
  unfold svd_core. apply near_bind; [apply (near_iter _ _ (fun e => hh_step checked e rows cols)); intros; apply near_hh|]. intros b.
  apply near_bind; [apply (near_iter_down _ (fun e => right_step checked e rows cols (hU b) (hT b))); intros; apply near_right|]. intros [V g].
  apply near_bind; [apply (near_iter_down _ (fun e => left_step checked e rows cols (hS b))); intros; apply near_left|]. intros U.
  apply (near_iter_down _ (fun e => diag_step rnd checked e rows cols (hanorm b) maxiter)). intros. apply near_diag.
Qed.
End Near.
Lemma near_eigen rnd rows cols maxiter A S0 V0 T0 : near (fun e => svd_eigen_HH rnd rows cols A S0 V0 T0 maxiter e).
Proof. unfold svd_eigen_HH. apply near_bind; [apply near_core|]. intros [[d its] used]. apply near_const. Qed.
