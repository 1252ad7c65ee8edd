(** The stacks, one lemma per pair of solvers. *)
From Coq Require Import Reals String List ZArith Lia.
From Verif Require Import FramesModel FramesSpec Outcome InertiaModel DualModel KinModel KinSpec JntModel TreeModel TreeSpec LinModel LinSpec
  IkModel IkSpec VelIkModel VelIkSpec NewtonSpec IkOwnSpec IkOwn IkOwnSame.
Import ListNotations.
Local Open Scope list_scope.
Local Open Scope R_scope.

Lemma stack_nrjl_pinv : forall svd c s w requests, chain_ok c -> (Z.of_nat (ch_nj c) < 2 ^ 32)%Z -> nrjl_ready c s -> pinv_ready c w ->
  exists answers s' w', session (nrjl_ask c (pinv_CartToJnt svd c)) (s, w) requests = Ret (answers, (s', w')) /\
    nrjl_ready c s' /\ pinv_ready c w' /\
    Forall2 (nrjl_answer c (nj_min s) (nj_max s) (nj_eps s) (pinv_fails svd c (pv_maxiter w))) requests answers /\
    Forall2 (fun a b => exists st, nrjl_ask c (pinv_CartToJnt svd c) (s, w) a = Ret (b, st)) requests answers.
Proof.
  intros svd c s w l Hc Hn Rs Rw.
  assert (Iw : pinv_ready c w /\ pinv_like w w) by (split; [exact Rw|repeat split]).
  destruct (nrjl_session c _ _ _ Hc (pinv_serves svd c w Hc Hn) s w l Rs Iw) as (bs & s' & w' & E & R1 & (R2 & _) & F).
  destruct (nrjl_session_same c _ _ _ Hc (pinv_serves svd c w Hc Hn) (pinv_repeats svd c w Hc) s w l Rs Iw) as (bs2 & st & E2 & F2).
  rewrite E in E2. injection E2 as <- _. exists bs, s', w'. auto.
Qed.
Lemma stack_nr_pinv : forall svd c s w requests, chain_ok c -> (Z.of_nat (ch_nj c) < 2 ^ 32)%Z -> nr_ready c s -> pinv_ready c w ->
  exists answers s' w', session (nr_ask c (pinv_CartToJnt svd c)) (s, w) requests = Ret (answers, (s', w')) /\
    nr_ready c s' /\ pinv_ready c w' /\
    Forall2 (nr_answer c (nr_eps s) (pinv_fails svd c (pv_maxiter w))) requests answers /\
    Forall2 (fun a b => exists st, nr_ask c (pinv_CartToJnt svd c) (s, w) a = Ret (b, st)) requests answers.
Proof.
  intros svd c s w l Hc Hn Rs Rw.
  assert (Iw : pinv_ready c w /\ pinv_like w w) by (split; [exact Rw|repeat split]).
  destruct (nr_session c _ _ _ Hc (pinv_serves svd c w Hc Hn) s w l Rs Iw) as (bs & s' & w' & E & R1 & (R2 & _) & F).
  destruct (nr_session_same c _ _ _ Hc (pinv_serves svd c w Hc Hn) (pinv_repeats svd c w Hc) s w l Rs Iw) as (bs2 & st & E2 & F2).
  rewrite E in E2. injection E2 as <- _. exists bs, s', w'. auto.
Qed.
Lemma stack_nrjl_nso : forall svd c s w requests, chain_ok c -> (6 <= ch_nj c)%nat -> nrjl_ready c s -> nso_ready c w ->
  exists answers s' w', session (nrjl_ask c (nso_CartToJnt svd c)) (s, w) requests = Ret (answers, (s', w')) /\
    nrjl_ready c s' /\ nso_ready c w' /\
    Forall2 (nrjl_answer c (nj_min s) (nj_max s) (nj_eps s) (pinv_fails svd c (ns_maxiter w))) requests answers /\
    Forall2 (fun a b => exists st, nrjl_ask c (nso_CartToJnt svd c) (s, w) a = Ret (b, st)) requests answers.
Proof.
  intros svd c s w l Hc H6 Rs Rw.
  assert (Iw : nso_ready c w /\ nso_like w w) by (split; [exact Rw|repeat split]).
  destruct (nrjl_session c _ _ _ Hc (nso_serves svd c w Hc H6) s w l Rs Iw) as (bs & s' & w' & E & R1 & (R2 & _) & F).
  destruct (nrjl_session_same c _ _ _ Hc (nso_serves svd c w Hc H6) (nso_repeats svd c w Hc) s w l Rs Iw) as (bs2 & st & E2 & F2).
  rewrite E in E2. injection E2 as <- _. exists bs, s', w'. auto.
Qed.
Lemma stack_nr_nso : forall svd c s w requests, chain_ok c -> (6 <= ch_nj c)%nat -> nr_ready c s -> nso_ready c w ->
  exists answers s' w', session (nr_ask c (nso_CartToJnt svd c)) (s, w) requests = Ret (answers, (s', w')) /\
    nr_ready c s' /\ nso_ready c w' /\
    Forall2 (nr_answer c (nr_eps s) (pinv_fails svd c (ns_maxiter w))) requests answers /\
    Forall2 (fun a b => exists st, nr_ask c (nso_CartToJnt svd c) (s, w) a = Ret (b, st)) requests answers.
Proof.
  intros svd c s w l Hc H6 Rs Rw.
  assert (Iw : nso_ready c w /\ nso_like w w) by (split; [exact Rw|repeat split]).
  destruct (nr_session c _ _ _ Hc (nso_serves svd c w Hc H6) s w l Rs Iw) as (bs & s' & w' & E & R1 & (R2 & _) & F).
  destruct (nr_session_same c _ _ _ Hc (nso_serves svd c w Hc H6) (nso_repeats svd c w Hc) s w l Rs Iw) as (bs2 & st & E2 & F2).
  rewrite E in E2. injection E2 as <- _. exists bs, s', w'. auto.
Qed.
Lemma stack_nrjl_wdls : forall svd c s w requests, chain_ok c -> (6 <= ch_nj c)%nat -> (Z.of_nat (ch_nj c) < 2 ^ 32)%Z -> wdls_honest svd c w -> nrjl_ready c s -> wdls_ready c w ->
  exists answers s' w', session (nrjl_ask c (wdls_CartToJnt svd c)) (s, w) requests = Ret (answers, (s', w')) /\
    nrjl_ready c s' /\ wdls_ready c w' /\
    Forall2 (nrjl_answer c (nj_min s) (nj_max s) (nj_eps s) (wdls_fails svd c w)) requests answers /\
    Forall2 (fun a b => exists st, nrjl_ask c (wdls_CartToJnt svd c) (s, w) a = Ret (b, st)) requests answers.
Proof.
  intros svd c s w l Hc H6 Hn Hh Rs Rw.
  assert (Iw : wdls_ready c w /\ wdls_like w w) by (split; [exact Rw|repeat split]).
  destruct (nrjl_session c _ _ _ Hc (wdls_serves svd c w Hc H6 Hn Hh) s w l Rs Iw) as (bs & s' & w' & E & R1 & (R2 & _) & F).
  destruct (nrjl_session_same c _ _ _ Hc (wdls_serves svd c w Hc H6 Hn Hh) (wdls_repeats svd c w Hc) s w l Rs Iw) as (bs2 & st & E2 & F2).
  rewrite E in E2. injection E2 as <- _. exists bs, s', w'. auto.
Qed.
Lemma stack_nr_wdls : forall svd c s w requests, chain_ok c -> (6 <= ch_nj c)%nat -> (Z.of_nat (ch_nj c) < 2 ^ 32)%Z -> wdls_honest svd c w -> nr_ready c s -> wdls_ready c w ->
  exists answers s' w', session (nr_ask c (wdls_CartToJnt svd c)) (s, w) requests = Ret (answers, (s', w')) /\
    nr_ready c s' /\ wdls_ready c w' /\
    Forall2 (nr_answer c (nr_eps s) (wdls_fails svd c w)) requests answers /\
    Forall2 (fun a b => exists st, nr_ask c (wdls_CartToJnt svd c) (s, w) a = Ret (b, st)) requests answers.
Proof.
  intros svd c s w l Hc H6 Hn Hh Rs Rw.
  assert (Iw : wdls_ready c w /\ wdls_like w w) by (split; [exact Rw|repeat split]).
  destruct (nr_session c _ _ _ Hc (wdls_serves svd c w Hc H6 Hn Hh) s w l Rs Iw) as (bs & s' & w' & E & R1 & (R2 & _) & F).
  destruct (nr_session_same c _ _ _ Hc (wdls_serves svd c w Hc H6 Hn Hh) (wdls_repeats svd c w Hc) s w l Rs Iw) as (bs2 & st & E2 & F2).
  rewrite E in E2. injection E2 as <- _. exists bs, s', w'. auto.
Qed.
