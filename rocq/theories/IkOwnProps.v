(** C84: position solvers assembled from the library's own parts always answer. *)
From Coq Require Import Reals String List ZArith.
From Verif Require Import FramesModel FramesSpec Outcome InertiaModel DualModel KinModel KinSpec JntModel TreeModel TreeSpec LinModel LinSpec
  IkModel IkSpec VelIkModel VelIkSpec VelIkWitness NewtonSpec IkOwnSpec IkOwn IkOwnSame IkOwnTree IkOwnWitness IkOwnStacks.
Import ListNotations.
Local Open Scope list_scope.
Local Open Scope R_scope.

(** ChainIkSolverPos_NR_JL with ChainIkSolverVel_pinv: every sequence of calls is answered, and every answer
    is the one the object would have given to its first call. *)
Theorem C84_nrjl_pinv : forall svd c s w requests, chain_ok c -> (Z.of_nat (ch_nj c) < 2 ^ 32)%Z -> nrjl_ready c s -> pinv_ready c w ->
  exists answers s' w', session (nrjl_ask c (pinv_CartToJnt svd c)) (s, w) requests = Ret (answers, (s', w')) /\
    nrjl_ready c s' /\ pinv_ready c w' /\
    Forall2 (nrjl_answer c (nj_min s) (nj_max s) (nj_eps s) (pinv_fails svd c (pv_maxiter w))) requests answers /\
    Forall2 (fun a b => exists st, nrjl_ask c (pinv_CartToJnt svd c) (s, w) a = Ret (b, st)) requests answers.
Proof. exact (@stack_nrjl_pinv). Qed.
Print Assumptions C84_nrjl_pinv.

(** ChainIkSolverPos_NR with ChainIkSolverVel_pinv: every sequence of calls is answered, and every answer
    is the one the object would have given to its first call. *)
Theorem C84_nr_pinv : forall svd c s w requests, chain_ok c -> (Z.of_nat (ch_nj c) < 2 ^ 32)%Z -> nr_ready c s -> pinv_ready c w ->
  exists answers s' w', session (nr_ask c (pinv_CartToJnt svd c)) (s, w) requests = Ret (answers, (s', w')) /\
    nr_ready c s' /\ pinv_ready c w' /\
    Forall2 (nr_answer c (nr_eps s) (pinv_fails svd c (pv_maxiter w))) requests answers /\
    Forall2 (fun a b => exists st, nr_ask c (pinv_CartToJnt svd c) (s, w) a = Ret (b, st)) requests answers.
Proof. exact (@stack_nr_pinv). Qed.
Print Assumptions C84_nr_pinv.

(** ChainIkSolverPos_NR_JL with ChainIkSolverVel_pinv_nso: every sequence of calls is answered, and every answer
    is the one the object would have given to its first call. *)
Theorem C84_nrjl_nso : forall svd c s w requests, chain_ok c -> (6 <= ch_nj c)%nat -> nrjl_ready c s -> nso_ready c w ->
  exists answers s' w', session (nrjl_ask c (nso_CartToJnt svd c)) (s, w) requests = Ret (answers, (s', w')) /\
    nrjl_ready c s' /\ nso_ready c w' /\
    Forall2 (nrjl_answer c (nj_min s) (nj_max s) (nj_eps s) (pinv_fails svd c (ns_maxiter w))) requests answers /\
    Forall2 (fun a b => exists st, nrjl_ask c (nso_CartToJnt svd c) (s, w) a = Ret (b, st)) requests answers.
Proof. exact (@stack_nrjl_nso). Qed.
Print Assumptions C84_nrjl_nso.

(** ChainIkSolverPos_NR with ChainIkSolverVel_pinv_nso: every sequence of calls is answered, and every answer
    is the one the object would have given to its first call. *)
Theorem C84_nr_nso : forall svd c s w requests, chain_ok c -> (6 <= ch_nj c)%nat -> nr_ready c s -> nso_ready c w ->
  exists answers s' w', session (nr_ask c (nso_CartToJnt svd c)) (s, w) requests = Ret (answers, (s', w')) /\
    nr_ready c s' /\ nso_ready c w' /\
    Forall2 (nr_answer c (nr_eps s) (pinv_fails svd c (ns_maxiter w))) requests answers /\
    Forall2 (fun a b => exists st, nr_ask c (nso_CartToJnt svd c) (s, w) a = Ret (b, st)) requests answers.
Proof. exact (@stack_nr_nso). Qed.
Print Assumptions C84_nr_nso.

(** ChainIkSolverPos_NR_JL with ChainIkSolverVel_wdls: every sequence of calls is answered, and every answer
    is the one the object would have given to its first call. *)
Theorem C84_nrjl_wdls : forall svd c s w requests, chain_ok c -> (6 <= ch_nj c)%nat -> (Z.of_nat (ch_nj c) < 2 ^ 32)%Z -> wdls_honest svd c w -> nrjl_ready c s -> wdls_ready c w ->
  exists answers s' w', session (nrjl_ask c (wdls_CartToJnt svd c)) (s, w) requests = Ret (answers, (s', w')) /\
    nrjl_ready c s' /\ wdls_ready c w' /\
    Forall2 (nrjl_answer c (nj_min s) (nj_max s) (nj_eps s) (wdls_fails svd c w)) requests answers /\
    Forall2 (fun a b => exists st, nrjl_ask c (wdls_CartToJnt svd c) (s, w) a = Ret (b, st)) requests answers.
Proof. exact (@stack_nrjl_wdls). Qed.
Print Assumptions C84_nrjl_wdls.

(** ChainIkSolverPos_NR with ChainIkSolverVel_wdls: every sequence of calls is answered, and every answer
    is the one the object would have given to its first call. *)
Theorem C84_nr_wdls : forall svd c s w requests, chain_ok c -> (6 <= ch_nj c)%nat -> (Z.of_nat (ch_nj c) < 2 ^ 32)%Z -> wdls_honest svd c w -> nr_ready c s -> wdls_ready c w ->
  exists answers s' w', session (nr_ask c (wdls_CartToJnt svd c)) (s, w) requests = Ret (answers, (s', w')) /\
    nr_ready c s' /\ wdls_ready c w' /\
    Forall2 (nr_answer c (nr_eps s) (wdls_fails svd c w)) requests answers /\
    Forall2 (fun a b => exists st, nr_ask c (wdls_CartToJnt svd c) (s, w) a = Ret (b, st)) requests answers.
Proof. exact (@stack_nr_wdls). Qed.
Print Assumptions C84_nr_wdls.

(** The tree solvers with TreeFkSolverPos_recursive and TreeIkSolverVel_wdls. *)
Theorem C84_tree_nrjl : forall svd t st endpoints, reachable t -> tree_ok t -> treefk_make t = Ret st -> (0 < tr_nj t)%nat ->
  (forall k, In k endpoints -> tfind t k <> None) -> forall s w requests, tnrjl_ready t endpoints s -> twdls_ready t endpoints w -> 0 <= tn_eps s ->
  exists answers s', session (tnrjl_ask svd st) (s, w) requests = Ret (answers, (s', w)) /\ tnrjl_ready t endpoints s' /\
    Forall2 (tnrjl_answer t endpoints (tn_min s) (tn_max s) (tn_eps s)) requests answers.
Proof. exact (@tnrjl_session). Qed.
Print Assumptions C84_tree_nrjl.

Theorem C84_tree_online : forall svd t st endpoints, reachable t -> tree_ok t -> treefk_make t = Ret st -> (0 < tr_nj t)%nat ->
  (forall k, In k endpoints -> tfind t k <> None) -> forall s w requests, online_ready t endpoints s -> twdls_ready t endpoints w ->
  exists answers s', session (online_ask svd st) (s, w) requests = Ret (answers, (s', w)) /\ online_ready t endpoints s' /\
    Forall2 (online_answer t endpoints (on_min s) (on_max s) (on_dmax s)) requests answers.
Proof. exact (@online_session). Qed.
Print Assumptions C84_tree_online.

(** Every constructor gives an object as required above. *)
Theorem C84_ready_chain : forall c, chain_ok c ->
  (forall lo hi n eps, length lo = ch_nj c -> length hi = ch_nj c -> nrjl_ready c (nrjl_make c lo hi n eps)) /\
  (forall n eps, nrjl_ready c (nrjl_make_nolimits c n eps)) /\
  (forall n eps, nr_ready c (nr_make c n eps)) /\
  (forall eps k, 0 < eps -> pinv_ready c (pinv_make c eps k)) /\
  (forall o wt eps k al, 0 < eps -> length o = ch_nj c -> length wt = ch_nj c -> nso_ready c (nso_make c o wt eps k al)) /\
  (forall eps k lam, 0 < eps -> lam <> 0 -> wdls_ready c (wdls_setLambda (wdls_make c eps k) lam)).
Proof. exact (@ready_chain). Qed.
Print Assumptions C84_ready_chain.

Theorem C84_ready_tree : forall t endpoints, reachable t ->
  (exists st, treefk_make t = Ret st) /\
  (forall lo hi n eps, length lo = tr_nj t -> length hi = tr_nj t -> tnrjl_ready t endpoints (tnrjl_make (tr_nj t) endpoints lo hi n eps)) /\
  (forall lo hi dm tm rm, length lo = tr_nj t -> length hi = tr_nj t -> length dm = tr_nj t -> (forall d, In d dm -> 0 < d) ->
     online_ready t endpoints (online_make (tr_nj t) endpoints lo hi dm tm rm)) /\
  (exists w, twdls_make t endpoints = Ret w /\ forall lam, lam <> 0 -> twdls_ready t endpoints (twdls_setLambda w lam)).
Proof. exact (@ready_tree). Qed.
Print Assumptions C84_ready_tree.

(** Concrete cases: a six-axis gantry, and a tree of two rails. *)
Theorem C84_example_chain : exists c svd w, chain_ok c /\ (6 <= ch_nj c)%nat /\ wdls_ready c w /\ wdls_honest svd c w /\
  ~ wdls_fails svd c w home /\ length home = ch_nj c /\ ~ pinv_fails svd c 150 home /\ tip c home = f_id.
Proof. exact stack_example. Qed.
Print Assumptions C84_example_chain.

Theorem C84_example_tree : reachable rail_tree /\ tree_ok rail_tree /\ tr_nj rail_tree = 2%nat /\ forall k, In k ["b"%string] -> tfind rail_tree k <> None.
Proof. exact tree_example. Qed.
Print Assumptions C84_example_tree.
