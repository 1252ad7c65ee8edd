(** Property theorems for inverse position kinematics: C47, C48 (Newton-Raphson), C49.

    The inner forward and velocity solvers are arbitrary: [W] is their state,
    [fk] and [ikv] (or [tfk] and [tikv]) their transition functions.  The
    [record_*] wrappers only log the calls ([..._log_is_faithful]). *)
From Coq Require Import Reals String List ZArith.
From Verif Require Import FramesModel FramesSpec Outcome InertiaModel DualModel KinModel KinSpec JntModel LinModel LinSpec TreeModel TreeSpec
  IkModel IkSpec IkProofs IkProofs2 IkWitness IkTreeProofs IkTreeProofs2 IkTreeWitness.
Import ListNotations.
Local Open Scope list_scope.
Local Open Scope R_scope.

(** * C47: ChainIkSolverPos_NR_JL *)
Theorem C47_call : forall (W : Type) (fk : W -> list R -> outcome (Z * Frame * W)) (ikv : W -> list R -> Twist -> list R -> outcome (Z * list R * W)) c s w q0 p qo code q s' w' tr,
  nrjl_CartToJnt (record_fk fk) (record_ik ikv) c s (w, []) q0 p qo = Ret (code, q, s', (w', tr)) ->
  nj_error s' = code /\ nj_nj s' = nj_nj s /\ nj_min s' = nj_min s /\ nj_max s' = nj_max s /\
  nj_maxiter s' = nj_maxiter s /\ nj_eps s' = nj_eps s /\
  (ik_calls tr <= nj_maxiter s)%nat /\ (fk_calls tr <= nj_maxiter s)%nat /\
  (code = E_NOERROR ->
     length q = ch_nj c /\
     (ik_calls tr = 0%nat -> q = q0) /\ ((0 < ik_calls tr)%nat -> within (nj_min s) (nj_max s) q) /\
     exists tr0 rc f, tr = tr0 ++ [FkCall q rc f] /\ (0 <= rc)%Z /\
       t_Equal (f_diff f p 1) t_zero (nj_eps s) = true /\ Forall (off_target (nj_eps s) p) tr0) /\
  (code = E_MAX_ITERATIONS_EXCEEDED ->
     ik_calls tr = nj_maxiter s /\ Forall (off_target (nj_eps s) p) tr /\
     ((0 < nj_maxiter s)%nat -> within (nj_min s) (nj_max s) q)) /\
  (code = E_NOT_UP_TO_DATE <-> nj_nj s <> ch_nj c) /\
  (code = E_SIZE_MISMATCH <-> nj_nj s = ch_nj c /\
     ~ (length q0 = nj_nj s /\ length qo = nj_nj s /\ length (nj_min s) = nj_nj s /\ length (nj_max s) = nj_nj s)) /\
  (code = E_NOT_UP_TO_DATE \/ code = E_SIZE_MISMATCH -> tr = [] /\ q = qo) /\
  (code = E_IK_FKSOLVERPOS_FAILED -> exists tr0 rc f, tr = tr0 ++ [FkCall q rc f] /\ (rc < 0)%Z) /\
  (code = E_IKSOLVERVEL_FAILED -> exists tr0 t rc dq, tr = tr0 ++ [IkCall q t rc dq] /\ (rc < 0)%Z) /\
  In code [E_NOERROR; E_MAX_ITERATIONS_EXCEEDED; E_NOT_UP_TO_DATE; E_SIZE_MISMATCH; E_IK_FKSOLVERPOS_FAILED; E_IKSOLVERVEL_FAILED].
Proof. exact (@nrjl_call). Qed.
Print Assumptions C47_call.

Theorem C47_log_is_faithful : forall (W : Type) (fk : W -> list R -> outcome (Z * Frame * W)) (ikv : W -> list R -> Twist -> list R -> outcome (Z * list R * W)) c s w q0 p qo,
  erase4 (nrjl_CartToJnt (record_fk fk) (record_ik ikv) c s w q0 p qo) = nrjl_CartToJnt fk ikv c s (fst w) q0 p qo.
Proof. exact (@nrjl_erase). Qed.
Print Assumptions C47_log_is_faithful.

Theorem C47_success : forall (W : Type) (fk : W -> list R -> outcome (Z * Frame * W)) (ikv : W -> list R -> Twist -> list R -> outcome (Z * list R * W)) c s w q0 p qo q s' w',
  chain_ok c -> rigid p -> nj_eps s <= / 2 -> fk_correct c fk ->
  nrjl_CartToJnt fk ikv c s w q0 p qo = Ret (E_NOERROR, q, s', w') ->
  length q = ch_nj c /\ pose_within (nj_eps s) (tip_frame c q (length (ch_segs c))) p /\
  (q = q0 \/ within (nj_min s) (nj_max s) q) /\ nj_error s' = E_NOERROR.
Proof. exact (@nrjl_success). Qed.
Print Assumptions C47_success.

Theorem C47_terminates : forall (W : Type) (fk : W -> list R -> outcome (Z * Frame * W)) (ikv : W -> list R -> Twist -> list R -> outcome (Z * list R * W)) c s w q0 p qo,
  inner_total (nj_nj s) fk ikv ->
  exists r, nrjl_CartToJnt fk ikv c s w q0 p qo = Ret r.
Proof. exact (@nrjl_total). Qed.
Print Assumptions C47_terminates.

Theorem C47_more_iterations : forall (W : Type) (fk : W -> list R -> outcome (Z * Frame * W)) (ikv : W -> list R -> Twist -> list R -> outcome (Z * list R * W)) c s s2 w q0 p qo q s' w',
  nj_nj s2 = nj_nj s -> nj_min s2 = nj_min s -> nj_max s2 = nj_max s -> nj_delta s2 = nj_delta s -> nj_eps s2 = nj_eps s ->
  (nj_maxiter s <= nj_maxiter s2)%nat ->
  nrjl_CartToJnt fk ikv c s w q0 p qo = Ret (E_NOERROR, q, s', w') ->
  exists s2', nrjl_CartToJnt fk ikv c s2 w q0 p qo = Ret (E_NOERROR, q, s2', w').
Proof. exact (@nrjl_monotone). Qed.
Print Assumptions C47_more_iterations.

Theorem C47_fk_solver : forall c,
  chain_wf c -> fk_correct c (kdl_fk c).
Proof. exact (@kdl_fk_correct). Qed.
Print Assumptions C47_fk_solver.

(** A run that meets the hypotheses: a slide sent to -1 within [-10,10]. *)
Theorem C47_example : exists s', nrjl_CartToJnt (kdl_fk slide) slide_ik slide
     (nrjl_make slide [-10] [10] 2 (1 / 100)) tt [0] (at_x (-1)) [0] = Ret (E_NOERROR, [-1], s', tt).
Proof. exact (@limits_reach). Qed.
Print Assumptions C47_example.

(** The constructor without limits forbids negative joint positions. *)
Theorem C47_no_limits_refuted : forall maxiter eps, 0 < eps <= 1 ->
  (exists q s', nrjl_CartToJnt (kdl_fk slide) slide_ik slide (nrjl_make_nolimits slide maxiter eps) tt [0] (at_x (-1)) [0]
     = Ret (E_MAX_ITERATIONS_EXCEEDED, q, s', tt)) /\
  pose_within eps (tip_frame slide [-1] 1) (at_x (-1)).
Proof. exact (@nolimits_forbids_negative). Qed.
Print Assumptions C47_no_limits_refuted.

(** A converged start outside the limits is a success outside the limits. *)
Theorem C47_within_limits_refuted : exists s', nrjl_CartToJnt (kdl_fk slide) slide_ik slide
     (nrjl_make slide [0] [1] 5 (1 / 100)) tt [2] (at_x 2) [0] = Ret (E_NOERROR, [2], s', tt) /\ ~ within [0] [1] [2].
Proof. exact (@start_outside_limits). Qed.
Print Assumptions C47_within_limits_refuted.


(** ** TreeIkSolverPos_NR_JL *)
Theorem C47_tree_call : forall (W : Type) (tfk : W -> list R -> string -> Frame -> outcome (Frame * W)) (tikv : W -> list R -> dict Twist -> list R -> outcome (R * list R * W)) P nj pose s w q0 p code q s' w' tr,
  tfk_correct P nj pose tfk -> NoDup (map fst p) -> (forall k, In k (map fst p) -> P k) ->
  length q0 = nj -> length (tn_min s) = nj -> length (tn_max s) = nj -> same_keys (tn_frames s) (tn_twists s) ->
  tnrjl_CartToJnt (record_tfk tfk) (record_tik tikv) s (w, []) q0 p = Ret (code, q, s', (w', tr)) ->
  same_keys (tn_frames s') (tn_twists s') /\ (forall k, dict_find (tn_frames s') k = None <-> dict_find (tn_frames s) k = None) /\
  (tik_calls tr <= tn_maxiter s)%nat /\ tfk_calls tr = (length p * tik_calls tr)%nat /\
  (~ all_known p (tn_frames s) -> code = -2 /\ q = q0 /\ tr = [] /\ s' = s) /\
  (all_known p (tn_frames s) ->
     (q = q0 /\ (tik_calls tr <= 1)%nat \/ in_box (tn_min s) (tn_max s) q) /\
     ((code < tn_eps s /\ exists tr0 ts dq, tr = tr0 ++ [TIkCall q ts code dq] /\ asked (fun t => t) pose q p (tn_twists s) ts /\
         Forall (above (tn_eps s)) tr0) \/
      (code = -3 /\ tik_calls tr = tn_maxiter s /\ Forall (above (tn_eps s)) tr))).
Proof. exact (@tnrjl_call). Qed.
Print Assumptions C47_tree_call.

Theorem C47_tree_log_is_faithful : forall (W : Type) (tfk : W -> list R -> string -> Frame -> outcome (Frame * W)) (tikv : W -> list R -> dict Twist -> list R -> outcome (R * list R * W)) s w q0 p,
  tnrjl_CartToJnt tfk tikv s (fst w) q0 p = forget (tnrjl_CartToJnt (record_tfk tfk) (record_tik tikv) s w q0 p).
Proof. exact (@tnrjl_forget). Qed.
Print Assumptions C47_tree_log_is_faithful.

Theorem C47_tree_terminates : forall (W : Type) (tfk : W -> list R -> string -> Frame -> outcome (Frame * W)) (tikv : W -> list R -> dict Twist -> list R -> outcome (R * list R * W)) nj s w q0 p,
  tinner_total tfk tikv nj -> length (tn_min s) = nj -> length (tn_max s) = nj -> length q0 = nj ->
  same_keys (tn_frames s) (tn_twists s) -> exists r, tnrjl_CartToJnt tfk tikv s w q0 p = Ret r.
Proof. exact (@tnrjl_total). Qed.
Print Assumptions C47_tree_terminates.

Theorem C47_tree_endpoints : forall nj endpoints lo hi n eps,
  let s := tnrjl_make nj endpoints lo hi n eps in
  same_keys (tn_frames s) (tn_twists s) /\ forall k, dict_find (tn_frames s) k = None <-> ~ In k endpoints.
Proof. exact (@tnrjl_make_keys). Qed.
Print Assumptions C47_tree_endpoints.

Theorem C47_tree_fk_solver : forall t st,
  reachable t -> treefk_make t = Ret st -> (0 < tr_nj t)%nat ->
  exists pose, tfk_correct (fun k => tfind t k <> None) (tr_nj t) pose (kdl_tfk st) /\
    forall q k, length q = tr_nj t -> tfind t k <> None -> tree_at st q k (pose q k).
Proof. exact (@kdl_tfk_correct). Qed.
Print Assumptions C47_tree_fk_solver.

(** Endpoints of an earlier call that are not requested any more still move the joints. *)
Theorem C47_tree_only_requested_endpoints_refuted : exists s1 s2,
  tnrjl_CartToJnt sled_fk sled_ik tn0 tt [0] [("a"%string, at_x 1)] = Ret (-3, [1], s1, tt) /\
  sled [1] "b" = at_x 1 /\
  tnrjl_CartToJnt sled_fk sled_ik s1 tt [1] [("b"%string, at_x 1)] = Ret (-3, [2], s2, tt).
Proof. exact (@tnrjl_stale). Qed.
Print Assumptions C47_tree_only_requested_endpoints_refuted.


(** * C48: ChainIkSolverPos_NR *)
Theorem C48_call : forall (W : Type) (fk : W -> list R -> outcome (Z * Frame * W)) (ikv : W -> list R -> Twist -> list R -> outcome (Z * list R * W)) c s w q0 p qo code q s' w' tr,
  nr_CartToJnt (record_fk fk) (record_ik ikv) c s (w, []) q0 p qo = Ret (code, q, s', (w', tr)) ->
  (ik_calls tr <= nr_maxiter s)%nat /\ (fk_calls tr <= nr_maxiter s)%nat /\
  ((0 <= code)%Z -> exists tr0 qp rc f rc2 dq,
        tr = tr0 ++ [FkCall qp rc f; IkCall qp (f_diff f p 1) rc2 dq] /\ (0 <= rc)%Z /\ (0 <= rc2)%Z /\
        t_Equal (f_diff f p 1) t_zero (nr_eps s) = true /\ array_sum qp dq q /\
        code = (if (0 <? rc2)%Z then E_DEGRADED else E_NOERROR) /\ Forall (off_target (nr_eps s) p) tr0) /\
  (code = E_MAX_ITERATIONS_EXCEEDED -> ik_calls tr = nr_maxiter s /\ Forall (off_target (nr_eps s) p) tr) /\
  (code = E_NOT_UP_TO_DATE <-> nr_nj s <> ch_nj c) /\
  (code = E_SIZE_MISMATCH <-> nr_nj s = ch_nj c /\ ~ (length q0 = nr_nj s /\ length qo = nr_nj s)) /\
  (code = E_NOT_UP_TO_DATE \/ code = E_SIZE_MISMATCH -> tr = [] /\ q = qo) /\
  ((code < 0)%Z -> nr_error s' = code) /\ ((0 <= code)%Z -> nr_error s' = nr_error s) /\
  In code [E_NOERROR; E_DEGRADED; E_MAX_ITERATIONS_EXCEEDED; E_NOT_UP_TO_DATE; E_SIZE_MISMATCH; E_IK_FKSOLVERPOS_FAILED; E_IKSOLVER_FAILED].
Proof. exact (@nr_call). Qed.
Print Assumptions C48_call.

Theorem C48_log_is_faithful : forall (W : Type) (fk : W -> list R -> outcome (Z * Frame * W)) (ikv : W -> list R -> Twist -> list R -> outcome (Z * list R * W)) c s w q0 p qo,
  erase4 (nr_CartToJnt (record_fk fk) (record_ik ikv) c s w q0 p qo) = nr_CartToJnt fk ikv c s (fst w) q0 p qo.
Proof. exact (@nr_erase). Qed.
Print Assumptions C48_log_is_faithful.

(** Success leaves the code of an earlier failure in getError(). *)
Theorem C48_getError_refuted : let s0 := nr_make slide 1 (1 / 100) in
  exists s1 s2 q1, nr_CartToJnt (kdl_fk slide) slide_ik slide s0 tt [5] (at_x 0) [0] = Ret (E_MAX_ITERATIONS_EXCEEDED, q1, s1, tt) /\
    nr_CartToJnt (kdl_fk slide) slide_ik slide s1 tt [0] (at_x 0) [0] = Ret (E_NOERROR, [0], s2, tt) /\
    nr_error s2 = E_MAX_ITERATIONS_EXCEEDED.
Proof. exact (@nr_stale_error). Qed.
Print Assumptions C48_getError_refuted.

(** The joints returned with success need not be near the target: they are one step past the tested ones. *)
Theorem C48_success_pose_refuted : exists s', nr_CartToJnt (kdl_fk slide) pushing_ik slide (nr_make slide 5 (1 / 100)) tt [0] (at_x 0) [0]
   = Ret (E_NOERROR, [1], s', tt) /\ ~ pose_within (1 / 100) (tip_frame slide [1] 1) (at_x 0).
Proof. exact (@nr_untested). Qed.
Print Assumptions C48_success_pose_refuted.


(** * C49: TreeIkSolverPos_Online *)
Theorem C49_call : forall (W : Type) (tfk : W -> list R -> string -> Frame -> outcome (Frame * W)) (tikv : W -> list R -> dict Twist -> list R -> outcome (R * list R * W)) P nj pose s w q0 p code q s' w' tr,
  tfk_correct P nj pose tfk -> NoDup (map fst p) -> (forall k, In k (map fst p) -> P k) ->
  length q0 = nj -> same_keys (on_frames s) (on_twists s) -> (forall d, In d (on_dmax s) -> 0 < d) ->
  online_CartToJnt (record_tfk tfk) (record_tik tikv) s (w, []) q0 p = Ret (code, q, s', (w', tr)) ->
  same_keys (on_frames s') (on_twists s') /\ (forall k, dict_find (on_frames s') k = None <-> dict_find (on_frames s) k = None) /\
  (~ all_known p (on_frames s) -> code = -2 /\ q = q0 /\ tr = [] /\ s' = s) /\
  (all_known p (on_frames s) ->
     exists fks ts res qd, tr = fks ++ [TIkCall q0 ts res qd] /\
       Forall2 (fun e c => exists f, c = TFkCall q0 (fst e) f) p fks /\
       asked (enforceCartVelLimits (on_trans s) (on_rot s)) pose q0 p (on_twists s) ts /\
       (res < 0 -> code = res /\ q = q0) /\
       (0 <= res -> ~ (length (on_min s) = nj /\ length (on_max s) = nj /\ length (on_dmax s) = nj) -> code = -1 /\ q = q0) /\
       (0 <= res -> length (on_min s) = nj /\ length (on_max s) = nj /\ length (on_dmax s) = nj ->
          code = res /\ exists qd' qs, slowed (on_dmax s) qd qd' /\ array_sum q0 qd' qs /\
            nearest_in_box (on_min s) (on_max s) qs q)).
Proof. exact (@online_call). Qed.
Print Assumptions C49_call.

Theorem C49_log_is_faithful : forall (W : Type) (tfk : W -> list R -> string -> Frame -> outcome (Frame * W)) (tikv : W -> list R -> dict Twist -> list R -> outcome (R * list R * W)) s w q0 p,
  online_CartToJnt tfk tikv s (fst w) q0 p = forget (online_CartToJnt (record_tfk tfk) (record_tik tikv) s w q0 p).
Proof. exact (@online_forget). Qed.
Print Assumptions C49_log_is_faithful.

Theorem C49_limits : forall (W : Type) (tfk : W -> list R -> string -> Frame -> outcome (Frame * W)) (tikv : W -> list R -> dict Twist -> list R -> outcome (R * list R * W)) s w q0 p code q s' w' nj,
  length q0 = nj -> length (on_min s) = nj -> length (on_max s) = nj -> length (on_dmax s) = nj ->
  (forall d, In d (on_dmax s) -> 0 < d) ->
  online_CartToJnt tfk tikv s w q0 p = Ret (code, q, s', w') ->
  q = q0 \/ in_box (on_min s) (on_max s) q /\
    forall i, (i < nj)%nat -> nth i (on_min s) 0 <= nth i q0 0 <= nth i (on_max s) 0 ->
      Rabs (nth i q 0 - nth i q0 0) <= nth i (on_dmax s) 0.
Proof. exact (@online_limits). Qed.
Print Assumptions C49_limits.

Theorem C49_terminates : forall (W : Type) (tfk : W -> list R -> string -> Frame -> outcome (Frame * W)) (tikv : W -> list R -> dict Twist -> list R -> outcome (R * list R * W)) nj s w q0 p,
  tinner_total tfk tikv nj -> length q0 = nj ->
  (forall d, In d (on_dmax s) -> 0 < d) ->
  same_keys (on_frames s) (on_twists s) -> exists r, online_CartToJnt tfk tikv s w q0 p = Ret r.
Proof. exact (@online_total). Qed.
Print Assumptions C49_terminates.

Theorem C49_endpoints : forall nj endpoints lo hi dm tm rm,
  let s := online_make nj endpoints lo hi dm tm rm in
  same_keys (on_frames s) (on_twists s) /\ forall k, dict_find (on_frames s) k = None <-> ~ In k endpoints.
Proof. exact (@online_make_keys). Qed.
Print Assumptions C49_endpoints.

Theorem C49_joint_velocity : forall qdot dmax,
  (length qdot <= length dmax)%nat ->
  (forall i, (i < length qdot)%nat -> 0 < nth i dmax 0) ->
  exists qd, enforceJointVelLimits qdot dmax = Ret qd /\ slowed dmax qdot qd.
Proof. exact (@enforce_slowed). Qed.
Print Assumptions C49_joint_velocity.

Theorem C49_cartesian_velocity : forall tmax rmax t,
  0 <= tmax -> 0 <= rmax ->
  exists k, 0 <= k /\ enforceCartVelLimits tmax rmax t = mkT (v_scale (tvel t) k) (v_scale (trot t) k) /\
    (euclid_norm (tvel t) <= tmax -> euclid_norm (trot t) <= rmax -> k = 1) /\
    ((tmax < euclid_norm (tvel t) \/ rmax < euclid_norm (trot t)) -> euclid_norm (trot t) < euclid_norm (tvel t) -> k * euclid_norm (tvel t) = tmax) /\
    ((tmax < euclid_norm (tvel t) \/ rmax < euclid_norm (trot t)) -> euclid_norm (tvel t) < euclid_norm (trot t) -> k * euclid_norm (trot t) = rmax).
Proof. exact (@enforce_cart). Qed.
Print Assumptions C49_cartesian_velocity.

Theorem C49_cartesian_velocity_equal_limits : forall m t,
  0 < m -> euclid_norm (tvel t) <> euclid_norm (trot t) ->
  let t' := enforceCartVelLimits m m t in
  euclid_norm (tvel t') <= m /\ euclid_norm (trot t') <= m /\
  exists k, 0 < k <= 1 /\ t' = mkT (v_scale (tvel t) k) (v_scale (trot t) k) /\
    (k = 1 \/ euclid_norm (tvel t') = m \/ euclid_norm (trot t') = m).
Proof. exact (@enforce_cart_bounded). Qed.
Print Assumptions C49_cartesian_velocity_equal_limits.

(** Limiting can speed the motion up, and does nothing for equal norms. *)
Theorem C49_cartesian_limit_refuted : let t := mkT (mkV 1 0 0) (mkV (9 / 10) 0 0) in
  euclid_norm (trot t) = 9 / 10 /\ euclid_norm (trot (enforceCartVelLimits 10 (5 / 10) t)) = 9.
Proof. exact (@cart_speeds_up). Qed.
Print Assumptions C49_cartesian_limit_refuted.

Theorem C49_cartesian_limit_equal_refuted : forall v tmax rmax, 0 <= v ->
  enforceCartVelLimits tmax rmax (mkT (mkV v 0 0) (mkV v 0 0)) = mkT (mkV v 0 0) (mkV v 0 0).
Proof. exact (@cart_unlimited). Qed.
Print Assumptions C49_cartesian_limit_equal_refuted.

Theorem C49_only_requested_endpoints_refuted : exists s1 s2 r,
  online_CartToJnt sled_fk sled_ik online0 tt [0] [("a"%string, at_x 1)] = Ret (1, [1], s1, tt) /\
  sled [1] "b" = at_x 1 /\
  online_CartToJnt sled_fk sled_ik s1 tt [1] [("b"%string, at_x 1)] = Ret (r, [2], s2, tt).
Proof. exact (@online_stale). Qed.
Print Assumptions C49_only_requested_endpoints_refuted.

