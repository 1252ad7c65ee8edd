(** Property theorems for the Levenberg-Marquardt solver: C48 (second half).

    [svd] stands for Eigen's JacobiSVD; [svd_correct] says what the theorems need of it. *)
From Coq Require Import Reals List ZArith.
From Verif Require Import FramesModel FramesSpec Outcome InertiaModel DualModel KinModel KinSpec LinModel LinSpec IkSpec IkWitness
  LmaModel LmaSpec LmaProofs LmaProofs2 LmaWitness.
Import ListNotations.
Local Open Scope R_scope.

(** Every call returns; the error never grows; success is exactly "weighted error
    below eps"; the meaning of every code and diagnostic. *)
Theorem C48_lma_call : forall svd c s q_init goal q_out,
  chain_ok c -> svd_correct (ch_nj c) svd -> 0 < la_epsj s ->
  (la_nj s = ch_nj c -> lma_sized c s) ->
  exists code q s', lma_CartToJnt svd c s q_init goal q_out = Ret (code, q, s') /\
    la_error s' = code /\ la_nj s' = la_nj s /\ la_L s' = la_L s /\ la_maxiter s' = la_maxiter s /\ la_eps s' = la_eps s /\ la_epsj s' = la_epsj s /\
    (la_nj s = ch_nj c -> lma_sized c s') /\
    (code = E_NOT_UP_TO_DATE <-> la_nj s <> ch_nj c) /\
    (code = E_SIZE_MISMATCH <-> la_nj s = ch_nj c /\ ~ (length q_init = la_nj s /\ length q_out = la_nj s)) /\
    (code = E_NOT_UP_TO_DATE \/ code = E_SIZE_MISMATCH -> q = q_out) /\
    (la_nj s = ch_nj c -> length q_init = la_nj s -> length q_out = la_nj s ->
       length q = ch_nj c /\
       weighted_error (la_L s) c goal q <= weighted_error (la_L s) c goal q_init /\
       (code = E_NOERROR <-> weighted_error (la_L s) c goal q < la_eps s) /\
       (weighted_error (la_L s) c goal q_init < la_eps s -> q = q_init) /\
       (~ weighted_error (la_L s) c goal q_init < la_eps s -> code = E_NOERROR ->
          weighted_error (la_L s) c goal q < weighted_error (la_L s) c goal q_init) /\
       (la_iter s' <= la_maxiter s)%nat /\
       (~ weighted_error (la_L s) c goal q_init < la_eps s -> la_diff s' = weighted_error (la_L s) c goal q) /\
       (code <> E_MAX_ITERATIONS_EXCEEDED -> la_trans s' = norm3 (tvel (pose_error c goal q)) /\ la_rot s' = norm3 (trot (pose_error c goal q))) /\
       (code = E_MAX_ITERATIONS_EXCEEDED -> la_iter s' = la_maxiter s) /\
       (code = E_INCREMENT_JOINTS_TOO_SMALL -> exists lambda d, 0 < lambda /\
          damped_minimum (ch_nj c) (weighted_jacobian (la_L s) c q) (weigh (la_L s) (pose_error c goal q)) lambda d /\ max_norm d < la_epsj s) /\
       (code = E_GRADIENT_JOINTS_TOO_SMALL ->
          sumn (ch_nj c) (fun m => t_dot6 (nth m (weighted_jacobian (la_L s) c q) t_zero) (weigh (la_L s) (pose_error c goal q)) ^ 2) < la_epsj s ^ 2) /\
       In code [E_NOERROR; E_MAX_ITERATIONS_EXCEEDED; E_INCREMENT_JOINTS_TOO_SMALL; E_GRADIENT_JOINTS_TOO_SMALL]).
Proof. exact (@lma_call). Qed.
Print Assumptions C48_lma_call.

Theorem C48_lma_constructed : forall c L eps n epsj,
  lma_sized c (lma_make c L eps n epsj).
Proof. exact (@lma_make_sized). Qed.
Print Assumptions C48_lma_constructed.

Theorem C48_lma_updated : forall c s,
  lma_sized c (lma_update c s).
Proof. exact (@lma_update_sized). Qed.
Print Assumptions C48_lma_updated.

(** Its own forward kinematics and Jacobian are the chain's (C19, C22). *)
Theorem C48_lma_forward : forall c q roots tips,
  chain_wf c -> length q = ch_nj c -> length roots = ch_nj c -> length tips = ch_nj c ->
  exists roots' tips', lma_fwdpos c q roots tips = Ret (tip_frame c q (length (ch_segs c)), roots', tips') /\
    length roots' = ch_nj c /\ length tips' = ch_nj c /\
    forall k s, nth_error (ch_segs c) k = Some s -> moving s = true ->
      nth_error roots' (count_moving (firstn k (ch_segs c))) = Some (tip_frame c q k) /\
      nth_error tips' (count_moving (firstn k (ch_segs c))) = Some (tip_frame c q (S k)).
Proof. exact (@lma_fwd). Qed.
Print Assumptions C48_lma_forward.

Theorem C48_lma_jacobian : forall c q roots tips jac,
  chain_ok c -> length q = ch_nj c -> length jac = ch_nj c ->
  (forall k s, nth_error (ch_segs c) k = Some s -> moving s = true ->
      nth_error roots (count_moving (firstn k (ch_segs c))) = Some (tip_frame c q k) /\
      nth_error tips (count_moving (firstn k (ch_segs c))) = Some (tip_frame c q (S k))) ->
  lma_jacobian c q (tip_frame c q (length (ch_segs c))) roots tips jac = Ret (jacobian_at c (-1) q).
Proof. exact (@lma_jac). Qed.
Print Assumptions C48_lma_jacobian.

(** A decomposition that meets [svd_correct], and a successful run with it. *)
Theorem C48_lma_svd_example : svd_correct 1 svd1.
Proof. exact (@svd1_correct). Qed.
Print Assumptions C48_lma_svd_example.

Theorem C48_lma_example : exists s', lma_CartToJnt svd1 slide lma_demo [0] (at_x 1) [0] = Ret (E_NOERROR, [1 / 11], s') /\
  weighted_error (la_L lma_demo) slide (at_x 1) [1 / 11] = 10 / 11.
Proof. exact (@lma_reach). Qed.
Print Assumptions C48_lma_example.

(** Diagnostics that mean something else than usual. *)
Theorem C48_lma_lastDifference_refuted : exists s', lma_CartToJnt svd1 slide (lma_make slide half (1 / 10) 10 (1 / 1000)) [0] (at_x (1 / 100)) [0]
    = Ret (E_NOERROR, [0], s') /\ la_diff s' = 1 / 100 /\ weighted_error half slide (at_x (1 / 100)) [0] = 1 / 200.
Proof. exact (@lma_diff_unweighted). Qed.
Print Assumptions C48_lma_lastDifference_refuted.

Theorem C48_lma_lastTransDiff_refuted : exists s', lma_CartToJnt svd1 slide (lma_make slide half (1 / 10) 0 (1 / 1000)) [0] (at_x 1) [0]
    = Ret (E_MAX_ITERATIONS_EXCEEDED, [0], s') /\ la_trans s' = 1 / 2 /\ norm3 (tvel (pose_error slide (at_x 1) [0])) = 1.
Proof. exact (@lma_trans_weighted). Qed.
Print Assumptions C48_lma_lastTransDiff_refuted.

