(** Theorems about where the Levenberg-Marquardt position solver converges (C70, continued).

    [svd] stands for Eigen's JacobiSVD. *)
From Coq Require Import Reals String List ZArith Bool.
From Verif Require Import FramesModel FramesSpec Outcome InertiaModel DualModel KinModel KinSpec LinModel LinSpec IkModel IkSpec LmaModel LmaSpec VelIkModel VelIkSpec VelIkWitness GivensSpec
  NewtonSpec NewtonWitness LmaConv4 LmaConvWitness.
Import ListNotations.
Local Open Scope list_scope.
Local Open Scope R_scope.

(** Around every position where the Jacobian has full row rank there is a neighbourhood, of the position and of its pose, from which every call with a
    target in it succeeds.  [theta], [C] and [kappa] depend on the chain, the position and the weights: the weighted error shrinks at least by the factor [theta]
    in every step, eps must not be below [C] times the library's epsilon (rotations smaller than epsilon have no error in [diff]), and the
    threshold on joint increments must be small against eps. *)
Theorem C70_lma_converges : forall svd c q0 rho low L,
  chain_ok c -> length q0 = ch_nj c -> 0 < rho -> 0 < low -> stretches (ch_nj c) 6 low (transposed (tip_jacobian c q0)) ->
  (forall i, (i < 6)%nat -> t_at L i <> 0) ->
  (forall q, joints_within rho q q0 -> is_svd (ch_nj c) (weighted_jacobian L c q) (svd (weighted_jacobian L c q))) ->
  exists delta C kappa theta, 0 < delta /\ 0 < C /\ 0 < kappa /\ 0 < theta < 1 /\ forall s m q g qo,
    la_L s = L -> lma_sized c s -> C * kdl_epsilon <= la_eps s -> 0 < la_epsj s <= kappa * la_eps s ->
    theta ^ m <= la_eps s -> (m <= la_maxiter s)%nat -> length qo = ch_nj c ->
    joints_within delta q q0 -> rigid g -> f_close (tip c q0) g delta ->
    exists q' s', lma_CartToJnt svd c s q g qo = Ret (E_NOERROR, q', s') /\ joints_within rho q' q0 /\ weighted_error L c g q' < la_eps s /\ (la_iter s' <= m)%nat.
Proof. exact (@lma_converges). Qed.
Print Assumptions C70_lma_converges.

(** A gantry with a wrist meets the hypotheses. *)
Theorem C70_lma_example : exists delta C, 0 < delta /\ 0 < C /\ forall eps, C * kdl_epsilon <= eps ->
  exists epsj maxiter, 0 < epsj /\ forall q g, joints_within delta q home -> rigid g -> f_close (tip (gantry 1) home) g delta ->
    exists q' s', lma_CartToJnt wrist_columns (gantry 1) (lma_make (gantry 1) unit_weights eps maxiter epsj) q g home = Ret (E_NOERROR, q', s') /\
      weighted_error unit_weights (gantry 1) g q' < eps.
Proof. exact (@lma_gantry). Qed.
Print Assumptions C70_lma_example.
