(** Theorems about where the iterative position solvers converge (C70). *)
From Coq Require Import Reals String List ZArith Bool.
From Verif Require Import FramesModel FramesSpec Outcome InertiaModel DualModel KinModel KinSpec JntModel LinModel LinSpec IkModel IkSpec VelIkModel VelIkSpec VelIkWitness GivensSpec
  NewtonSpec NewtonThms NewtonWitness.
Import ListNotations.
Local Open Scope list_scope.
Local Open Scope R_scope.

(** ChainIkSolverPos_NR with any velocity solver that is accurate around a position: there is a neighbourhood of that position and of its pose
    from which every call with a target in it succeeds, with a number of iterations that grows like the square of log(1/eps). *)
Theorem C70_nr_converges : forall (W : Type) (fk : W -> list R -> outcome (Z * Frame * W)) (ikv : W -> list R -> Twist -> list R -> outcome (Z * list R * W)) Inv c q0 rho B r beta,
  chain_ok c -> length q0 = ch_nj c -> 0 < rho -> 0 <= B -> 1 <= beta -> 0 <= r -> 1296 * beta * r <= 1 ->
  forward_solver c Inv fk -> velocity_solver c q0 rho B r Inv ikv ->
  exists delta, 0 < delta /\ forall s m w q g qo,
    0 < nr_eps s <= / 2 -> 1 <= beta ^ m * nr_eps s -> ((m + 1) * (m + 1) <= nr_maxiter s)%nat ->
    nr_nj s = ch_nj c -> length (nr_delta s) = ch_nj c -> length qo = ch_nj c -> Inv w ->
    joints_within delta q q0 -> rigid g -> f_close (tip c q0) g delta ->
    exists q' s' w', nr_CartToJnt fk ikv c s w q g qo = Ret (E_NOERROR, q', s', w') /\ Inv w' /\
      joints_within rho q' q0 /\ pose_within (nr_eps s) (tip c q') g.
Proof. exact (@nr_local). Qed.
Print Assumptions C70_nr_converges.

(** ChainIkSolverPos_NR_JL, when the position is inside the limits. *)
Theorem C70_nrjl_converges : forall (W : Type) (fk : W -> list R -> outcome (Z * Frame * W)) (ikv : W -> list R -> Twist -> list R -> outcome (Z * list R * W)) Inv c q0 rho B r beta,
  chain_ok c -> length q0 = ch_nj c -> 0 < rho -> 0 <= B -> 1 <= beta -> 0 <= r -> 1296 * beta * r <= 1 ->
  forward_solver c Inv fk -> velocity_solver c q0 rho B r Inv ikv ->
  exists delta, 0 < delta /\ forall s m w q g qo,
    0 < nj_eps s <= / 2 -> 1 <= beta ^ m * nj_eps s -> ((m + 1) * (m + 1) <= nj_maxiter s)%nat ->
    nj_nj s = ch_nj c -> length (nj_delta s) = ch_nj c -> length qo = ch_nj c -> Inv w ->
    length (nj_min s) = ch_nj c -> length (nj_max s) = ch_nj c ->
    (forall i, (i < ch_nj c)%nat -> nth i (nj_min s) 0 + rho <= nth i q0 0 <= nth i (nj_max s) 0 - rho) ->
    joints_within delta q q0 -> rigid g -> f_close (tip c q0) g delta ->
    exists q' s' w', nrjl_CartToJnt fk ikv c s w q g qo = Ret (E_NOERROR, q', s', w') /\ Inv w' /\
      joints_within rho q' q0 /\ pose_within (nj_eps s) (tip c q') g.
Proof. exact (@nrjl_local). Qed.
Print Assumptions C70_nrjl_converges.

(** The same with the library's own forward solver and pseudo-inverse, around every position where the Jacobian has full row rank. *)
Theorem C70_nr_pinv_converges : forall svd c q0 rho eps k low beta,
  chain_ok c -> length q0 = ch_nj c -> (Z.of_nat (ch_nj c) < 2 ^ 32)%Z -> 0 < rho -> 0 < eps -> eps * eps < low -> 1 <= beta ->
  stretches (ch_nj c) 6 low (transposed (tip_jacobian c q0)) ->
  (forall q, joints_within rho q q0 -> let d := svd k (mkM 6 (ch_nj c) (tip_jacobian c q)) in dc_rc d = 0%Z /\ svd_of 6 (ch_nj c) (tip_jacobian c q) d) ->
  exists delta, 0 < delta /\ forall m maxiter epsp q g qo,
    0 < epsp <= / 2 -> 1 <= beta ^ m * epsp -> ((m + 1) * (m + 1) <= maxiter)%nat -> length qo = ch_nj c ->
    joints_within delta q q0 -> rigid g -> f_close (tip c q0) g delta ->
    exists q' s' w', nr_CartToJnt (own_fk c) (pinv_CartToJnt svd c) c (nr_make c maxiter epsp) (pinv_make c eps k) q g qo = Ret (E_NOERROR, q', s', w') /\
      joints_within rho q' q0 /\ pose_within epsp (tip c q') g.
Proof. exact (@nr_pinv). Qed.
Print Assumptions C70_nr_pinv_converges.

Theorem C70_nrjl_pinv_converges : forall svd c q0 rho eps k low beta,
  chain_ok c -> length q0 = ch_nj c -> (Z.of_nat (ch_nj c) < 2 ^ 32)%Z -> 0 < rho -> 0 < eps -> eps * eps < low -> 1 <= beta ->
  stretches (ch_nj c) 6 low (transposed (tip_jacobian c q0)) ->
  (forall q, joints_within rho q q0 -> let d := svd k (mkM 6 (ch_nj c) (tip_jacobian c q)) in dc_rc d = 0%Z /\ svd_of 6 (ch_nj c) (tip_jacobian c q) d) ->
  exists delta, 0 < delta /\ forall m maxiter epsp lo hi q g qo,
    0 < epsp <= / 2 -> 1 <= beta ^ m * epsp -> ((m + 1) * (m + 1) <= maxiter)%nat -> length qo = ch_nj c ->
    length lo = ch_nj c -> length hi = ch_nj c -> (forall i, (i < ch_nj c)%nat -> nth i lo 0 + rho <= nth i q0 0 <= nth i hi 0 - rho) ->
    joints_within delta q q0 -> rigid g -> f_close (tip c q0) g delta ->
    exists q' s' w', nrjl_CartToJnt (own_fk c) (pinv_CartToJnt svd c) c (nrjl_make c lo hi maxiter epsp) (pinv_make c eps k) q g qo = Ret (E_NOERROR, q', s', w') /\
      joints_within rho q' q0 /\ pose_within epsp (tip c q') g.
Proof. exact (@nrjl_pinv). Qed.
Print Assumptions C70_nrjl_pinv_converges.

(** A gantry with a wrist meets the hypotheses of the last two. *)
Theorem C70_converges_example : exists delta, 0 < delta /\ forall q g,
  joints_within delta q home -> rigid g -> f_close (tip (gantry 1) home) g delta ->
  (exists q' s' w', nr_CartToJnt (own_fk (gantry 1)) (pinv_CartToJnt wrist_svd (gantry 1)) (gantry 1) (nr_make (gantry 1) 441 (/ 1048576))
      (pinv_make (gantry 1) (1/1000) 150) q g home = Ret (E_NOERROR, q', s', w') /\ pose_within (/ 1048576) (tip (gantry 1) q') g) /\
  (exists q' s' w', nrjl_CartToJnt (own_fk (gantry 1)) (pinv_CartToJnt wrist_svd (gantry 1)) (gantry 1) (nrjl_make (gantry 1) [-2;-2;-2;-2;-2;-2] [2;2;2;2;2;2] 441 (/ 1048576))
      (pinv_make (gantry 1) (1/1000) 150) q g home = Ret (E_NOERROR, q', s', w') /\ pose_within (/ 1048576) (tip (gantry 1) q') g).
Proof. exact (@gantry_converges). Qed.
Print Assumptions C70_converges_example.

