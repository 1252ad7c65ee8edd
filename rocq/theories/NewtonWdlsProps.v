(** Theorems about the convergence of the position solvers with ChainIkSolverVel_wdls inside (C70). *)
From Coq Require Import Reals String List ZArith Bool.
From Verif Require Import FramesModel FramesSpec Outcome InertiaModel DualModel KinModel KinSpec JntModel LinModel LinSpec IkModel IkSpec VelIkModel VelIkSpec VelIkWitness GivensSpec
  NewtonSpec NewtonWdls NewtonWdlsWitness.
Import ListNotations.
Local Open Scope list_scope.
Local Open Scope R_scope.

(** Any weights and damping: around every position where the weighted Jacobian has full row rank (its singular values are above the solver's eps),
    with a symmetric weight on the task space that maps no twist to zero. *)
Theorem C70_nr_wdls_converges : forall svd c q0 rho s0 low beta,
  chain_ok c -> length q0 = ch_nj c -> (6 <= ch_nj c)%nat -> (Z.of_nat (ch_nj c) < 2 ^ 32)%Z -> 0 < rho -> 1 <= beta ->
  wdls_clean s0 -> wdls_shapes s0 -> wd_nj s0 = ch_nj c -> 0 < wd_eps s0 -> wd_eps s0 * wd_eps s0 < low ->
  symmetric 6 (mentry (wd_ts s0)) -> (forall y, (forall r, (r < 6)%nat -> sumn 6 (fun k => mentry (wd_ts s0) r k * y k) = 0) -> forall r, (r < 6)%nat -> y r = 0) ->
  stretches (ch_nj c) 6 low (transposed (mentry (weighted_jac c q0 s0))) ->
  (forall q, joints_within rho q q0 -> let d := svd (wd_maxiter s0) (weighted_jac c q s0) in
     dc_rc d = 0%Z /\ svd_of 6 (ch_nj c) (mentry (weighted_jac c q s0)) d /\ svd_sorted 6 (ch_nj c) d) ->
  exists delta, 0 < delta /\ forall m maxiter epsp q g qo,
    0 < epsp <= / 2 -> 1 <= beta ^ m * epsp -> ((m + 1) * (m + 1) <= maxiter)%nat -> length qo = ch_nj c ->
    joints_within delta q q0 -> rigid g -> f_close (tip c q0) g delta ->
    exists q' s' w', nr_CartToJnt (own_fk c) (wdls_CartToJnt svd c) c (nr_make c maxiter epsp) s0 q g qo = Ret (E_NOERROR, q', s', w') /\
      joints_within rho q' q0 /\ pose_within epsp (tip c q') g.
Proof. exact (@nr_wdls). Qed.
Print Assumptions C70_nr_wdls_converges.

Theorem C70_nrjl_wdls_converges : forall svd c q0 rho s0 low beta,
  chain_ok c -> length q0 = ch_nj c -> (6 <= ch_nj c)%nat -> (Z.of_nat (ch_nj c) < 2 ^ 32)%Z -> 0 < rho -> 1 <= beta ->
  wdls_clean s0 -> wdls_shapes s0 -> wd_nj s0 = ch_nj c -> 0 < wd_eps s0 -> wd_eps s0 * wd_eps s0 < low ->
  symmetric 6 (mentry (wd_ts s0)) -> (forall y, (forall r, (r < 6)%nat -> sumn 6 (fun k => mentry (wd_ts s0) r k * y k) = 0) -> forall r, (r < 6)%nat -> y r = 0) ->
  stretches (ch_nj c) 6 low (transposed (mentry (weighted_jac c q0 s0))) ->
  (forall q, joints_within rho q q0 -> let d := svd (wd_maxiter s0) (weighted_jac c q s0) in
     dc_rc d = 0%Z /\ svd_of 6 (ch_nj c) (mentry (weighted_jac c q s0)) d /\ svd_sorted 6 (ch_nj c) d) ->
  exists delta, 0 < delta /\ forall m maxiter epsp lo hi q g qo,
    0 < epsp <= / 2 -> 1 <= beta ^ m * epsp -> ((m + 1) * (m + 1) <= maxiter)%nat -> length qo = ch_nj c ->
    length lo = ch_nj c -> length hi = ch_nj c -> (forall i, (i < ch_nj c)%nat -> nth i lo 0 + rho <= nth i q0 0 <= nth i hi 0 - rho) ->
    joints_within delta q q0 -> rigid g -> f_close (tip c q0) g delta ->
    exists q' s' w', nrjl_CartToJnt (own_fk c) (wdls_CartToJnt svd c) c (nrjl_make c lo hi maxiter epsp) s0 q g qo = Ret (E_NOERROR, q', s', w') /\
      joints_within rho q' q0 /\ pose_within epsp (tip c q') g.
Proof. exact (@nrjl_wdls). Qed.
Print Assumptions C70_nrjl_wdls_converges.

(** A gantry with a wrist, weights one and damping 1/10, meets the hypotheses. *)
Theorem C70_wdls_example : exists delta, 0 < delta /\ forall q g,
  joints_within delta q home -> rigid g -> f_close (tip (gantry 1) home) g delta ->
  (exists q' s' w', nr_CartToJnt (own_fk (gantry 1)) (wdls_CartToJnt wrist_sorted (gantry 1)) (gantry 1) (nr_make (gantry 1) 441 (/ 1048576))
      damped q g home = Ret (E_NOERROR, q', s', w') /\ pose_within (/ 1048576) (tip (gantry 1) q') g) /\
  (exists q' s' w', nrjl_CartToJnt (own_fk (gantry 1)) (wdls_CartToJnt wrist_sorted (gantry 1)) (gantry 1) (nrjl_make (gantry 1) [-2;-2;-2;-2;-2;-2] [2;2;2;2;2;2] 441 (/ 1048576))
      damped q g home = Ret (E_NOERROR, q', s', w') /\ pose_within (/ 1048576) (tip (gantry 1) q') g).
Proof. exact (@gantry_damped). Qed.
Print Assumptions C70_wdls_example.
