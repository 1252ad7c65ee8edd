(** Theorems about ChainIkSolverVel_pinv together with the singular value routine it calls (C69).

    The arithmetic is exact except in the routine's convergence tests, which round with [rnd]. *)
From Coq Require Import Reals String List ZArith Bool.
From Flocq Require Import Core.
From Verif Require Import FramesModel Outcome KinModel KinSpec TreeModel LinModel LinSpec LmaSpec IkModel SvdModel SvdSpec SvdRound VelIkModel VelIkSpec VelIkWitness PinvModel PinvSpec PinvProofs PinvWitness.
Import ListNotations.
Local Open Scope list_scope.
Local Open Scope R_scope.

(** If the solver reports no error, every column was diagonalized in time and the misplaced
    parenthesis changed no decision, the joint velocity gives the wanted twist up to a relative
    error, and is no longer than any other that gives it, up to the same error. *)
Theorem C69_pinv_accurate : forall rnd tol S0 V0 T0 c s q v qdot,
  keeps_units rnd -> rounds_within rnd tol ->
  chain_ok c -> pinv_clean s -> 0 < pv_eps s -> (6 <= ch_nj c)%nat -> (Z.of_nat (ch_nj c) < 2 ^ 32)%Z ->
  pv_nj s = ch_nj c -> length q = ch_nj c -> length qdot = ch_nj c ->
  let n := ch_nj c in
  let J := tip_jacobian c q in
  let e := pinv_error n (pv_maxiter s) tol (pv_eps s) in
  let svd r := svd_HH_calculate r 6 n J S0 V0 T0 (pv_maxiter s) in
  exists rc d used code out s', svd rnd = Go (rc, d, used) /\
    pinv_CartToJnt (svd_HH_routine rnd S0 V0 T0) c s q v qdot = Ret (code, out, s') /\
    (code = E_SVD_FAILED <-> pv_maxiter s = 1%Z) /\
    (code = E_NOERROR -> svd (guarded rnd) = svd rnd -> converged n (pv_maxiter s) used ->
      misfit 6 n J (t_at v) out <= e * e * sumn 6 (fun r => t_at v r * t_at v r) /\
      forall y, length y = n -> (forall r, (r < 6)%nat -> image n J y r = t_at v r) ->
        norm2 n out <= (1 + e) * (1 + e) * norm2 n y).
Proof. exact (@pinv_accurate). Qed.
Print Assumptions C69_pinv_accurate.

(** Double rounding, the default parameters, six to ten joints: the relative error is below 10^-6. *)
Theorem C69_pinv_accurate_double : forall S0 V0 T0 c q v qdot,
  chain_ok c -> (6 <= ch_nj c <= 10)%nat -> length q = ch_nj c -> length qdot = ch_nj c ->
  let n := ch_nj c in
  let J := tip_jacobian c q in
  let svd r := svd_HH_calculate r 6 n J S0 V0 T0 150 in
  exists rc d used code out s', svd double = Go (rc, d, used) /\
    pinv_CartToJnt (svd_HH_routine double S0 V0 T0) c (pinv_make c (1 / 100000) 150) q v qdot = Ret (code, out, s') /\
    (code = E_NOERROR \/ code = E_CONVERGE_PINV_SINGULAR) /\
    (code = E_NOERROR -> svd (guarded double) = svd double -> converged n 150 used ->
      misfit 6 n J (t_at v) out <= / 10^12 * sumn 6 (fun r => t_at v r * t_at v r) /\
      forall y, length y = n -> (forall r, (r < 6)%nat -> image n J y r = t_at v r) ->
        norm2 n out <= (1 + / 10^6) * (1 + / 10^6) * norm2 n y).
Proof. exact (@pinv_accurate_double). Qed.
Print Assumptions C69_pinv_accurate_double.

(** A gantry meets the hypotheses. *)
Theorem C69_pinv_accurate_example : forall rnd S0 V0 T0 v,
  keeps_units rnd ->
  let c := gantry 1 in let s := pinv_make c (1 / 100000) 150 in
  chain_ok c /\ pinv_clean s /\ 0 < pv_eps s /\ (6 <= ch_nj c)%nat /\ (Z.of_nat (ch_nj c) < 2 ^ 32)%Z /\ pv_nj s = ch_nj c /\ length home = ch_nj c /\
  exists d used out s',
    svd_HH_calculate rnd 6 6 (tip_jacobian c home) S0 V0 T0 (pv_maxiter s) = Go (0%Z, d, used) /\
    svd_HH_calculate (guarded rnd) 6 6 (tip_jacobian c home) S0 V0 T0 (pv_maxiter s) = Go (0%Z, d, used) /\
    converged 6 (pv_maxiter s) used /\
    pinv_CartToJnt (svd_HH_routine rnd S0 V0 T0) c s home v home = Ret (E_NOERROR, out, s').
Proof. exact (@gantry_accurate). Qed.
Print Assumptions C69_pinv_accurate_example.

(** Without the condition the claim is false: a slide with ratio two carrying a hinge is asked to
    move the tip along x, which it can.  The solver reports no error, and its answer moves the tip
    the other way and turns it. *)
Theorem C69_pinv_accurate_refuted : forall rnd S0 V0 T0 eps maxiter,
  keeps_units rnd -> rnd 2 = 2 -> rnd (-1) = -1 -> 0 < eps <= 1 -> (2 <= maxiter)%Z ->
  let s := pinv_make bent_arm eps maxiter in let v := mkT (mkV 2 0 0) (mkV 0 0 0) in
  exists out s', pinv_CartToJnt (svd_HH_routine rnd S0 V0 T0) bent_arm s [0;0] v [0;0] = Ret (E_NOERROR, out, s') /\
    (forall r, (r < 6)%nat -> image 2 (tip_jacobian bent_arm [0;0]) [1;0] r = t_at v r) /\
    image 2 (tip_jacobian bent_arm [0;0]) out 0 < 0 /\ image 2 (tip_jacobian bent_arm [0;0]) out 5 = 1.
Proof. exact (@bent_wrong). Qed.
Print Assumptions C69_pinv_accurate_refuted.

Theorem C69_pinv_accurate_double_refuted : forall S0 V0 T0,
  let s := pinv_make bent_arm (1 / 100000) 150 in let v := mkT (mkV 2 0 0) (mkV 0 0 0) in
  exists out s', pinv_CartToJnt (svd_HH_routine double S0 V0 T0) bent_arm s [0;0] v [0;0] = Ret (E_NOERROR, out, s') /\
    (forall r, (r < 6)%nat -> image 2 (tip_jacobian bent_arm [0;0]) [1;0] r = t_at v r) /\
    image 2 (tip_jacobian bent_arm [0;0]) out 0 < 0 /\ image 2 (tip_jacobian bent_arm [0;0]) out 5 = 1.
Proof. exact (@bent_wrong_double). Qed.
Print Assumptions C69_pinv_accurate_double_refuted.

