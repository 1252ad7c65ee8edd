(** Property theorems of the dynamics solvers: C26 (dynamics part), C35, C36, C37,
    C39, C58, C59.  Doubles are real numbers. *)
From Coq Require Import Reals List ZArith.
From Verif Require Import FramesModel FramesSpec Outcome InertiaModel InertiaSpec DualModel KinModel KinSpec LinModel LinSpec DynModel DynSpec
  FdProofs DynProofs EnergyProofs DynWitness.
Import ListNotations.
Local Open Scope R_scope.

(** ** C35: RNE = H qdd + Coriolis + gravity - J^T f_ext, whatever the history of the two solver objects *)
Theorem C35_inverse_dynamics_affine : forall g c rs ds q qd qdd fext tau H C0 G0,
  chain_ok c -> inertias_symmetric c ->
  rne_reach g c rs -> rne_current c rs -> dyn_reach g c ds -> dyn_current c ds ->
  length q = ch_nj c -> length qd = ch_nj c -> length qdd = ch_nj c -> length tau = ch_nj c -> length fext = ch_ns c ->
  mrows H = ch_nj c -> mcols H = ch_nj c -> length C0 = ch_nj c -> length G0 = ch_nj c ->
  exists T M C G,
    rne_CartToJnt c rs q qd qdd fext tau = Ret (E_NOERROR, T) /\ length T = ch_nj c /\
    dyn_JntToMass c ds q H = Ret (E_NOERROR, M) /\ mrows M = ch_nj c /\ mcols M = ch_nj c /\
    dyn_JntToCoriolis c ds q qd C0 = Ret (E_NOERROR, C) /\ length C = ch_nj c /\
    dyn_JntToGravity c ds q G0 = Ret (E_NOERROR, G) /\ length G = ch_nj c /\
    forall j, (j < ch_nj c)%nat ->
      nth j T 0 = sumn (ch_nj c) (fun m => mentry M j m * nth m qdd 0) + nth j C 0 + nth j G 0 - external_torque c q fext j.
Proof. exact rne_affine. Qed.
Print Assumptions C35_inverse_dynamics_affine.

(** the zero-acceleration part: Coriolis + gravity - J^T f_ext is RNE at zero acceleration *)
Theorem C35_zero_acceleration_split : forall g c rs ds q qd qdd z fext tau tau0 H M T T0,
  chain_ok c -> inertias_symmetric c ->
  rne_reach g c rs -> rne_current c rs -> dyn_reach g c ds -> dyn_current c ds ->
  length q = ch_nj c -> length qd = ch_nj c -> length qdd = ch_nj c -> length z = ch_nj c -> (forall j, nth j z 0 = 0) ->
  length tau = ch_nj c -> length tau0 = ch_nj c -> length fext = ch_ns c -> mrows H = ch_nj c -> mcols H = ch_nj c ->
  dyn_JntToMass c ds q H = Ret (E_NOERROR, M) ->
  rne_CartToJnt c rs q qd qdd fext tau = Ret (E_NOERROR, T) -> rne_CartToJnt c rs q qd z fext tau0 = Ret (E_NOERROR, T0) ->
  forall j, (j < ch_nj c)%nat -> nth j T 0 = nth j T0 0 + sumn (ch_nj c) (fun m => mentry M j m * nth m qdd 0).
Proof. exact rne_slope. Qed.
Print Assumptions C35_zero_acceleration_split.

(** ** C36 *)
Theorem C36_mass_matrix_energy : forall g c ds q qd H,
  chain_ok c -> inertias_symmetric c -> dyn_reach g c ds -> dyn_current c ds ->
  length q = ch_nj c -> length qd = ch_nj c -> mrows H = ch_nj c -> mcols H = ch_nj c ->
  exists M, dyn_JntToMass c ds q H = Ret (E_NOERROR, M) /\ mrows M = ch_nj c /\ mcols M = ch_nj c /\
    symmetric (ch_nj c) (mentry M) /\ quadratic (ch_nj c) (mentry M) (fun j => nth j qd 0) = 2 * kinetic c q qd.
Proof. exact mass_energy. Qed.
Print Assumptions C36_mass_matrix_energy.

Theorem C36_positive_semidefinite : forall g c ds q H,
  chain_ok c -> inertias_symmetric c -> inertias_psd c -> (forall j, (j < ch_nj c)%nat -> 0 <= rotor c j) ->
  dyn_reach g c ds -> dyn_current c ds -> length q = ch_nj c -> mrows H = ch_nj c -> mcols H = ch_nj c ->
  exists M, dyn_JntToMass c ds q H = Ret (E_NOERROR, M) /\ symmetric (ch_nj c) (mentry M) /\
    (forall x, 0 <= quadratic (ch_nj c) (mentry M) x) /\
    ((forall j, (j < ch_nj c)%nat -> 0 < rotor c j) -> positive_definite (ch_nj c) (mentry M)).
Proof. exact psd_symmetric_mass. Qed.
Print Assumptions C36_positive_semidefinite.

(** ** C37: forward dynamics returns the one acceleration for which inverse dynamics gives the torques *)
Theorem C37_forward_inverts_inverse : forall g c0 c st rs q qd tau fext qdd tau0 ds H M,
  chain_ok c0 -> fd_reach g c0 c st -> same_counts c0 c -> fd_current c st -> inertias_symmetric c ->
  rne_reach g c rs -> rne_current c rs -> dyn_reach g c ds -> dyn_current c ds -> mrows H = ch_nj c -> mcols H = ch_nj c ->
  length q = ch_nj c -> length qd = ch_nj c -> length tau = ch_nj c -> length qdd = ch_nj c -> length fext = ch_ns c -> length tau0 = ch_nj c ->
  dyn_JntToMass c ds q H = Ret (E_NOERROR, M) -> pivots_ok (ch_nj c) (mentry M) ->
  exists out st', fd_CartToJnt c st q qd tau fext qdd = Ret (E_NOERROR, out, st') /\ length out = ch_nj c /\
    rne_CartToJnt c rs q qd out fext tau0 = Ret (E_NOERROR, tau) /\
    (forall a, length a = ch_nj c -> rne_CartToJnt c rs q qd a fext tau0 = Ret (E_NOERROR, tau) -> out = a).
Proof. exact fd_then_id. Qed.
Print Assumptions C37_forward_inverts_inverse.

(** every symmetric positive definite matrix has non-zero pivots (C36 gives when the mass matrix is one) *)
Theorem C37_definite_matrices_have_pivots : forall n a, symmetric n a -> positive_definite n a -> pivots_ok n a.
Proof. exact pd_pivots. Qed.
Print Assumptions C37_definite_matrices_have_pivots.

(** ** C39: the gravity torques are the gradient of the potential energy *)
Theorem C39_gravity_gradient : forall g c ds q out,
  chain_ok c -> dyn_reach g c ds -> dyn_current c ds -> length q = ch_nj c -> length out = ch_nj c ->
  exists G, dyn_JntToGravity c ds q out = Ret (E_NOERROR, G) /\ length G = ch_nj c /\
    (forall j, (j < ch_nj c)%nat -> derivable_pt_lim (fun u => potential c g (upd q j u)) (nth j q 0) (nth j G 0)) /\
    (forall path t qd, joint_motion (ch_nj c) path t qd -> path t = q ->
       derivable_pt_lim (fun s => potential c g (path s)) t (sumn (ch_nj c) (fun j => nth j G 0 * nth j qd 0))).
Proof. exact gravity_gradient. Qed.
Print Assumptions C39_gravity_gradient.

(** ** C58: along every motion the torques do the work that changes the energy *)
Theorem C58_energy_balance : forall g c rs q qd t qdd fext tau,
  chain_ok c -> inertias_symmetric c -> rne_reach g c rs -> rne_current c rs ->
  joint_motion (ch_nj c) q t (qd t) -> joint_motion (ch_nj c) qd t qdd -> length fext = ch_ns c -> length tau = ch_nj c ->
  exists T, rne_CartToJnt c rs (q t) (qd t) qdd fext tau = Ret (E_NOERROR, T) /\ length T = ch_nj c /\
    derivable_pt_lim (fun s => kinetic c (q s) (qd s) + potential c g (q s)) t
      (sumn (ch_nj c) (fun j => nth j T 0 * nth j (qd t) 0) + external_power c (q t) (qd t) fext).
Proof. exact energy_balance. Qed.
Print Assumptions C58_energy_balance.

(** ** C26, dynamics solvers *)
Theorem C26_rne_protocol : forall c st q qd qdd fext tau,
  (~ rne_current c st -> rne_CartToJnt c st q qd qdd fext tau = Ret (E_NOT_UP_TO_DATE, tau)) /\ rne_current c (rne_update c st).
Proof. exact rne_protocol. Qed.
Print Assumptions C26_rne_protocol.
Theorem C26_rne_recovers : forall g c st q qd qdd fext tau, chain_ok c -> rne_reach g c st ->
  length q = ch_nj c -> length qd = ch_nj c -> length qdd = ch_nj c -> length tau = ch_nj c -> length fext = ch_ns c ->
  exists T, rne_CartToJnt c (rne_update c st) q qd qdd fext tau = Ret (E_NOERROR, T) /\
            rne_CartToJnt c (rne_make c g) q qd qdd fext tau = Ret (E_NOERROR, T).
Proof. exact rne_recovers. Qed.
Print Assumptions C26_rne_recovers.
Theorem C26_dynparam_protocol : forall g c st q qd H out, dyn_reach g c st ->
  (~ dyn_current c st -> dyn_JntToMass c st q H = Ret (E_NOT_UP_TO_DATE, H) /\
     dyn_JntToCoriolis c st q qd out = Ret (E_NOT_UP_TO_DATE, out) /\ dyn_JntToGravity c st q out = Ret (E_NOT_UP_TO_DATE, out)) /\
  dyn_current c (dyn_update c st).
Proof. exact dyn_protocol. Qed.
Print Assumptions C26_dynparam_protocol.
Theorem C26_dynparam_recovers : forall g c st q qd H out, chain_ok c -> dyn_reach g c st ->
  length q = ch_nj c -> length qd = ch_nj c -> length out = ch_nj c -> mrows H = ch_nj c -> mcols H = ch_nj c -> inertias_symmetric c ->
  exists M M' C G, dyn_JntToMass c (dyn_update c st) q H = Ret (E_NOERROR, M) /\ dyn_JntToMass c (dyn_make c g) q H = Ret (E_NOERROR, M') /\
    (forall i j, (i < ch_nj c)%nat -> (j < ch_nj c)%nat -> mentry M i j = mentry M' i j) /\
    dyn_JntToCoriolis c (dyn_update c st) q qd out = Ret (E_NOERROR, C) /\ dyn_JntToCoriolis c (dyn_make c g) q qd out = Ret (E_NOERROR, C) /\
    dyn_JntToGravity c (dyn_update c st) q out = Ret (E_NOERROR, G) /\ dyn_JntToGravity c (dyn_make c g) q out = Ret (E_NOERROR, G).
Proof. exact dyn_recovers. Qed.
Print Assumptions C26_dynparam_recovers.
(** the forward dynamics solver never works again once the chain's counters differ from those
    it was constructed with, however often updateInternalDataStructures is called *)
Theorem C26_forward_dynamics_recovery_refuted : forall g c0 c st q qd tau fext qdd, chain_ok c0 -> fd_reach g c0 c st -> ~ same_counts c0 c ->
  exists code st', fd_CartToJnt c st q qd tau fext qdd = Ret (code, qdd, st') /\ (code = E_NOT_UP_TO_DATE \/ code = E_SIZE_MISMATCH).
Proof. exact fd_never_recovers. Qed.
Print Assumptions C26_forward_dynamics_recovery_refuted.

(** ** C59: the Runge-Kutta integrator.  [acc] is what the forward dynamics solver writes. *)
Theorem C59_velocity_is_classical : forall fd acc n,
  (forall q v old, length q = n -> length v = n -> length old = n -> fd q v old = acc q v) ->
  (forall q v, length q = n -> length v = n -> length (acc q v) = n) ->
  forall dt q v old, length q = n -> length v = n -> length old = n ->
  snd (rk4_step fd dt q v old) = snd (rk4_classical acc dt q v).
Proof. exact rk4_velocity. Qed.
Print Assumptions C59_velocity_is_classical.
(** what the position update computes instead: weights 1, 0, 2, 3 *)
Theorem C59_position_update : forall fd acc n,
  (forall q v old, length q = n -> length v = n -> length old = n -> fd q v old = acc q v) ->
  (forall q v, length q = n -> length v = n -> length (acc q v) = n) ->
  forall dt q v old, length q = n -> length v = n -> length old = n ->
  let k1v := acc q v in
  let k2x := axpy (dt / 2) v k1v in  let k2v := acc (axpy (dt / 2) q v) k2x in
  let k3x := axpy (dt / 2) v k2v in  let k3v := acc (axpy (dt / 2) q k2x) k3x in
  let k4x := axpy dt v k3v in
  fst (rk4_step fd dt q v old) = axpy (dt / 6) q (axpy 3 (axpy 2 v k3x) k4x).
Proof. exact rk4_position. Qed.
Print Assumptions C59_position_update.
Theorem C59_position_is_classical_refuted : forall a h x v, a <> 0 -> h <> 0 ->
  rk4_step (fun _ _ _ => [a]) h [x] [v] [0] = ([x + v * h + 2 / 3 * a * h * h], [v + a * h]) /\
  rk4_classical (fun _ _ => [a]) h [x] [v] = ([x + v * h + 1 / 2 * a * h * h], [v + a * h]) /\
  fst (rk4_step (fun _ _ _ => [a]) h [x] [v] [0]) <> fst (rk4_classical (fun _ _ => [a]) h [x] [v]).
Proof. exact rk4_refuted. Qed.
Print Assumptions C59_position_is_classical_refuted.

(** ** The hypotheses are met: an arm with a revolute, a fixed and a prismatic joint *)
Theorem C35_witness : chain_ok wchain /\ inertias_symmetric wchain /\ inertias_psd wchain /\
  ch_nj wchain = 2%nat /\ ch_ns wchain = 3%nat /\ (forall j, (j < ch_nj wchain)%nat -> 0 < rotor wchain j) /\
  (exists st, rne_reach wgrav wchain st /\ rne_current wchain st) /\
  (exists st, dyn_reach wgrav wchain st /\ dyn_current wchain st) /\
  (exists st, fd_reach wgrav wchain wchain st /\ fd_current wchain st) /\
  (exists st, fd_reach wgrav wchain wchain' st /\ fd_current wchain' st /\ ~ same_counts wchain wchain') /\
  (forall t, joint_motion (ch_nj wchain) wq t (wqd t) /\ joint_motion (ch_nj wchain) wqd t [0; 2]) /\
  (forall q H, length q = 2%nat -> mrows H = 2%nat -> mcols H = 2%nat ->
     exists M, dyn_JntToMass wchain (dyn_make wchain wgrav) q H = Ret (E_NOERROR, M) /\ pivots_ok 2 (mentry M)).
Proof. exact dyn_nonvacuous. Qed.
Print Assumptions C35_witness.
