(** Theorems about the external wrench estimator (C66). *)
From Coq Require Import Reals String List ZArith Bool.
From Verif Require Import FramesModel FramesSpec Outcome InertiaModel InertiaSpec DualModel KinModel KinSpec LinModel LinSpec DynModel DynSpec
  LmaModel VelIkModel VelIkSpec EwModel EwSpec EwConv EwHist EwThms EwThms2.
Import ListNotations.
Local Open Scope list_scope.
Local Open Scope R_scope.

(** ** C66: through every history of calls the estimated joint torques are those of
    one observer per joint, driven by the torque that explains the change of velocity *)
Theorem C66_estimate_is_observer : forall svd c g freq K f eps n l w,
  chain_ok c -> inertias_symmetric c -> freq <> 0 -> 0 < eps -> Forall (fits (ch_nj c)) l ->
  exists s0 codes w' s T, ew_make c g freq K f eps n = Ret s0 /\ ew_run svd c w s0 l = Ret (codes, w', s) /\
    length codes = length l /\ Forall (fun k => k = E_NOERROR \/ k = E_SVD_FAILED) codes /\
    (forall out, length out = ch_nj c -> ew_getEstimatedJntTorque s out = Ret T) /\ length T = ch_nj c /\
    forall j, (j < ch_nj c)%nat -> nth j T 0 = snd (snd (ref_run c g K (1 / freq) f ref_start l) j).
Proof. exact (@ew_reference). Qed.
Print Assumptions C66_estimate_is_observer.

Theorem C66_input_is_external_torque : forall c g dt q' qd' q qd tau ext j,
  dt <> 0 ->
  sumn (ch_nj c) (fun m => mass_at c g q' j m * (nth m qd 0 - nth m qd' 0)) = dt * (nth j tau 0 + ext - gravity_at c g q j - coriolis_at c g q qd j) ->
  apparent c g dt (Some (q', qd')) q qd tau j = ext.
Proof. exact (@apparent_is_external). Qed.
Print Assumptions C66_input_is_external_torque.


(** The observer finds a constant torque at a geometric rate, after any history. *)
Theorem C66_observer_converges : forall K dt f,
  -1 < f < 1 -> 0 < K * dt -> K * dt * (1 - f) < 2 * (1 + f) ->
  exists rho B, 0 < rho < 1 /\ 0 < B /\ forall u x n,
    Rabs (snd (observer K dt f x (repeat u n)) - u) <= B * rho ^ n * (Rabs (fst x - u) + Rabs (snd x - u)).
Proof. exact (@observer_converges). Qed.
Print Assumptions C66_observer_converges.

Theorem C66_tracks_external_torque : forall K freq f,
  freq <> 0 -> -1 < f < 1 -> 0 < K * (1 / freq) -> K * (1 / freq) * (1 - f) < 2 * (1 + f) ->
  exists rho, 0 < rho < 1 /\
  forall svd c g eps n w, chain_ok c -> inertias_symmetric c -> 0 < eps ->
  forall before q qd tau ext, Forall (fits (ch_nj c)) (before ++ [Sample q qd tau]) ->
  exists D, forall after, Forall (fits (ch_nj c)) after -> moves_under c g (1 / freq) ext (q, qd) after ->
  exists s0 codes w' s T, ew_make c g freq K f eps n = Ret s0 /\ ew_run svd c w s0 (before ++ [Sample q qd tau] ++ after) = Ret (codes, w', s) /\
    (forall out, length out = ch_nj c -> ew_getEstimatedJntTorque s out = Ret T) /\ length T = ch_nj c /\
    forall j, (j < ch_nj c)%nat -> Rabs (nth j T 0 - ext j) <= D * rho ^ length after.
Proof. exact (@ew_tracks). Qed.
Print Assumptions C66_tracks_external_torque.

Theorem C66_unfiltered_rate : forall K dt u n,
  forall x, fst (observer K dt 0 (x, x) (repeat u n)) = snd (observer K dt 0 (x, x) (repeat u n)) /\
  snd (observer K dt 0 (x, x) (repeat u n)) - u = (1 - K * dt) ^ n * (x - u).
Proof. exact (@observer_unfiltered). Qed.
Print Assumptions C66_unfiltered_rate.


(** Twice the sample frequency is already too much gain: the error never falls below the start. *)
Theorem C66_gain_limit : forall svd c g freq K eps n w q tau j,
  chain_ok c -> inertias_symmetric c -> freq <> 0 -> 0 < eps -> 2 <= K * (1 / freq) ->
  length q = ch_nj c -> length tau = ch_nj c -> (j < ch_nj c)%nat -> forall k,
  let ext := gravity_at c g q j - nth j tau 0 in
  exists s0 codes w' s T, ew_make c g freq K 0 eps n = Ret s0 /\ ew_run svd c w s0 (repeat (Sample q (repeat 0 (ch_nj c)) tau) k) = Ret (codes, w', s) /\
    (forall out, length out = ch_nj c -> ew_getEstimatedJntTorque s out = Ret T) /\ Rabs ext <= Rabs (nth j T 0 - ext).
Proof. exact (@ew_gain_limit). Qed.
Print Assumptions C66_gain_limit.


(** The reported wrench is the shortest least squares solution for the estimated torques. *)
Theorem C66_wrench_least_squares : forall svd c g freq K f eps n l q qd tau w s0 codes w1 s1,
  chain_ok c -> inertias_symmetric c -> freq <> 0 -> 0 < eps -> Forall (fits (ch_nj c)) l ->
  length q = ch_nj c -> length qd = ch_nj c -> length tau = ch_nj c ->
  ew_make c g freq K f eps n = Ret s0 -> ew_run svd c w s0 l = Ret (codes, w1, s1) ->
  exists code w' s' T, ew_JntToExtWrench svd c s1 q qd tau w1 = Ret (code, w', s') /\
    (forall out, length out = ch_nj c -> ew_getEstimatedJntTorque s' out = Ret T) /\ length T = ch_nj c /\
    let d := svd (ew_maxiter s1) (ew_matrix c q) in
    (dc_rc d <> 0%Z -> code = E_SVD_FAILED /\ w' = w1) /\
    (dc_rc d = 0%Z -> code = E_NOERROR /\
      (svd_of (ch_nj c) 6 (tip_axes_jacobian c q) d ->
        shortest_least_squares (ch_nj c) 6 (truncated 6 (ew_eps s1) d) (fun j => nth j T 0) (w_list w') /\
        (no_small 6 (ew_eps s1) d -> shortest_least_squares (ch_nj c) 6 (tip_axes_jacobian c q) (fun j => nth j T 0) (w_list w')))).
Proof. exact (@ew_reported). Qed.
Print Assumptions C66_wrench_least_squares.

Theorem C66_tip_load_torque : forall c q w j,
  chain_ok c -> length q = ch_nj c -> (j < ch_nj c)%nat ->
  external_torque c q (tip_load c w) j = image 6 (tip_axes_jacobian c q) (w_list w) j.
Proof. exact (@tip_load_torque). Qed.
Print Assumptions C66_tip_load_torque.

Theorem C66_wrench_error : forall svd c g freq K f eps n before w q qd tau load,
  chain_ok c -> inertias_symmetric c -> freq <> 0 -> 0 < eps ->
  Forall (fits (ch_nj c)) (before ++ [Sample q qd tau]) -> Forall is_call before ->
  let d := svd n (ew_matrix c q) in
  dc_rc d = 0%Z -> svd_of (ch_nj c) 6 (tip_axes_jacobian c q) d -> (forall i, (i < 6)%nat -> eps <= Rabs (dc_S d i)) ->
  exists s0 codes w' s T, ew_make c g freq K f eps n = Ret s0 /\ ew_run svd c w s0 (before ++ [Sample q qd tau]) = Ret (codes, w', s) /\
    last codes 0%Z = E_NOERROR /\ (forall out, length out = ch_nj c -> ew_getEstimatedJntTorque s out = Ret T) /\ length T = ch_nj c /\
    eps * eps * sumn 6 (fun i => (w_at w' i - w_at load i) * (w_at w' i - w_at load i)) <=
    sumn (ch_nj c) (fun j => (nth j T 0 - external_torque c q (tip_load c load) j) * (nth j T 0 - external_torque c q (tip_load c load) j)).
Proof. exact (@ew_wrench_error). Qed.
Print Assumptions C66_wrench_error.

Theorem C66_static_load_found : forall K freq f,
  freq <> 0 -> -1 < f < 1 -> 0 < K * (1 / freq) -> K * (1 / freq) * (1 - f) < 2 * (1 + f) ->
  exists rho, 0 < rho < 1 /\
  forall svd c g eps n w, chain_ok c -> inertias_symmetric c -> 0 < eps ->
  forall before q tau load, Forall (fits (ch_nj c)) before -> Forall is_call before -> length q = ch_nj c -> length tau = ch_nj c ->
  (forall j, (j < ch_nj c)%nat -> nth j tau 0 = gravity_at c g q j - external_torque c q (tip_load c load) j) ->
  let d := svd n (ew_matrix c q) in
  dc_rc d = 0%Z -> svd_of (ch_nj c) 6 (tip_axes_jacobian c q) d -> (forall i, (i < 6)%nat -> eps <= Rabs (dc_S d i)) ->
  exists D, forall k, exists s0 codes w' s, ew_make c g freq K f eps n = Ret s0 /\
    ew_run svd c w s0 (before ++ repeat (Sample q (repeat 0 (ch_nj c)) tau) (S k)) = Ret (codes, w', s) /\ last codes 0%Z = E_NOERROR /\
    forall i, (i < 6)%nat -> Rabs (w_at w' i - w_at load i) <= D * rho ^ k.
Proof. exact (@ew_static). Qed.
Print Assumptions C66_static_load_found.


(** setInitialMomentum: what it does, and that the documented use spoils the estimate of a moving arm. *)
Theorem C66_initial_momentum : forall svd c g freq K f eps n w q qd tau,
  chain_ok c -> inertias_symmetric c -> freq <> 0 -> 0 < eps ->
  length q = ch_nj c -> length qd = ch_nj c -> length tau = ch_nj c ->
  (forall j, (j < ch_nj c)%nat -> nth j tau 0 = gravity_at c g q j + coriolis_at c g q qd j) ->
  exists s0 codes1 w1 s1 T1 codes2 w2 s2 T2, ew_make c g freq K f eps n = Ret s0 /\
    ew_run svd c w s0 [Sample q qd tau] = Ret (codes1, w1, s1) /\ (forall out, length out = ch_nj c -> ew_getEstimatedJntTorque s1 out = Ret T1) /\
    ew_run svd c w s0 [Start q qd; Sample q qd tau] = Ret (codes2, w2, s2) /\ (forall out, length out = ch_nj c -> ew_getEstimatedJntTorque s2 out = Ret T2) /\
    forall j, (j < ch_nj c)%nat -> nth j T1 0 = 0 /\ nth j T2 0 = - (1 - f) * K * momentum_at c g q qd j.
Proof. exact (@ew_initial_momentum). Qed.
Print Assumptions C66_initial_momentum.

Theorem C66_initial_momentum_refuted : exists svd c g freq K f eps n w q qd tau s0 codes1 w1 s1 codes2 w2 s2 T1 T2 j,
  chain_ok c /\ inertias_symmetric c /\ 0 < freq /\ 0 < K < freq /\ f = 0 /\
  (forall j, (j < ch_nj c)%nat -> nth j tau 0 = gravity_at c g q j + coriolis_at c g q qd j) /\
  ew_make c g freq K f eps n = Ret s0 /\
  ew_run svd c w s0 [Sample q qd tau] = Ret (codes1, w1, s1) /\ ew_getEstimatedJntTorque s1 (repeat 0 (ch_nj c)) = Ret T1 /\
  ew_run svd c w s0 [Start q qd; Sample q qd tau] = Ret (codes2, w2, s2) /\ ew_getEstimatedJntTorque s2 (repeat 0 (ch_nj c)) = Ret T2 /\
  (j < ch_nj c)%nat /\ nth j T1 0 = 0 /\ nth j T2 0 <> 0.
Proof. exact (@ew_initial_momentum_refuted). Qed.
Print Assumptions C66_initial_momentum_refuted.

Theorem C66_momentum_after_sample : forall svd c g freq K f eps n w q qd tau q' qd' tau' ext,
  chain_ok c -> inertias_symmetric c -> freq <> 0 -> 0 < eps ->
  Forall (fits (ch_nj c)) [Sample q qd tau; Sample q' qd' tau'] -> moves_under c g (1 / freq) ext (q, qd) [Sample q' qd' tau'] ->
  exists s0 codes w' s T, ew_make c g freq K f eps n = Ret s0 /\ ew_run svd c w s0 [Sample q qd tau; Start q qd; Sample q' qd' tau'] = Ret (codes, w', s) /\
    (forall out, length out = ch_nj c -> ew_getEstimatedJntTorque s out = Ret T) /\
    forall j, (j < ch_nj c)%nat -> nth j T 0 = (1 - f) * (K * (1 / freq) * ext j).
Proof. exact (@ew_momentum_after_sample). Qed.
Print Assumptions C66_momentum_after_sample.


(** Return codes and edited chains. *)
Theorem C66_codes : forall svd g c s q qd tau w,
  ew_reach svd g c s ->
  (~ ew_current c s -> ew_JntToExtWrench svd c s q qd tau w = Ret (E_NOT_UP_TO_DATE, w, ew_fail s E_NOT_UP_TO_DATE)) /\
  (ew_current c s -> ~ (length q = ch_nj c /\ length qd = ch_nj c /\ length tau = ch_nj c) ->
     ew_JntToExtWrench svd c s q qd tau w = Ret (E_SIZE_MISMATCH, w, ew_fail s E_SIZE_MISMATCH)) /\
  (ew_current c s -> length q = ch_nj c -> length qd = ch_nj c -> length tau = ch_nj c ->
     (ew_prev s = None /\ ew_JntToExtWrench svd c s q qd tau w = Undef) \/
     exists code w' s', ew_JntToExtWrench svd c s q qd tau w = Ret (code, w', s') /\ ew_error s' = code /\
       (dc_rc (svd (ew_maxiter s) (ew_matrix c q)) = 0%Z -> code = E_NOERROR) /\
       (dc_rc (svd (ew_maxiter s) (ew_matrix c q)) <> 0%Z -> code = E_SVD_FAILED /\ w' = w)).
Proof. exact (@ew_codes). Qed.
Print Assumptions C66_codes.

Theorem C66_start_codes : forall svd g c s q qd,
  ew_reach svd g c s ->
  (~ (length q = ew_nj s /\ length qd = ew_nj s) -> ew_setInitialMomentum c s q qd = Ret (E_SIZE_MISMATCH, ew_fail s E_SIZE_MISMATCH)) /\
  (length q = ew_nj s -> length qd = ew_nj s -> ~ ew_current c s ->
     exists s', ew_setInitialMomentum c s q qd = Ret (EW_MASS_FAILED, s') /\ ew_p0 s' = ew_p0 s /\ ew_int s' = ew_int s /\ ew_filt s' = ew_filt s) /\
  (length q = ew_nj s -> length qd = ew_nj s -> ew_current c s -> exists s', ew_setInitialMomentum c s q qd = Ret (E_NOERROR, s') /\ ew_filt s' = repeat 0 (ch_nj c)).
Proof. exact (@ew_start_codes). Qed.
Print Assumptions C66_start_codes.

Theorem C66_update_then_estimate_refuted : forall svd g c s s' q qd tau w,
  ew_reach svd g c s -> ch_nj c <> ew_nj s -> ew_update c s = Ret s' ->
  length q = ch_nj c -> length qd = ch_nj c -> length tau = ch_nj c -> ew_JntToExtWrench svd c s' q qd tau w = Undef.
Proof. exact (@ew_update_reads_garbage). Qed.
Print Assumptions C66_update_then_estimate_refuted.

Theorem C66_update_without_joints_refuted : forall c s,
  ew_sized s -> ew_nj s = 0%nat -> ew_update c s = Undef.
Proof. exact (@ew_update_no_joints). Qed.
Print Assumptions C66_update_without_joints_refuted.


(** A concrete arm and load meet the hypotheses. *)
Theorem C66_nonvacuous : exists (svd : Z -> Mat -> Decomp) c g freq K f eps n q load, freq <> 0 /\ -1 < f < 1 /\ 0 < K * (1 / freq) /\ K * (1 / freq) * (1 - f) < 2 * (1 + f) /\
  chain_ok c /\ inertias_symmetric c /\ 0 < eps /\ length q = ch_nj c /\ (0 < ch_nj c)%nat /\ load <> w_zero /\
  (exists before, Forall (fits (ch_nj c)) before /\ Forall is_call before /\ length before = 2%nat) /\
  (exists tau, length tau = ch_nj c /\ forall j, (j < ch_nj c)%nat -> nth j tau 0 = gravity_at c g q j - external_torque c q (tip_load c load) j) /\
  let d := svd n (ew_matrix c q) in
  dc_rc d = 0%Z /\ svd_of (ch_nj c) 6 (tip_axes_jacobian c q) d /\ (forall i, (i < 6)%nat -> eps <= Rabs (dc_S d i)).
Proof. exact (@ew_nonvacuous). Qed.
Print Assumptions C66_nonvacuous.

