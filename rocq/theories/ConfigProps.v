(** Property theorems on construction and configuration (C63) and on the comparison
    of Jacobians (C12). *)
From Coq Require Import Reals String List ZArith Bool Arith.
From Verif Require Import FramesModel FramesSpec Outcome InertiaModel DualModel KinModel KinSpec JntModel IkModel ProfModel LinModel LinSpec LmaModel VelIkModel ConfigProofs.
Import ListNotations.
Local Open Scope list_scope.
Local Open Scope R_scope.

(** setJointLimits: both arrays must fit, otherwise nothing changes. *)
Theorem C63_joint_limits : forall s q_min q_max,
  (length q_min = nj_nj s -> length q_max = nj_nj s -> exists s', nrjl_setJointLimits s q_min q_max = (E_NOERROR, s') /\
     nj_min s' = q_min /\ nj_max s' = q_max /\ nj_nj s' = nj_nj s /\ nj_maxiter s' = nj_maxiter s /\ nj_eps s' = nj_eps s /\
     nj_delta s' = nj_delta s /\ nj_error s' = E_NOERROR) /\
  (length q_min <> nj_nj s \/ length q_max <> nj_nj s -> exists s', nrjl_setJointLimits s q_min q_max = (E_SIZE_MISMATCH, s') /\
     nj_min s' = nj_min s /\ nj_max s' = nj_max s /\ nj_nj s' = nj_nj s /\ nj_maxiter s' = nj_maxiter s /\ nj_eps s' = nj_eps s /\
     nj_delta s' = nj_delta s /\ nj_error s' = E_SIZE_MISMATCH).
Proof. exact (@nrjl_limits). Qed.
Print Assumptions C63_joint_limits.

Theorem C63_nrjl_constructed : forall c q_min q_max k eps,
  let s := nrjl_make c q_min q_max k eps in let s0 := nrjl_make_nolimits c k eps in
  nj_min s = q_min /\ nj_max s = q_max /\ nj_nj s = ch_nj c /\ nj_maxiter s = k /\ nj_eps s = eps /\ nj_error s = E_NOERROR /\ length (nj_delta s) = ch_nj c /\
  length (nj_min s0) = ch_nj c /\ length (nj_max s0) = ch_nj c /\ (forall x, In x (nj_min s0) -> x = dbl_min) /\ (forall x, In x (nj_max s0) -> x = dbl_max) /\
  nj_nj s0 = ch_nj c /\ nj_maxiter s0 = k /\ nj_eps s0 = eps /\ nj_error s0 = E_NOERROR /\ length (nj_delta s0) = ch_nj c.
Proof. exact (@nrjl_constructed). Qed.
Print Assumptions C63_nrjl_constructed.

Theorem C63_nrjl_updated : forall c s,
  let s' := nrjl_update c s in
  nj_nj s' = ch_nj c /\ length (nj_min s') = ch_nj c /\ length (nj_max s') = ch_nj c /\ length (nj_delta s') = ch_nj c /\
  nj_maxiter s' = nj_maxiter s /\ nj_eps s' = nj_eps s /\ nj_error s' = nj_error s /\
  forall i, (i < ch_nj c)%nat ->
    nth i (nj_min s') 0 = (if Nat.ltb i (length (nj_min s)) then nth i (nj_min s) 0 else dbl_min) /\
    nth i (nj_max s') 0 = (if Nat.ltb i (length (nj_max s)) then nth i (nj_max s) 0 else dbl_max).
Proof. exact (@nrjl_updated). Qed.
Print Assumptions C63_nrjl_updated.

(** "No limits" means the interval from the smallest positive normal double to the largest double. *)
Theorem C63_no_limits_values : dbl_min * 2 ^ 1022 = 1 /\ dbl_max + 2 ^ 971 = 2 ^ 1024.
Proof. exact (@dbl_bounds). Qed.
Print Assumptions C63_no_limits_values.

Theorem C63_lma_constructed : forall c L eps k epsj,
  let s := lma_make c L eps k epsj in
  la_nj s = ch_nj c /\ la_L s = L /\ la_maxiter s = k /\ la_eps s = eps /\ la_epsj s = epsj /\
  la_iter s = 0%nat /\ la_diff s = 0 /\ la_trans s = 0 /\ la_rot s = 0 /\ la_error s = E_NOERROR.
Proof. exact (@lma_constructed). Qed.
Print Assumptions C63_lma_constructed.

Theorem C63_lma_constructed_default : forall c eps k epsj,
  let s := lma_make_default c eps k epsj in
  la_L s = mkT (mkV 1 1 1) (mkV (1 / 100) (1 / 100) (1 / 100)) /\ s = lma_make c (la_L s) eps k epsj.
Proof. exact (@lma_constructed_default). Qed.
Print Assumptions C63_lma_constructed_default.

Theorem C63_trap_unplanned : forall v a,
  trap_duration (trap_make v a) = 0 /\ tr_maxvel (trap_make v a) = v /\ tr_maxacc (trap_make v a) = a /\
  forall t, trap_pos (trap_make v a) t = 0 /\ trap_vel (trap_make v a) t = 0 /\ trap_acc (trap_make v a) t = 0.
Proof. exact (@trap_unplanned). Qed.
Print Assumptions C63_trap_unplanned.

Theorem C63_half_zero_duration : forall h hmin p1 p2,
  0 < th_maxvel h -> 0 < th_maxacc h -> p1 <> p2 -> half_setProfile h p1 p2 = Ret hmin ->
  half_setProfileDuration h p1 p2 0 = Ret hmin.
Proof. exact (@half_duration_zero). Qed.
Print Assumptions C63_half_zero_duration.

Theorem C63_example : exists s q_min (q_max : list R), length q_min = nj_nj s /\ length q_max = nj_nj s /\ (0 < nj_nj s)%nat /\ nj_min s <> q_min.
Proof. exact (@config_nonvacuous). Qed.
Print Assumptions C63_example.

(** Equal(Jacobian, Jacobian, eps). *)
Theorem C12_jacobians : forall a b eps,
  jac_Equal a b eps = true <->
  length a = length b /\ forall j r, (j < length a)%nat -> (r < 6)%nat -> Rabs (t_at (nth j a t_zero) r - t_at (nth j b t_zero) r) <= eps.
Proof. exact (@jac_Equal_spec). Qed.
Print Assumptions C12_jacobians.

