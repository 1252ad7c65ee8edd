(** Theorems about the hybrid dynamics solver (C65). *)
From Coq Require Import Reals String List ZArith Bool.
From Verif Require Import FramesModel FramesSpec Outcome InertiaModel InertiaSpec DualModel KinModel KinSpec LinModel LinSpec DynModel DynSpec
  VelIkModel VelIkSpec HdModel HdSpec HdThms HdThms2 HdThms3 HdThms4 HdHist HdWitness.
Import ListNotations.
Local Open Scope list_scope.
Local Open Scope R_scope.

(** ** C65: the accelerations are the one solution of the equations of motion with
    the feed-forward torques, the external wrenches and, on the tip, minus the
    constraint directions times the reported magnitudes *)
Theorem C65_equations_of_motion : forall g svd nc c s q qd qdd alfa beta fext ff ct qdd' ct' s' rs tau0 nu0,
  chain_ok c -> inertias_symmetric c ->
  hd_reach svd (t_neg (mkT g v_zero)) nc c s -> hd_current c s -> rne_reach g c rs -> rne_current c rs -> length tau0 = ch_nj c -> length nu0 = nc ->
  hd_CartToJnt svd c s q qd qdd alfa beta fext ff ct = Ret (E_NOERROR, qdd', ct', s') ->
  exists nu, hd_getContraintForceMagnitude s' nu0 = Ret nu /\ length nu = nc /\
    forall x, length x = ch_nj c ->
      (rne_CartToJnt c rs q qd x (loads c q fext (w_neg (constraint_wrench alfa nu))) tau0 = Ret (E_NOERROR, ff) <-> x = qdd').
Proof. exact (@hd_motion). Qed.
Print Assumptions C65_equations_of_motion.


(** Deactivated constraints: plain forward dynamics, and the same numbers as the
    forward dynamics solver. *)
Theorem C65_free_motion : forall g svd nc c s q qd qdd alfa beta fext ff ct qdd' ct' s' rs tau0,
  chain_ok c -> inertias_symmetric c ->
  hd_reach svd (t_neg (mkT g v_zero)) nc c s -> hd_current c s -> rne_reach g c rs -> rne_current c rs -> length tau0 = ch_nj c ->
  Forall (fun t => t = t_zero) alfa ->
  hd_CartToJnt svd c s q qd qdd alfa beta fext ff ct = Ret (E_NOERROR, qdd', ct', s') ->
  forall x, length x = ch_nj c -> (rne_CartToJnt c rs q qd x (loads c q fext w_zero) tau0 = Ret (E_NOERROR, ff) <-> x = qdd').
Proof. exact (@hd_free). Qed.
Print Assumptions C65_free_motion.

Theorem C65_equals_forward_dynamics : forall g c0 fs ds H M svd nc c s q qd qdd alfa beta fext ff ct qdd' ct' s' out,
  chain_ok c -> chain_ok c0 -> inertias_symmetric c ->
  hd_reach svd (t_neg (mkT g v_zero)) nc c s -> hd_current c s -> fd_reach g c0 c fs -> same_counts c0 c -> fd_current c fs ->
  dyn_reach g c ds -> dyn_current c ds -> mrows H = ch_nj c -> mcols H = ch_nj c -> dyn_JntToMass c ds q H = Ret (E_NOERROR, M) -> pivots_ok (ch_nj c) (mentry M) ->
  length out = ch_nj c -> Forall (fun t => t = t_zero) alfa ->
  hd_CartToJnt svd c s q qd qdd alfa beta fext ff ct = Ret (E_NOERROR, qdd', ct', s') ->
  exists fs', fd_CartToJnt c fs q qd ff (loads c q fext w_zero) out = Ret (E_NOERROR, qdd', fs').
Proof. exact (@hd_fd_agree). Qed.
Print Assumptions C65_equals_forward_dynamics.


(** Constraints the arm can act on are met by the reported tip acceleration. *)
Theorem C65_constraints_met : forall svd acc nc c s q qd qdd alfa beta fext ff ct qdd' ct' s' x0,
  chain_ok c -> inertias_symmetric c ->
  hd_reach svd acc nc c s -> hd_current c s -> length x0 = (ch_ns c + 1)%nat ->
  svd_right nc svd -> constraints_mobile c q alfa (/ 100000000000000) ->
  hd_CartToJnt svd c s q qd qdd alfa beta fext ff ct = Ret (E_NOERROR, qdd', ct', s') ->
  exists xs, hd_getTransformedLinkAcceleration s' x0 = Ret xs /\
    forall i, (i < nc)%nat -> component (nth i alfa t_zero) (nth (ch_ns c) xs t_zero) = nth i beta 0.
Proof. exact (@hd_met). Qed.
Print Assumptions C65_constraints_met.


(** Otherwise the violation is the least the constraint forces can reach. *)
Theorem C65_least_violation : forall g svd nc c s q qd qdd alfa beta fext ff ct qdd' ct' s' rs tau0 x0,
  chain_ok c -> inertias_symmetric c ->
  hd_reach svd (t_neg (mkT g v_zero)) nc c s -> hd_current c s -> rne_reach g c rs -> rne_current c rs -> length tau0 = ch_nj c -> length x0 = (ch_ns c + 1)%nat ->
  svd_right nc svd -> (forall A, mobility c q alfa A -> no_small nc (/ 100000000000000) (svd 150%Z A)) ->
  hd_CartToJnt svd c s q qd qdd alfa beta fext ff ct = Ret (E_NOERROR, qdd', ct', s') ->
  exists xs, hd_getTransformedLinkAcceleration s' x0 = Ret xs /\
    forall nu x, length nu = nc -> length x = ch_nj c ->
      rne_CartToJnt c rs q qd x (loads c q fext (w_neg (constraint_wrench alfa nu))) tau0 = Ret (E_NOERROR, ff) ->
      violation alfa beta (nth (ch_ns c) xs t_zero) <= violation alfa beta (t_add (nth (ch_ns c) xs t_zero) (tip_rate c q (minus x qdd'))).
Proof. exact (@hd_least). Qed.
Print Assumptions C65_least_violation.


(** Gauss' principle: among the accelerations with the same tip acceleration along
    the constraints, the result is nearest to the free motion. *)
Theorem C65_gauss : forall g svd nc c s q qd qdd alfa beta fext ff ct qdd' ct' s' rs tau0 free x,
  chain_ok c -> inertias_symmetric c ->
  (forall y, length y = ch_nj c -> 0 <= kinetic c q y) ->
  hd_reach svd (t_neg (mkT g v_zero)) nc c s -> hd_current c s -> rne_reach g c rs -> rne_current c rs -> length tau0 = ch_nj c ->
  hd_CartToJnt svd c s q qd qdd alfa beta fext ff ct = Ret (E_NOERROR, qdd', ct', s') ->
  length free = ch_nj c -> rne_CartToJnt c rs q qd free (loads c q fext w_zero) tau0 = Ret (E_NOERROR, ff) ->
  length x = ch_nj c -> (forall i, (i < nc)%nat -> component (nth i alfa t_zero) (tip_rate c q x) = component (nth i alfa t_zero) (tip_rate c q qdd')) ->
  kinetic c q (minus qdd' free) <= kinetic c q (minus x free).
Proof. exact (@hd_gauss). Qed.
Print Assumptions C65_gauss.


(** The reported link accelerations. *)
Theorem C65_link_accelerations : forall svd acc nc c s q qd qdd alfa beta fext ff ct qdd' ct' s' path pathd t x0,
  chain_ok c -> inertias_symmetric c ->
  hd_reach svd acc nc c s -> hd_current c s -> hd_CartToJnt svd c s q qd qdd alfa beta fext ff ct = Ret (E_NOERROR, qdd', ct', s') ->
  joint_motion (ch_nj c) path t (pathd t) -> joint_motion (ch_nj c) pathd t qdd' -> path t = q -> pathd t = qd -> length x0 = (ch_ns c + 1)%nat ->
  exists xs, hd_getTransformedLinkAcceleration s' x0 = Ret xs /\ length xs = (ch_ns c + 1)%nat /\ nth 0 xs t_zero = acc /\
    forall k, (k < ch_ns c)%nat -> exists d, twist_rate (fun u => link_twist c (path u) (pathd u) k) t d /\
      nth (S k) xs t_zero = t_add (r_app_t (fM (link_pose c q k)) d) (root_at acc (fp (link_pose c q k))).
Proof. exact (@hd_links). Qed.
Print Assumptions C65_link_accelerations.


(** The reported torques. *)
Theorem C65_total_torque : forall svd acc nc c s q qd qdd alfa beta fext ff ct qdd' ct' s' t0,
  chain_ok c -> inertias_symmetric c ->
  hd_reach svd acc nc c s -> hd_current c s -> length t0 = ch_nj c ->
  hd_CartToJnt svd c s q qd qdd alfa beta fext ff ct = Ret (E_NOERROR, qdd', ct', s') ->
  exists total, hd_getTotalTorque s' t0 = Ret total /\ length total = ch_nj c /\
    forall j, (j < ch_nj c)%nat -> (exists D, felt_inertia c q j D) /\ forall D, felt_inertia c q j D -> nth j total 0 = D * nth j qdd' 0.
Proof. exact (@hd_total_torque). Qed.
Print Assumptions C65_total_torque.

Theorem C65_constraint_torque : forall svd acc nc c s q qd qdd alfa beta fext ff ct qdd' ct' s' nu0,
  chain_ok c -> inertias_symmetric c ->
  hd_reach svd acc nc c s -> hd_current c s -> length nu0 = nc ->
  hd_CartToJnt svd c s q qd qdd alfa beta fext ff ct = Ret (E_NOERROR, qdd', ct', s') ->
  exists nu, hd_getContraintForceMagnitude s' nu0 = Ret nu /\ length ct' = ch_nj c /\
    forall j, (j < ch_nj c)%nat -> (exists r, holding_torque c q (w_neg (constraint_wrench alfa nu)) j r) /\
      forall r, holding_torque c q (w_neg (constraint_wrench alfa nu)) j r -> nth j ct' 0 = - r.
Proof. exact (@hd_constraint_torque). Qed.
Print Assumptions C65_constraint_torque.

Theorem C65_inverse_dynamics : forall g svd nc c s q qd qdd alfa beta fext ff ct qdd' ct' s' rs tau0 nu0,
  chain_ok c -> inertias_symmetric c ->
  hd_reach svd (t_neg (mkT g v_zero)) nc c s -> hd_current c s -> rne_reach g c rs -> rne_current c rs -> length tau0 = ch_nj c -> length nu0 = nc ->
  hd_CartToJnt svd c s q qd qdd alfa beta fext ff ct = Ret (E_NOERROR, qdd', ct', s') ->
  exists nu tau, hd_getContraintForceMagnitude s' nu0 = Ret nu /\ rne_CartToJnt c rs q qd qdd' (loads c q fext w_zero) tau0 = Ret (E_NOERROR, tau) /\
    forall j, (j < ch_nj c)%nat -> nth j tau 0 = nth j ff 0 -
      sumn nc (fun i => nth i nu 0 * component (nth i alfa t_zero) (nth j (link_jacobian c q (ch_ns c - 1)) t_zero)).
Proof. exact (@hd_inverse). Qed.
Print Assumptions C65_inverse_dynamics.


(** The documented uses of constraint_torque (as the joint command) and of alpha * nu
    (as the force on the end effector) are wrong. *)
Theorem C65_torque_is_command_refuted : ~ (forall g svd nc c s q qd qdd alfa beta fext ff ct qdd' ct' s' rs tau0 tau,
  chain_ok c -> inertias_symmetric c -> massive c q -> no_fixed c -> svd_right nc svd -> constraints_mobile c q alfa (/ 100000000000000) ->
  hd_reach svd (t_neg (mkT g v_zero)) nc c s -> hd_current c s -> rne_reach g c rs -> rne_current c rs ->
  hd_CartToJnt svd c s q qd qdd alfa beta fext ff ct = Ret (E_NOERROR, qdd', ct', s') ->
  rne_CartToJnt c rs q qd qdd' (loads c q fext w_zero) tau0 = Ret (E_NOERROR, tau) ->
  forall j, (j < ch_nj c)%nat -> nth j tau 0 = nth j ff 0 + nth j ct' 0).
Proof. exact (@hd_command_refuted). Qed.
Print Assumptions C65_torque_is_command_refuted.

Theorem C65_constraint_force_sign_refuted : ~ (forall g svd nc c s q qd qdd alfa beta fext ff ct qdd' ct' s' rs tau0 nu0 nu,
  chain_ok c -> inertias_symmetric c -> massive c q -> no_fixed c -> svd_right nc svd -> constraints_mobile c q alfa (/ 100000000000000) ->
  hd_reach svd (t_neg (mkT g v_zero)) nc c s -> hd_current c s -> rne_reach g c rs -> rne_current c rs -> length tau0 = ch_nj c ->
  hd_CartToJnt svd c s q qd qdd alfa beta fext ff ct = Ret (E_NOERROR, qdd', ct', s') ->
  hd_getContraintForceMagnitude s' nu0 = Ret nu ->
  rne_CartToJnt c rs q qd qdd' (loads c q fext (constraint_wrench alfa nu)) tau0 = Ret (E_NOERROR, ff)).
Proof. exact (@hd_force_refuted). Qed.
Print Assumptions C65_constraint_force_sign_refuted.


(** When the call returns. *)
Theorem C65_defined : forall svd acc nc c s q qd qdd alfa beta fext ff ct,
  chain_ok c -> inertias_symmetric c -> massive c q -> no_fixed c ->
  hd_reach svd acc nc c s -> hd_current c s -> hd_sizes c nc q qd qdd alfa beta fext ff ct ->
  exists qdd' ct' s', hd_CartToJnt svd c s q qd qdd alfa beta fext ff ct = Ret (E_NOERROR, qdd', ct', s') /\
    length qdd' = ch_nj c /\ length ct' = ch_nj c /\ hd_current c s'.
Proof. exact (@hd_defined). Qed.
Print Assumptions C65_defined.

Theorem C65_fixed_joint_undefined : forall svd acc nc c s q qd qdd alfa beta fext ff ct,
  chain_ok c -> ~ no_fixed c ->
  hd_reach svd acc nc c s -> hd_current c s -> hd_sizes c nc q qd qdd alfa beta fext ff ct ->
  hd_CartToJnt svd c s q qd qdd alfa beta fext ff ct = Undef.
Proof. exact (@hd_needs_moving). Qed.
Print Assumptions C65_fixed_joint_undefined.

Theorem C65_stale_joint_count_undefined : forall svd acc nc c0 c q qd qdd alfa beta fext ff ct,
  chain_ok c -> ch_ns c0 = ch_ns c -> (ch_nj c0 < ch_nj c)%nat ->
  hd_sizes c nc q qd qdd alfa beta fext ff ct -> hd_CartToJnt svd c (hd_make c0 acc nc) q qd qdd alfa beta fext ff ct = Undef.
Proof. exact (@hd_stale). Qed.
Print Assumptions C65_stale_joint_count_undefined.

Theorem C65_codes : forall svd acc nc c s q qd qdd alfa beta fext ff ct,
  hd_reach svd acc nc c s ->
  (hd_ns s <> ch_ns c -> hd_CartToJnt svd c s q qd qdd alfa beta fext ff ct = Ret (E_NOT_UP_TO_DATE, qdd, ct, s)) /\
  (hd_ns s = ch_ns c -> ~ hd_sizes c nc q qd qdd alfa beta fext ff ct ->
     hd_CartToJnt svd c s q qd qdd alfa beta fext ff ct = Ret (E_SIZE_MISMATCH, qdd, ct, s)) /\
  (hd_sizes c nc q qd qdd alfa beta fext ff ct -> forall code qdd' ct' s', hd_CartToJnt svd c s q qd qdd alfa beta fext ff ct = Ret (code, qdd', ct', s') ->
     code = if Nat.eqb (hd_ns s) (ch_ns c) then E_NOERROR else E_NOT_UP_TO_DATE) /\
  hd_current c (hd_update c s) /\ hd_current c (hd_make c acc nc).
Proof. exact (@hd_return_codes). Qed.
Print Assumptions C65_codes.

(** Before the first call (and after updateInternalDataStructures) the total torques are zero; asking for the
    constraint magnitudes then fails an assertion. *)
Theorem C65_getters_before_call : forall c acc nc tau nu x,
  length tau = ch_nj c ->
  hd_getTotalTorque (hd_make c acc nc) tau = Ret (repeat 0 (ch_nj c)) /\
  (forall s, hd_getTotalTorque (hd_update c s) tau = Ret (repeat 0 (ch_nj c))) /\
  (nu <> [] -> hd_getContraintForceMagnitude (hd_make c acc nc) nu = Undef) /\
  (length x = (ch_ns c + 1)%nat -> hd_getTransformedLinkAcceleration (hd_make c acc nc) x = Ret (acc :: repeat t_zero (ch_ns c))).
Proof. exact (@hd_getters_first). Qed.
Print Assumptions C65_getters_before_call.

Theorem C65_history : forall svd acc nc c s1 s2 q qd qdd1 qdd2 alfa beta fext ff ct1 ct2 q1 c1 s1' q2 c2 s2',
  chain_ok c ->
  hd_reach svd acc nc c s1 -> hd_current c s1 -> hd_reach svd acc nc c s2 -> hd_current c s2 ->
  hd_CartToJnt svd c s1 q qd qdd1 alfa beta fext ff ct1 = Ret (E_NOERROR, q1, c1, s1') ->
  hd_CartToJnt svd c s2 q qd qdd2 alfa beta fext ff ct2 = Ret (E_NOERROR, q2, c2, s2') ->
  q1 = q2 /\ c1 = c2 /\ (forall x, hd_getTransformedLinkAcceleration s1' x = hd_getTransformedLinkAcceleration s2' x) /\
  (forall x, hd_getTotalTorque s1' x = hd_getTotalTorque s2' x) /\ (forall x, hd_getContraintForceMagnitude s1' x = hd_getContraintForceMagnitude s2' x).
Proof. exact (@hd_history). Qed.
Print Assumptions C65_history.


(** A concrete case. *)
Theorem C65_nonvacuous : chain_ok hwc /\ inertias_symmetric hwc /\ massive hwc z2 /\ no_fixed hwc /\ ch_nj hwc = 2%nat /\ svd_right 1 svd1 /\
  constraints_mobile hwc z2 hwa (/ 100000000000000) /\ (forall y, length y = ch_nj hwc -> 0 <= kinetic hwc z2 y) /\
  forall beta, hd_sizes hwc 1 z2 z2 z2 hwa [beta] (repeat w_zero 2) z2 z2 /\
    exists s s', hd_reach svd1 (t_neg (mkT v_zero v_zero)) 1 hwc s /\ hd_current hwc s /\
      hd_CartToJnt svd1 hwc s z2 z2 z2 hwa [beta] (repeat w_zero 2) z2 z2 = Ret (E_NOERROR, [0; beta], [0; beta], s') /\
      hd_getContraintForceMagnitude s' [0] = Ret [- beta].
Proof. exact (@hd_nonvacuous). Qed.
Print Assumptions C65_nonvacuous.

