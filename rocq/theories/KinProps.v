(** Property theorems C16-C26 and C56.  Definitions: KinModel.v (code), KinSpec.v
    (specification vocabulary).  Witnesses for the hypotheses: KinWitness.v. *)
From Coq Require Import String Reals List ZArith Bool.
From Verif Require Import FramesModel FramesSpec Outcome InertiaModel DualModel KinModel KinSpec
  KinProofs JacProofs JacDotProofs KinProtocol KinWitness.
Import ListNotations.
Local Open Scope R_scope.

(** ** C16: twists are the time derivatives of poses *)
Theorem C16_joint_twist_is_velocity : forall j (q : R -> R) t qd, joint_ok j -> derivable_pt_lim q t qd ->
  frame_velocity (fun s => joint_pose j (q s)) t (joint_twist j qd).
Proof. exact joint_velocity. Qed.
Print Assumptions C16_joint_twist_is_velocity.

Theorem C16_segment_twist_is_velocity : forall s (q : R -> R) t qd, segment_ok s -> derivable_pt_lim q t qd ->
  frame_velocity (fun u => segment_pose s (q u)) t (segment_twist s (q t) qd).
Proof. exact segment_velocity. Qed.
Print Assumptions C16_segment_twist_is_velocity.

(** frame_velocity determines the twist, so the statements above pin it down *)
Theorem C16_velocity_unique : forall F t tw tw', is_rotation (fM (F t)) ->
  frame_velocity F t tw -> frame_velocity F t tw' -> tw = tw'.
Proof. exact frame_velocity_unique. Qed.
Print Assumptions C16_velocity_unique.

Theorem C16_poses_rigid : forall j s q, 
  (joint_ok j -> rigid (joint_pose j q)) /\ (segment_ok s -> rigid (segment_pose s q)).
Proof. exact (fun j s q => conj (joint_pose_rigid j q) (segment_pose_rigid s q)). Qed.
Print Assumptions C16_poses_rigid.

(** the guard joint_ok is established by both constructors *)
Theorem C16_constructors_ok : 
  (forall name ty sc off i d st j, joint_make name ty sc off i d st = Made j -> joint_ok j) /\
  (forall name o a ty sc off i d st j, kdl_epsilon <= max_abs a ->
     joint_make_axis name o a ty sc off i d st = Made j -> joint_ok j) /\
  (forall name j f I, joint_ok j -> rigid f -> segment_ok (segment_make name j f I)).
Proof. exact (conj joint_make_ok (conj joint_make_axis_ok segment_make_ok)). Qed.
Print Assumptions C16_constructors_ok.

(** ** C17 *)
Theorem C17_segment_tip : forall name j f I, joint_ok j -> let s := segment_make name j f I in
  segment_pose s 0 = f /\ segment_getFrameToTip s = f.
Proof. exact segment_tip. Qed.
Print Assumptions C17_segment_tip.

Theorem C17_segment_setFrameToTip : forall s f, joint_ok (sjoint s) -> let s' := segment_setFrameToTip s f in
  segment_pose s' 0 = f /\ segment_getFrameToTip s' = f /\ sjoint s' = sjoint s /\ sname s' = sname s /\ sI s' = sI s.
Proof. exact segment_setTip. Qed.
Print Assumptions C17_segment_setFrameToTip.

Theorem C17_segment_pose : forall name j f I q, joint_ok j ->
  segment_pose (segment_make name j f I) q = f_mul (f_mul (joint_pose j q) (f_inv (joint_pose j 0))) f.
Proof. exact segment_pose_from_tip. Qed.
Print Assumptions C17_segment_pose.

Theorem C17_segment_copies : forall old s, segment_copy s = s /\ segment_assign old s = s.
Proof. exact (fun old s => conj (segment_copy_id s) (segment_assign_id old s)). Qed.
Print Assumptions C17_segment_copies.

(** ** C18 *)
Theorem C18_chain_counts : forall c l, built c l ->
  ch_ns c = length l /\ ch_nj c = count_moving l /\
  (forall i, (i < length l)%nat -> exists s, nth_error l i = Some s /\ chain_getSegment c i = Ret s).
Proof. exact built_facts. Qed.
Print Assumptions C18_chain_counts.

Theorem C18_chain_operations_total : forall c l d m, built c l -> built d m ->
  (exists e, chain_addChain c d = Ret e) /\ (exists e, chain_copy c = Ret e) /\
  (exists e, chain_assign c d = Ret e) /\
  (forall i f, (i < length l)%nat -> exists e, chain_setFrameToTip c i f = Ret e).
Proof. exact built_progress. Qed.
Print Assumptions C18_chain_operations_total.

Theorem C18_self_assignment_refuted :
  (forall c, chain_assign_self c = Ret chain_empty) /\
  (exists c l, built c l /\ chain_assign_self c <> Ret c).
Proof. exact self_assign_refuted. Qed.
Print Assumptions C18_self_assignment_refuted.

(** c.addChain(c) never returns on a non-empty chain, whatever the fuel. *)
Theorem C18_self_append_diverges : forall fuel c l, built c l -> (0 < length l)%nat ->
  chain_addChain_self fuel 0 c = None.
Proof. exact self_append_diverges. Qed.
Print Assumptions C18_self_append_diverges.

(** ** C19 *)
Theorem C19_forward_kinematics : forall c q z k, chain_wf c -> denotes c z k ->
  fk_JntToCart c q z = Ret
    (if Nat.eqb (length q) (ch_nj c)
     then if Nat.leb k (length (ch_segs c)) then (E_NOERROR, tip_frame c q k) else (E_OUT_OF_RANGE, f_id)
     else (E_SIZE_MISMATCH, f_id)).
Proof. exact fk_result. Qed.
Print Assumptions C19_forward_kinematics.

Theorem C19_tip_rigid : forall c q k, chain_ok c -> rigid (tip_frame c q k).
Proof. exact tip_frame_rigid. Qed.
Print Assumptions C19_tip_rigid.

Theorem C19_concatenation : forall c d e q r, chain_wf c -> chain_wf d -> chain_addChain c d = Ret e ->
  length q = ch_nj c -> length r = ch_nj d ->
  exists fc fd, fk_JntToCart c q (-1) = Ret (E_NOERROR, fc) /\ fk_JntToCart d r (-1) = Ret (E_NOERROR, fd) /\
  fk_JntToCart e (q ++ r) (-1) = Ret (E_NOERROR, f_mul fc fd).
Proof. exact fk_concat. Qed.
Print Assumptions C19_concatenation.

(** every chain reachable through the API is well formed *)
Theorem C19_reachable_wf : forall c l, built c l -> chain_wf c /\ (Forall segment_ok l -> chain_ok c).
Proof. exact built_ok. Qed.
Print Assumptions C19_reachable_wf.

(** ** C20 *)
Theorem C20_fk_vector : forall c q z k (ps : list Frame), chain_wf c -> denotes c z k ->
  (length q = ch_nj c /\ (k <= length (ch_segs c))%nat /\ length ps = k /\ (0 < k)%nat ->
   exists out, length out = k /\ fk_JntToCart_vec c q ps z = Ret (0%Z, out) /\
     forall i, (i < k)%nat -> exists p,
       fk_JntToCart c q (Z.of_nat (S i)) = Ret (E_NOERROR, p) /\ nth_error out i = Some p) /\
  (~ (length q = ch_nj c /\ (k <= length (ch_segs c))%nat /\ length ps = k /\ (0 < k)%nat) ->
   fk_JntToCart_vec c q ps z = Ret ((-1)%Z, ps)).
Proof. exact fk_vec_correct. Qed.
Print Assumptions C20_fk_vector.

Theorem C20_fkvel_vector : forall c q qd z k (ps : list FrameVel), chain_ok c -> denotes c z k ->
  (length q = ch_nj c /\ length qd = ch_nj c /\ (k <= length (ch_segs c))%nat /\ length ps = k /\ (0 < k)%nat ->
   exists out, length out = k /\ fkvel_JntToCart_vec c q qd ps z = Ret (0%Z, out) /\
     forall i, (i < k)%nat -> exists p,
       fkvel_JntToCart c q qd (Z.of_nat (S i)) = Ret (E_NOERROR, p) /\ nth_error out i = Some p) /\
  (~ (length q = ch_nj c /\ length qd = ch_nj c /\ (k <= length (ch_segs c))%nat /\ length ps = k /\ (0 < k)%nat) ->
   fkvel_JntToCart_vec c q qd ps z = Ret ((-1)%Z, ps)).
Proof. exact fkvel_vec_correct. Qed.
Print Assumptions C20_fkvel_vector.

(** ** C21 *)
Theorem C21_velocity_is_derivative : forall c z k (q : R -> list R) t qd,
  chain_ok c -> denotes c z k -> (k <= length (ch_segs c))%nat -> joint_motion (ch_nj c) q t qd ->
  exists V p, fkvel_JntToCart c (q t) qd z = Ret (E_NOERROR, V) /\
    fk_JntToCart c (q t) z = Ret (E_NOERROR, p) /\ fv_GetFrame V = p /\
    frame_velocity (fun s => match fk_JntToCart c (q s) z with Ret (_, f) => f | Undef => f_id end)
      t (fv_GetTwist V).
Proof. exact fkvel_derivative. Qed.
Print Assumptions C21_velocity_is_derivative.

Theorem C21_error_codes : forall c q qd z k, chain_ok c -> denotes c z k ->
  exists code V, fkvel_JntToCart c q qd z = Ret (code, V) /\
  (code = E_SIZE_MISMATCH <-> ~ (length q = ch_nj c /\ length qd = ch_nj c)) /\
  (code = E_OUT_OF_RANGE <-> (length q = ch_nj c /\ length qd = ch_nj c) /\ (length (ch_segs c) < k)%nat) /\
  (code = E_NOERROR <-> (length q = ch_nj c /\ length qd = ch_nj c) /\ (k <= length (ch_segs c))%nat).
Proof. exact fkvel_codes. Qed.
Print Assumptions C21_error_codes.

(** ** C22 *)
Theorem C22_jacobian_times_velocity : forall c z k q qd jac,
  chain_ok c -> denotes c z k -> (k <= length (ch_segs c))%nat ->
  length q = ch_nj c -> length qd = ch_nj c -> length jac = ch_nj c ->
  exists J V, jac_JntToJac c (jacsolver_make c) q jac z = Ret (E_NOERROR, J) /\
    length J = ch_nj c /\
    fkvel_JntToCart c q qd z = Ret (E_NOERROR, V) /\
    MultiplyJacobian J qd = Ret (fv_GetTwist V).
Proof. exact jac_times_velocity. Qed.
Print Assumptions C22_jacobian_times_velocity.

Theorem C22_column_is_partial_derivative : forall c z k q j jac,
  chain_ok c -> denotes c z k -> (k <= length (ch_segs c))%nat ->
  length q = ch_nj c -> length jac = ch_nj c -> (j < ch_nj c)%nat ->
  exists J col, jac_JntToJac c (jacsolver_make c) q jac z = Ret (E_NOERROR, J) /\
    nth_error J j = Some col /\
    frame_velocity (fun u => match fk_JntToCart c (upd q j u) z with Ret (_, f) => f | Undef => f_id end)
      (nth j q 0) col.
Proof. exact jac_partial. Qed.
Print Assumptions C22_column_is_partial_derivative.

(** ** C23 *)
Theorem C23_locked_joints : forall c z k q mask jac m0,
  chain_ok c -> denotes c z k -> (k <= length (ch_segs c))%nat ->
  length q = ch_nj c -> length jac = ch_nj c -> length m0 = ch_nj c -> length mask = ch_nj c ->
  jacsolver_setLocked c m0 mask = (E_NOERROR, mask) /\
  exists J, jac_JntToJac c (jacsolver_make c) q jac z = Ret (E_NOERROR, J) /\
    jac_JntToJac c mask q jac z =
      Ret (E_NOERROR, unlocked mask J ++ repeat t_zero (length (filter (fun b => b) mask))) /\
    forall qd rd, length qd = ch_nj c ->
      exists V, fkvel_JntToCart c q (freeze mask qd) z = Ret (E_NOERROR, V) /\
        jac_mul (unlocked mask J ++ repeat t_zero (length (filter (fun b => b) mask))) (unlocked mask qd ++ rd)
          = fv_GetTwist V.
Proof. exact jac_locked. Qed.
Print Assumptions C23_locked_joints.

Theorem C23_bad_mask_rejected : forall c m0 mask, length mask <> ch_nj c ->
  fst (jacsolver_setLocked c m0 mask) <> E_NOERROR /\ snd (jacsolver_setLocked c m0 mask) = m0.
Proof. exact setLocked_reject. Qed.
Print Assumptions C23_bad_mask_rejected.

(** ** C24 *)
Theorem C24_jacobian_transforms_in_place : forall J qd p r f, length J = length qd ->
  exists t, MultiplyJacobian J qd = Ret t /\
  (exists J1, jac_changeRefPoint J p = Ret J1 /\ MultiplyJacobian J1 qd = Ret (t_RefPoint t p)) /\
  (exists J2, jac_changeBase J r = Ret J2 /\ MultiplyJacobian J2 qd = Ret (r_app_t r t)) /\
  (exists J3, jac_changeRefFrame J f = Ret J3 /\ MultiplyJacobian J3 qd = Ret (f_app_t f t)).
Proof. exact jac_transforms_inplace. Qed.
Print Assumptions C24_jacobian_transforms_in_place.

Theorem C24_jacobian_transforms_copying : forall J dest qd p r f, length J = length qd ->
  (length dest = length J ->
   exists t, MultiplyJacobian J qd = Ret t /\
   (exists J1, changeRefPoint J p dest = Ret (true, J1) /\ MultiplyJacobian J1 qd = Ret (t_RefPoint t p)) /\
   (exists J2, changeBase J r dest = Ret (true, J2) /\ MultiplyJacobian J2 qd = Ret (r_app_t r t)) /\
   (exists J3, changeRefFrame J f dest = Ret (true, J3) /\ MultiplyJacobian J3 qd = Ret (f_app_t f t))) /\
  (length dest <> length J ->
   changeRefPoint J p dest = Ret (false, dest) /\ changeBase J r dest = Ret (false, dest) /\
   changeRefFrame J f dest = Ret (false, dest)).
Proof. exact jac_transforms_copying. Qed.
Print Assumptions C24_jacobian_transforms_copying.

(** ** C25 *)
Theorem C25_jacdot_is_derivative : forall c st z k (q : R -> list R) t qd jdot,
  jd_history c st -> length (jd_locked st) = ch_nj c ->
  denotes c z k -> (k <= length (ch_segs c))%nat -> joint_motion (ch_nj c) q t qd -> length jdot = ch_nj c ->
  exists Jd st', jd_JntToJacDot c st (q t) qd jdot z = Ret (E_NOERROR, Jd, st') /\
    length Jd = ch_nj c /\
    forall i, (i < ch_nj c)%nat ->
      tw_derive (fun s => nth i (represent (jd_rep st) (tip_at c z (q s)) (jacobian_at c z (q s))) t_zero) t
        (nth i Jd t_zero).
Proof. exact jacdot_correct. Qed.
Print Assumptions C25_jacdot_is_derivative.

Theorem C25_jacdot_twist : forall c st z k (q : R -> list R) t qd tw,
  jd_history c st -> length (jd_locked st) = ch_nj c ->
  denotes c z k -> (k <= length (ch_segs c))%nat -> joint_motion (ch_nj c) q t qd ->
  exists Jd st', jd_JntToJacDot_twist c st (q t) qd tw z = Ret (E_NOERROR, jac_mul Jd qd, st') /\
    jd_exact c z (jd_rep st) q t Jd.
Proof. exact jacdot_twist_correct. Qed.
Print Assumptions C25_jacdot_twist.

(** Every accepted lock mask with a locked joint makes the call over the whole
    chain write outside the output matrix. *)
Theorem C25_locked_refuted : forall c st mask q qd jdot z, jd_history c st -> length (jd_locked st) = ch_nj c ->
  denotes c z (length (ch_segs c)) -> length q = ch_nj c -> length mask = ch_nj c -> In true mask ->
  length jdot = length (filter negb mask) ->
  exists st', jdsolver_setLocked st mask = (E_NOERROR, st') /\
    jd_JntToJacDot c st' q qd jdot z = Undef.
Proof. exact jd_locked_undef. Qed.
Print Assumptions C25_locked_refuted.

(** ** C26 (the dynamics solvers are in DynProps.v) *)
Theorem C26_jacobian_solver_protocol : forall c0 h, chain_ok c0 ->
  Forall (fun e => match e with EvAddSegment s => segment_ok s | _ => True end) h ->
  exists c m, jac_run (c0, jacsolver_make c0) h = Ret (c, m) /\ chain_ok c /\
  (stale false h = true ->
     (forall q jac z, jac_JntToJac c m q jac z = Ret (E_NOT_UP_TO_DATE, jac)) /\
     (forall mask, jacsolver_setLocked c m mask = (E_NOT_UP_TO_DATE, m))) /\
  (stale false h = false ->
     (forall q jac z code J, jac_JntToJac c m q jac z = Ret (code, J) -> code <> E_NOT_UP_TO_DATE) /\
     (Forall no_lock h -> m = jacsolver_make c)).
Proof. exact jac_protocol. Qed.
Print Assumptions C26_jacobian_solver_protocol.

Theorem C26_jacdot_solver_protocol : forall c0 h c st, jd_run (c0, jdsolver_make c0) h = Ret (c, st) ->
  (stale false h = true -> forall q qd jdot z,
     jd_JntToJacDot c st q qd jdot z = Ret (E_NOT_UP_TO_DATE, jdot, st)) /\
  (stale false h = false -> length (jd_locked st) = ch_nj c /\
     forall q qd jdot z code out st', jd_JntToJacDot c st q qd jdot z = Ret (code, out, st') ->
       code <> E_NOT_UP_TO_DATE).
Proof. exact jd_protocol. Qed.
Print Assumptions C26_jacdot_solver_protocol.

(** ** C56 *)
Theorem C56_joint_geometry_cardinal : forall name ty sc off i d st j,
  joint_make name ty sc off i d st = Made j ->
  forall q x, f_app (joint_pose j q) x =
    match ty with
    | RotAxis | TransAxis => x
    | RotX | RotY | RotZ => r_app (r_Rot2 (joint_JointAxis j) (sc * q + off)) x
    | TransX | TransY | TransZ => v_add x (v_scale (joint_JointAxis j) (sc * q + off))
    | Fixed => x
    end.
Proof. exact joint_geometry_cardinal. Qed.
Print Assumptions C56_joint_geometry_cardinal.

Theorem C56_joint_geometry_axis : forall name o a ty sc off i d st j, kdl_epsilon <= max_abs a ->
  joint_make_axis name o a ty sc off i d st = Made j ->
  joint_JointOrigin j = o /\ unit_vector (joint_JointAxis j) /\
  (exists n, 0 < n /\ a = v_scale (joint_JointAxis j) n) /\
  forall q x, f_app (joint_pose j q) x =
    match ty with
    | RotAxis => v_add o (r_app (r_Rot2 (joint_JointAxis j) (sc * q + off)) x)
    | TransAxis => v_add o (v_add x (v_scale (joint_JointAxis j) (sc * q + off)))
    | _ => x
    end.
Proof. exact joint_geometry_axis. Qed.
Print Assumptions C56_joint_geometry_axis.

Theorem C56_constructor_exceptions : forall name o a ty sc off i d st,
  (joint_make name ty sc off i d st = Throws <-> ty = RotAxis \/ ty = TransAxis) /\
  (joint_make_axis name o a ty sc off i d st = Throws <-> ~ (ty = RotAxis \/ ty = TransAxis)).
Proof. exact joint_exceptions. Qed.
Print Assumptions C56_constructor_exceptions.
