(** Property theorems for the geometric primitives (C01-C15). *)
From Coq Require Import Reals Lra List Bool.
From Verif Require Import FramesModel FramesSpec FramesProofs RotationProofs RotationProofs2 RotationProofs3
  FrameOpsProofs RotationBands FramesWitness.
Import ListNotations.
Local Open Scope R_scope.

(** ** C01 *)
Theorem C01_rotations_closed : forall e : rot_expr, rot_expr_ok e -> is_rotation (eval_rot e).
Proof. exact rot_expr_is_rotation. Qed.
Print Assumptions C01_rotations_closed.

(** A nested expression with a unit axis, a unit quaternion and a zero axis. *)
Example C01_nonvacuous :
  rot_expr_ok (EMul (ERot2 (mkV (3/5) 0 (4/5)) 1)
                    (EDoRotX (EInv (EMul (EQuaternion (1/2) (1/2) (1/2) (1/2)) (ERot (mkV 0 0 0) 2))) 3)).
Proof. cbn. unfold unit_vector; cbn. repeat split; lra. Qed.

(** ** C02 *)
Theorem C02_frame_group : forall F G K : Frame, rigid F -> rigid G ->
  f_mul F (f_inv F) = f_id /\ f_mul (f_inv F) F = f_id /\
  f_mul (f_mul F G) K = f_mul F (f_mul G K) /\ f_mul f_id F = F /\ f_mul F f_id = F /\
  rigid (f_mul F G) /\ rigid (f_inv F).
Proof.
  exact (fun F G K HF HG => conj (f_inv_r F HF) (conj (f_inv_l F HF) (conj (f_mul_assoc F G K)
    (conj (f_mul_id_l F) (conj (f_mul_id_r F) (conj (rigid_mul F G HF HG) (rigid_inv F HF))))))).
Qed.
Print Assumptions C02_frame_group.

Theorem C02_frame_action : forall (F G : Frame) (v : Vector) (t : Twist) (w : Wrench), rigid F ->
  f_app (f_mul F G) v = f_app F (f_app G v) /\
  f_app_t (f_mul F G) t = f_app_t F (f_app_t G t) /\
  f_app_w (f_mul F G) w = f_app_w F (f_app_w G w).
Proof.
  exact (fun F G v t w HF => conj (f_mul_app F G v) (conj (f_mul_app_t F G t HF) (f_mul_app_w F G w HF))).
Qed.
Print Assumptions C02_frame_action.

Theorem C02_frame_inverse_action : forall (F : Frame) (v : Vector) (t : Twist) (w : Wrench), rigid F ->
  (f_invapp F (f_app F v) = v /\ f_app F (f_invapp F v) = v /\ f_app (f_inv F) v = f_invapp F v) /\
  (f_invapp_t F (f_app_t F t) = t /\ f_app_t F (f_invapp_t F t) = t /\ f_app_t (f_inv F) t = f_invapp_t F t) /\
  (f_invapp_w F (f_app_w F w) = w /\ f_app_w F (f_invapp_w F w) = w /\ f_app_w (f_inv F) w = f_invapp_w F w).
Proof.
  exact (fun F v t w HF =>
    conj (conj (f_invapp_app F v HF) (conj (f_app_invapp F v HF) (f_inv_app F v HF)))
   (conj (conj (f_invapp_app_t F t HF) (conj (f_app_invapp_t F t HF) (f_inv_app_t F t HF)))
         (conj (f_invapp_app_w F w HF) (conj (f_app_invapp_w F w HF) (f_inv_app_w F w HF))))).
Qed.
Print Assumptions C02_frame_inverse_action.

Example C02_nonvacuous : rigid (mkF (r_RotX 1) (mkV 1 2 3)) /\ rigid (mkF (r_RPY 1 2 3) (mkV 0 0 1)).
Proof. exact (conj (is_rotation_RotX 1) (is_rotation_RPY 1 2 3)). Qed.

(** ** C03 *)
Theorem C03_power_invariance : forall (F : Frame) (r : Rotation) (p : Vector) (a t : Twist) (w : Wrench),
  rigid F -> is_rotation r ->
  tw_dot (f_app_t F t) (f_app_w F w) = tw_dot t w /\
  tw_dot (r_app_t r t) (r_app_w r w) = tw_dot t w /\
  tw_dot (t_RefPoint t p) (w_RefPoint w p) = tw_dot t w /\
  tw_dot (t_cross a t) w = - tw_dot t (tw_cross a w).
Proof.
  exact (fun F r p a t w HF Hr => conj (f_power F t w HF) (conj (r_power r t w Hr)
    (conj (ref_power t w p) (cross_power a t w)))).
Qed.
Print Assumptions C03_power_invariance.

(** ** C04 *)
Theorem C04_norm : forall eps v, 0 < eps ->
  0 <= v_norm_eps eps v /\
  (eps <= max_abs v -> v_norm_eps eps v = euclid_norm v) /\
  Rabs (v_norm_eps eps v - euclid_norm v) < sqrt 3 * eps.
Proof.
  exact (fun eps v He => conj (v_norm_eps_nonneg eps v He)
    (conj (v_norm_eps_exact eps v He) (v_norm_eps_error eps v He))).
Qed.
Print Assumptions C04_norm.

Theorem C04_normalize : forall eps v, 0 < eps ->
  unit_vector (fst (v_normalize_eps eps v)) /\
  (kdl_epsilon <= max_abs v -> eps <= euclid_norm v ->
     v_normalize_eps eps v = (v_div v (euclid_norm v), euclid_norm v) /\
     unit_vector (v_div v (euclid_norm v))) /\
  (euclid_norm v < eps -> v_normalize_eps eps v = (mkV 1 0 0, 0)).
Proof.
  exact (fun eps v He => conj (v_normalize_eps_unit eps v He)
    (conj (v_normalize_spec eps v He) (v_normalize_small eps v He))).
Qed.
Print Assumptions C04_normalize.

Theorem C04_norm2 : forall eps v, 0 < eps ->
  (eps <= Rabs (v2x v) \/ eps <= Rabs (v2y v) -> v2_norm_eps eps v = euclid_norm2 v) /\
  (Rabs (v2x v) < eps -> Rabs (v2y v) < eps -> v2_norm_eps eps v = 0).
Proof. exact (fun eps v He => conj (v2_norm_eps_exact eps v He) (v2_norm_eps_small eps v He)). Qed.
Print Assumptions C04_norm2.

(** Finding: the tolerance is only applied when x is the largest component. *)
Theorem C04_norm_axis_permutation_refuted :
  v_norm (mkV (/ 2000000) 0 0) = 0 /\ v_norm (mkV 0 (/ 2000000) 0) = / 2000000.
Proof. exact norm_not_invariant. Qed.
Print Assumptions C04_norm_axis_permutation_refuted.

(** Finding: a vector longer than the tolerance that Normalize treats as zero. *)
Theorem C04_normalize_refuted : let v := mkV (9 / 10000000) (9 / 10000000) 0 in
  kdl_epsilon < euclid_norm v /\ v_normalize v = (mkV 1 0 0, 0).
Proof. exact normalize_refuted. Qed.
Print Assumptions C04_normalize_refuted.

Example C04_nonvacuous : kdl_epsilon <= max_abs (mkV 3 0 4) /\ euclid_norm (mkV 3 0 4) = 5.
Proof.
  split.
  - unfold kdl_epsilon, max_abs; cbn. apply Rle_trans with (Rabs 3); [rewrite Rabs_pos_eq; lra|apply Rmax_l].
  - unfold euclid_norm; cbn. rewrite <- (sqrt_Rsqr 5) by lra. f_equal. unfold Rsqr. lra.
Qed.

(** ** C05 *)
Theorem C05_rot_axis_angle : forall axis a b v, kdl_epsilon <= max_abs axis ->
  let n := v_div axis (euclid_norm axis) in
  unit_vector n /\
  r_app (r_Rot axis a) n = n /\
  (v_dot n v = 0 -> r_app (r_Rot axis a) v = v_add (v_scale v (cos a)) (v_scale (v_cross n v) (sin a))) /\
  r_mul (r_Rot axis a) (r_Rot axis b) = r_Rot axis (a + b) /\
  r_Rot axis (- a) = r_inv (r_Rot axis a) /\
  r_Rot axis 0 = r_id.
Proof. exact Rot_axis_angle. Qed.
Print Assumptions C05_rot_axis_angle.

Theorem C05_rot2_rodrigues : forall n a v, unit_vector n ->
  r_app (r_Rot2 n a) v = v_add (v_add (v_scale v (cos a)) (v_scale (v_cross n v) (sin a)))
                               (v_scale n ((1 - cos a) * v_dot n v)) /\
  r_app (r_Rot2 n a) n = n.
Proof. exact (fun n a v U => conj (Rot2_app n a v) (Rot2_fixes n a U)). Qed.
Print Assumptions C05_rot2_rodrigues.

(** Finding: the documentation says a too short axis gives the identity. *)
Theorem C05_short_axis_identity_refuted :
  (forall axis a, euclid_norm axis < kdl_epsilon -> r_Rot axis a = r_RotX a) /\
  r_Rot (mkV 0 0 0) (PI / 2) <> r_id.
Proof. exact (conj Rot_short Rot_short_not_identity). Qed.
Print Assumptions C05_short_axis_identity_refuted.

(** ** C06 *)
Theorem C06_axis_angle_roundtrip : forall r eps, is_rotation r -> kdl_epsilon <= eps <= / 10 ->
  axis_angle_regular r eps \/ symmetric3 r ->
  let '(n, a) := r_GetRotAngle r eps in
  unit_vector n /\ 0 <= a <= PI /\ r_Rot n a = r.
Proof. exact GetRotAngle_exact. Qed.
Print Assumptions C06_axis_angle_roundtrip.

(** For every rotation, in or out of the bands, the round trip is accurate to
    the tolerance that was asked for. *)
Theorem C06_axis_angle_every_rotation : forall r eps, is_rotation r -> kdl_epsilon <= eps <= / 100 ->
  let '(n, a) := r_GetRotAngle r eps in r_close (r_Rot n a) r eps.
Proof. exact GetRotAngle_total. Qed.
Print Assumptions C06_axis_angle_every_rotation.

Theorem C06_angle_range : forall r eps, is_rotation r -> 0 < eps -> 0 <= snd (r_GetRotAngle r eps) <= PI.
Proof. exact GetRotAngle_range. Qed.
Print Assumptions C06_angle_range.

(** Finding: with an eps below the global tolerance the result is wrong even
    outside the band. *)
Theorem C06_small_eps_refuted : let r := r_RotX (/ 10000000) in let eps := / 1000000000 in
  is_rotation r /\ axis_angle_regular r eps /\
  let '(n, a) := r_GetRotAngle r eps in r_Rot n a <> r.
Proof. exact GetRotAngle_small_eps. Qed.
Print Assumptions C06_small_eps_refuted.

Example C06_nonvacuous : is_rotation (r_RotZ (PI / 2)) /\ axis_angle_regular (r_RotZ (PI / 2)) kdl_epsilon /\
  symmetric3 (mkR 1 0 0 0 (-1) 0 0 0 (-1)) /\ is_rotation (mkR 1 0 0 0 (-1) 0 0 0 (-1)).
Proof.
  repeat split; try apply (is_rotation_RotZ (PI / 2)); unfold det3; cbn; try ring.
  left. unfold r_RotZ; cbn. rewrite sin_PI2. unfold kdl_epsilon. rewrite Rabs_left; lra.
Qed.

(** ** C07 *)
Theorem C07_quaternion_roundtrip : forall r, is_rotation r ->
  let '(x, y, z, w) := r_GetQuaternion r in
  x ^ 2 + y ^ 2 + z ^ 2 + w ^ 2 = 1 /\ r_Quaternion x y z w = r.
Proof. exact GetQuaternion_correct. Qed.
Print Assumptions C07_quaternion_roundtrip.

Theorem C07_unit_quaternion_recovered : forall x y z w, x ^ 2 + y ^ 2 + z ^ 2 + w ^ 2 = 1 ->
  r_GetQuaternion (r_Quaternion x y z w) = (x, y, z, w) \/
  r_GetQuaternion (r_Quaternion x y z w) = (- x, - y, - z, - w).
Proof. exact Quaternion_roundtrip. Qed.
Print Assumptions C07_unit_quaternion_recovered.

Example C07_nonvacuous : (1/2) ^ 2 + (1/2) ^ 2 + (1/2) ^ 2 + (-(1/2)) ^ 2 = 1.
Proof. lra. Qed.

(** ** C08 *)
Theorem C08_rpy_roundtrip : forall r roll pitch yaw, is_rotation r -> r_GetRPY r = (roll, pitch, yaw) ->
  Rabs pitch <= PI / 2 - rpy_epsilon \/ Rabs pitch = PI / 2 ->
  r_RPY roll pitch yaw = r.
Proof. exact GetRPY_correct. Qed.
Print Assumptions C08_rpy_roundtrip.

Theorem C08_zyx_roundtrip : forall r z y x, is_rotation r -> r_GetEulerZYX r = (z, y, x) ->
  Rabs y <= PI / 2 - rpy_epsilon \/ Rabs y = PI / 2 ->
  r_EulerZYX z y x = r.
Proof. exact GetEulerZYX_correct. Qed.
Print Assumptions C08_zyx_roundtrip.

Theorem C08_rpy_every_rotation : forall r roll pitch yaw, is_rotation r -> r_GetRPY r = (roll, pitch, yaw) ->
  - (PI / 2) <= pitch <= PI / 2 /\ r_close (r_RPY roll pitch yaw) r (4 * rpy_epsilon).
Proof. exact GetRPY_every. Qed.
Print Assumptions C08_rpy_every_rotation.

Theorem C08_rpy_meaning : forall a b c,
  r_RPY a b c = r_mul (r_RotZ c) (r_mul (r_RotY b) (r_RotX a)) /\
  r_EulerZYX a b c = r_mul (r_RotZ a) (r_mul (r_RotY b) (r_RotX c)).
Proof. exact (fun a b c => conj (RPY_product a b c) (EulerZYX_product a b c)). Qed.
Print Assumptions C08_rpy_meaning.

Theorem C08_gimbal_band_refuted : let p := PI / 2 - rpy_epsilon / 2 in let r := r_RPY 1 p 0 in
  is_rotation r /\ let '(roll, pitch, yaw) := r_GetRPY r in r_RPY roll pitch yaw <> r.
Proof. exact RPY_band_inexact. Qed.
Print Assumptions C08_gimbal_band_refuted.

(** ** C09 *)
Theorem C09_zyz_roundtrip : forall r alpha beta gamma, is_rotation r ->
  r_GetEulerZYZ r = (alpha, beta, gamma) ->
  Rabs (r8 r) <= 1 - rpy_epsilon \/ Rabs (r8 r) = 1 ->
  r_EulerZYZ alpha beta gamma = r.
Proof. exact GetEulerZYZ_correct. Qed.
Print Assumptions C09_zyz_roundtrip.

Theorem C09_zyz_every_rotation : forall r alpha beta gamma, is_rotation r ->
  r_GetEulerZYZ r = (alpha, beta, gamma) ->
  0 <= beta <= PI /\ r_close (r_EulerZYZ alpha beta gamma) r (2 * kdl_epsilon).
Proof. exact GetEulerZYZ_every. Qed.
Print Assumptions C09_zyz_every_rotation.

Theorem C09_zyz_meaning : forall a b c,
  r_EulerZYZ a b c = r_mul (r_RotZ a) (r_mul (r_RotY b) (r_RotZ c)).
Proof. exact EulerZYZ_product. Qed.
Print Assumptions C09_zyz_meaning.

(** Finding: inside the band the round trip can miss by more than the default
    tolerance of [Equal]. *)
Theorem C09_zyz_default_tolerance_refuted : exists r, is_rotation r /\
  let '(a, b, c) := r_GetEulerZYZ r in r_Equal (r_EulerZYZ a b c) r kdl_epsilon = false.
Proof. exact ZYZ_band_inexact. Qed.
Print Assumptions C09_zyz_default_tolerance_refuted.

(** ** C10 *)
Theorem C10_addDelta_diff_linear : forall dt, dt <> 0 ->
  (forall a b, v_addDelta a (v_diff a b dt) dt = b) /\
  (forall a b, t_addDelta a (t_diff a b dt) dt = b) /\
  (forall a b, w_addDelta a (w_diff a b dt) dt = b) /\
  (forall a b, addDelta_d a (diff_d a b dt) dt = b).
Proof.
  exact (fun dt N => conj (fun a b => v_addDelta_diff a b dt N)
    (conj (fun a b => t_addDelta_diff a b dt N) (conj (fun a b => w_addDelta_diff a b dt N) (fun a b => d_addDelta_diff a b dt N)))).
Qed.
Print Assumptions C10_addDelta_diff_linear.

Theorem C10_addDelta_diff_rotation : forall a b dt, is_rotation a -> is_rotation b -> dt <> 0 ->
  same_or_far (r_mul (r_inv a) b) -> r_addDelta a (r_diff a b dt) dt = b.
Proof. exact r_addDelta_diff. Qed.
Print Assumptions C10_addDelta_diff_rotation.

Theorem C10_addDelta_diff_frame : forall a b dt, rigid a -> rigid b -> dt <> 0 ->
  same_or_far (r_mul (r_inv (fM a)) (fM b)) -> f_addDelta a (f_diff a b dt) dt = b.
Proof. exact f_addDelta_diff. Qed.
Print Assumptions C10_addDelta_diff_frame.

(** Finding: a relative rotation below the tolerance is lost. *)
Theorem C10_small_rotation_refuted : let b := r_RotX (/ 2000000) in
  is_rotation b /\ r_addDelta r_id (r_diff r_id b 1) 1 = r_id /\ r_id <> b.
Proof. exact addDelta_diff_small. Qed.
Print Assumptions C10_small_rotation_refuted.

Example C10_nonvacuous : same_or_far (r_mul (r_inv (r_RotZ 0)) (r_RotZ (PI / 2))).
Proof.
  right. left. unfold r_mul, r_inv, r_RotZ; cbn. rewrite cos_0, sin_0, sin_PI2, cos_PI2.
  unfold kdl_epsilon. rewrite Rabs_left; lra.
Qed.

(** ** C11 *)
Theorem C11_denavit_hartenberg : forall a alpha d theta,
  f_DH a alpha d theta = f_mul (f_of_rot (r_RotZ theta)) (f_mul (f_of_vec (mkV 0 0 d))
    (f_mul (f_of_vec (mkV a 0 0)) (f_of_rot (r_RotX alpha)))) /\
  f_DH_Craig1989 a alpha d theta = f_mul (f_of_vec (mkV a 0 0)) (f_mul (f_of_rot (r_RotX alpha))
    (f_mul (f_of_vec (mkV 0 0 d)) (f_of_rot (r_RotZ theta)))) /\
  rigid (f_DH a alpha d theta) /\ rigid (f_DH_Craig1989 a alpha d theta).
Proof.
  exact (fun a alpha d theta => conj (DH_product a alpha d theta)
    (conj (DH_Craig_product a alpha d theta) (DH_rigid a alpha d theta))).
Qed.
Print Assumptions C11_denavit_hartenberg.

(** ** C12 *)
Theorem C12_equal_means_close :
  (forall a b eps, v_Equal a b eps = true <-> v_close a b eps) /\
  (forall a b eps, r_Equal a b eps = true <-> r_close a b eps) /\
  (forall a b eps, f_Equal a b eps = true <-> f_close a b eps) /\
  (forall a b eps, t_Equal a b eps = true <-> t_close a b eps) /\
  (forall a b eps, w_Equal a b eps = true <-> w_close a b eps).
Proof.
  exact (conj v_Equal_close (conj r_Equal_close (conj f_Equal_close (conj t_Equal_close w_Equal_close)))).
Qed.
Print Assumptions C12_equal_means_close.

Theorem C12_equal_laws : equal_laws v_Equal /\ equal_laws r_Equal /\ equal_laws f_Equal /\
  equal_laws t_Equal /\ equal_laws w_Equal.
Proof. exact (conj v_equal_laws (conj r_equal_laws (conj f_equal_laws (conj t_equal_laws w_equal_laws)))). Qed.
Print Assumptions C12_equal_laws.

Theorem C12_equal_transitive_refuted :
  v_Equal (mkV 0 0 0) (mkV (2/3) 0 0) 1 = true /\ v_Equal (mkV (2/3) 0 0) (mkV (4/3) 0 0) 1 = true /\
  v_Equal (mkV 0 0 0) (mkV (4/3) 0 0) 1 = false.
Proof. exact Equal_not_transitive. Qed.
Print Assumptions C12_equal_transitive_refuted.

(** ** C13 *)
Theorem C13_integrate_rigid : forall (calls : list (Twist * R)) f, rigid f -> rigid (integrate_all f calls).
Proof. exact integrate_all_rigid. Qed.
Print Assumptions C13_integrate_rigid.

Theorem C13_integrate_translation : forall v freq n f, freq <> 0 ->
  integrate_all f (repeat (mkT v v_zero, freq) n)
  = mkF (fM f) (v_add (fp f) (v_scale (r_app (fM f) v) (INR n / freq))).
Proof. exact integrate_translation. Qed.
Print Assumptions C13_integrate_translation.

Theorem C13_integrate_rotation : forall w freq n f, 0 < freq ->
  kdl_epsilon <= max_abs w -> kdl_epsilon <= euclid_norm w / freq ->
  integrate_all f (repeat (mkT v_zero w, freq) n)
  = mkF (r_mul (fM f) (r_Rot w (INR n * (euclid_norm w / freq)))) (fp f).
Proof. exact integrate_rotation. Qed.
Print Assumptions C13_integrate_rotation.

(** Finding: below 1 Hz a step above the tolerance can rotate about the wrong axis. *)
Theorem C13_integrate_slow_sampling_refuted :
  f_Integrate f_id (mkT v_zero (mkV 0 (/ 2000000) 0)) (/ 10) = f_of_rot (r_RotX (/ 200000)).
Proof. exact Integrate_wrong_axis. Qed.
Print Assumptions C13_integrate_slow_sampling_refuted.

Example C13_nonvacuous : 0 < 100 /\ kdl_epsilon <= max_abs (mkV 1 0 0) /\ kdl_epsilon <= euclid_norm (mkV 1 0 0) / 100.
Proof.
  unfold kdl_epsilon, max_abs, euclid_norm; cbn. split; [lra|]. split.
  - apply Rle_trans with (Rabs 1); [rewrite Rabs_pos_eq; lra|apply Rmax_l].
  - replace (1 * (1 * 1) + 0 * (0 * 1) + 0 * (0 * 1)) with 1 by ring. rewrite sqrt_1. lra.
Qed.

(** ** C14 *)
Theorem C14_planar_group : forall F G K : Frame2, forall v : Vector2, rigid2 F ->
  f2_mul F (f2_inv F) = f2_id /\ f2_mul (f2_inv F) F = f2_id /\
  f2_mul (f2_mul F G) K = f2_mul F (f2_mul G K) /\
  f2_app (f2_mul F G) v = f2_app F (f2_app G v) /\
  f2_invapp F (f2_app F v) = v /\ f2_app F (f2_invapp F v) = v.
Proof.
  exact (fun F G K v HF => conj (f2_inv_r F HF) (conj (f2_inv_l F HF) (conj (f2_mul_assoc F G K)
    (conj (f2_mul_app F G v) (conj (f2_invapp_app F v HF) (f2_app_invapp F v HF)))))).
Qed.
Print Assumptions C14_planar_group.

Theorem C14_planar_angles : forall a b,
  is_rotation2 (rot2_Rot a) /\ rot2_mul (rot2_Rot a) (rot2_Rot b) = rot2_Rot (a + b) /\
  rot2_inv (rot2_Rot a) = rot2_Rot (- a) /\
  - PI < rot2_GetRot (rot2_Rot a) <= PI /\ same_angle (rot2_GetRot (rot2_Rot a)) a.
Proof. exact planar_angles. Qed.
Print Assumptions C14_planar_angles.

(** Finding: the accessor returns the transpose of the matrix that is applied. *)
Theorem C14_accessor_refuted :
  (exists r, is_rotation2 r /\ rot2_get r 0 1 <> Some (v2x (rot2_app r (mkV2 0 1)))) /\
  (forall r, rot2_get r 0 0 = Some (v2x (rot2_app r (mkV2 1 0))) /\
             rot2_get r 0 1 = Some (v2y (rot2_app r (mkV2 1 0))) /\
             rot2_get r 1 0 = Some (v2x (rot2_app r (mkV2 0 1))) /\
             rot2_get r 1 1 = Some (v2y (rot2_app r (mkV2 0 1)))).
Proof. exact (conj rot2_accessor_transposed rot2_accessor_is_transpose). Qed.
Print Assumptions C14_accessor_refuted.

(** The 3D accessor is consistent with the action. *)
Theorem C14_accessor3 : forall r f, 
  (r_get r 0 0 = Some (vx (r_app r (mkV 1 0 0))) /\ r_get r 0 1 = Some (vx (r_app r (mkV 0 1 0))) /\
   r_get r 0 2 = Some (vx (r_app r (mkV 0 0 1))) /\ r_get r 1 0 = Some (vy (r_app r (mkV 1 0 0))) /\
   r_get r 1 1 = Some (vy (r_app r (mkV 0 1 0))) /\ r_get r 1 2 = Some (vy (r_app r (mkV 0 0 1))) /\
   r_get r 2 0 = Some (vz (r_app r (mkV 1 0 0))) /\ r_get r 2 1 = Some (vz (r_app r (mkV 0 1 0))) /\
   r_get r 2 2 = Some (vz (r_app r (mkV 0 0 1)))) /\
  (forall i j, (i < 4)%nat -> (j < 4)%nat -> f_get f i j = nth_error (f_Make4x4 f) (4 * i + j)).
Proof. exact accessor3. Qed.
Print Assumptions C14_accessor3.

(** ** C15 *)
Theorem C15_set2dplane_refuted :
  (forall this F v, v_Set2DPlane this F v = this) /\
  (exists this F v, rigid F /\ v_Set2DPlane this F v <> f_app F (mkV (v2x v) (v2y v) 0)).
Proof. exact (conj Set2DPlane_noop Set2DPlane_refuted). Qed.
Print Assumptions C15_set2dplane_refuted.

Theorem C15_set2d_set3d : forall this this2 v (F : Frame), rigid F ->
  v2_Set3DXY this2 (v_Set2DXY this v) = v /\
  v2_Set3DYZ this2 (v_Set2DYZ this v) = v /\
  v2_Set3DZX this2 (v_Set2DZX this v) = v /\
  v2_Set3DPlane this2 F (f_app F (mkV (v2x v) (v2y v) 0)) = v.
Proof. exact set2d_set3d. Qed.
Print Assumptions C15_set2d_set3d.
