(** Lemmas about norms, axis-angle, quaternions and Euler angles. *)
From Coq Require Import Reals Lra Lia List Bool Psatz.
From Verif Require Import FramesModel FramesSpec FramesProofs.
Local Open Scope R_scope.

Lemma kdl_epsilon_pos : 0 < kdl_epsilon.
Proof. unfold kdl_epsilon. lra. Qed.
Lemma rpy_epsilon_pos : 0 < rpy_epsilon.
Proof. unfold rpy_epsilon. lra. Qed.

Lemma pow2_gt_0 x : x <> 0 -> 0 < x ^ 2.
Proof. intros Hx. replace (x ^ 2) with (x * x) by ring. nra. Qed.

(** * Norm *)

Lemma norm_branch a b c : a <> 0 ->
  Rabs a * sqrt (1 + sqr (b / a) + sqr (c / a)) = sqrt (a ^ 2 + b ^ 2 + c ^ 2).
Proof.
  intros Ha. unfold sqr. rewrite <- sqrt_Rsqr_abs. rewrite <- sqrt_mult_alt.
  - f_equal. unfold Rsqr. field. exact Ha.
  - apply Rle_0_sqr.
Qed.

Lemma norm_branch2 a b : a <> 0 ->
  Rabs a * sqrt (1 + sqr (b / a)) = sqrt (a ^ 2 + b ^ 2).
Proof.
  intros Ha. unfold sqr. rewrite <- sqrt_Rsqr_abs. rewrite <- sqrt_mult_alt.
  - f_equal. unfold Rsqr. field. exact Ha.
  - apply Rle_0_sqr.
Qed.

Lemma Rabs_pos_neq a : 0 < Rabs a -> a <> 0.
Proof. intros H E. subst. rewrite Rabs_R0 in H. lra. Qed.

(** The exact input-output behaviour of Norm. *)
Lemma v_norm_eps_cases eps v : 0 < eps ->
  (Rabs (vx v) < eps /\ Rabs (vy v) <= Rabs (vx v) /\ Rabs (vz v) <= Rabs (vx v) /\ v_norm_eps eps v = 0)
  \/ v_norm_eps eps v = euclid_norm v.
Proof.
  intros He. unfold v_norm_eps, euclid_norm.
  pose proof (Rabs_pos (vx v)). pose proof (Rabs_pos (vy v)). pose proof (Rabs_pos (vz v)).
  destruct (Rle_dec (Rabs (vy v)) (Rabs (vx v))) as [L1|L1].
  - destruct (Rle_dec (Rabs (vz v)) (Rabs (vx v))) as [L2|L2].
    + destruct (Rlt_dec (Rabs (vx v)) eps) as [L3|L3].
      * left. auto.
      * right. apply norm_branch. apply Rabs_pos_neq. lra.
    + right. rewrite norm_branch. f_equal; ring. apply Rabs_pos_neq. lra.
  - right. destruct (Rlt_dec (Rabs (vz v)) (Rabs (vy v))) as [L2|L2].
    + rewrite norm_branch. f_equal; ring. apply Rabs_pos_neq. lra.
    + rewrite norm_branch. f_equal; ring. apply Rabs_pos_neq. lra.
Qed.

Lemma max_abs_le v b : Rabs (vx v) < b -> Rabs (vy v) < b -> Rabs (vz v) < b -> max_abs v < b.
Proof. intros. unfold max_abs. repeat apply Rmax_lub_lt; assumption. Qed.

Lemma v_norm_eps_exact eps v : 0 < eps -> eps <= max_abs v -> v_norm_eps eps v = euclid_norm v.
Proof.
  intros He Hm. destruct (v_norm_eps_cases eps v He) as [(A & B & C & _)|E]; [|exact E].
  exfalso. assert (max_abs v < eps) by (apply max_abs_le; lra). lra.
Qed.

Lemma euclid_norm_nonneg v : 0 <= euclid_norm v.
Proof. apply sqrt_pos. Qed.

Lemma v_norm_eps_nonneg eps v : 0 < eps -> 0 <= v_norm_eps eps v.
Proof.
  intros He. destruct (v_norm_eps_cases eps v He) as [(_ & _ & _ & ->)| ->];
  [lra|apply euclid_norm_nonneg].
Qed.

Lemma sq_le_abs a b : Rabs a <= b -> a ^ 2 <= b ^ 2.
Proof.
  intros H. rewrite <- (pow2_abs a). pose proof (Rabs_pos a). nra.
Qed.

Lemma euclid_norm_max v b : 0 <= b -> Rabs (vx v) <= b -> Rabs (vy v) <= b -> Rabs (vz v) <= b ->
  euclid_norm v <= sqrt 3 * b.
Proof.
  intros Hb X Y Z. unfold euclid_norm.
  rewrite <- (sqrt_Rsqr b Hb) at 1. rewrite <- sqrt_mult_alt by lra.
  apply sqrt_le_1_alt. unfold Rsqr.
  apply sq_le_abs in X. apply sq_le_abs in Y. apply sq_le_abs in Z. lra.
Qed.

Lemma v_norm_eps_error eps v : 0 < eps -> Rabs (v_norm_eps eps v - euclid_norm v) < sqrt 3 * eps.
Proof.
  intros He. assert (S3 : 0 < sqrt 3) by (apply sqrt_lt_R0; lra).
  destruct (v_norm_eps_cases eps v He) as [(A & B & C & ->)| ->].
  - rewrite Rminus_0_l, Rabs_Ropp, Rabs_pos_eq by apply euclid_norm_nonneg.
    apply Rle_lt_trans with (sqrt 3 * Rabs (vx v)).
    + apply euclid_norm_max; auto using Rabs_pos, Rle_refl.
    + apply Rmult_lt_compat_l; assumption.
  - rewrite Rminus_diag_eq by reflexivity. rewrite Rabs_R0. nra.
Qed.

Lemma sum3_sq_nonneg a b c : 0 <= a ^ 2 + b ^ 2 + c ^ 2.
Proof. pose proof (pow2_ge_0 a). pose proof (pow2_ge_0 b). pose proof (pow2_ge_0 c). lra. Qed.

Lemma euclid_norm_sq v : euclid_norm v * euclid_norm v = vx v ^ 2 + vy v ^ 2 + vz v ^ 2.
Proof. unfold euclid_norm. apply sqrt_def. apply sum3_sq_nonneg. Qed.

Lemma max_abs_le_norm v : max_abs v <= euclid_norm v.
Proof.
  unfold max_abs. assert (K : forall a b c, Rabs a <= sqrt (a^2 + b^2 + c^2)).
  { intros a b c. rewrite <- sqrt_Rsqr_abs. apply sqrt_le_1_alt. unfold Rsqr.
    pose proof (pow2_ge_0 b). pose proof (pow2_ge_0 c). lra. }
  unfold euclid_norm. repeat apply Rmax_lub.
  - apply K.
  - replace (vx v ^ 2 + vy v ^ 2 + vz v ^ 2) with (vy v ^ 2 + vx v ^ 2 + vz v ^ 2) by ring. apply K.
  - replace (vx v ^ 2 + vy v ^ 2 + vz v ^ 2) with (vz v ^ 2 + vx v ^ 2 + vy v ^ 2) by ring. apply K.
Qed.

Lemma v_norm_0_or v : v_norm v = 0 \/ v_norm v = euclid_norm v.
Proof. destruct (v_norm_eps_cases kdl_epsilon v kdl_epsilon_pos) as [(_ & _ & _ & E)|E]; auto. Qed.

(** Normalize always leaves a unit vector. *)
Lemma v_normalize_eps_unit eps v : 0 < eps -> unit_vector (fst (v_normalize_eps eps v)).
Proof.
  intros He. unfold v_normalize_eps. destruct (Rlt_dec (v_norm v) eps) as [L|L]; simpl.
  - unfold unit_vector; simpl; ring.
  - unfold unit_vector, v_div; simpl fst; psimp.
    destruct (v_norm_0_or v) as [E|E]; [lra|].
    rewrite E in *. pose proof (euclid_norm_sq v) as Q. set (n := euclid_norm v) in *.
    assert (n <> 0) by lra.
    replace ((vx v / n) ^ 2 + (vy v / n) ^ 2 + (vz v / n) ^ 2)
      with ((vx v ^ 2 + vy v ^ 2 + vz v ^ 2) / (n * n)) by (field; assumption).
    rewrite <- Q. field. assumption.
Qed.

Lemma v_normalize_unit v : unit_vector (fst (v_normalize v)).
Proof. apply v_normalize_eps_unit, kdl_epsilon_pos. Qed.

Lemma is_rotation_Rot axis a : is_rotation (r_Rot axis a).
Proof. apply is_rotation_Rot2, v_normalize_unit. Qed.

Lemma Rot_vec_Rot2 v :
  Rot_vec v = r_Rot2 (fst (v_normalize_eps (/ 10000000000) v)) (snd (v_normalize_eps (/ 10000000000) v)).
Proof.
  unfold Rot_vec. destruct (v_normalize_eps (/ 10000000000) v) as [n a]. simpl.
  apply r_ext; unfold r_Rot2; simpl; ring.
Qed.

Lemma is_rotation_Rot_vec v : is_rotation (Rot_vec v).
Proof. rewrite Rot_vec_Rot2. apply is_rotation_Rot2, v_normalize_eps_unit. lra. Qed.

Lemma rot_expr_is_rotation e : rot_expr_ok e -> is_rotation (eval_rot e).
Proof.
  induction e; simpl; intros Ok;
  auto using is_rotation_id, is_rotation_RotX, is_rotation_RotY, is_rotation_RotZ,
    is_rotation_RPY, is_rotation_EulerZYZ, is_rotation_Rot, is_rotation_Rot_vec,
    is_rotation_Rot2, is_rotation_Quaternion, r_inv_rotation.
  - apply is_rotation_RPY.
  - destruct Ok. auto using is_rotation_mul.
  - rewrite DoRotX_mul. auto using is_rotation_mul, is_rotation_RotX.
  - rewrite DoRotY_mul. auto using is_rotation_mul, is_rotation_RotY.
  - rewrite DoRotZ_mul. auto using is_rotation_mul, is_rotation_RotZ.
  - unfold r_addDelta. auto using is_rotation_mul, is_rotation_Rot_vec.
Qed.

(** * Rodrigues *)

Lemma Rot2_app n a v :
  r_app (r_Rot2 n a) v =
  v_add (v_add (v_scale v (cos a)) (v_scale (v_cross n v) (sin a)))
        (v_scale n ((1 - cos a) * v_dot n v)).
Proof. geo_split; unfold r_Rot2; geo_unfold; destruct n, v; psimp; ring. Qed.

Lemma Rot2_fixes n a : unit_vector n -> r_app (r_Rot2 n a) n = n.
Proof.
  intros U. unfold unit_vector in U. rewrite Rot2_app. destruct n as [x y z]; psimp.
  assert (Z : z * z = 1 - x * x - y * y) by lra.
  geo_split; geo_unfold; ring [Z].
Qed.

Lemma Rot2_perp n a v : v_dot n v = 0 ->
  r_app (r_Rot2 n a) v = v_add (v_scale v (cos a)) (v_scale (v_cross n v) (sin a)).
Proof. intros D. rewrite Rot2_app, D, Rmult_0_r, v_scale_0, v_add_0_r. reflexivity. Qed.

Lemma Rot2_add n a b : unit_vector n -> r_mul (r_Rot2 n a) (r_Rot2 n b) = r_Rot2 n (a + b).
Proof.
  intros U. unfold unit_vector in U. destruct n as [x y z]; psimp.
  assert (Z : z * z = 1 - x * x - y * y) by lra.
  apply r_ext; unfold r_mul, r_Rot2; psimp; rewrite ?cos_plus, ?sin_plus; ring [Z].
Qed.

Lemma Rot2_0 n : r_Rot2 n 0 = r_id.
Proof. apply r_ext; unfold r_Rot2, r_id; psimp; rewrite ?cos_0, ?sin_0; ring. Qed.

Lemma Rot2_neg n a : r_Rot2 n (- a) = r_inv (r_Rot2 n a).
Proof. apply r_ext; unfold r_Rot2, r_inv; psimp; rewrite ?cos_neg, ?sin_neg; ring. Qed.

Lemma Rot2_neg_axis n a : r_Rot2 (v_neg n) a = r_Rot2 n (- a).
Proof. apply r_ext; unfold r_Rot2, v_neg; psimp; rewrite ?cos_neg, ?sin_neg; ring. Qed.

(** Conjugation: rotating the axis. *)
Lemma Rot2_conj r n a : is_rotation r -> unit_vector n ->
  r_mul r (r_mul (r_Rot2 n a) (r_inv r)) = r_Rot2 (r_app r n) a.
Proof.
  intros Hr U.
  assert (K : forall v, r_app (r_mul r (r_mul (r_Rot2 n a) (r_inv r))) v = r_app (r_Rot2 (r_app r n) a) v).
  { intros v. rewrite !r_mul_app. set (u := r_app (r_inv r) v).
    assert (Ev : v = r_app r u).
    { unfold u. rewrite <- r_invapp_inv. symmetry. apply r_app_invapp; exact Hr. }
    rewrite Ev. rewrite !Rot2_app.
    rewrite <- (r_app_cross _ Hr). rewrite (r_app_dot _ Hr).
    rewrite !r_app_add, !r_app_scale. reflexivity. }
  set (m := r_mul r (r_mul (r_Rot2 n a) (r_inv r))) in *. set (m' := r_Rot2 (r_app r n) a) in *.
  clearbody m m'.
  pose proof (K (mkV 1 0 0)) as K0. pose proof (K (mkV 0 1 0)) as K1. pose proof (K (mkV 0 0 1)) as K2.
  unfold r_app in *; psimp. injection K0; injection K1; injection K2; intros. apply r_ext; lra.
Qed.

(** * atan2 *)

Lemma sqrt_sum_pos x y : (x <> 0 \/ y <> 0) -> 0 < sqrt (x ^ 2 + y ^ 2).
Proof.
  intros H. apply sqrt_lt_R0. destruct H as [H|H].
  - pose proof (pow2_ge_0 y). assert (0 < x ^ 2) by (apply pow2_gt_0; assumption). lra.
  - pose proof (pow2_ge_0 x). assert (0 < y ^ 2) by (apply pow2_gt_0; assumption). lra.
Qed.

Lemma sqrt_ratio x y : x <> 0 -> sqrt (1 + (y / x)²) = sqrt (x ^ 2 + y ^ 2) / Rabs x.
Proof.
  intros Hx. replace (1 + (y/x)²) with ((x^2 + y^2) / (x^2)) by (unfold Rsqr; field; exact Hx).
  rewrite sqrt_div_alt by (apply pow2_gt_0; assumption). f_equal.
  replace (x ^ 2) with (Rsqr x) by (unfold Rsqr; ring). apply sqrt_Rsqr_abs.
Qed.

Lemma atan2_spec y x : (x <> 0 \/ y <> 0) ->
  sqrt (x ^ 2 + y ^ 2) * cos (atan2 y x) = x /\ sqrt (x ^ 2 + y ^ 2) * sin (atan2 y x) = y.
Proof.
  intros H. pose proof (sqrt_sum_pos x y H) as P. unfold atan2.
  destruct (Rlt_dec 0 x) as [L|L].
  - rewrite cos_atan, sin_atan, sqrt_ratio by lra. rewrite Rabs_pos_eq by lra. split; field; lra.
  - destruct (Rlt_dec x 0) as [L'|L'].
    + destruct (Rlt_dec y 0).
      * unfold Rminus. rewrite cos_plus, sin_plus, cos_neg, sin_neg, cos_PI, sin_PI.
        rewrite cos_atan, sin_atan, sqrt_ratio by lra. rewrite Rabs_left by lra. split; field; lra.
      * rewrite neg_cos, neg_sin.
        rewrite cos_atan, sin_atan, sqrt_ratio by lra. rewrite Rabs_left by lra. split; field; lra.
    + assert (x = 0) by lra. subst x.
      assert (Hy : y <> 0) by (destruct H; [congruence|assumption]).
      replace (0 ^ 2 + y ^ 2) with (Rsqr y) in * by (unfold Rsqr; ring). rewrite sqrt_Rsqr_abs in *.
      destruct (Rlt_dec 0 y).
      * rewrite cos_PI2, sin_PI2, Rabs_pos_eq by lra. lra.
      * destruct (Rlt_dec y 0); [|lra]. rewrite cos_neg, sin_neg, cos_PI2, sin_PI2, Rabs_left by lra. lra.
Qed.

Lemma atan2_range y x : - PI < atan2 y x <= PI.
Proof.
  pose proof PI_RGT_0. unfold atan2.
  pose proof (atan_bound (y / x)) as B.
  destruct (Rlt_dec 0 x); [lra|]. destruct (Rlt_dec x 0).
  - destruct (Rlt_dec y 0).
    + assert (0 < y / x). { unfold Rdiv. assert (/ x < 0) by (apply Rinv_lt_0_compat; assumption). nra. }
      assert (0 < atan (y / x)). { rewrite <- atan_0. apply atan_increasing. assumption. } lra.
    + assert (y / x <= 0). { unfold Rdiv. assert (/ x < 0) by (apply Rinv_lt_0_compat; assumption). nra. }
      assert (atan (y / x) <= 0).
      { destruct (Req_dec (y / x) 0) as [->|N]; [rewrite atan_0; lra|].
        left. rewrite <- atan_0. apply atan_increasing. lra. } lra.
  - destruct (Rlt_dec 0 y); [lra|]. destruct (Rlt_dec y 0); lra.
Qed.

Lemma atan2_nonneg y x : 0 <= y -> 0 <= atan2 y x.
Proof.
  intros Hy. pose proof PI_RGT_0. unfold atan2.
  pose proof (atan_bound (y / x)) as B.
  destruct (Rlt_dec 0 x).
  - assert (0 <= y / x). { apply Rmult_le_pos; [assumption|]. left. apply Rinv_0_lt_compat; assumption. }
    destruct (Req_dec (y / x) 0) as [->|N]; [rewrite atan_0; lra|].
    left. rewrite <- atan_0 at 1. apply atan_increasing. lra.
  - destruct (Rlt_dec x 0).
    + destruct (Rlt_dec y 0); lra.
    + destruct (Rlt_dec 0 y); [lra|]. destruct (Rlt_dec y 0); lra.
Qed.

(** On the unit circle atan2 inverts (cos, sin). *)
Lemma atan2_unit c s : c ^ 2 + s ^ 2 = 1 -> cos (atan2 s c) = c /\ sin (atan2 s c) = s.
Proof.
  intros H. assert (N : c <> 0 \/ s <> 0).
  { destruct (Req_dec c 0); [right|left; assumption]. intros E. subst. lra. }
  destruct (atan2_spec s c N) as [A B]. rewrite H, sqrt_1 in *. lra.
Qed.

(** * The rank-one matrix of quaternion products *)

Section QuatMatrix.
  Variable r : Rotation.
  Hypothesis H : is_rotation r.
  Let ww := 1 + r0 r + r4 r + r8 r.
  Let xx := 1 + r0 r - r4 r - r8 r.
  Let yy := 1 - r0 r + r4 r - r8 r.
  Let zz := 1 - r0 r - r4 r + r8 r.
  Let wx := r7 r - r5 r.
  Let wy := r2 r - r6 r.
  Let wz := r3 r - r1 r.
  Let xy := r1 r + r3 r.
  Let xz := r2 r + r6 r.
  Let yz := r5 r + r7 r.

  Ltac so3 :=
    pose proof (cof_x r H) as (X0 & X1 & X2); pose proof (cof_y r H) as (Y0 & Y1 & Y2);
    pose proof (cof_z r H) as (Z0 & Z1 & Z2);
    pose proof (col00 r H); pose proof (col11 r H); pose proof (col22 r H);
    pose proof (col01 r H); pose proof (col02 r H); pose proof (col12 r H);
    pose proof (row00 r H); pose proof (row11 r H); pose proof (row22 r H);
    pose proof (row01 r H); pose proof (row02 r H); pose proof (row12 r H);
    unfold ww, xx, yy, zz, wx, wy, wz, xy, xz, yz.

  Lemma q_wxwx : wx * wx = ww * xx. Proof. so3. lra. Qed.
  Lemma q_wywy : wy * wy = ww * yy. Proof. so3. lra. Qed.
  Lemma q_wzwz : wz * wz = ww * zz. Proof. so3. lra. Qed.
  Lemma q_xyxy : xy * xy = xx * yy. Proof. so3. lra. Qed.
  Lemma q_xzxz : xz * xz = xx * zz. Proof. so3. lra. Qed.
  Lemma q_yzyz : yz * yz = yy * zz. Proof. so3. lra. Qed.
  Lemma q_wxwy : wx * wy = ww * xy. Proof. so3. lra. Qed.
  Lemma q_wxwz : wx * wz = ww * xz. Proof. so3. lra. Qed.
  Lemma q_wywz : wy * wz = ww * yz. Proof. so3. lra. Qed.
  Lemma q_xyxz : xy * xz = xx * yz. Proof. so3. lra. Qed.
  Lemma q_xyyz : xy * yz = yy * xz. Proof. so3. lra. Qed.
  Lemma q_xzyz : xz * yz = zz * xy. Proof. so3. lra. Qed.
  Lemma q_wxxy : wx * xy = xx * wy. Proof. so3. lra. Qed.
  Lemma q_wxxz : wx * xz = xx * wz. Proof. so3. lra. Qed.
  Lemma q_wyxy : wy * xy = yy * wx. Proof. so3. lra. Qed.
  Lemma q_wyyz : wy * yz = yy * wz. Proof. so3. lra. Qed.
  Lemma q_wzxz : wz * xz = zz * wx. Proof. so3. lra. Qed.
  Lemma q_wzyz : wz * yz = zz * wy. Proof. so3. lra. Qed.
End QuatMatrix.
