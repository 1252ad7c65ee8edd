(** Concrete inputs on which a claim one might expect fails. *)
From Coq Require Import Reals Lra Lia List Bool Psatz.
From Verif Require Import FramesModel FramesSpec FramesProofs RotationProofs RotationProofs2 RotationProofs3 FrameOpsProofs RotationBands.
Import ListNotations.
Local Open Scope R_scope.

Lemma sqrt_1_0_0 : sqrt (1 + sqr (0 / (/ 2000000)) + sqr (0 / (/ 2000000))) = 1.
Proof. unfold sqr, Rdiv. rewrite !Rmult_0_l, !Rplus_0_r. apply sqrt_1. Qed.

Lemma norm_not_invariant :
  v_norm (mkV (/ 2000000) 0 0) = 0 /\ v_norm (mkV 0 (/ 2000000) 0) = / 2000000.
Proof.
  unfold v_norm, v_norm_eps, kdl_epsilon; psimp. rewrite Rabs_R0, (Rabs_pos_eq (/ 2000000)) by lra. split.
  - destruct (Rle_dec 0 (/ 2000000)); [|lra]. destruct (Rlt_dec (/ 2000000) (/ 1000000)); lra.
  - destruct (Rle_dec (/ 2000000) 0); [lra|]. destruct (Rlt_dec 0 (/ 2000000)); [|lra].
    rewrite sqrt_1_0_0. ring.
Qed.

(** Euclidean norm above eps, yet Normalize reports 0. *)
Lemma normalize_refuted : let v := mkV (9 / 10000000) (9 / 10000000) 0 in
  kdl_epsilon < euclid_norm v /\ v_normalize v = (mkV 1 0 0, 0).
Proof.
  intros v. split.
  - unfold euclid_norm, v, kdl_epsilon; psimp. rewrite <- (sqrt_Rsqr (/ 1000000)) by lra.
    apply sqrt_lt_1_alt. unfold Rsqr. lra.
  - unfold v_normalize, v_normalize_eps.
    assert (E : v_norm v = 0).
    { unfold v_norm, v_norm_eps, v, kdl_epsilon; psimp. rewrite Rabs_R0, (Rabs_pos_eq (9 / 10000000)) by lra.
      destruct (Rle_dec (9 / 10000000) (9 / 10000000)); [|lra].
      destruct (Rle_dec 0 (9 / 10000000)); [|lra].
      destruct (Rlt_dec (9 / 10000000) (/ 1000000)); lra. }
    rewrite E. destruct (Rlt_dec 0 kdl_epsilon) as [L|L]; [reflexivity|]. exfalso. apply L, kdl_epsilon_pos.
Qed.

(** A too short axis rotates about X. *)
Lemma Rot_short axis a : euclid_norm axis < kdl_epsilon -> r_Rot axis a = r_RotX a.
Proof.
  intros L. unfold r_Rot, v_normalize. rewrite v_normalize_small; [|apply kdl_epsilon_pos|exact L].
  cbn [fst]. apply r_ext; unfold r_Rot2, r_RotX; psimp; ring.
Qed.

Lemma Rot_short_not_identity :
  r_Rot (mkV 0 0 0) (PI / 2) <> r_id.
Proof.
  rewrite Rot_short.
  - intros E. assert (C : r7 (r_RotX (PI / 2)) = r7 r_id) by (rewrite E; reflexivity).
    unfold r_RotX, r_id in C; psimp. rewrite sin_PI2 in C. lra.
  - unfold euclid_norm; psimp. replace (0 ^ 2 + 0 ^ 2 + 0 ^ 2) with 0 by ring. rewrite sqrt_0. apply kdl_epsilon_pos.
Qed.

Lemma sin1_pos : 0 < sin 1.
Proof. pose proof PI2_1. apply sin_gt_0; lra. Qed.

(** Gimbal band: roll is lost. *)
Lemma RPY_band_inexact : let p := PI / 2 - rpy_epsilon / 2 in let r := r_RPY 1 p 0 in
  is_rotation r /\ let '(roll, pitch, yaw) := r_GetRPY r in r_RPY roll pitch yaw <> r.
Proof.
  intros p r. split; [apply is_rotation_RPY|].
  pose proof rpy_epsilon_pos as Ep. assert (Es : rpy_epsilon < / 1000) by (unfold rpy_epsilon; lra).
  pose proof PI2_1 as P1.
  assert (Rp : - (PI / 2) <= p <= PI / 2) by (unfold p; lra).
  assert (Cp : 0 < cos p) by (apply cos_gt_0; unfold p; lra).
  unfold r_GetRPY.
  assert (Ec : sqrt (sqr (r0 r) + sqr (r3 r)) = cos p).
  { unfold r, r_RPY, sqr; psimp. rewrite cos_0, sin_0.
    replace (1 * cos p * (1 * cos p) + 0 * cos p * (0 * cos p)) with (Rsqr (cos p)) by (unfold Rsqr; ring).
    apply sqrt_Rsqr. lra. }
  assert (E6 : - r6 r = sin p) by (unfold r, r_RPY; psimp; ring).
  rewrite Ec, E6.
  assert (At : atan2 (sin p) (cos p) = p).
  { destruct (atan2_unit (cos p) (sin p)) as [C S]; [pose proof (cc1 p); lra|].
    apply sin_inj; [|exact Rp|exact S].
    apply sin_cos_half_pi; [apply atan2_range|]. rewrite C. lra. }
  rewrite At. rewrite (Rabs_pos_eq p) by (unfold p; lra).
  destruct (Rlt_dec (PI / 2 - rpy_epsilon) p) as [L|L]; [|exfalso; unfold p in L; lra].
  intros F. assert (F7 : r7 (r_RPY 0 p (atan2 (- r1 r) (r4 r))) = r7 r) by (rewrite F; reflexivity).
  unfold r, r_RPY in F7; psimp. rewrite sin_0 in F7. pose proof sin1_pos.
  assert (0 < cos p * sin 1) by (apply Rmult_lt_0_compat; lra). lra.
Qed.

(** Euler ZYZ band: the result can differ by more than the default tolerance. *)
Lemma ZYZ_band_inexact : exists r, is_rotation r /\
  let '(a, b, c) := r_GetEulerZYZ r in r_Equal (r_EulerZYZ a b c) r kdl_epsilon = false.
Proof.
  set (cb := 1 - 9 / 10000000000000). set (sb := sqrt (1 - cb ^ 2)).
  assert (Cb : 0 <= 1 - cb ^ 2) by (unfold cb; lra).
  assert (S2 : sb * sb = 1 - cb ^ 2) by (apply sqrt_def; exact Cb).
  exists (mkR cb 0 sb 0 1 0 (- sb) 0 cb). split.
  - constructor; unfold det3; psimp; nra.
  - unfold r_GetEulerZYZ; psimp.
    destruct (Rlt_dec (1 - rpy_epsilon) (Rabs cb)) as [L|L].
    2:{ exfalso. apply L. rewrite Rabs_pos_eq; unfold cb, rpy_epsilon; lra. }
    destruct (Rlt_dec 0 cb) as [L2|L2]; [|exfalso; apply L2; unfold cb; lra].
    destruct (r_Equal _ _ _) eqn:E; [|reflexivity]. exfalso.
    apply r_Equal_close in E. destruct E as (_ & _ & E & _).
    unfold close, r_EulerZYZ in E; psimp. rewrite sin_0, Rmult_0_r, Rminus_0_l, Rabs_Ropp in E.
    rewrite Rabs_pos_eq in E by apply sqrt_pos.
    assert (sb * sb < kdl_epsilon * kdl_epsilon).
    { apply Rmult_le_0_lt_compat; try assumption; apply sqrt_pos. }
    rewrite S2 in H. unfold cb, kdl_epsilon in H. lra.
Qed.

(** Equal is not transitive. *)
Lemma Equal_not_transitive :
  v_Equal (mkV 0 0 0) (mkV (2/3) 0 0) 1 = true /\ v_Equal (mkV (2/3) 0 0) (mkV (4/3) 0 0) 1 = true /\
  v_Equal (mkV 0 0 0) (mkV (4/3) 0 0) 1 = false.
Proof.
  split; [|split].
  - apply v_Equal_close. unfold v_close, close; psimp. repeat split; apply Rabs_def1; lra.
  - apply v_Equal_close. unfold v_close, close; psimp. repeat split; apply Rabs_def1; lra.
  - destruct (v_Equal _ _ _) eqn:E; [|reflexivity]. apply v_Equal_close in E. destruct E as (E & _).
    unfold close in E; psimp. apply Rabs_def2 in E. lra.
Qed.

(** Integrate about Y at a low sample frequency turns about X instead. *)
Lemma v_norm_y e : 0 < e -> v_norm (mkV 0 e 0) = e.
Proof.
  intros He. unfold v_norm, v_norm_eps; psimp. rewrite Rabs_R0, (Rabs_pos_eq e) by lra.
  destruct (Rle_dec e 0); [lra|]. destruct (Rlt_dec 0 e); [|lra].
  unfold sqr, Rdiv. rewrite !Rmult_0_l, !Rplus_0_r, sqrt_1. ring.
Qed.

Lemma Integrate_wrong_axis :
  f_Integrate f_id (mkT v_zero (mkV 0 (/ 2000000) 0)) (/ 10) = f_of_rot (r_RotX (/ 200000)).
Proof.
  unfold f_Integrate; psimp. rewrite v_norm_y by lra.
  destruct (Rlt_dec (/ 2000000 / / 10) kdl_epsilon) as [L|L]; [exfalso; unfold kdl_epsilon in L; lra|].
  rewrite f_mul_id_l. unfold f_of_rot. f_equal.
  - rewrite Rot_short.
    + f_equal. lra.
    + unfold euclid_norm; psimp. replace (0 ^ 2 + (/ 2000000) ^ 2 + 0 ^ 2) with (Rsqr (/ 2000000)) by (unfold Rsqr; ring).
      rewrite sqrt_Rsqr by lra. unfold kdl_epsilon. lra.
  - rewrite v_div_scale. apply v_zero_scale.
Qed.

(** addDelta(a, diff(a,b)) loses small rotations. *)
Lemma addDelta_diff_small : let b := r_RotX (/ 2000000) in
  is_rotation b /\ r_addDelta r_id (r_diff r_id b 1) 1 = r_id /\ r_id <> b.
Proof.
  intros b. split; [apply is_rotation_RotX|].
  assert (Sl : 0 < sin (/ 2000000) < / 2000000).
  { split; [apply sin_gt_0; pose proof PI2_1; lra|]. apply sin_lt_x. lra. }
  split.
  - unfold r_addDelta, r_diff.
    assert (G : r_GetRot (r_mul (r_inv r_id) b) = v_zero).
    { rewrite r_inv_id, r_mul_id_l. unfold r_GetRot.
      assert (NR : r_GetRotAngle b kdl_epsilon = (mkV 0 0 1, 0)).
      { unfold r_GetRotAngle, b, r_RotX; psimp.
        assert (Cl : 1 - cos (/ 2000000) < / 1000000).
        { pose proof (cc1 (/ 2000000)) as Q. set (c := cos (/ 2000000)) in *. set (s := sin (/ 2000000)) in *.
          assert (0 < c) by (apply cos_gt_0; pose proof PI2_1; lra).
          assert (c <= 1) by apply COS_bound.
          assert (s * s < / 2000000 * / 2000000) by (apply Rmult_le_0_lt_compat; lra).
          assert (1 - c <= s * s) by nra. lra. }
        assert (Cu : cos (/ 2000000) <= 1) by apply COS_bound.
        set (c := cos (/ 2000000)) in *. set (s := sin (/ 2000000)) in *.
        repeat match goal with |- context [if Rlt_dec (Rabs ?x) ?y then true else false] =>
          replace (if Rlt_dec (Rabs x) y then true else false) with true
          by (symmetry; apply lt_true; unfold kdl_epsilon; apply Rabs_def1; lra) end.
        reflexivity. }
      rewrite NR. apply v_scale_0. }
    rewrite G, r_app_0, v_div_scale, !v_zero_scale.
    assert (Rv : Rot_vec v_zero = r_id).
    { rewrite <- (Rot2_0 (mkV 1 0 0)). rewrite <- (v_scale_0 (mkV 1 0 0)).
      apply Rot_vec_axis_angle; [unfold unit_vector; psimp; ring|right; reflexivity]. }
    rewrite Rv. apply r_mul_id_l.
  - intros E. assert (F : r7 r_id = r7 b) by (rewrite E; reflexivity).
    unfold r_id, b, r_RotX in F; psimp. lra.
Qed.

(** GetRotAngle with an eps below the global tolerance is wrong: the inner
    [Norm] and [Normalize] use the global tolerance. *)
Lemma GetRotAngle_small_eps : let r := r_RotX (/ 10000000) in let eps := / 1000000000 in
  is_rotation r /\ axis_angle_regular r eps /\
  let '(n, a) := r_GetRotAngle r eps in r_Rot n a <> r.
Proof.
  intros r eps. split; [apply is_rotation_RotX|].
  pose proof PI2_1 as P1.
  assert (Sl : 0 < sin (/ 10000000) < / 10000000).
  { split; [apply sin_gt_0; lra|]. apply sin_lt_x. lra. }
  assert (Cp : / 2 <= cos (/ 10000000) <= 1).
  { split; [|apply COS_bound]. pose proof (cc1 (/ 10000000)) as Q.
    assert (0 < cos (/ 10000000)) by (apply cos_gt_0; lra). nra. }
  assert (Sb : / 1000000000 <= 2 * sin (/ 10000000)).
  { destruct (MVT_cor2 sin cos 0 (/ 10000000)) as (c & E & Hc); [lra| |].
    - intros x _. apply derivable_pt_lim_sin.
    - rewrite sin_0 in E. assert (cos (/ 10000000) <= cos c) by (apply cos_decr_1; lra). lra. }
  split.
  - right. right. unfold r, r_RotX; psimp. rewrite Rabs_left1; unfold eps; lra.
  - unfold r_GetRotAngle, r, r_RotX; psimp.
    set (s := sin (/ 10000000)) in *. set (c := cos (/ 10000000)) in *.
    replace (if Rlt_dec (Rabs (- s - s)) eps then true else false) with false.
    2:{ symmetry. apply lt_false. rewrite Rabs_left1; unfold eps; lra. }
    rewrite andb_false_r.
    assert (N : v_norm (mkV (s - - s) (0 - 0) (0 - 0)) = 0).
    { unfold v_norm, v_norm_eps; psimp. replace (0 - 0) with 0 by ring. rewrite Rabs_R0, Rabs_pos_eq by lra.
      destruct (Rle_dec 0 (s - - s)); [|lra]. unfold kdl_epsilon. destruct (Rlt_dec (s - - s) (/ 1000000)); lra. }
    unfold v_normalize, v_normalize_eps. rewrite N.
    destruct (Rlt_dec 0 kdl_epsilon) as [L|L]; [|exfalso; apply L, kdl_epsilon_pos]. cbn [fst].
    assert (A : atan2 (0 / 2) ((1 + c + c - 1) / 2) = 0).
    { unfold atan2. destruct (Rlt_dec 0 ((1 + c + c - 1) / 2)); [|lra].
      replace (0 / 2 / ((1 + c + c - 1) / 2)) with 0 by (field; lra). apply atan_0. }
    rewrite A. unfold r_Rot. rewrite Rot2_0. intros E.
    assert (F : r7 r_id = s) by (rewrite E; reflexivity). unfold r_id in F; psimp. lra.
Qed.

Lemma rot2_accessor_transposed : exists r, is_rotation2 r /\
  rot2_get r 0 1 <> Some (v2x (rot2_app r (mkV2 0 1))).
Proof.
  exists (mkR2 0 1). split; [unfold is_rotation2; psimp; ring|].
  unfold rot2_get, rot2_app; cbn. intros E. injection E. lra.
Qed.

Lemma rot2_accessor_is_transpose r :
  rot2_get r 0 0 = Some (v2x (rot2_app r (mkV2 1 0))) /\ rot2_get r 0 1 = Some (v2y (rot2_app r (mkV2 1 0))) /\
  rot2_get r 1 0 = Some (v2x (rot2_app r (mkV2 0 1))) /\ rot2_get r 1 1 = Some (v2y (rot2_app r (mkV2 0 1))).
Proof. unfold rot2_get, rot2_app; cbn. repeat split; f_equal; ring. Qed.

Lemma Set2DPlane_refuted : exists this F v,
  rigid F /\ v_Set2DPlane this F v <> f_app F (mkV (v2x v) (v2y v) 0).
Proof.
  exists v_zero, f_id, (mkV2 1 0). split; [apply rigid_id|].
  intros E. assert (X : vx (v_Set2DPlane v_zero f_id (mkV2 1 0)) = vx (f_app f_id (mkV (v2x (mkV2 1 0)) (v2y (mkV2 1 0)) 0))) by (rewrite E; reflexivity).
  unfold v_Set2DPlane in X. geo_unfold. lra.
Qed.

Lemma Set2DPlane_noop this F v : v_Set2DPlane this F v = this.
Proof. reflexivity. Qed.

(** * Repackaged statements *)

Lemma Rot_axis_angle axis a b v : kdl_epsilon <= max_abs axis ->
  let n := v_div axis (euclid_norm axis) in
  unit_vector n /\
  r_app (r_Rot axis a) n = n /\
  (v_dot n v = 0 -> r_app (r_Rot axis a) v = v_add (v_scale v (cos a)) (v_scale (v_cross n v) (sin a))) /\
  r_mul (r_Rot axis a) (r_Rot axis b) = r_Rot axis (a + b) /\
  r_Rot axis (- a) = r_inv (r_Rot axis a) /\
  r_Rot axis 0 = r_id.
Proof.
  intros M n. pose proof kdl_epsilon_pos as K. pose proof (max_abs_le_norm axis).
  destruct (v_normalize_spec kdl_epsilon axis K M) as [E U]; [lra|]. fold n in E, U.
  unfold r_Rot, v_normalize. rewrite E. cbn [fst].
  split; [exact U|]. split; [apply Rot2_fixes; exact U|]. split; [apply Rot2_perp|].
  split; [apply Rot2_add; exact U|]. split; [apply Rot2_neg|apply Rot2_0].
Qed.

Lemma GetRotAngle_exact r eps : is_rotation r -> kdl_epsilon <= eps <= / 10 ->
  axis_angle_regular r eps \/ symmetric3 r ->
  let '(n, a) := r_GetRotAngle r eps in
  unit_vector n /\ 0 <= a <= PI /\ r_Rot n a = r.
Proof.
  intros H [He He2] [G|G]; pose proof kdl_epsilon_pos.
  - apply GetRotAngle_regular; assumption.
  - apply GetRotAngle_symmetric; try assumption. lra.
Qed.

Lemma GetEulerZYX_correct r z y x : is_rotation r -> r_GetEulerZYX r = (z, y, x) ->
  Rabs y <= PI / 2 - rpy_epsilon \/ Rabs y = PI / 2 -> r_EulerZYX z y x = r.
Proof.
  intros H E C. unfold r_GetEulerZYX in E. destruct (r_GetRPY r) as [[ro pi] ya] eqn:G.
  injection E; intros; subst. unfold r_EulerZYX. apply GetRPY_correct; assumption.
Qed.

Lemma GetRPY_every r roll pitch yaw : is_rotation r -> r_GetRPY r = (roll, pitch, yaw) ->
  - (PI / 2) <= pitch <= PI / 2 /\ r_close (r_RPY roll pitch yaw) r (4 * rpy_epsilon).
Proof.
  intros H E. split; [|apply GetRPY_band; assumption]. destruct (GetRPY_range r roll pitch yaw H E) as (_ & P & _). exact P.
Qed.

Lemma GetEulerZYZ_every r alpha beta gamma : is_rotation r -> r_GetEulerZYZ r = (alpha, beta, gamma) ->
  0 <= beta <= PI /\ r_close (r_EulerZYZ alpha beta gamma) r (2 * kdl_epsilon).
Proof.
  intros H E. split; [|apply GetEulerZYZ_band; assumption].
  destruct (GetEulerZYZ_range r alpha beta gamma H E) as (_ & P & _). exact P.
Qed.

Lemma planar_angles a b :
  is_rotation2 (rot2_Rot a) /\ rot2_mul (rot2_Rot a) (rot2_Rot b) = rot2_Rot (a + b) /\
  rot2_inv (rot2_Rot a) = rot2_Rot (- a) /\
  - PI < rot2_GetRot (rot2_Rot a) <= PI /\ same_angle (rot2_GetRot (rot2_Rot a)) a.
Proof.
  pose proof (rot2_Rot_rot a) as U. destruct (rot2_GetRot_spec _ U) as [Rg E].
  split; [exact U|]. split; [apply rot2_Rot_add|]. split; [apply rot2_Rot_inv|]. split; [exact Rg|].
  unfold rot2_Rot in E at 1. injection E; intros. split; assumption.
Qed.

Lemma accessor3 r f :
  (r_get r 0 0 = Some (vx (r_app r (mkV 1 0 0))) /\ r_get r 0 1 = Some (vx (r_app r (mkV 0 1 0))) /\
   r_get r 0 2 = Some (vx (r_app r (mkV 0 0 1))) /\ r_get r 1 0 = Some (vy (r_app r (mkV 1 0 0))) /\
   r_get r 1 1 = Some (vy (r_app r (mkV 0 1 0))) /\ r_get r 1 2 = Some (vy (r_app r (mkV 0 0 1))) /\
   r_get r 2 0 = Some (vz (r_app r (mkV 1 0 0))) /\ r_get r 2 1 = Some (vz (r_app r (mkV 0 1 0))) /\
   r_get r 2 2 = Some (vz (r_app r (mkV 0 0 1)))) /\
  (forall i j, (i < 4)%nat -> (j < 4)%nat -> f_get f i j = nth_error (f_Make4x4 f) (4 * i + j)).
Proof.
  split.
  - unfold r_get, r_app; psimp. repeat split; f_equal; ring.
  - intros i j Hi Hj.
    destruct i as [|[|[|[|i]]]]; [..|lia]; destruct j as [|[|[|[|j]]]]; try lia; reflexivity.
Qed.

Lemma set2d_set3d this this2 v (F : Frame) : rigid F ->
  v2_Set3DXY this2 (v_Set2DXY this v) = v /\
  v2_Set3DYZ this2 (v_Set2DYZ this v) = v /\
  v2_Set3DZX this2 (v_Set2DZX this v) = v /\
  v2_Set3DPlane this2 F (f_app F (mkV (v2x v) (v2y v) 0)) = v.
Proof.
  intros H. destruct v as [x y]. repeat split.
  unfold v2_Set3DPlane. rewrite f_invapp_app by exact H. reflexivity.
Qed.
