(** Round trips between rotation matrices and their parametrisations. *)
From Coq Require Import Reals Lra Lia List Bool Psatz.
From Verif Require Import FramesModel FramesSpec FramesProofs RotationProofs.
Local Open Scope R_scope.

(** * Quaternions *)

(** Everything follows once the ten products are known. *)
Lemma quat_from_products r x y z w :
  w * w = (1 + r0 r + r4 r + r8 r) / 4 -> x * x = (1 + r0 r - r4 r - r8 r) / 4 ->
  y * y = (1 - r0 r + r4 r - r8 r) / 4 -> z * z = (1 - r0 r - r4 r + r8 r) / 4 ->
  w * x = (r7 r - r5 r) / 4 -> w * y = (r2 r - r6 r) / 4 -> w * z = (r3 r - r1 r) / 4 ->
  x * y = (r1 r + r3 r) / 4 -> x * z = (r2 r + r6 r) / 4 -> y * z = (r5 r + r7 r) / 4 ->
  x ^ 2 + y ^ 2 + z ^ 2 + w ^ 2 = 1 /\ r_Quaternion x y z w = r.
Proof.
  intros. split; [lra|]. apply r_ext; unfold r_Quaternion; psimp; lra.
Qed.

Lemma prod_div a b s t : s <> 0 -> s * s = 4 * t -> a / s * (b / s) = a * b / (4 * t).
Proof. intros Hs E. rewrite <- E. field. exact Hs. Qed.

Lemma GetQuaternion_correct r : is_rotation r ->
  let '(x, y, z, w) := r_GetQuaternion r in
  x ^ 2 + y ^ 2 + z ^ 2 + w ^ 2 = 1 /\ r_Quaternion x y z w = r.
Proof.
  intros H.
  pose proof (q_wxwx r H) as wxwx. pose proof (q_wywy r H) as wywy. pose proof (q_wzwz r H) as wzwz.
  pose proof (q_xyxy r H) as xyxy. pose proof (q_xzxz r H) as xzxz. pose proof (q_yzyz r H) as yzyz.
  pose proof (q_wxwy r H) as wxwy. pose proof (q_wxwz r H) as wxwz. pose proof (q_wywz r H) as wywz.
  pose proof (q_xyxz r H) as xyxz. pose proof (q_xyyz r H) as xyyz. pose proof (q_xzyz r H) as xzyz.
  pose proof (q_wxxy r H) as wxxy. pose proof (q_wxxz r H) as wxxz. pose proof (q_wyxy r H) as wyxy.
  pose proof (q_wyyz r H) as wyyz. pose proof (q_wzxz r H) as wzxz. pose proof (q_wzyz r H) as wzyz.
  pose proof rpy_epsilon_pos as Ep. assert (Es : rpy_epsilon < 1) by (unfold rpy_epsilon; lra).
  unfold r_GetQuaternion.
  destruct (Rlt_dec rpy_epsilon (r0 r + r4 r + r8 r)) as [L|L].
  - set (t := r0 r + r4 r + r8 r + 1) in *.
    assert (Ht : 0 < t) by (unfold t; lra).
    assert (Sq : 0 < sqrt t) by (apply sqrt_lt_R0; exact Ht).
    pose proof (sqrt_def t (Rlt_le _ _ Ht)) as SS.
    set (q := sqrt t) in *.
    replace (1 / 4 / (1 / 2 / q)) with (q / 2) by (field; lra).
    assert (P : forall a b, a * (1 / 2 / q) * (b * (1 / 2 / q)) = a * b / t / 4)
      by (intros; rewrite <- SS; field; lra).
    assert (P' : forall a, q / 2 * (a * (1 / 2 / q)) = a / 4) by (intros; field; lra).
    apply quat_from_products; rewrite ?P, ?P'.
    + replace (q / 2 * (q / 2)) with (q * q / 4) by field. rewrite SS. unfold t. field.
    + rewrite wxwx. unfold t. field. unfold t in Ht; lra.
    + rewrite wywy. unfold t. field. unfold t in Ht; lra.
    + rewrite wzwz. unfold t. field. unfold t in Ht; lra.
    + reflexivity.
    + reflexivity.
    + reflexivity.
    + rewrite wxwy. unfold t. field. unfold t in Ht; lra.
    + rewrite wxwz. unfold t. field. unfold t in Ht; lra.
    + rewrite wywz. unfold t. field. unfold t in Ht; lra.
  - destruct (((if Rlt_dec (r4 r) (r0 r) then true else false) && (if Rlt_dec (r8 r) (r0 r) then true else false))%bool) eqn:B1.
    + apply andb_prop in B1. destruct B1 as [B1 B2].
      destruct (Rlt_dec (r4 r) (r0 r)) as [L1|]; [|discriminate].
      destruct (Rlt_dec (r8 r) (r0 r)) as [L2|]; [|discriminate].
      set (t := 1 + r0 r - r4 r - r8 r) in *.
      assert (Ht : 0 < t) by (unfold t; lra).
      assert (Sq : 0 < sqrt t) by (apply sqrt_lt_R0; exact Ht).
      pose proof (sqrt_def t (Rlt_le _ _ Ht)) as SS.
      set (q := sqrt t) in *.
      assert (P : forall a b, a / (2 * q) * (b / (2 * q)) = a * b / t / 4)
        by (intros; rewrite <- SS; field; lra).
      assert (P' : forall a, 1 / 4 * (2 * q) * (a / (2 * q)) = a / 4) by (intros; field; lra).
      assert (P'' : forall a, (a / (2 * q)) * (1 / 4 * (2 * q)) = a / 4) by (intros; field; lra).
      apply quat_from_products; rewrite ?P, ?P', ?P''.
      * rewrite wxwx. unfold t. field. unfold t in Ht; lra.
      * replace (1 / 4 * (2 * q) * (1 / 4 * (2 * q))) with (q * q / 4) by field. rewrite SS. reflexivity.
      * rewrite xyxy. unfold t. field. unfold t in Ht; lra.
      * rewrite xzxz. unfold t. field. unfold t in Ht; lra.
      * reflexivity.
      * rewrite wxxy. unfold t. field. unfold t in Ht; lra.
      * rewrite wxxz. unfold t. field. unfold t in Ht; lra.
      * reflexivity.
      * reflexivity.
      * rewrite xyxz. unfold t. field. unfold t in Ht; lra.
    + assert (NB : r0 r <= r4 r \/ r0 r <= r8 r).
      { apply andb_false_iff in B1. destruct (Rlt_dec (r4 r) (r0 r)) as [N1|N1], (Rlt_dec (r8 r) (r0 r)) as [N2|N2];
        destruct B1; try discriminate; lra. }
      destruct (Rlt_dec (r8 r) (r4 r)) as [L1|L1].
      * replace (1 + r4 r - r0 r - r8 r) with (1 - r0 r + r4 r - r8 r) by ring.
        set (t := 1 - r0 r + r4 r - r8 r) in *.
        assert (Ht : 0 < t) by (unfold t; lra).
        assert (Sq : 0 < sqrt t) by (apply sqrt_lt_R0; exact Ht).
        pose proof (sqrt_def t (Rlt_le _ _ Ht)) as SS.
        set (q := sqrt t) in *.
        assert (P : forall a b, a / (2 * q) * (b / (2 * q)) = a * b / t / 4)
          by (intros; rewrite <- SS; field; lra).
        assert (P' : forall a, 1 / 4 * (2 * q) * (a / (2 * q)) = a / 4) by (intros; field; lra).
        assert (P'' : forall a, (a / (2 * q)) * (1 / 4 * (2 * q)) = a / 4) by (intros; field; lra).
        apply quat_from_products; rewrite ?P, ?P', ?P''.
        -- rewrite wywy. unfold t. field. unfold t in Ht; lra.
        -- rewrite xyxy. unfold t. field. unfold t in Ht; lra.
        -- replace (1 / 4 * (2 * q) * (1 / 4 * (2 * q))) with (q * q / 4) by field. rewrite SS. reflexivity.
        -- rewrite yzyz. unfold t. field. unfold t in Ht; lra.
        -- rewrite wyxy. unfold t. field. unfold t in Ht; lra.
        -- reflexivity.
        -- rewrite wyyz. unfold t. field. unfold t in Ht; lra.
        -- reflexivity.
        -- rewrite xyyz. unfold t. field. unfold t in Ht; lra.
        -- reflexivity.
      * replace (1 + r8 r - r0 r - r4 r) with (1 - r0 r - r4 r + r8 r) by ring.
        set (t := 1 - r0 r - r4 r + r8 r) in *.
        assert (Ht : 0 < t) by (unfold t; lra).
        assert (Sq : 0 < sqrt t) by (apply sqrt_lt_R0; exact Ht).
        pose proof (sqrt_def t (Rlt_le _ _ Ht)) as SS.
        set (q := sqrt t) in *.
        assert (P : forall a b, a / (2 * q) * (b / (2 * q)) = a * b / t / 4)
          by (intros; rewrite <- SS; field; lra).
        assert (P' : forall a, 1 / 4 * (2 * q) * (a / (2 * q)) = a / 4) by (intros; field; lra).
        assert (P'' : forall a, (a / (2 * q)) * (1 / 4 * (2 * q)) = a / 4) by (intros; field; lra).
        apply quat_from_products; rewrite ?P, ?P', ?P''.
        -- rewrite wzwz. unfold t. field. unfold t in Ht; lra.
        -- rewrite xzxz. unfold t. field. unfold t in Ht; lra.
        -- rewrite yzyz. unfold t. field. unfold t in Ht; lra.
        -- replace (1 / 4 * (2 * q) * (1 / 4 * (2 * q))) with (q * q / 4) by field. rewrite SS. reflexivity.
        -- rewrite wzxz. unfold t. field. unfold t in Ht; lra.
        -- rewrite wzyz. unfold t. field. unfold t in Ht; lra.
        -- reflexivity.
        -- rewrite xzyz. unfold t. field. unfold t in Ht; lra.
        -- reflexivity.
        -- reflexivity.
Qed.

Lemma Quaternion_injective x y z w x' y' z' w' :
  x ^ 2 + y ^ 2 + z ^ 2 + w ^ 2 = 1 -> x' ^ 2 + y' ^ 2 + z' ^ 2 + w' ^ 2 = 1 ->
  r_Quaternion x y z w = r_Quaternion x' y' z' w' ->
  (x, y, z, w) = (x', y', z', w') \/ (x, y, z, w) = (- x', - y', - z', - w').
Proof.
  intros U U' E. unfold r_Quaternion in E. injection E; intros e8 e7 e6 e5 e4 e3 e2 e1 e0. clear E.
  assert (ww : w * w = w' * w') by lra. assert (xx : x * x = x' * x') by lra.
  assert (yy : y * y = y' * y') by lra. assert (zz : z * z = z' * z') by lra.
  assert (wx : w * x = w' * x') by lra. assert (wy : w * y = w' * y') by lra.
  assert (wz : w * z = w' * z') by lra. assert (xy : x * y = x' * y') by lra.
  assert (xz : x * z = x' * z') by lra. assert (yz : y * z = y' * z') by lra.
  set (d := x * x' + y * y' + z * z' + w * w').
  assert (Dx : x = d * x').
  { unfold d. transitivity (x * (x ^ 2 + y ^ 2 + z ^ 2 + w ^ 2)); [rewrite U; ring|].
    transitivity (x * (x * x) + y * (x * y) + z * (x * z) + w * (w * x)); [ring|].
    rewrite xx, xy, xz, wx. ring. }
  assert (Dy : y = d * y').
  { unfold d. transitivity (y * (x ^ 2 + y ^ 2 + z ^ 2 + w ^ 2)); [rewrite U; ring|].
    transitivity (x * (x * y) + y * (y * y) + z * (y * z) + w * (w * y)); [ring|].
    rewrite yy, xy, yz, wy. ring. }
  assert (Dz : z = d * z').
  { unfold d. transitivity (z * (x ^ 2 + y ^ 2 + z ^ 2 + w ^ 2)); [rewrite U; ring|].
    transitivity (x * (x * z) + y * (y * z) + z * (z * z) + w * (w * z)); [ring|].
    rewrite zz, xz, yz, wz. ring. }
  assert (Dw : w = d * w').
  { unfold d. transitivity (w * (x ^ 2 + y ^ 2 + z ^ 2 + w ^ 2)); [rewrite U; ring|].
    transitivity (x * (w * x) + y * (w * y) + z * (w * z) + w * (w * w)); [ring|].
    rewrite ww, wx, wy, wz. ring. }
  assert (D : d * d = 1).
  { clearbody d. transitivity (d * d * (x' ^ 2 + y' ^ 2 + z' ^ 2 + w' ^ 2)); [rewrite U'; ring|].
    rewrite <- U. rewrite Dx, Dy, Dz, Dw. ring. }
  assert (C : d = 1 \/ d = -1).
  { assert (F : (d - 1) * (d + 1) = 0) by lra. apply Rmult_integral in F. destruct F; [left|right]; lra. }
  destruct C as [C|C]; rewrite C in *; [left|right]; repeat f_equal; lra.
Qed.

Lemma Quaternion_roundtrip x y z w :
  x ^ 2 + y ^ 2 + z ^ 2 + w ^ 2 = 1 ->
  r_GetQuaternion (r_Quaternion x y z w) = (x, y, z, w) \/
  r_GetQuaternion (r_Quaternion x y z w) = (- x, - y, - z, - w).
Proof.
  intros U. pose proof (GetQuaternion_correct _ (is_rotation_Quaternion _ _ _ _ U)) as G.
  destruct (r_GetQuaternion (r_Quaternion x y z w)) as [[[x' y'] z'] w']. destruct G as [G1 G2].
  apply Quaternion_injective; assumption.
Qed.

Lemma sqr_le_abs a b : 0 <= b -> a ^ 2 <= b * b -> Rabs a <= b.
Proof.
  intros Hb E. rewrite <- (Rabs_pos_eq b Hb). apply Rsqr_le_abs_0. unfold Rsqr. lra.
Qed.

Lemma sq2_zero a b : a ^ 2 + b ^ 2 = 0 -> a = 0 /\ b = 0.
Proof.
  intros E. pose proof (pow2_ge_0 a). pose proof (pow2_ge_0 b).
  split; apply Rsqr_0_uniq; unfold Rsqr; lra.
Qed.

Lemma one_minus_le n d : 0 < n -> n * n = 1 - d -> 0 <= d -> 0 <= 1 - n <= d.
Proof. intros Hn E Hd. assert (n <= 1) by nra. split; nra. Qed.

Lemma sq_le_small c e : 0 <= c -> c < e -> e < / 1000 -> c * c <= e * / 1000.
Proof. intros. nra. Qed.

(** * Roll-pitch-yaw *)

Section RPYFacts.
  Variable r : Rotation.
  Hypothesis H : is_rotation r.

  Lemma sqrt_col0 : (- r6 r) ^ 2 + (sqrt (sqr (r0 r) + sqr (r3 r))) ^ 2 = 1.
  Proof.
    pose proof (col00 r H). unfold sqr.
    replace (sqrt (r0 r * r0 r + r3 r * r3 r) ^ 2)
      with (sqrt (r0 r * r0 r + r3 r * r3 r) * sqrt (r0 r * r0 r + r3 r * r3 r)) by ring.
    rewrite sqrt_def by nra. lra.
  Qed.
End RPYFacts.

Lemma sin_cos_half_pi p : - PI < p <= PI -> 0 <= cos p -> - (PI / 2) <= p <= PI / 2.
Proof.
  intros R C. pose proof PI_RGT_0. split.
  - destruct (Rle_dec (- (PI / 2)) p); [assumption|]. exfalso.
    assert (cos p < 0). { rewrite <- cos_neg. apply cos_lt_0; lra. } lra.
  - destruct (Rle_dec p (PI / 2)); [assumption|]. exfalso.
    assert (cos p < 0) by (apply cos_lt_0; lra). lra.
Qed.

Lemma cos_pos_half_pi p : Rabs p < PI / 2 -> 0 < cos p.
Proof. intros Hp. apply Rabs_def2 in Hp. apply cos_gt_0; lra. Qed.

Lemma cos_abs_half_pi p : Rabs p = PI / 2 -> cos p = 0.
Proof.
  intros Hp. unfold Rabs in Hp. destruct (Rcase_abs p).
  - replace p with (- (PI / 2)) by lra. rewrite cos_neg. apply cos_PI2.
  - rewrite Hp. apply cos_PI2.
Qed.

Lemma div_mul_self a b : b <> 0 -> a / b * b = a.
Proof. intros; field; assumption. Qed.

Lemma atan2_scaled y x k : 0 < k -> x ^ 2 + y ^ 2 = k ^ 2 -> k * cos (atan2 y x) = x /\ k * sin (atan2 y x) = y.
Proof.
  intros Hk E. assert (N : x <> 0 \/ y <> 0).
  { destruct (Req_dec x 0); [right|left; assumption]. intros F. subst.
    assert (0 < k ^ 2) by (apply pow2_gt_0; lra). lra. }
  destruct (atan2_spec y x N) as [A B]. rewrite E in *.
  replace (k ^ 2) with (Rsqr k) in * by (unfold Rsqr; ring). rewrite sqrt_Rsqr in * by lra. split; assumption.
Qed.

Lemma GetRPY_range r roll pitch yaw : is_rotation r -> r_GetRPY r = (roll, pitch, yaw) ->
  (- PI < roll <= PI) /\ (- (PI / 2) <= pitch <= PI / 2) /\ (- PI < yaw <= PI).
Proof.
  intros H. unfold r_GetRPY. set (c := sqrt (sqr (r0 r) + sqr (r3 r))). set (p := atan2 (- r6 r) c).
  assert (Cp : cos p = c).
  { unfold p, c. apply atan2_unit. rewrite Rplus_comm. apply sqrt_col0; exact H. }
  assert (R2 : - (PI / 2) <= p <= PI / 2).
  { apply sin_cos_half_pi; [apply atan2_range|]. rewrite Cp. apply sqrt_pos. }
  pose proof PI_RGT_0.
  destruct (Rlt_dec (PI / 2 - rpy_epsilon) (Rabs p)); intros E; injection E; intros; subst;
    (split; [|split]); try assumption; try apply atan2_range; lra.
Qed.

Lemma GetRPY_correct r roll pitch yaw : is_rotation r -> r_GetRPY r = (roll, pitch, yaw) ->
  Rabs pitch <= PI / 2 - rpy_epsilon \/ Rabs pitch = PI / 2 ->
  r_RPY roll pitch yaw = r.
Proof.
  intros H. unfold r_GetRPY. set (c := sqrt (sqr (r0 r) + sqr (r3 r))). set (p := atan2 (- r6 r) c).
  assert (CS : cos p = c /\ sin p = - r6 r).
  { unfold p, c. apply atan2_unit. rewrite Rplus_comm. apply sqrt_col0; exact H. }
  assert (C2 : c * c = r0 r ^ 2 + r3 r ^ 2).
  { unfold c, sqr. rewrite sqrt_def by nra. ring. }
  pose proof (cof_x r H) as (X0 & X1 & X2). pose proof (cof_y r H) as (Y0 & Y1 & Y2).
  pose proof (cof_z r H) as (Z0 & Z1 & Z2).
  pose proof (col00 r H) as K00. pose proof (col11 r H) as K11. pose proof (col01 r H) as K01.
  pose proof (col02 r H) as K02.
  pose proof (row22 r H) as R22.
  destruct CS as [Cp Sp]. pose proof rpy_epsilon_pos.
  destruct (Rlt_dec (PI / 2 - rpy_epsilon) (Rabs p)) as [L|L]; intros E; injection E; intros Ey Ep Er;
    subst pitch roll yaw; intros [B|B].
  - lra.
  - assert (Z : c = 0) by (rewrite <- Cp; apply cos_abs_half_pi; exact B).
    destruct (sq2_zero (r0 r) (r3 r)) as [Q0 Q3]; [rewrite <- C2, Z; ring|].
    assert (S6 : r6 r ^ 2 = 1) by (rewrite Q0, Q3 in K00; lra).
    destruct (sq2_zero (r7 r) (r8 r)) as [Q7 Q8]; [lra|].
    destruct (atan2_unit (r4 r) (- r1 r)) as [Cy Sy].
    { rewrite Q7 in K11. lra. }
    apply r_ext; unfold r_RPY; psimp; rewrite ?Cp, ?Sp, ?Cy, ?Sy, ?cos_0, ?sin_0, ?Z;
      rewrite ?Q0, ?Q3, ?Q7, ?Q8 in *; lra.
  - assert (Pc : 0 < c). { rewrite <- Cp. apply cos_pos_half_pi. lra. }
    destruct (atan2_scaled (r3 r) (r0 r) c Pc) as [Cy Sy]; [lra|].
    destruct (atan2_scaled (r7 r) (r8 r) c Pc) as [Cr Sr]; [lra|].
    set (cy := cos (atan2 (r3 r) (r0 r))) in *. set (sy := sin (atan2 (r3 r) (r0 r))) in *.
    set (cr := cos (atan2 (r7 r) (r8 r))) in *. set (sr := sin (atan2 (r7 r) (r8 r))) in *.
    assert (N : c * c <> 0) by (apply Rmult_integral_contrapositive_currified; lra).
    apply r_ext; unfold r_RPY; psimp; fold cy sy cr sr; rewrite ?Cp, ?Sp; try lra.
    + apply Rmult_eq_reg_l with (c * c); [|exact N].
      transitivity ((c * cy) * (- r6 r) * (c * sr) - (c * sy) * (c * cr)); [ring|].
      rewrite Cy, Sr, Sy, Cr, C2.
      replace (r0 r * - r6 r * r7 r) with (- (r6 r * r7 r) * r0 r) by ring.
      replace (r6 r * r7 r) with (- (r0 r * r1 r + r3 r * r4 r)) by lra.
      rewrite Z2. ring.
    + apply Rmult_eq_reg_l with (c * c); [|exact N].
      transitivity ((c * cy) * (- r6 r) * (c * cr) + (c * sy) * (c * sr)); [ring|].
      rewrite Cy, Sr, Sy, Cr, C2.
      replace (r0 r * - r6 r * r8 r) with (- (r6 r * r8 r) * r0 r) by ring.
      replace (r6 r * r8 r) with (- (r0 r * r2 r + r3 r * r5 r)) by lra.
      rewrite Y2. ring.
    + apply Rmult_eq_reg_l with (c * c); [|exact N].
      transitivity ((c * sy) * (- r6 r) * (c * sr) + (c * cy) * (c * cr)); [ring|].
      rewrite Cy, Sr, Sy, Cr, C2.
      replace (r3 r * - r6 r * r7 r) with (- (r6 r * r7 r) * r3 r) by ring.
      replace (r6 r * r7 r) with (- (r0 r * r1 r + r3 r * r4 r)) by lra.
      rewrite Z2. ring.
    + apply Rmult_eq_reg_l with (c * c); [|exact N].
      transitivity ((c * sy) * (- r6 r) * (c * cr) - (c * cy) * (c * sr)); [ring|].
      rewrite Cy, Sr, Sy, Cr, C2.
      replace (r3 r * - r6 r * r8 r) with (- (r6 r * r8 r) * r3 r) by ring.
      replace (r6 r * r8 r) with (- (r0 r * r2 r + r3 r * r5 r)) by lra.
      rewrite Y2. ring.
  - lra.
Qed.

(** Inside the gimbal band the error stays of the order of the band. *)
Lemma GetRPY_band r roll pitch yaw : is_rotation r -> r_GetRPY r = (roll, pitch, yaw) ->
  r_close (r_RPY roll pitch yaw) r (4 * rpy_epsilon).
Proof.
  intros H E. pose proof E as E'. revert E.
  unfold r_GetRPY. set (c := sqrt (sqr (r0 r) + sqr (r3 r))). set (p := atan2 (- r6 r) c).
  pose proof rpy_epsilon_pos as Ep0. assert (Es : rpy_epsilon < / 1000) by (unfold rpy_epsilon; lra).
  destruct (Rlt_dec (PI / 2 - rpy_epsilon) (Rabs p)) as [L|L].
  2:{ intros E. injection E; intros Ey Ep Er. assert (G : r_RPY roll pitch yaw = r).
      { apply GetRPY_correct; auto. left. subst pitch. lra. }
      rewrite G. unfold r_close, close. repeat split; rewrite Rminus_diag_eq by reflexivity; rewrite Rabs_R0; lra. }
  intros E. injection E; intros Ey Ep Er. subst roll yaw pitch. clear E E'.
  assert (CS : cos p = c /\ sin p = - r6 r).
  { unfold p, c. apply atan2_unit. rewrite Rplus_comm. apply sqrt_col0; exact H. }
  destruct CS as [Cp Sp].
  assert (C2 : c * c = r0 r ^ 2 + r3 r ^ 2).
  { unfold c, sqr. rewrite sqrt_def by nra. ring. }
  assert (Cn : 0 <= c) by apply sqrt_pos.
  assert (R2 : - (PI / 2) <= p <= PI / 2).
  { apply sin_cos_half_pi; [apply atan2_range|]. rewrite Cp. exact Cn. }
  assert (Cs : c < rpy_epsilon).
  { rewrite <- Cp. unfold Rabs in L. destruct (Rcase_abs p).
    - rewrite <- cos_neg, <- sin_shift.
      destruct (Req_dec (- p) (PI / 2)) as [->|].
      + replace (PI / 2 - PI / 2) with 0 by ring. rewrite sin_0. exact Ep0.
      + apply Rlt_trans with (PI / 2 - - p); [apply sin_lt_x; lra|lra].
    - rewrite <- sin_shift.
      destruct (Req_dec p (PI / 2)) as [->|].
      + replace (PI / 2 - PI / 2) with 0 by ring. rewrite sin_0. exact Ep0.
      + apply Rlt_trans with (PI / 2 - p); [apply sin_lt_x; lra|lra]. }
  pose proof (cof_x r H) as (X0 & X1 & X2). pose proof (cof_y r H) as (Y0 & Y1 & Y2).
  pose proof (cof_z r H) as (Z0 & Z1 & Z2).
  pose proof (col00 r H) as K00. pose proof (col11 r H) as K11.
  pose proof (row22 r H) as R22.
  assert (Cc : c * c <= rpy_epsilon * / 1000) by (apply sq_le_small; assumption).
  assert (B0 : Rabs (r0 r) <= c) by (apply sqr_le_abs; [exact Cn|]; pose proof (pow2_ge_0 (r3 r)); lra).
  assert (B3 : Rabs (r3 r) <= c) by (apply sqr_le_abs; [exact Cn|]; pose proof (pow2_ge_0 (r0 r)); lra).
  assert (B7 : Rabs (r7 r) <= c) by (apply sqr_le_abs; [exact Cn|]; pose proof (pow2_ge_0 (r8 r)); lra).
  assert (B8 : Rabs (r8 r) <= c) by (apply sqr_le_abs; [exact Cn|]; pose proof (pow2_ge_0 (r7 r)); lra).
  assert (B6 : Rabs (r6 r) <= 1) by (apply sqr_le_abs; [lra|]; pose proof (pow2_ge_0 (r0 r)); pose proof (pow2_ge_0 (r3 r)); lra).
  assert (S7 : r7 r ^ 2 <= c * c) by (pose proof (pow2_ge_0 (r8 r)); lra).
  assert (N0 : r4 r <> 0 \/ - r1 r <> 0).
  { destruct (Req_dec (r4 r) 0) as [Q|Q]; [right|left; exact Q]. intros Q'.
    assert (Q1 : r1 r = 0) by lra. rewrite Q, Q1 in K11. lra. }
  destruct (atan2_spec (- r1 r) (r4 r) N0) as [Cy Sy].
  pose proof (sqrt_sum_pos _ _ N0) as Np.
  assert (Nn : sqrt (r4 r ^ 2 + (- r1 r) ^ 2) * sqrt (r4 r ^ 2 + (- r1 r) ^ 2) = 1 - r7 r ^ 2).
  { rewrite sqrt_def; [lra|]. pose proof (pow2_ge_0 (r4 r)). pose proof (pow2_ge_0 (- r1 r)). lra. }
  set (n := sqrt (r4 r ^ 2 + (- r1 r) ^ 2)) in *.
  assert (N1 : 0 <= 1 - n <= c * c).
  { destruct (one_minus_le n (r7 r ^ 2) Np Nn (pow2_ge_0 (r7 r))). lra. }
  set (ca := cos (atan2 (- r1 r) (r4 r))) in *. set (sa := sin (atan2 (- r1 r) (r4 r))) in *.
  assert (Bca : Rabs ca <= 1) by (apply Rabs_le; apply COS_bound).
  assert (Bsa : Rabs sa <= 1) by (apply Rabs_le; apply SIN_bound).
  assert (Bd : Rabs (1 - n) <= c * c) by (rewrite Rabs_pos_eq; lra).
  assert (Bc : Rabs c <= c) by (rewrite Rabs_pos_eq; lra).
  unfold r_close, r_RPY, close; psimp. fold ca sa. rewrite Cp, Sp, cos_0, sin_0.
  assert (T : forall a b A B, Rabs a <= A -> Rabs b <= B -> Rabs (a - b) <= A + B).
  { intros a b A B Ha Hb. apply Rle_trans with (Rabs a + Rabs (- b)); [apply Rabs_triang|]. rewrite Rabs_Ropp. lra. }
  assert (M : forall a b A B, Rabs a <= A -> Rabs b <= B -> Rabs (a * b) <= A * B).
  { intros a b A B Ha Hb. rewrite Rabs_mult. apply Rmult_le_compat; auto using Rabs_pos. }
  repeat split.
  - apply Rle_lt_trans with (1 * c + c); [apply T; auto|lra].
  - replace (ca * - r6 r * 0 - sa * 1 - r1 r) with (- (sa * (1 - n))).
    + rewrite Rabs_Ropp. apply Rle_lt_trans with (1 * (c * c)); [apply M; auto|lra].
    + rewrite Rmult_minus_distr_l, (Rmult_comm sa n), Sy. ring.
  - replace (ca * - r6 r * 1 + sa * 0 - r2 r) with (- r6 r * (ca * (1 - n)) - r3 r * r7 r).
    + apply Rle_lt_trans with (1 * (1 * (c * c)) + c * c); [|lra].
      apply T; apply M; rewrite ?Rabs_Ropp; auto.
    + rewrite Z0, (Rmult_minus_distr_l ca), (Rmult_comm ca n), Cy. ring.
  - apply Rle_lt_trans with (1 * c + c); [apply T; auto|lra].
  - replace (sa * - r6 r * 0 + ca * 1 - r4 r) with (ca * (1 - n)).
    + apply Rle_lt_trans with (1 * (c * c)); [apply M; auto|lra].
    + rewrite Rmult_minus_distr_l, (Rmult_comm ca n), Cy. ring.
  - replace (sa * - r6 r * 1 - ca * 0 - r5 r) with (r0 r * r7 r - r6 r * (sa * (1 - n))).
    + apply Rle_lt_trans with (c * c + 1 * (1 * (c * c))); [|lra].
      apply T; apply M; rewrite ?Rabs_Ropp; auto.
    + rewrite Z1, (Rmult_minus_distr_l sa), (Rmult_comm sa n), Sy. ring.
  - rewrite Ropp_involutive, Rminus_diag_eq by reflexivity. rewrite Rabs_R0. lra.
  - rewrite Rmult_0_r, Rminus_0_l, Rabs_Ropp. lra.
  - rewrite Rmult_1_r. apply Rle_lt_trans with (c + c); [apply T; auto|lra].
Qed.
