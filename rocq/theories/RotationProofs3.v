(** Euler ZYZ, axis-angle extraction, diff/addDelta, Integrate. *)
From Coq Require Import Reals Lra Lia List Bool Psatz.
From Verif Require Import FramesModel FramesSpec FramesProofs RotationProofs RotationProofs2.
Import ListNotations.
Local Open Scope R_scope.

(** * Euler ZYZ *)

Lemma GetEulerZYZ_range r alpha beta gamma : is_rotation r -> r_GetEulerZYZ r = (alpha, beta, gamma) ->
  (- PI < alpha <= PI) /\ (0 <= beta <= PI) /\ (- PI < gamma <= PI).
Proof.
  intros H. unfold r_GetEulerZYZ. pose proof PI_RGT_0.
  destruct (Rlt_dec (1 - rpy_epsilon) (Rabs (r8 r))); [destruct (Rlt_dec 0 (r8 r))|];
  intros E; injection E; intros; subst; split; try split; try apply atan2_range; try lra.
  split; [apply atan2_nonneg, sqrt_pos | apply atan2_range].
Qed.

Lemma GetEulerZYZ_correct r alpha beta gamma : is_rotation r -> r_GetEulerZYZ r = (alpha, beta, gamma) ->
  Rabs (r8 r) <= 1 - rpy_epsilon \/ Rabs (r8 r) = 1 ->
  r_EulerZYZ alpha beta gamma = r.
Proof.
  intros H. unfold r_GetEulerZYZ.
  pose proof (cof_x r H) as (X0 & X1 & X2). pose proof (cof_y r H) as (Y0 & Y1 & Y2).
  pose proof (cof_z r H) as (Z0 & Z1 & Z2).
  pose proof (col00 r H) as K00. pose proof (col22 r H) as K22. pose proof (col02 r H) as K02. pose proof (col12 r H) as K12.
  pose proof (row22 r H) as R22.
  pose proof rpy_epsilon_pos. assert (rpy_epsilon < 1) by (unfold rpy_epsilon; lra).
  destruct (Rlt_dec (1 - rpy_epsilon) (Rabs (r8 r))) as [L|L].
  - destruct (Rlt_dec 0 (r8 r)) as [P|P]; intros E; injection E; intros; subst alpha beta gamma.
    + assert (E8 : r8 r = 1) by (rewrite Rabs_pos_eq in * by lra; lra).
      destruct (sq2_zero (r6 r) (r7 r)) as [Q6 Q7]; [rewrite E8 in R22; lra|].
      destruct (sq2_zero (r2 r) (r5 r)) as [Q2 Q5]; [rewrite E8 in K22; lra|].
      rewrite E8, Q6, Q7, Q2, Q5 in *.
      destruct (atan2_unit (r0 r) (r3 r)) as [C S]; [lra|].
      apply r_ext; unfold r_EulerZYZ; psimp; rewrite ?C, ?S, ?cos_0, ?sin_0, ?E8, ?Q6, ?Q7, ?Q2, ?Q5; lra.
    + assert (P8 : r8 r <= 0) by lra.
      rewrite (Rabs_left1 _ P8) in *.
      assert (E8 : r8 r = -1) by lra.
      destruct (sq2_zero (r6 r) (r7 r)) as [Q6 Q7]; [rewrite E8 in R22; lra|].
      destruct (sq2_zero (r2 r) (r5 r)) as [Q2 Q5]; [rewrite E8 in K22; lra|].
      rewrite E8, Q6, Q7, Q2, Q5 in *.
      destruct (atan2_unit (- r0 r) (- r3 r)) as [C S]; [lra|].
      apply r_ext; unfold r_EulerZYZ; psimp; rewrite ?C, ?S, ?cos_0, ?sin_0, ?cos_PI, ?sin_PI, ?E8, ?Q6, ?Q7, ?Q2, ?Q5; lra.
  - intros E; injection E; intros; subst alpha beta gamma.
    assert (B8 : r8 r ^ 2 < 1).
    { rewrite <- (pow2_abs (r8 r)). pose proof (Rabs_pos (r8 r)). set (a := Rabs (r8 r)) in *.
      assert (A1 : a < 1) by lra. assert (A0 : 0 <= a) by assumption. clear - A0 A1. nra. }
    set (s := sqrt (sqr (r6 r) + sqr (r7 r))) in *.
    assert (S2 : s * s = r6 r ^ 2 + r7 r ^ 2).
    { unfold s, sqr. rewrite sqrt_def; [ring|]. pose proof (pow2_ge_0 (r6 r)). pose proof (pow2_ge_0 (r7 r)). lra. }
    assert (Sp : 0 < s). { apply sqrt_lt_R0. unfold sqr. lra. }
    destruct (atan2_scaled (r5 r) (r2 r) s Sp) as [Ca Sa]; [lra|].
    destruct (atan2_scaled (r7 r) (- r6 r) s Sp) as [Cg Sg]; [lra|].
    destruct (atan2_unit (r8 r) s) as [Cb Sb]; [lra|].
    set (ca := cos (atan2 (r5 r) (r2 r))) in *. set (sa := sin (atan2 (r5 r) (r2 r))) in *.
    set (cg := cos (atan2 (r7 r) (- r6 r))) in *. set (sg := sin (atan2 (r7 r) (- r6 r))) in *.
    assert (N : s * s <> 0) by (apply Rmult_integral_contrapositive_currified; lra).
    assert (S2' : s * s = r2 r ^ 2 + r5 r ^ 2) by lra.
    assert (E68 : r6 r * r8 r = - (r0 r * r2 r + r3 r * r5 r)) by lra.
    assert (E78 : r7 r * r8 r = - (r1 r * r2 r + r4 r * r5 r)) by lra.
    apply r_ext; unfold r_EulerZYZ; psimp; fold ca sa cg sg; rewrite ?Cb, ?Sb; try lra.
    + apply Rmult_eq_reg_l with (s * s); [|exact N].
      transitivity ((s * ca) * r8 r * (s * cg) - (s * sa) * (s * sg)); [ring|].
      rewrite Ca, Cg, Sa, Sg, S2'.
      transitivity (- (r6 r * r8 r) * r2 r - r5 r * r7 r); [ring|]. rewrite E68, Y2. ring.
    + apply Rmult_eq_reg_l with (s * s); [|exact N].
      transitivity (- (s * ca) * r8 r * (s * sg) - (s * sa) * (s * cg)); [ring|].
      rewrite Ca, Cg, Sa, Sg, S2'.
      transitivity (- (r7 r * r8 r) * r2 r + r5 r * r6 r); [ring|]. rewrite E78, X2. ring.
    + apply Rmult_eq_reg_l with (s * s); [|exact N].
      transitivity ((s * sa) * r8 r * (s * cg) + (s * ca) * (s * sg)); [ring|].
      rewrite Ca, Cg, Sa, Sg, S2'.
      transitivity (- (r6 r * r8 r) * r5 r + r2 r * r7 r); [ring|]. rewrite E68, Y2. ring.
    + apply Rmult_eq_reg_l with (s * s); [|exact N].
      transitivity (- (s * sa) * r8 r * (s * sg) + (s * ca) * (s * cg)); [ring|].
      rewrite Ca, Cg, Sa, Sg, S2'.
      transitivity (- (r7 r * r8 r) * r5 r - r2 r * r6 r); [ring|]. rewrite E78, X2. ring.
Qed.

(** * Axis-angle *)

Lemma unit_norm v : unit_vector v -> euclid_norm v = 1.
Proof. intros U. unfold euclid_norm, unit_vector in *. rewrite U. apply sqrt_1. Qed.

Lemma max_abs_lower v : euclid_norm v <= sqrt 3 * max_abs v.
Proof.
  apply euclid_norm_max; unfold max_abs.
  - apply Rle_trans with (Rabs (vx v)); [apply Rabs_pos | apply Rmax_l].
  - apply Rmax_l.
  - apply Rle_trans with (Rmax (Rabs (vy v)) (Rabs (vz v))); [apply Rmax_l|apply Rmax_r].
  - apply Rle_trans with (Rmax (Rabs (vy v)) (Rabs (vz v))); [apply Rmax_r|apply Rmax_r].
Qed.

Lemma sqrt3_lt_2 : sqrt 3 < 2.
Proof. rewrite <- (sqrt_Rsqr 2) by lra. apply sqrt_lt_1_alt. unfold Rsqr; lra. Qed.

Lemma v_norm_large v : 2 * kdl_epsilon <= euclid_norm v -> v_norm v = euclid_norm v.
Proof.
  intros L. apply v_norm_eps_exact; [apply kdl_epsilon_pos|].
  pose proof (max_abs_lower v). pose proof sqrt3_lt_2. pose proof kdl_epsilon_pos.
  assert (0 <= max_abs v).
  { unfold max_abs. apply Rle_trans with (Rabs (vx v)); [apply Rabs_pos | apply Rmax_l]. }
  set (m := max_abs v) in *. set (k := sqrt 3) in *. clearbody m k.
  apply Rnot_lt_le. intros C. assert (k * m <= 2 * m) by nra. lra.
Qed.

Lemma v_normalize_of_unit v : unit_vector v -> fst (v_normalize v) = v.
Proof.
  intros U. unfold v_normalize, v_normalize_eps.
  assert (N : v_norm v = 1).
  { rewrite v_norm_large; rewrite unit_norm by exact U; [reflexivity|unfold kdl_epsilon; lra]. }
  rewrite N. destruct (Rlt_dec 1 kdl_epsilon) as [L|L]; [unfold kdl_epsilon in L; lra|].
  simpl. unfold v_div. destruct v; psimp. f_equal; field.
Qed.

Lemma r_Rot_unit n a : unit_vector n -> r_Rot n a = r_Rot2 n a.
Proof. intros U. unfold r_Rot. rewrite v_normalize_of_unit by exact U. reflexivity. Qed.

(** Given a unit axis n and (c,s) on the unit circle with the right products. *)
Lemma Rot2_from_products r n a :
  cos a = (r0 r + r4 r + r8 r - 1) / 2 ->
  vx n * sin a = (r7 r - r5 r) / 2 -> vy n * sin a = (r2 r - r6 r) / 2 -> vz n * sin a = (r3 r - r1 r) / 2 ->
  (1 - cos a) * (vx n * vx n) = (1 + r0 r - r4 r - r8 r) / 2 ->
  (1 - cos a) * (vy n * vy n) = (1 - r0 r + r4 r - r8 r) / 2 ->
  (1 - cos a) * (vz n * vz n) = (1 - r0 r - r4 r + r8 r) / 2 ->
  (1 - cos a) * (vx n * vy n) = (r1 r + r3 r) / 2 ->
  (1 - cos a) * (vx n * vz n) = (r2 r + r6 r) / 2 ->
  (1 - cos a) * (vy n * vz n) = (r5 r + r7 r) / 2 ->
  r_Rot2 n a = r.
Proof. intros. apply r_ext; unfold r_Rot2; psimp; lra. Qed.

Definition rot_axis_vec (r : Rotation) : Vector := mkV (r7 r - r5 r) (r2 r - r6 r) (r3 r - r1 r).

Lemma rot_axis_sq r : is_rotation r ->
  euclid_norm (rot_axis_vec r) * euclid_norm (rot_axis_vec r)
  = (1 + r0 r + r4 r + r8 r) * (3 - (r0 r + r4 r + r8 r)).
Proof.
  intros H. rewrite euclid_norm_sq. unfold rot_axis_vec; psimp.
  pose proof (q_wxwx r H). pose proof (q_wywy r H). pose proof (q_wzwz r H). lra.
Qed.

(** The generic branch. *)
Lemma axis_angle_generic r : is_rotation r -> kdl_epsilon <= max_abs (rot_axis_vec r) ->
  let n := fst (v_normalize (rot_axis_vec r)) in
  let a := atan2 (v_norm (rot_axis_vec r) / 2) ((r0 r + r4 r + r8 r - 1) / 2) in
  unit_vector n /\ 0 <= a <= PI /\ r_Rot2 n a = r.
Proof.
  intros H M n a.
  assert (U : unit_vector n) by apply v_normalize_unit.
  assert (E : v_norm (rot_axis_vec r) = euclid_norm (rot_axis_vec r)).
  { apply v_norm_eps_exact; [apply kdl_epsilon_pos|exact M]. }
  pose proof (max_abs_le_norm (rot_axis_vec r)) as ML. pose proof kdl_epsilon_pos.
  pose proof (rot_axis_sq r H) as SQ.
  assert (En : n = v_div (rot_axis_vec r) (euclid_norm (rot_axis_vec r))).
  { unfold n, v_normalize, v_normalize_eps. rewrite E.
    destruct (Rlt_dec (euclid_norm (rot_axis_vec r)) kdl_epsilon); [lra|reflexivity]. }
  unfold a. rewrite E. set (k := euclid_norm (rot_axis_vec r)) in *.
  set (t := r0 r + r4 r + r8 r) in *.
  assert (Kp : 0 < k) by lra.
  split; [exact U|]. split.
  { split; [apply atan2_nonneg; lra|apply atan2_range]. }
  destruct (atan2_unit ((t - 1) / 2) (k / 2)) as [C S].
  { replace ((k / 2) ^ 2) with (k * k / 4) by field. rewrite SQ. unfold t. field. }
  assert (Ew : 1 + r0 r + r4 r + r8 r = 1 + t) by (unfold t; ring).
  assert (W : (1 + t) * (3 - t) <> 0).
  { rewrite <- Ew. rewrite <- SQ. apply Rmult_integral_contrapositive_currified; lra. }
  assert (W1 : 1 + t <> 0) by (intros Z; apply W; rewrite Z; ring).
  assert (W2 : 3 - t <> 0) by (intros Z; apply W; rewrite Z; ring).
  rewrite Ew in SQ.
  assert (P : forall u v q, u * v = (1 + t) * q -> (1 - (t - 1) / 2) * (u / k * (v / k)) = q / 2).
  { intros u v q Q. replace (u / k * (v / k)) with (u * v / (k * k)) by (field; lra).
    rewrite Q, SQ. field. split; assumption. }
  pose proof (q_wxwx r H) as wxwx. pose proof (q_wywy r H) as wywy. pose proof (q_wzwz r H) as wzwz.
  pose proof (q_wxwy r H) as wxwy. pose proof (q_wxwz r H) as wxwz. pose proof (q_wywz r H) as wywz.
  rewrite Ew in *.
  apply Rot2_from_products; rewrite ?C, ?S, ?En; unfold v_div, rot_axis_vec; psimp.
  - reflexivity.
  - field. lra.
  - field. lra.
  - field. lra.
  - apply P; assumption.
  - apply P; assumption.
  - apply P; assumption.
  - apply P; assumption.
  - apply P; assumption.
  - apply P; assumption.
Qed.

(** The symmetric case: identity or half turn. *)
Lemma symmetric_cases r : is_rotation r -> symmetric3 r ->
  r = r_id \/ r0 r + r4 r + r8 r = -1.
Proof.
  intros H (A & B & C).
  pose proof (q_wxwx r H) as wxwx. pose proof (q_wywy r H) as wywy. pose proof (q_wzwz r H) as wzwz.
  pose proof (q_xyxy r H) as xyxy. pose proof (q_xzxz r H) as xzxz. pose proof (q_yzyz r H) as yzyz.
  rewrite A, B, C in *.
  assert (P : (1 + r0 r + r4 r + r8 r) * (3 - (r0 r + r4 r + r8 r)) = 0) by lra.
  apply Rmult_integral in P. destruct P as [P|P]; [right; lra|left].
  assert (T : r0 r + r4 r + r8 r = 3) by lra.
  assert (Z1 : 1 + r0 r - r4 r - r8 r = 0).
  { assert (Q : 4 * (1 + r0 r - r4 r - r8 r) = 0).
    { replace 4 with (1 + r0 r + r4 r + r8 r) by lra. lra. } lra. }
  assert (Z2 : 1 - r0 r + r4 r - r8 r = 0).
  { assert (Q : 4 * (1 - r0 r + r4 r - r8 r) = 0).
    { replace 4 with (1 + r0 r + r4 r + r8 r) by lra. lra. } lra. }
  assert (E0 : r0 r = 1) by lra. assert (E4 : r4 r = 1) by lra. assert (E8 : r8 r = 1) by lra.
  rewrite E0, E4, E8 in *.
  assert (N : forall x, (x + x) * (x + x) = 0 -> x = 0).
  { intros x Hx. apply Rmult_integral in Hx. lra. }
  assert (E3 : r3 r = 0) by (apply N; lra). assert (E6 : r6 r = 0) by (apply N; lra).
  assert (E7 : r7 r = 0) by (apply N; lra).
  apply r_ext; unfold r_id; psimp; lra.
Qed.

Lemma axis_angle_half r : is_rotation r -> symmetric3 r -> r0 r + r4 r + r8 r = -1 ->
  forall n, (vx n * vx n = (r0 r + 1) / 2) -> (vy n * vy n = (r4 r + 1) / 2) -> (vz n * vz n = (r8 r + 1) / 2) ->
  (vx n * vy n = (r1 r + r3 r) / 4) -> (vx n * vz n = (r2 r + r6 r) / 4) -> (vy n * vz n = (r5 r + r7 r) / 4) ->
  unit_vector n /\ r_Rot2 n PI = r.
Proof.
  intros H (A & B & C) T n N0 N1 N2 N01 N02 N12. split.
  - unfold unit_vector. lra.
  - apply Rot2_from_products; rewrite ?cos_PI, ?sin_PI; lra.
Qed.

Lemma lt_true a b : (if Rlt_dec a b then true else false) = true <-> a < b.
Proof. destruct (Rlt_dec a b); split; intros; try assumption; try reflexivity; try discriminate; contradiction. Qed.
Lemma lt_false a b : (if Rlt_dec a b then true else false) = false <-> b <= a.
Proof. destruct (Rlt_dec a b); split; intros; try reflexivity; try discriminate; lra. Qed.

Lemma GetRotAngle_regular r eps : is_rotation r -> kdl_epsilon <= eps -> axis_angle_regular r eps ->
  let '(n, a) := r_GetRotAngle r eps in
  unit_vector n /\ 0 <= a <= PI /\ r_Rot n a = r.
Proof.
  intros H He Reg. unfold r_GetRotAngle.
  destruct (((if Rlt_dec (Rabs (r1 r - r3 r)) eps then true else false) &&
     (if Rlt_dec (Rabs (r2 r - r6 r)) eps then true else false) &&
     (if Rlt_dec (Rabs (r5 r - r7 r)) eps then true else false))%bool) eqn:E.
  - exfalso. apply andb_prop in E. destruct E as [E E3]. apply andb_prop in E. destruct E as [E1 E2].
    rewrite lt_true in E1, E2, E3. unfold axis_angle_regular in Reg. lra.
  - clear E.
    assert (M : kdl_epsilon <= max_abs (rot_axis_vec r)).
    { apply Rle_trans with eps; [exact He|]. unfold max_abs, rot_axis_vec; psimp.
      destruct Reg as [G|[G|G]].
      - rewrite Rabs_minus_sym in G. eapply Rle_trans; [exact G|].
        eapply Rle_trans; [apply Rmax_r|apply Rmax_r].
      - eapply Rle_trans; [exact G|]. eapply Rle_trans; [apply Rmax_l|apply Rmax_r].
      - rewrite Rabs_minus_sym in G. eapply Rle_trans; [exact G|]. apply Rmax_l. }
    destruct (axis_angle_generic r H M) as (U & Ra & Eq). fold (rot_axis_vec r).
    split; [exact U|]. split; [exact Ra|]. rewrite r_Rot_unit by exact U. exact Eq.
Qed.

Lemma GetRotAngle_symmetric r eps : is_rotation r -> 0 < eps -> eps <= / 10 -> symmetric3 r ->
  let '(n, a) := r_GetRotAngle r eps in
  unit_vector n /\ 0 <= a <= PI /\ r_Rot n a = r.
Proof.
  intros H He He2 Sy. pose proof PI_RGT_0 as PP. pose proof Sy as (A & B & C). unfold r_GetRotAngle.
  assert (Z : forall x y, x = y -> (if Rlt_dec (Rabs (x - y)) eps then true else false) = true).
  { intros x y ->. apply lt_true. rewrite Rminus_diag_eq by reflexivity. rewrite Rabs_R0. exact He. }
  rewrite (Z _ _ A), (Z _ _ B), (Z _ _ C). cbn [andb].
  destruct (symmetric_cases r H Sy) as [I|T].
  - subst r. unfold r_id; psimp.
    repeat match goal with |- context [if Rlt_dec (Rabs ?x) ?y then true else false] =>
      replace (if Rlt_dec (Rabs x) y then true else false) with true
      by (symmetry; apply lt_true; replace x with 0 by ring; rewrite Rabs_R0; lra) end.
    cbn [andb].
    assert (U : unit_vector (mkV 0 0 1)) by (unfold unit_vector; psimp; ring).
    split; [exact U|]. split; [lra|]. rewrite r_Rot_unit by exact U. apply Rot2_0.
  - replace (if Rlt_dec (Rabs (r0 r + r4 r + r8 r - 3)) (eps * 10) then true else false) with false.
    2:{ symmetry. apply lt_false. rewrite T. rewrite Rabs_left by lra. lra. }
    rewrite andb_false_r.
    pose proof (q_xyxy r H) as xyxy. pose proof (q_xzxz r H) as xzxz. pose proof (q_yzyz r H) as yzyz.
    pose proof (q_xyxz r H) as xyxz. pose proof (q_xyyz r H) as xyyz. pose proof (q_xzyz r H) as xzyz.
    assert (Tx : 1 + r0 r - r4 r - r8 r = 4 * ((r0 r + 1) / 2)) by lra.
    assert (Ty : 1 - r0 r + r4 r - r8 r = 4 * ((r4 r + 1) / 2)) by lra.
    assert (Tz : 1 - r0 r - r4 r + r8 r = 4 * ((r8 r + 1) / 2)) by lra.
    rewrite Tx, Ty, Tz in *.
    assert (S : (r0 r + 1) / 2 + (r4 r + 1) / 2 + (r8 r + 1) / 2 = 1) by lra.
    assert (Qx : r0 r = 2 * ((r0 r + 1) / 2) - 1) by lra.
    destruct ((if Rlt_dec ((r4 r + 1) / 2) ((r0 r + 1) / 2) then true else false) &&
        (if Rlt_dec ((r8 r + 1) / 2) ((r0 r + 1) / 2) then true else false))%bool eqn:E1.
    + apply andb_prop in E1. rewrite !lt_true in E1. destruct E1 as [E1 E2].
      assert (P : 0 < (r0 r + 1) / 2) by lra.
      pose proof (sqrt_def _ (Rlt_le _ _ P)) as SS. pose proof (sqrt_lt_R0 _ P) as SP.
      set (xx := (r0 r + 1) / 2) in *. set (yy := (r4 r + 1) / 2) in *. set (zz := (r8 r + 1) / 2) in *.
      set (q := sqrt xx) in *.
      set (n := mkV q ((r1 r + r3 r) / 4 / q) ((r2 r + r6 r) / 4 / q)).
      assert (D : forall u v, u / 4 / q * (v / 4 / q) = u * v / (16 * xx)) by (intros; rewrite <- SS; field; lra).
      destruct (axis_angle_half r H Sy T n) as [U Eq]; unfold n; psimp; fold xx yy zz.
      * exact SS.
      * rewrite D, xyxy. field. lra.
      * rewrite D, xzxz. field. lra.
      * field. lra.
      * field. lra.
      * rewrite D, xyxz. field. lra.
      * split; [exact U|]. split; [lra|]. rewrite r_Rot_unit by exact U. exact Eq.
    + assert (NB : (r0 r + 1) / 2 <= (r4 r + 1) / 2 \/ (r0 r + 1) / 2 <= (r8 r + 1) / 2).
      { apply andb_false_iff in E1. rewrite !lt_false in E1. exact E1. }
      destruct (if Rlt_dec ((r8 r + 1) / 2) ((r4 r + 1) / 2) then true else false) eqn:E2.
      * rewrite lt_true in E2.
        assert (P : 0 < (r4 r + 1) / 2) by lra.
        pose proof (sqrt_def _ (Rlt_le _ _ P)) as SS. pose proof (sqrt_lt_R0 _ P) as SP.
        set (xx := (r0 r + 1) / 2) in *. set (yy := (r4 r + 1) / 2) in *. set (zz := (r8 r + 1) / 2) in *.
        set (q := sqrt yy) in *.
        set (n := mkV ((r1 r + r3 r) / 4 / q) q ((r5 r + r7 r) / 4 / q)).
        assert (D : forall u v, u / 4 / q * (v / 4 / q) = u * v / (16 * yy)) by (intros; rewrite <- SS; field; lra).
        destruct (axis_angle_half r H Sy T n) as [U Eq]; unfold n; psimp; fold xx yy zz.
        -- rewrite D, xyxy. field. lra.
        -- exact SS.
        -- rewrite D, yzyz. field. lra.
        -- field. lra.
        -- rewrite D, xyyz. field. lra.
        -- field. lra.
        -- split; [exact U|]. split; [lra|]. rewrite r_Rot_unit by exact U. exact Eq.
      * rewrite lt_false in E2.
        assert (P : 0 < (r8 r + 1) / 2) by lra.
        pose proof (sqrt_def _ (Rlt_le _ _ P)) as SS. pose proof (sqrt_lt_R0 _ P) as SP.
        set (xx := (r0 r + 1) / 2) in *. set (yy := (r4 r + 1) / 2) in *. set (zz := (r8 r + 1) / 2) in *.
        set (q := sqrt zz) in *.
        set (n := mkV ((r2 r + r6 r) / 4 / q) ((r5 r + r7 r) / 4 / q) q).
        assert (D : forall u v, u / 4 / q * (v / 4 / q) = u * v / (16 * zz)) by (intros; rewrite <- SS; field; lra).
        destruct (axis_angle_half r H Sy T n) as [U Eq]; unfold n; psimp; fold xx yy zz.
        -- rewrite D, xzxz. field. lra.
        -- rewrite D, yzyz. field. lra.
        -- exact SS.
        -- rewrite D, xzyz. field. lra.
        -- field. lra.
        -- field. lra.
        -- split; [exact U|]. split; [lra|]. rewrite r_Rot_unit by exact U. exact Eq.
Qed.
