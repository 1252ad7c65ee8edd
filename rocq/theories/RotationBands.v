(** Behaviour inside the tolerance bands: axis-angle and Euler ZYZ. *)
From Coq Require Import Reals Lra Lia List Bool Psatz.
From Verif Require Import FramesModel FramesSpec FramesProofs RotationProofs RotationProofs2 RotationProofs3 FrameOpsProofs.
Import ListNotations.
Local Open Scope R_scope.

Lemma Rabs_sub_le a b A B : Rabs a <= A -> Rabs b <= B -> Rabs (a - b) <= A + B.
Proof. intros Ha Hb. apply Rle_trans with (Rabs a + Rabs (- b)); [apply Rabs_triang|]. rewrite Rabs_Ropp. lra. Qed.
Lemma Rabs_add_le a b A B : Rabs a <= A -> Rabs b <= B -> Rabs (a + b) <= A + B.
Proof. intros Ha Hb. eapply Rle_trans; [apply Rabs_triang|]. lra. Qed.
Lemma Rabs_mul_le a b A B : Rabs a <= A -> Rabs b <= B -> Rabs (a * b) <= A * B.
Proof. intros Ha Hb. rewrite Rabs_mult. apply Rmult_le_compat; auto using Rabs_pos. Qed.

Lemma Rabs_mul3_le a b c A B C : Rabs a <= A -> Rabs b <= B -> Rabs c <= C -> Rabs (a * b * c) <= A * B * C.
Proof. intros. apply Rabs_mul_le; [apply Rabs_mul_le|]; assumption. Qed.

(** * Half-turn band, abstract arithmetic *)

Lemma sq_prod_le a X Y : 0 <= X -> 0 <= Y -> X + Y <= 4 -> a * a = X * Y -> Rabs a <= 2.
Proof.
  intros HX HY HS E. apply sqr_le_abs; [lra|]. replace (a ^ 2) with (a * a) by ring. rewrite E.
  assert (0 <= (X - Y) ^ 2) by apply pow2_ge_0. assert (X + Y <= 4) by lra. nra.
Qed.

Lemma half_band w X Y Z XY XZ YZ :
  0 <= w -> w <= / 100 -> 0 <= X -> 0 <= Y -> 0 <= Z -> w + X + Y + Z = 4 -> Y <= X -> Z <= X ->
  XY * XY = X * Y -> XZ * XZ = X * Z -> YZ * YZ = Y * Z -> XY * XZ = X * YZ ->
  let q := sqrt ((X + w) / 4) in
  let a := q in let b := XY / 4 / q in let c := XZ / 4 / q in
  let N := a ^ 2 + b ^ 2 + c ^ 2 in
  / 4 <= N /\ Rabs (2 * (a * a / N) - 2 * ((X + w) / 4)) <= 2 * w /\
  Rabs (2 * (a * b / N) - XY / 2) <= 2 * w /\
  Rabs (2 * (a * c / N) - XZ / 2) <= 2 * w /\
  Rabs (2 * (b * b / N) - 2 * ((Y + w) / 4)) <= 2 * w /\
  Rabs (2 * (b * c / N) - YZ / 2) <= 2 * w /\
  Rabs (2 * (c * c / N) - 2 * ((Z + w) / 4)) <= 2 * w.
Proof.
  intros Hw Hw2 HX HY HZ HS HYX HZX EXY EXZ EYZ EXYZ q a b c N.
  assert (X1 : 5 / 4 < X) by lra.
  assert (Xp : 0 < (X + w) / 4) by lra.
  assert (Q2 : q * q = (X + w) / 4) by (apply sqrt_def; lra).
  assert (Qp : 0 < q) by (apply sqrt_lt_R0; lra).
  set (M := 4 * X + X * w + w * w).
  assert (Pxw : 0 <= X * w) by (apply Rmult_le_pos; lra).
  assert (Pww : 0 <= w * w) by (apply Rmult_le_pos; lra).
  assert (M1 : 5 < M) by (unfold M; lra).
  assert (NM : N * (X + w) = M / 4).
  { unfold N, a, b, c. replace (X + w) with (4 * (q * q)) by lra.
    replace ((q ^ 2 + (XY / 4 / q) ^ 2 + (XZ / 4 / q) ^ 2) * (4 * (q * q)))
      with (4 * (q * q) * (q * q) + (XY * XY + XZ * XZ) / 4) by (field; lra).
    rewrite Q2, EXY, EXZ. replace Z with (4 - w - X - Y) by lra. unfold M. field. }
  assert (NE : N = M / 4 / (X + w)). { rewrite <- NM. field. lra. }
  assert (NL : / 4 <= N).
  { apply Rmult_le_reg_r with (X + w); [lra|]. rewrite NM. unfold M. lra. }
  assert (Na : forall u, u / N = u * (4 * (X + w)) / M).
  { intros u. rewrite NE. field. lra. }
  assert (Bxy : Rabs XY <= 2) by (apply (sq_prod_le XY X Y); lra).
  assert (Bxz : Rabs XZ <= 2) by (apply (sq_prod_le XZ X Z); lra).
  assert (Byz : Rabs YZ <= 2) by (apply (sq_prod_le YZ Y Z); lra).
  assert (Aaa : 2 * (a * a / N) - 2 * ((X + w) / 4) = w * ((X + w) * (4 - (X + w))) * (/ (2 * M))).
  { rewrite Na. unfold a. rewrite Q2. unfold M. field. fold M. lra. }
  assert (Aab : forall P, 2 * (a * (P / 4 / q) / N) - P / 2 = P * (w * (4 - (X + w))) * (/ (2 * M))).
  { intros P. rewrite Na. unfold a. replace (q * (P / 4 / q)) with (P / 4) by (field; lra). unfold M. field. fold M. lra. }
  assert (D2 : forall P Q, P / 4 / q * (Q / 4 / q) = P * Q / (4 * (X + w))).
  { intros P Q. replace (X + w) with (4 * (q * q)) by lra. field. lra. }
  assert (Abb : 2 * (b * b / N) - 2 * ((Y + w) / 4) = - (w * (Y * (X + w) + M)) * (/ (2 * M))).
  { rewrite Na. unfold b. rewrite D2, EXY. unfold M. field. fold M. split; lra. }
  assert (Acc : 2 * (c * c / N) - 2 * ((Z + w) / 4) = - (w * (Z * (X + w) + M)) * (/ (2 * M))).
  { rewrite Na. unfold c. rewrite D2, EXZ. unfold M. field. fold M. split; lra. }
  assert (Abc : 2 * (b * c / N) - YZ / 2 = - (YZ * (w * (X + w))) * (/ (2 * M))).
  { rewrite Na. unfold b, c. rewrite D2, EXYZ. unfold M. field. fold M. split; lra. }
  assert (IM : 0 < / (2 * M) <= / 10).
  { split; [apply Rinv_0_lt_compat; lra|]. apply Rinv_le_contravar; lra. }
  assert (IMM : M * / (2 * M) = / 2) by (field; lra).
  assert (Pp : 0 <= (X + w) * (4 - (X + w)) <= 4).
  { split; [apply Rmult_le_pos; lra|]. pose proof (pow2_ge_0 (X + w - 2)). lra. }
  assert (Yp : 0 <= Y * (X + w) <= 4).
  { split; [apply Rmult_le_pos; lra|]. assert (Y <= 4 - (X + w)) by lra.
    apply Rle_trans with ((4 - (X + w)) * (X + w)); [apply Rmult_le_compat_r; lra|]. lra. }
  assert (Zp : 0 <= Z * (X + w) <= 4).
  { split; [apply Rmult_le_pos; lra|]. assert (Z <= 4 - (X + w)) by lra.
    apply Rle_trans with ((4 - (X + w)) * (X + w)); [apply Rmult_le_compat_r; lra|]. lra. }
  assert (Bi : Rabs (/ (2 * M)) <= / 10) by (rewrite Rabs_pos_eq; lra).
  assert (Bw : Rabs w <= w) by (rewrite Rabs_pos_eq; lra).
  split; [exact NL|]. repeat split.
  - rewrite Aaa. apply Rle_trans with (w * 4 * / 10); [|lra].
    apply Rabs_mul3_le; try assumption. rewrite Rabs_pos_eq; lra.
  - unfold b. rewrite (Aab XY). apply Rle_trans with (2 * (w * 4) * / 10); [|lra].
    apply Rabs_mul3_le; try assumption. apply Rabs_mul_le; [assumption|]. rewrite Rabs_pos_eq; lra.
  - unfold c. rewrite (Aab XZ). apply Rle_trans with (2 * (w * 4) * / 10); [|lra].
    apply Rabs_mul3_le; try assumption. apply Rabs_mul_le; [assumption|]. rewrite Rabs_pos_eq; lra.
  - rewrite Abb. replace (- (w * (Y * (X + w) + M)) * / (2 * M)) with (- (w * (Y * (X + w)) * / (2 * M) + w * (M * / (2 * M)))) by ring.
    rewrite IMM, Rabs_Ropp. apply Rle_trans with (w * 4 * / 10 + w * / 2); [|lra].
    apply Rabs_add_le; [apply Rabs_mul3_le; try assumption|apply Rabs_mul_le; [assumption|]]; rewrite Rabs_pos_eq; lra.
  - rewrite Abc. apply Rle_trans with (2 * (w * 4) * / 10); [|lra].
    apply Rabs_mul_le; [|assumption]. rewrite Rabs_Ropp. apply Rabs_mul_le; [assumption|]. apply Rabs_mul_le; [assumption|]. rewrite Rabs_pos_eq; lra.
  - rewrite Acc. replace (- (w * (Z * (X + w) + M)) * / (2 * M)) with (- (w * (Z * (X + w)) * / (2 * M) + w * (M * / (2 * M)))) by ring.
    rewrite IMM, Rabs_Ropp. apply Rle_trans with (w * 4 * / 10 + w * / 2); [|lra].
    apply Rabs_add_le; [apply Rabs_mul3_le; try assumption|apply Rabs_mul_le; [assumption|]]; rewrite Rabs_pos_eq; lra.
Qed.

(** Half turn about a not necessarily unit axis. *)
Lemma Rot_PI n : let N := vx n ^ 2 + vy n ^ 2 + vz n ^ 2 in / 4 <= N ->
  r_Rot n PI = mkR (2 * (vx n * vx n / N) - 1) (2 * (vx n * vy n / N)) (2 * (vx n * vz n / N))
                   (2 * (vx n * vy n / N)) (2 * (vy n * vy n / N) - 1) (2 * (vy n * vz n / N))
                   (2 * (vx n * vz n / N)) (2 * (vy n * vz n / N)) (2 * (vz n * vz n / N) - 1).
Proof.
  intros N L.
  pose proof (euclid_norm_sq n) as Q. fold N in Q. pose proof (euclid_norm_nonneg n) as P.
  set (k := euclid_norm n) in *.
  assert (K : / 2 <= k). { apply Rnot_lt_le. intros C. assert (k * k < / 2 * / 2) by nra. lra. }
  unfold r_Rot, v_normalize, v_normalize_eps. rewrite v_norm_large; fold k; [|unfold kdl_epsilon; lra].
  destruct (Rlt_dec k kdl_epsilon) as [C|C]; [unfold kdl_epsilon in C; lra|]. cbn [fst].
  assert (D : forall a b, a / k * (b / k) = a * b / N). { intros. rewrite <- Q. field. lra. }
  pose proof (D (vx n) (vx n)). pose proof (D (vx n) (vy n)). pose proof (D (vx n) (vz n)).
  pose proof (D (vy n) (vy n)). pose proof (D (vy n) (vz n)). pose proof (D (vz n) (vz n)).
  apply r_ext; unfold r_Rot2, v_div; psimp; rewrite ?cos_PI, ?sin_PI; lra.
Qed.

Lemma r_close_refl r eps : 0 < eps -> r_close r r eps.
Proof. intros. repeat split; apply close_refl; assumption. Qed.

Lemma q_sum_nonneg r : is_rotation r ->
  0 <= 1 + r0 r + r4 r + r8 r /\ 0 <= 1 + r0 r - r4 r - r8 r /\
  0 <= 1 - r0 r + r4 r - r8 r /\ 0 <= 1 - r0 r - r4 r + r8 r.
Proof.
  intros H. pose proof (GetQuaternion_correct r H) as G.
  destruct (r_GetQuaternion r) as [[[x y] z] w]. destruct G as [U E].
  assert (E0 : r0 (r_Quaternion x y z w) = r0 r) by (rewrite E; reflexivity).
  assert (E4 : r4 (r_Quaternion x y z w) = r4 r) by (rewrite E; reflexivity).
  assert (E8 : r8 (r_Quaternion x y z w) = r8 r) by (rewrite E; reflexivity).
  unfold r_Quaternion in *; psimp. rewrite <- E0, <- E4, <- E8, <- U.
  pose proof (pow2_ge_0 x). pose proof (pow2_ge_0 y). pose proof (pow2_ge_0 z). pose proof (pow2_ge_0 w). lra.
Qed.

Lemma close_from_sym a b S s eps : Rabs (a - S) <= s -> Rabs (2 * S - 2 * b) < eps -> s <= eps / 2 -> close a b eps.
Proof.
  intros A B C. unfold close. replace (a - b) with ((a - S) + (2 * S - 2 * b) / 2) by field.
  assert (Rabs ((2 * S - 2 * b) / 2) < eps / 2).
  { unfold Rdiv. rewrite Rabs_mult, (Rabs_pos_eq (/ 2)) by lra. lra. }
  eapply Rle_lt_trans; [apply Rabs_triang|]. lra.
Qed.

Lemma sq_lt a e : Rabs a < e -> a * a < e * e.
Proof.
  intros L. pose proof (Rabs_pos a). replace (a * a) with (Rabs a * Rabs a).
  - apply Rmult_le_0_lt_compat; assumption.
  - rewrite <- Rabs_mult. apply Rabs_pos_eq. apply Rle_0_sqr.
Qed.

Lemma GetRotAngle_band r eps : is_rotation r -> 0 < eps <= / 100 ->
  ~ axis_angle_regular r eps ->
  let '(n, a) := r_GetRotAngle r eps in r_close (r_Rot n a) r eps.
Proof.
  intros H [He He2] NR.
  assert (A1 : Rabs (r1 r - r3 r) < eps) by (apply Rnot_le_lt; intros C; apply NR; left; exact C).
  assert (A2 : Rabs (r2 r - r6 r) < eps) by (apply Rnot_le_lt; intros C; apply NR; right; left; exact C).
  assert (A3 : Rabs (r5 r - r7 r) < eps) by (apply Rnot_le_lt; intros C; apply NR; right; right; exact C).
  unfold r_GetRotAngle.
  replace (if Rlt_dec (Rabs (r1 r - r3 r)) eps then true else false) with true by (symmetry; apply lt_true; exact A1).
  replace (if Rlt_dec (Rabs (r2 r - r6 r)) eps then true else false) with true by (symmetry; apply lt_true; exact A2).
  replace (if Rlt_dec (Rabs (r5 r - r7 r)) eps then true else false) with true by (symmetry; apply lt_true; exact A3).
  cbn [andb].
  pose proof (q_sum_nonneg r H) as (W0 & X0 & Y0 & Z0).
  pose proof (q_wxwx r H) as wxwx. pose proof (q_wywy r H) as wywy. pose proof (q_wzwz r H) as wzwz.
  pose proof (q_xyxy r H) as xyxy. pose proof (q_xzxz r H) as xzxz. pose proof (q_yzyz r H) as yzyz.
  pose proof (q_xyxz r H) as xyxz. pose proof (q_xyyz r H) as xyyz. pose proof (q_xzyz r H) as xzyz.
  pose proof (sq_lt _ _ A1) as S1. pose proof (sq_lt _ _ A2) as S2. pose proof (sq_lt _ _ A3) as S3.
  set (w := 1 + r0 r + r4 r + r8 r) in *. set (X := 1 + r0 r - r4 r - r8 r) in *.
  set (Y := 1 - r0 r + r4 r - r8 r) in *. set (Z := 1 - r0 r - r4 r + r8 r) in *.
  assert (Sum : w + X + Y + Z = 4) by (unfold w, X, Y, Z; ring).
  assert (WW : w * (4 - w) < 3 * (eps * eps)).
  { replace (4 - w) with (X + Y + Z) by lra. lra. }
  assert (EE : eps * eps <= eps * / 100) by (apply Rmult_le_compat_l; lra).
  assert (E0 : 0 < eps * eps) by (apply Rmult_lt_0_compat; lra).
  assert (B1 : r0 r = 1 - (Y + Z) / 2) by (unfold Y, Z; field).
  assert (B4 : r4 r = 1 - (X + Z) / 2) by (unfold X, Z; field).
  assert (B8 : r8 r = 1 - (X + Y) / 2) by (unfold X, Y; field).
  assert (B1' : r0 r = 2 * ((X + w) / 4) - 1) by (unfold X, w; field).
  assert (B4' : r4 r = 2 * ((Y + w) / 4) - 1) by (unfold Y, w; field).
  assert (B8' : r8 r = 2 * ((Z + w) / 4) - 1) by (unfold Z, w; field).
  destruct (Rle_dec w 2) as [Lw|Lw].
  - (* near a half turn *)
    assert (Ws : w < 2 * (eps * eps)).
    { assert (w * 2 <= w * (4 - w)) by (apply Rmult_le_compat_l; lra). lra. }
    assert (Ws2 : 2 * w <= eps / 2) by lra.
    replace (if Rlt_dec (Rabs (r0 r + r4 r + r8 r - 3)) (eps * 10) then true else false) with false.
    2:{ symmetry. apply lt_false. replace (r0 r + r4 r + r8 r - 3) with (- (4 - w)) by (unfold w; ring).
        rewrite Rabs_Ropp, Rabs_pos_eq by lra. lra. }
    rewrite andb_false_r.
    replace ((r0 r + 1) / 2) with ((X + w) / 4) by (unfold X, w; field).
    replace ((r4 r + 1) / 2) with ((Y + w) / 4) by (unfold Y, w; field).
    replace ((r8 r + 1) / 2) with ((Z + w) / 4) by (unfold Z, w; field).
    set (XY := r1 r + r3 r) in *. set (XZ := r2 r + r6 r) in *. set (YZ := r5 r + r7 r) in *.
    assert (Sy : forall a b v, Rabs (a - b) < eps -> Rabs (v - (a + b) / 2) <= 2 * w -> close v a eps /\ close v b eps).
    { intros a b v Hab Hv. split.
      - apply (close_from_sym v a ((a + b) / 2) (2 * w)); [exact Hv| |exact Ws2].
        replace (2 * ((a + b) / 2) - 2 * a) with (- (a - b)) by field. rewrite Rabs_Ropp. exact Hab.
      - apply (close_from_sym v b ((a + b) / 2) (2 * w)); [exact Hv| |exact Ws2].
        replace (2 * ((a + b) / 2) - 2 * b) with (a - b) by field. exact Hab. }
    assert (Dg : forall v K a, a = 2 * ((K + w) / 4) - 1 -> Rabs (v - 2 * ((K + w) / 4)) <= 2 * w -> close (v - 1) a eps).
    { intros v K a Ea Hv. unfold close. rewrite Ea.
      replace (v - 1 - (2 * ((K + w) / 4) - 1)) with (v - 2 * ((K + w) / 4)) by ring. lra. }
    destruct (((if Rlt_dec ((Y + w) / 4) ((X + w) / 4) then true else false) &&
              (if Rlt_dec ((Z + w) / 4) ((X + w) / 4) then true else false))%bool) eqn:C1.
    + apply andb_prop in C1. rewrite !lt_true in C1. destruct C1 as [C1 C2].
      destruct (half_band w X Y Z XY XZ YZ) as (NL & Haa & Hab & Hac & Hbb & Hbc & Hcc); try lra.
      rewrite Rot_PI; psimp; [|exact NL].
      set (q := sqrt ((X + w) / 4)) in *.
      destruct (Sy (r1 r) (r3 r) _ A1 Hab). destruct (Sy (r2 r) (r6 r) _ A2 Hac). destruct (Sy (r5 r) (r7 r) _ A3 Hbc).
      repeat split; psimp; try assumption; eapply Dg; eassumption.
    + assert (NB : X <= Y \/ X <= Z).
      { apply andb_false_iff in C1. rewrite !lt_false in C1. lra. }
      destruct (if Rlt_dec ((Z + w) / 4) ((Y + w) / 4) then true else false) eqn:C2.
      * rewrite lt_true in C2.
        destruct (half_band w Y X Z XY YZ XZ) as (NL & Haa & Hab & Hac & Hbb & Hbc & Hcc); try lra.
        set (q := sqrt ((Y + w) / 4)) in *.
        set (n := mkV (XY / 4 / q) q (YZ / 4 / q)).
        assert (Nn : vx n ^ 2 + vy n ^ 2 + vz n ^ 2 = q ^ 2 + (XY / 4 / q) ^ 2 + (YZ / 4 / q) ^ 2) by (unfold n; psimp; ring).
        rewrite Rot_PI; [|rewrite Nn; exact NL]. rewrite Nn. unfold n; psimp.
        set (N := q ^ 2 + (XY / 4 / q) ^ 2 + (YZ / 4 / q) ^ 2) in *.
        rewrite (Rmult_comm (XY / 4 / q) q).
        destruct (Sy (r1 r) (r3 r) _ A1 Hab). destruct (Sy (r2 r) (r6 r) _ A2 Hbc). destruct (Sy (r5 r) (r7 r) _ A3 Hac).
        repeat split; psimp; try assumption; eapply Dg; eassumption.
      * rewrite lt_false in C2.
        destruct (half_band w Z X Y XZ YZ XY) as (NL & Haa & Hab & Hac & Hbb & Hbc & Hcc); try lra.
        set (q := sqrt ((Z + w) / 4)) in *.
        set (n := mkV (XZ / 4 / q) (YZ / 4 / q) q).
        assert (Nn : vx n ^ 2 + vy n ^ 2 + vz n ^ 2 = q ^ 2 + (XZ / 4 / q) ^ 2 + (YZ / 4 / q) ^ 2) by (unfold n; psimp; ring).
        rewrite Rot_PI; [|rewrite Nn; exact NL]. rewrite Nn. unfold n; psimp.
        set (N := q ^ 2 + (XZ / 4 / q) ^ 2 + (YZ / 4 / q) ^ 2) in *.
        rewrite (Rmult_comm (XZ / 4 / q) q), (Rmult_comm (YZ / 4 / q) q).
        destruct (Sy (r1 r) (r3 r) _ A1 Hbc). destruct (Sy (r2 r) (r6 r) _ A2 Hab). destruct (Sy (r5 r) (r7 r) _ A3 Hac).
        repeat split; psimp; try assumption; eapply Dg; eassumption.
  - (* near the identity *)
    apply Rnot_le_lt in Lw.
    assert (Ds : 4 - w < 2 * (eps * eps)).
    { assert (0 <= 4 - w) by lra. assert (2 * (4 - w) <= w * (4 - w)) by (apply Rmult_le_compat_r; lra). lra. }
    set (d := 4 - w) in *.
    assert (Pr : forall a P Q, 0 <= P -> 0 <= Q -> P <= d -> Q <= d -> a * a = P * Q -> Rabs a <= d).
    { intros a P Q HP HQ LP LQ E. apply sqr_le_abs; [lra|]. replace (a ^ 2) with (a * a) by ring. rewrite E.
      apply Rmult_le_compat; assumption. }
    assert (Xd : X <= d) by (unfold d; lra). assert (Yd : Y <= d) by (unfold d; lra). assert (Zd : Z <= d) by (unfold d; lra).
    pose proof (Pr _ X Y X0 Y0 Xd Yd xyxy) as P1. pose proof (Pr _ X Z X0 Z0 Xd Zd xzxz) as P2. pose proof (Pr _ Y Z Y0 Z0 Yd Zd yzyz) as P3.
    replace (if Rlt_dec (Rabs (r1 r + r3 r)) (eps * 10) then true else false) with true by (symmetry; apply lt_true; lra).
    replace (if Rlt_dec (Rabs (r2 r + r6 r)) (eps * 10) then true else false) with true by (symmetry; apply lt_true; lra).
    replace (if Rlt_dec (Rabs (r5 r + r7 r)) (eps * 10) then true else false) with true by (symmetry; apply lt_true; lra).
    replace (if Rlt_dec (Rabs (r0 r + r4 r + r8 r - 3)) (eps * 10) then true else false) with true.
    2:{ symmetry. apply lt_true. replace (r0 r + r4 r + r8 r - 3) with (- d) by (unfold d, w; ring).
        rewrite Rabs_Ropp, Rabs_pos_eq by lra. lra. }
    cbn [andb]. unfold r_Rot. rewrite Rot2_0.
    assert (Off : forall a b, Rabs (a - b) < eps -> Rabs (a + b) <= d -> close 0 a eps /\ close 0 b eps).
    { intros a b Ha Hb. unfold close. split.
      - replace (0 - a) with (- ((a - b) + (a + b)) / 2) by field. unfold Rdiv. rewrite Rabs_mult, Rabs_Ropp, (Rabs_pos_eq (/2)) by lra.
        pose proof (Rabs_triang (a - b) (a + b)). lra.
      - replace (0 - b) with (((a - b) - (a + b)) / 2) by field. unfold Rdiv. rewrite Rabs_mult, (Rabs_pos_eq (/2)) by lra.
        pose proof (Rabs_sub_le (a - b) (a + b) _ _ (Rle_refl _) (Rle_refl _)). lra. }
    destruct (Off _ _ A1 P1). destruct (Off _ _ A2 P2). destruct (Off _ _ A3 P3).
    unfold r_id. repeat split; psimp; try assumption; unfold close.
    + rewrite B1. rewrite Rabs_pos_eq; lra.
    + rewrite B4. rewrite Rabs_pos_eq; lra.
    + rewrite B8. rewrite Rabs_pos_eq; lra.
Qed.

(** Every rotation: exact outside the band, within eps inside. *)
Lemma GetRotAngle_total r eps : is_rotation r -> kdl_epsilon <= eps <= / 100 ->
  let '(n, a) := r_GetRotAngle r eps in r_close (r_Rot n a) r eps.
Proof.
  intros H [He He2]. pose proof kdl_epsilon_pos.
  assert (D : axis_angle_regular r eps \/ ~ axis_angle_regular r eps).
  { unfold axis_angle_regular. destruct (Rle_dec eps (Rabs (r1 r - r3 r))); [left; lra|].
    destruct (Rle_dec eps (Rabs (r2 r - r6 r))); [left; lra|].
    destruct (Rle_dec eps (Rabs (r5 r - r7 r))); [left; lra|right; lra]. }
  destruct D as [D|D].
  - pose proof (GetRotAngle_regular r eps H He D) as G. destruct (r_GetRotAngle r eps) as [n a].
    destruct G as (_ & _ & ->). apply r_close_refl. lra.
  - apply GetRotAngle_band; auto. lra.
Qed.

Lemma GetRotAngle_range r eps : is_rotation r -> 0 < eps ->
  0 <= snd (r_GetRotAngle r eps) <= PI.
Proof.
  intros H He. pose proof PI_RGT_0. unfold r_GetRotAngle.
  repeat match goal with |- context [if ?b then _ else _] => destruct b end; cbn [snd]; try lra;
  (split; [apply atan2_nonneg; pose proof (v_norm_eps_nonneg kdl_epsilon (mkV (r7 r - r5 r) (r2 r - r6 r) (r3 r - r1 r)) kdl_epsilon_pos); unfold v_norm; lra | apply atan2_range]).
Qed.

(** * Euler ZYZ band *)

Lemma GetEulerZYZ_band r alpha beta gamma : is_rotation r -> r_GetEulerZYZ r = (alpha, beta, gamma) ->
  r_close (r_EulerZYZ alpha beta gamma) r (2 * kdl_epsilon).
Proof.
  intros H E. pose proof E as E'. revert E.
  unfold r_GetEulerZYZ. pose proof rpy_epsilon_pos as Ep0. assert (Es : rpy_epsilon = kdl_epsilon * kdl_epsilon) by (unfold rpy_epsilon, kdl_epsilon; field).
  pose proof kdl_epsilon_pos as Kp. assert (K1 : kdl_epsilon <= / 1000) by (unfold kdl_epsilon; lra).
  assert (K2 : rpy_epsilon <= kdl_epsilon * / 1000) by (rewrite Es; apply Rmult_le_compat_l; lra).
  destruct (Rlt_dec (1 - rpy_epsilon) (Rabs (r8 r))) as [L|L].
  2:{ intros E. assert (G : r_EulerZYZ alpha beta gamma = r).
      { apply GetEulerZYZ_correct; auto. left. lra. }
      rewrite G. apply r_close_refl. lra. }
  pose proof (cof_x r H) as (X0 & X1 & X2). pose proof (cof_y r H) as (Y0 & Y1 & Y2).
  pose proof (cof_z r H) as (Z0 & Z1 & Z2).
  pose proof (col00 r H) as K00. pose proof (col22 r H) as K22. pose proof (row22 r H) as R22.
  assert (B8 : Rabs (r8 r) <= 1) by (apply sqr_le_abs; [lra|]; pose proof (pow2_ge_0 (r2 r)); pose proof (pow2_ge_0 (r5 r)); lra).
  assert (S8 : 1 - r8 r ^ 2 < 2 * rpy_epsilon).
  { rewrite <- (pow2_abs (r8 r)). set (m := Rabs (r8 r)) in *. pose proof (Rabs_pos (r8 r)). fold m in H0.
    replace (1 - m ^ 2) with ((1 - m) * (1 + m)) by ring.
    apply Rle_lt_trans with ((1 - m) * 2); [apply Rmult_le_compat_l; lra|lra]. }
  set (d := 2 * rpy_epsilon) in *.
  assert (Sq : forall a, a ^ 2 < d -> Rabs a < 3 / 2 * kdl_epsilon).
  { intros a Ha. rewrite <- (Rabs_pos_eq (3 / 2 * kdl_epsilon)) by lra. apply Rsqr_lt_abs_0. unfold Rsqr.
    replace (3 / 2 * kdl_epsilon * (3 / 2 * kdl_epsilon)) with (9 / 4 * rpy_epsilon) by (rewrite Es; field).
    unfold d in Ha. lra. }
  pose proof (pow2_ge_0 (r2 r)) as P2. pose proof (pow2_ge_0 (r5 r)) as P5.
  pose proof (pow2_ge_0 (r6 r)) as P6. pose proof (pow2_ge_0 (r7 r)) as P7.
  assert (B2 : Rabs (r2 r) < 3 / 2 * kdl_epsilon) by (apply Sq; lra).
  assert (B5 : Rabs (r5 r) < 3 / 2 * kdl_epsilon) by (apply Sq; lra).
  assert (B6 : Rabs (r6 r) < 3 / 2 * kdl_epsilon) by (apply Sq; lra).
  assert (B7 : Rabs (r7 r) < 3 / 2 * kdl_epsilon) by (apply Sq; lra).
  assert (Bq : forall a b, Rabs a < 3 / 2 * kdl_epsilon -> Rabs b < 3 / 2 * kdl_epsilon -> Rabs (a * b) <= kdl_epsilon / 100).
  { intros a b Ha Hb. apply Rle_trans with ((3 / 2 * kdl_epsilon) * (3 / 2 * kdl_epsilon)); [apply Rabs_mul_le; lra|].
    replace (3 / 2 * kdl_epsilon * (3 / 2 * kdl_epsilon)) with (9 / 4 * rpy_epsilon) by (rewrite Es; field). lra. }
  assert (B0 : Rabs (r0 r) <= 1) by (apply sqr_le_abs; [lra|]; pose proof (pow2_ge_0 (r3 r)); lra).
  assert (B3 : Rabs (r3 r) <= 1) by (apply sqr_le_abs; [lra|]; pose proof (pow2_ge_0 (r0 r)); lra).
  assert (Z3 : forall x y, x = - y -> Rabs x < 3 / 2 * kdl_epsilon -> Rabs y < 2 * kdl_epsilon).
  { intros x y -> Hx. rewrite Rabs_Ropp in Hx. lra. }
  assert (Sm : forall s c x y, s ^ 2 = 1 -> x ^ 2 + y ^ 2 = 1 - r6 r ^ 2 -> (s = c) ->
     (forall k, k = atan2 (s * y) (s * x) -> Rabs (s * cos k - x) <= kdl_epsilon / 100 /\ Rabs (s * sin k - y) <= kdl_epsilon / 100)).
  { intros s c x y Hs Hxy _ k ->.
    assert (N0 : s * x <> 0 \/ s * y <> 0).
    { destruct (Req_dec (s * x) 0) as [Q|Q]; [right|left; exact Q]. intros Q'.
      assert (F : s ^ 2 * (x ^ 2 + y ^ 2) = 0).
      { replace (s ^ 2 * (x ^ 2 + y ^ 2)) with ((s * x) ^ 2 + (s * y) ^ 2) by ring. rewrite Q, Q'. ring. }
      rewrite Hs, Hxy in F. unfold d in *. lra. }
    destruct (atan2_spec (s * y) (s * x) N0) as [C S]. pose proof (sqrt_sum_pos _ _ N0) as Np.
    assert (Nn : sqrt ((s * x) ^ 2 + (s * y) ^ 2) * sqrt ((s * x) ^ 2 + (s * y) ^ 2) = 1 - r6 r ^ 2).
    { rewrite sqrt_def; [|pose proof (pow2_ge_0 (s * x)); pose proof (pow2_ge_0 (s * y)); lra].
      replace ((s * x) ^ 2 + (s * y) ^ 2) with (s ^ 2 * (x ^ 2 + y ^ 2)) by ring. rewrite Hs, Hxy. ring. }
    set (n := sqrt ((s * x) ^ 2 + (s * y) ^ 2)) in *.
    destruct (one_minus_le n (r6 r ^ 2) Np Nn P6) as [N1 N2].
    set (ck := cos (atan2 (s * y) (s * x))) in *. set (sk := sin (atan2 (s * y) (s * x))) in *.
    assert (Bck : Rabs ck <= 1) by (apply Rabs_le; apply COS_bound).
    assert (Bsk : Rabs sk <= 1) by (apply Rabs_le; apply SIN_bound).
    assert (Bs : Rabs s <= 1) by (apply sqr_le_abs; [lra|rewrite Hs; lra]).
    assert (Bn : Rabs (1 - n) <= kdl_epsilon / 100) by (rewrite Rabs_pos_eq; unfold d in *; lra).
    assert (Ex : x = s * (n * ck)) by (rewrite C; replace (s * (s * x)) with (s ^ 2 * x) by ring; rewrite Hs; ring).
    assert (Ey : y = s * (n * sk)) by (rewrite S; replace (s * (s * y)) with (s ^ 2 * y) by ring; rewrite Hs; ring).
    split.
    - rewrite Ex at 1. replace (s * ck - s * (n * ck)) with (s * ck * (1 - n)) by ring.
      apply Rle_trans with (1 * 1 * (kdl_epsilon / 100)); [|lra]. apply Rabs_mul3_le; assumption.
    - rewrite Ey at 1. replace (s * sk - s * (n * sk)) with (s * sk * (1 - n)) by ring.
      apply Rle_trans with (1 * 1 * (kdl_epsilon / 100)); [|lra]. apply Rabs_mul3_le; assumption. }
  destruct (Rlt_dec 0 (r8 r)) as [P|P]; intros E; injection E; intros Eg Eb Ea; subst alpha beta gamma.
  - rewrite Rabs_pos_eq in L, B8 by lra.
    destruct (Sm 1 1 (r0 r) (r3 r)) with (k := atan2 (r3 r) (r0 r)) as [Cx Sx]; [ring|lra|reflexivity|rewrite !Rmult_1_l; reflexivity|].
    rewrite Rmult_1_l in Cx, Sx.
    set (ca := cos (atan2 (r3 r) (r0 r))) in *. set (sa := sin (atan2 (r3 r) (r0 r))) in *.
    unfold r_close, r_EulerZYZ, close; psimp. fold ca sa. rewrite !cos_0, !sin_0.
    assert (D8 : Rabs (1 - r8 r) <= rpy_epsilon) by (rewrite Rabs_pos_eq; lra).
    repeat split.
    + replace (ca * 1 * 1 - sa * 0 - r0 r) with (ca - r0 r) by ring. lra.
    + replace (- ca * 1 * 0 - sa * 1 - r1 r) with (- (sa - r3 r) - r5 r * r6 r - (1 - r8 r) * r3 r) by (rewrite Y0; ring).
      apply Rle_lt_trans with (kdl_epsilon / 100 + kdl_epsilon / 100 + rpy_epsilon * 1); [|lra].
      repeat apply Rabs_sub_le; [rewrite Rabs_Ropp; exact Sx|apply Bq; assumption|apply Rabs_mul_le; assumption].
    + replace (ca * 0 - r2 r) with (- r2 r) by ring. rewrite Rabs_Ropp. lra.
    + replace (sa * 1 * 1 + ca * 0 - r3 r) with (sa - r3 r) by ring. lra.
    + replace (- sa * 1 * 0 + ca * 1 - r4 r) with ((ca - r0 r) + r2 r * r6 r + (1 - r8 r) * r0 r) by (rewrite Y1; ring).
      apply Rle_lt_trans with (kdl_epsilon / 100 + kdl_epsilon / 100 + rpy_epsilon * 1); [|lra].
      repeat apply Rabs_add_le; [exact Cx|apply Bq; assumption|apply Rabs_mul_le; assumption].
    + replace (sa * 0 - r5 r) with (- r5 r) by ring. rewrite Rabs_Ropp. lra.
    + replace (- 0 * 1 - r6 r) with (- r6 r) by ring. rewrite Rabs_Ropp. lra.
    + replace (0 * 0 - r7 r) with (- r7 r) by ring. rewrite Rabs_Ropp. lra.
    + lra.
  - assert (P8 : r8 r <= 0) by lra. rewrite Rabs_left1 in L, B8 by lra.
    destruct (Sm (-1) (-1) (r0 r) (r3 r)) with (k := atan2 (- r3 r) (- r0 r)) as [Cx Sx]; [ring|lra|reflexivity|f_equal; ring|].
    set (ca := cos (atan2 (- r3 r) (- r0 r))) in *. set (sa := sin (atan2 (- r3 r) (- r0 r))) in *.
    unfold r_close, r_EulerZYZ, close; psimp. fold ca sa. rewrite !cos_0, !sin_0, !cos_PI, !sin_PI.
    assert (D8 : Rabs (1 + r8 r) <= rpy_epsilon) by (rewrite Rabs_pos_eq; lra).
    repeat split.
    + replace (ca * -1 * 1 - sa * 0 - r0 r) with (-1 * ca - r0 r) by ring. lra.
    + replace (- ca * -1 * 0 - sa * 1 - r1 r) with ((-1 * sa - r3 r) - r5 r * r6 r + (1 + r8 r) * r3 r) by (rewrite Y0; ring).
      apply Rle_lt_trans with (kdl_epsilon / 100 + kdl_epsilon / 100 + rpy_epsilon * 1); [|lra].
      apply Rabs_add_le; [apply Rabs_sub_le; [exact Sx|apply Bq; assumption]|apply Rabs_mul_le; assumption].
    + replace (ca * 0 - r2 r) with (- r2 r) by ring. rewrite Rabs_Ropp. lra.
    + replace (sa * -1 * 1 + ca * 0 - r3 r) with (-1 * sa - r3 r) by ring. lra.
    + replace (- sa * -1 * 0 + ca * 1 - r4 r) with (- (-1 * ca - r0 r) + r2 r * r6 r - (1 + r8 r) * r0 r) by (rewrite Y1; ring).
      apply Rle_lt_trans with (kdl_epsilon / 100 + kdl_epsilon / 100 + rpy_epsilon * 1); [|lra].
      apply Rabs_sub_le; [apply Rabs_add_le; [rewrite Rabs_Ropp; exact Cx|apply Bq; assumption]|apply Rabs_mul_le; assumption].
    + replace (sa * 0 - r5 r) with (- r5 r) by ring. rewrite Rabs_Ropp. lra.
    + replace (- 0 * 1 - r6 r) with (- r6 r) by ring. rewrite Rabs_Ropp. lra.
    + replace (0 * 0 - r7 r) with (- r7 r) by ring. rewrite Rabs_Ropp. lra.
    + replace (-1 - r8 r) with (- (1 + r8 r)) by ring. rewrite Rabs_Ropp. lra.
Qed.
