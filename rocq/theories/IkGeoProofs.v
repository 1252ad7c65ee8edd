(** A small difference twist means nearby poses. *)
From Coq Require Import Reals Lra Psatz Bool.
From Verif Require Import FramesModel FramesSpec FramesProofs RotationProofs RotationProofs2 RotationProofs3 RotationBands
  FrameOpsProofs IkSpec.
Local Open Scope R_scope.

Lemma one_minus_cos a : 2 * (1 - cos a) <= a * a.
Proof.
  assert (E : 1 - cos a = 2 * (sin (a / 2) * sin (a / 2))).
  { replace a with (2 * (a / 2)) at 1 by field. rewrite cos_2a_sin. ring. }
  rewrite E. clear E.
  assert (S : Rabs (sin (a / 2)) <= Rabs (a / 2)).
  { assert (P : forall x, 0 <= x -> Rabs (sin x) <= x).
    { intros x [Hx|<-]; [|rewrite sin_0, Rabs_R0; lra].
      destruct (Rle_dec x 1) as [L|L].
      - rewrite Rabs_pos_eq; [left; apply sin_lt_x; exact Hx|]. apply sin_ge_0; pose proof PI2_1; lra.
      - apply Rle_trans with 1; [|lra]. apply Rabs_le. destruct (SIN_bound x). lra. }
    destruct (Rle_dec 0 (a / 2)) as [L|L].
    - rewrite (Rabs_pos_eq (a / 2)) by exact L. apply P; exact L.
    - rewrite (Rabs_left (a / 2)) by lra. replace (sin (a / 2)) with (- sin (- (a / 2))).
      + rewrite Rabs_Ropp. apply P. lra.
      + rewrite sin_neg. ring. }
  assert (Q : sin (a / 2) * sin (a / 2) <= a / 2 * (a / 2)) by (apply Rsqr_le_abs_1 in S; unfold Rsqr in S; exact S).
  lra.
Qed.

Lemma cs3 u1 u2 u3 c1 c2 c3 : u1 * u1 + u2 * u2 + u3 * u3 = 1 ->
  (u1 * c1 + u2 * c2 + u3 * c3) * (u1 * c1 + u2 * c2 + u3 * c3) <= c1 * c1 + c2 * c2 + c3 * c3.
Proof.
  intros U.
  assert (E : (c1 * c1 + c2 * c2 + c3 * c3) * (u1 * u1 + u2 * u2 + u3 * u3)
            - (u1 * c1 + u2 * c2 + u3 * c3) * (u1 * c1 + u2 * c2 + u3 * c3)
            = (u1 * c2 - u2 * c1) * (u1 * c2 - u2 * c1) + (u1 * c3 - u3 * c1) * (u1 * c3 - u3 * c1)
              + (u2 * c3 - u3 * c2) * (u2 * c3 - u3 * c2)) by ring.
  rewrite U in E.
  pose proof (Rle_0_sqr (u1 * c2 - u2 * c1)) as P1. pose proof (Rle_0_sqr (u1 * c3 - u3 * c1)) as P2.
  pose proof (Rle_0_sqr (u2 * c3 - u3 * c2)) as P3. unfold Rsqr in *. lra.
Qed.

Lemma sq_bound x y : 0 <= y -> x * x < 3 * (y * y) -> Rabs x < 2 * y.
Proof.
  intros Hy H. apply Rnot_le_lt. intros L.
  assert (4 * (y * y) <= Rabs x * Rabs x) by nra.
  assert (Rabs x * Rabs x = x * x). { unfold Rabs. destruct (Rcase_abs x); ring. } nra.
Qed.

Lemma Rot2_column n a : unit_vector n ->
  let m := r_Rot2 n a in
  (r0 m - 1) * (r0 m - 1) + r3 m * r3 m + r6 m * r6 m <= a * a /\
  r1 m * r1 m + (r4 m - 1) * (r4 m - 1) + r7 m * r7 m <= a * a /\
  r2 m * r2 m + r5 m * r5 m + (r8 m - 1) * (r8 m - 1) <= a * a.
Proof.
  intros U m. pose proof (one_minus_cos a) as B. pose proof (sin2_cos2 a) as SC. unfold Rsqr in SC.
  pose proof (COS_bound a) as CB.
  unfold unit_vector in U. destruct n as [x y z]. cbn [vx vy vz] in U. subst m. unfold r_Rot2; psimp.
  set (s := sin a) in *. set (c := cos a) in *.
  assert (K : forall k, 0 <= k -> 2 * (1 - c) * (1 - k) <= a * a).
  { intros k Hk. apply Rle_trans with (2 * (1 - c) * 1); [|lra]. apply Rmult_le_compat_l; lra. }
  assert (Ex : x * x = 1 - y * y - z * z) by lra.
  assert (Es : s * s = 1 - c * c) by lra.
  split; [|split].
  - apply Rle_trans with (2 * (1 - c) * (1 - x * x)); [right|apply K; nra].
    assert (D : y * y = 1 - x * x - z * z) by lra.
    match goal with |- ?l = ?r => replace l with
      ((1-c)*(1-c)*((1 - x*x)*(1-x*x) + x*x*(y*y) + x*x*(z*z)) + s*s*(y*y+z*z)) by ring end.
    rewrite Es, D. ring.
  - apply Rle_trans with (2 * (1 - c) * (1 - y * y)); [right|apply K; nra].
    match goal with |- ?l = ?r => replace l with
      ((1-c)*(1-c)*((1 - y*y)*(1-y*y) + y*y*(x*x) + y*y*(z*z)) + s*s*(x*x+z*z)) by ring end.
    rewrite Es, Ex. ring.
  - apply Rle_trans with (2 * (1 - c) * (1 - z * z)); [right|apply K; nra].
    match goal with |- ?l = ?r => replace l with
      ((1-c)*(1-c)*((1 - z*z)*(1-z*z) + z*z*(x*x) + z*z*(y*y)) + s*s*(x*x+y*y)) by ring end.
    rewrite Es, Ex. ring.
Qed.

Lemma Rot2_trace n a : unit_vector n -> r0 (r_Rot2 n a) + r4 (r_Rot2 n a) + r8 (r_Rot2 n a) = 1 + 2 * cos a.
Proof.
  intros U. unfold unit_vector in U. destruct n as [x y z]. cbn [vx vy vz] in U. unfold r_Rot2; psimp.
  transitivity ((1 - cos a) * (x ^ 2 + y ^ 2 + z ^ 2) + 3 * cos a); [ring|]. rewrite U. ring.
Qed.

(** The columns of [r - 1] are short. *)
Definition cols_below (r : Rotation) (k : R) : Prop :=
  (r0 r - 1) * (r0 r - 1) + r3 r * r3 r + r6 r * r6 r < k /\
  r1 r * r1 r + (r4 r - 1) * (r4 r - 1) + r7 r * r7 r < k /\
  r2 r * r2 r + r5 r * r5 r + (r8 r - 1) * (r8 r - 1) < k.

Lemma sqrt_third x : / 4 <= x -> / 2 <= sqrt x.
Proof.
  intros H. apply Rsqr_incr_0_var; [|apply sqrt_pos]. unfold Rsqr. rewrite sqrt_def; lra.
Qed.

Lemma GetRot_small r e : is_rotation r -> 0 < e <= / 2 ->
  let w := r_GetRot r in vx w * vx w + vy w * vy w + vz w * vz w < 3 * (e * e) ->
  cols_below r (3 * (Rmax e kdl_epsilon * Rmax e kdl_epsilon)).
Proof.
  intros H [He He2] w Hw. pose proof kdl_epsilon_pos as KP.
  set (M := Rmax e kdl_epsilon). assert (M1 : e <= M) by apply Rmax_l. assert (M2 : kdl_epsilon <= M) by apply Rmax_r.
  assert (KB : kdl_epsilon <= / 100) by (unfold kdl_epsilon; lra).
  assert (D : axis_angle_regular r kdl_epsilon \/ ~ axis_angle_regular r kdl_epsilon).
  { unfold axis_angle_regular. destruct (Rle_dec kdl_epsilon (Rabs (r1 r - r3 r))); [left; lra|].
    destruct (Rle_dec kdl_epsilon (Rabs (r2 r - r6 r))); [left; lra|].
    destruct (Rle_dec kdl_epsilon (Rabs (r5 r - r7 r))); [left; lra|right; lra]. }
  unfold w, r_GetRot in Hw. clear w.
  destruct D as [D|D].
  - pose proof (GetRotAngle_regular r kdl_epsilon H (Rle_refl _) D) as G.
    destruct (r_GetRotAngle r kdl_epsilon) as [n a]. destruct G as (U & Ra & E).
    rewrite r_Rot_unit in E by exact U. subst r.
    assert (Ha : a * a < 3 * (e * e)).
    { unfold v_scale in Hw; psimp. cbn [vx vy vz] in Hw. unfold unit_vector in U.
      replace (a * a) with ((vx n ^ 2 + vy n ^ 2 + vz n ^ 2) * (a * a)) by (rewrite U; ring).
      eapply Rle_lt_trans; [|exact Hw]. right. ring. }
    assert (Hm : 3 * (e * e) <= 3 * (M * M)) by nra.
    destruct (Rot2_column n a U) as (C1 & C2 & C3). unfold cols_below. repeat split; lra.
  - pose proof (GetRotAngle_total r kdl_epsilon H (conj (Rle_refl _) KB)) as T.
    assert (A1 : Rabs (r1 r - r3 r) < kdl_epsilon) by (apply Rnot_le_lt; intros C; apply D; left; exact C).
    assert (A2 : Rabs (r2 r - r6 r) < kdl_epsilon) by (apply Rnot_le_lt; intros C; apply D; right; left; exact C).
    assert (A3 : Rabs (r5 r - r7 r) < kdl_epsilon) by (apply Rnot_le_lt; intros C; apply D; right; right; exact C).
    unfold r_GetRotAngle in T, Hw.
    replace (if Rlt_dec (Rabs (r1 r - r3 r)) kdl_epsilon then true else false) with true in * by (symmetry; apply lt_true; exact A1).
    replace (if Rlt_dec (Rabs (r2 r - r6 r)) kdl_epsilon then true else false) with true in * by (symmetry; apply lt_true; exact A2).
    replace (if Rlt_dec (Rabs (r5 r - r7 r)) kdl_epsilon then true else false) with true in * by (symmetry; apply lt_true; exact A3).
    cbn [andb] in T, Hw.
    destruct (((if Rlt_dec (Rabs (r1 r + r3 r)) (kdl_epsilon * 10) then true else false) &&
      (if Rlt_dec (Rabs (r2 r + r6 r)) (kdl_epsilon * 10) then true else false) &&
      (if Rlt_dec (Rabs (r5 r + r7 r)) (kdl_epsilon * 10) then true else false) &&
      (if Rlt_dec (Rabs (r0 r + r4 r + r8 r - 3)) (kdl_epsilon * 10) then true else false))%bool) eqn:EB.
    + assert (U : unit_vector (mkV 0 0 1)) by (unfold unit_vector; psimp; ring).
      rewrite r_Rot_unit, Rot2_0 in T by exact U.
      unfold r_close, close, r_id in T. cbn [r0 r1 r2 r3 r4 r5 r6 r7 r8] in T.
      destruct T as (T0 & T1 & T2 & T3 & T4 & T5 & T6 & T7 & T8).
      assert (Q : forall x y, Rabs (x - y) < kdl_epsilon -> (y - x) * (y - x) < M * M).
      { intros x y B. apply sq_lt in B. assert (kdl_epsilon * kdl_epsilon <= M * M) by nra.
        replace ((y - x) * (y - x)) with ((x - y) * (x - y)) by ring. lra. }
      apply Q in T0, T1, T2, T3, T4, T5, T6, T7, T8.
      unfold cols_below. rewrite !Rminus_0_r in *. repeat split; lra.
    + exfalso. clear EB D.
      assert (Tr : forall n, r_close (r_Rot n PI) r kdl_epsilon -> / 4 * 3 <= (r0 r + 1) / 2 + (r4 r + 1) / 2 + (r8 r + 1) / 2).
      { intros n C. unfold r_Rot in C. 
        pose proof (Rot2_trace (fst (v_normalize n)) PI (v_normalize_unit n)) as TT. rewrite cos_PI in TT.
        destruct C as (C0 & _ & _ & _ & C4 & _ & _ & _ & C8). unfold close in *.
        apply Rabs_def2 in C0, C4, C8. unfold kdl_epsilon in *. lra. }
      pose proof PI2_1 as P2. 
      assert (F : forall x y z, x * x + y * y + z * z < 3 * (e * e) -> 1 <= x \/ 1 <= y \/ 1 <= z -> False).
      { intros x y z L [O|[O|O]]; nra. }
      assert (G : forall x, / 4 <= x -> 1 <= sqrt x * PI).
      { intros x Hx. apply sqrt_third in Hx. nra. }
      destruct ((if Rlt_dec ((r4 r + 1) / 2) ((r0 r + 1) / 2) then true else false) &&
                (if Rlt_dec ((r8 r + 1) / 2) ((r0 r + 1) / 2) then true else false))%bool eqn:B1.
      * apply andb_prop in B1. destruct B1 as [B1 B2]. apply lt_true in B1, B2.
        apply Tr in T. unfold v_scale in Hw; cbn [vx vy vz] in Hw.
        apply (F _ _ _ Hw). left. apply G. lra.
      * destruct (if Rlt_dec ((r8 r + 1) / 2) ((r4 r + 1) / 2) then true else false) eqn:B2.
        -- apply lt_true in B2. apply andb_false_iff in B1. rewrite !lt_false in B1.
           apply Tr in T. unfold v_scale in Hw; cbn [vx vy vz] in Hw.
           apply (F _ _ _ Hw). right; left. apply G. lra.
        -- apply lt_false in B2. apply andb_false_iff in B1. rewrite !lt_false in B1.
           apply Tr in T. unfold v_scale in Hw; cbn [vx vy vz] in Hw.
           apply (F _ _ _ Hw). right; right. apply G. lra.
Qed.

Lemma is_rotation_rel a b : is_rotation a -> is_rotation b -> is_rotation (r_mul (r_inv a) b).
Proof. intros Ha Hb. apply is_rotation_mul; [apply r_inv_rotation; exact Ha|exact Hb]. Qed.

Lemma r_diff_norm a w : is_rotation a ->
  vx (r_app a w) * vx (r_app a w) + vy (r_app a w) * vy (r_app a w) + vz (r_app a w) * vz (r_app a w)
  = vx w * vx w + vy w * vy w + vz w * vz w.
Proof.
  intros [A B C D E F _]. destruct a as [a0 a1 a2 a3 a4 a5 a6 a7 a8], w as [x y z]. unfold r_app. psimp.
  cbn [r0 r1 r2 r3 r4 r5 r6 r7 r8] in *.
  transitivity (x * x * (a0 ^ 2 + a3 ^ 2 + a6 ^ 2) + y * y * (a1 ^ 2 + a4 ^ 2 + a7 ^ 2) + z * z * (a2 ^ 2 + a5 ^ 2 + a8 ^ 2)
    + 2 * x * y * (a0 * a1 + a3 * a4 + a6 * a7) + 2 * x * z * (a0 * a2 + a3 * a5 + a6 * a8) + 2 * y * z * (a1 * a2 + a4 * a5 + a7 * a8)).
  - ring.
  - rewrite A, B, C, D, E, F. ring.
Qed.

Lemma mul_rel a b : is_rotation a -> r_mul a (r_mul (r_inv a) b) = b.
Proof. intros H. rewrite <- r_mul_assoc, (r_inv_r a H). apply r_mul_id_l. Qed.

Lemma rel_close a m e : is_rotation a -> 0 <= e -> cols_below m (3 * (e * e)) ->
  r_close a (r_mul a m) (2 * e).
Proof.
  intros Ha He (C1 & C2 & C3). pose proof (r_inv_rotation a Ha) as [A B C D E F _].
  destruct a as [a0 a1 a2 a3 a4 a5 a6 a7 a8], m as [m0 m1 m2 m3 m4 m5 m6 m7 m8].
  unfold r_inv in *. unfold r_close, close, r_mul. cbn [r0 r1 r2 r3 r4 r5 r6 r7 r8] in *.
  assert (K : forall u1 u2 u3 c1 c2 c3 x, u1 ^ 2 + u2 ^ 2 + u3 ^ 2 = 1 -> c1 * c1 + c2 * c2 + c3 * c3 < 3 * (e * e) ->
     x = - (u1 * c1 + u2 * c2 + u3 * c3) -> Rabs x < 2 * e).
  { intros u1 u2 u3 c1 c2 c3 x U L ->. rewrite Rabs_Ropp. apply sq_bound; [exact He|].
    eapply Rle_lt_trans; [apply cs3; lra|exact L]. }
  repeat split.
  - apply (K _ _ _ _ _ _ _ A C1); ring.
  - apply (K _ _ _ _ _ _ _ A C2); ring.
  - apply (K _ _ _ _ _ _ _ A C3); ring.
  - apply (K _ _ _ _ _ _ _ B C1); ring.
  - apply (K _ _ _ _ _ _ _ B C2); ring.
  - apply (K _ _ _ _ _ _ _ B C3); ring.
  - apply (K _ _ _ _ _ _ _ C C1); ring.
  - apply (K _ _ _ _ _ _ _ C C2); ring.
  - apply (K _ _ _ _ _ _ _ C C3); ring.
Qed.

Lemma diff_small f g eps : rigid f -> rigid g -> eps <= / 2 ->
  t_Equal (f_diff f g 1) t_zero eps = true -> pose_within eps f g.
Proof.
  intros Hf Hg He T. apply t_Equal_close in T. destruct T as [(P1 & P2 & P3) (Q1 & Q2 & Q3)].
  unfold f_diff, t_zero, v_zero, v_diff, r_diff, v_div, v_sub, close in *. psimp. cbn [vx vy vz tvel trot] in *.
  assert (E0 : 0 < eps). { eapply Rle_lt_trans; [apply Rabs_pos|exact P1]. }
  split.
  - unfold v_close, close. repeat split.
    + rewrite Rabs_minus_sym. replace (vx (fp g) - vx (fp f)) with ((vx (fp g) - vx (fp f)) / 1 - 0) by field. exact P1.
    + rewrite Rabs_minus_sym. replace (vy (fp g) - vy (fp f)) with ((vy (fp g) - vy (fp f)) / 1 - 0) by field. exact P2.
    + rewrite Rabs_minus_sym. replace (vz (fp g) - vz (fp f)) with ((vz (fp g) - vz (fp f)) / 1 - 0) by field. exact P3.
  - set (m := r_mul (r_inv (fM f)) (fM g)) in *.
    assert (Hm : is_rotation m) by (apply is_rotation_rel; assumption).
    apply sq_lt in Q1, Q2, Q3.
    assert (S : forall x, (x / 1 - 0) * (x / 1 - 0) = x * x) by (intros; field).
    rewrite S in Q1, Q2, Q3. pose proof (r_diff_norm (fM f) (r_GetRot m) Hf) as N.
    pose proof (GetRot_small m eps Hm (conj E0 He)) as G. cbn zeta in G.
    assert (L : vx (r_GetRot m) * vx (r_GetRot m) + vy (r_GetRot m) * vy (r_GetRot m) + vz (r_GetRot m) * vz (r_GetRot m) < 3 * (eps * eps)) by lra.
    specialize (G L). apply (rel_close (fM f)) in G; [|exact Hf|].
    + unfold m in G. rewrite mul_rel in G by exact Hf.
      assert (Rmax eps kdl_epsilon <= eps + kdl_epsilon) by (apply Rmax_lub; pose proof kdl_epsilon_pos; lra).
      assert (W : forall x y, Rabs (x - y) < 2 * Rmax eps kdl_epsilon -> Rabs (x - y) < 2 * (eps + kdl_epsilon)) by (intros; lra).
      unfold r_close, close in *. destruct G as (G0 & G1 & G2 & G3 & G4 & G5 & G6 & G7 & G8).
      repeat split; apply W; assumption.
    + apply Rle_trans with eps; [lra|apply Rmax_l].
Qed.
