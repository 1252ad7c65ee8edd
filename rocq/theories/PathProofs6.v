(** Rounded composite paths. *)
From Coq Require Import Reals List ZArith Lia Lra Bool Psatz.
From Verif Require Import FramesModel FramesSpec FramesProofs RotationProofs RotationProofs2 RotationProofs3 FrameOpsProofs
  Outcome InertiaModel DualModel KinModel KinSpec DerivProofs ProfModel ProfSpec ProfProofs PathModel PathSpec
  PathProofs PathProofs2 PathProofs3 PathProofs4 PathProofs5.
Import ListNotations.
Local Open Scope R_scope.

Lemma norm_pos v : v <> v_zero -> 0 < euclid_norm v.
Proof.
  intros H. destruct (Rle_lt_or_eq_dec 0 (euclid_norm v)) as [L|E]; [apply sqrt_pos|exact L|].
  exfalso. apply H, euclid_zero. symmetry; exact E.
Qed.
Lemma cauchy a b : Rabs (v_dot a b) <= euclid_norm a * euclid_norm b.
Proof.
  unfold euclid_norm. rewrite <- sqrt_mult_alt by (pose proof (sum3_sq_nonneg (vx a) (vy a) (vz a)); lra).
  rewrite <- sqrt_Rsqr_abs. apply sqrt_le_1_alt. unfold Rsqr. destruct a as [a0 a1 a2], b as [b0 b1 b2].
  unfold v_dot. cbn [vx vy vz]. pose proof (pow2_ge_0 (a0 * b1 - a1 * b0)). pose proof (pow2_ge_0 (a0 * b2 - a2 * b0)).
  pose proof (pow2_ge_0 (a1 * b2 - a2 * b1)). nra.
Qed.

Lemma norm_zero : euclid_norm v_zero = 0.
Proof. unfold euclid_norm, v_zero; cbn. replace (0 * (0 * 1) + 0 * (0 * 1) + 0 * (0 * 1)) with 0 by ring. apply sqrt_0. Qed.

(** what the code computes as the angle *)
Lemma code_angle a b : 0 < euclid_norm a -> 0 < euclid_norm b ->
  angle_between a b (acos (kdl_max (-1) (kdl_min (v_dot a b / euclid_norm a / euclid_norm b) 1))).
Proof.
  intros Pa Pb. pose proof (cauchy a b) as C. set (x := v_dot a b / euclid_norm a / euclid_norm b).
  assert (Ex : v_dot a b = euclid_norm a * euclid_norm b * x) by (unfold x; field; lra).
  assert (Bx : -1 <= x <= 1).
  { assert (Pp : 0 < euclid_norm a * euclid_norm b) by (apply Rmult_lt_0_compat; assumption).
    rewrite Ex, Rabs_mult, (Rabs_right (euclid_norm a * euclid_norm b)) in C by lra.
    assert (Rabs x <= 1) by nra. pose proof (Rle_abs x). pose proof (Rle_abs (- x)) as Q2. rewrite Rabs_Ropp in Q2. lra. }
  assert (E : kdl_max (-1) (kdl_min x 1) = x).
  { unfold kdl_max, kdl_min. destruct (Rlt_dec 1 x) as [L|L]; [lra|]. destruct (Rlt_dec x (-1)); lra. }
  rewrite E. split; [apply acos_bound|]. rewrite cos_acos by exact Bx. exact Ex.
Qed.
Lemma angle_unique a b x y : 0 < euclid_norm a -> 0 < euclid_norm b -> angle_between a b x -> angle_between a b y -> x = y.
Proof.
  intros Pa Pb (Bx & Ex) (By & Ey). rewrite Ex in Ey. assert (cos x = cos y) by (apply (Rmult_eq_reg_l (euclid_norm a * euclid_norm b)); nra).
  rewrite <- (acos_cos x Bx), <- (acos_cos y By). f_equal. exact H.
Qed.

(** an orthonormal pair adapted to a corner *)
Lemma corner_frame a b alpha : 0 < euclid_norm a -> 0 < euclid_norm b -> angle_between a b alpha -> 0 < alpha < PI ->
  exists e1 e2, unit_vector e1 /\ unit_vector e2 /\ v_dot e1 e2 = 0 /\
    a = v_scale e1 (euclid_norm a) /\
    b = v_scale (v_add (v_scale e1 (cos alpha)) (v_scale e2 (sin alpha))) (euclid_norm b).
Proof.
  intros Pa Pb (_ & E) Ba. assert (S : 0 < sin alpha) by (apply sin_gt_0; lra).
  pose proof (euclid_norm_sq a) as Qa. pose proof (euclid_norm_sq b) as Qb. pose proof (sin2_cos2 alpha) as SC. unfold Rsqr in SC.
  set (na := euclid_norm a) in *. set (nb := euclid_norm b) in *. set (c := cos alpha) in *. set (s := sin alpha) in *.
  destruct a as [a0 a1 a2], b as [b0 b1 b2]. unfold v_dot in E. cbn [vx vy vz] in *.
  exists (mkV (a0 / na) (a1 / na) (a2 / na)),
    (mkV ((b0 / nb - c * (a0 / na)) / s) ((b1 / nb - c * (a1 / na)) / s) ((b2 / nb - c * (a2 / na)) / s)).
  assert (U1 : (a0 / na) ^ 2 + (a1 / na) ^ 2 + (a2 / na) ^ 2 = 1).
  { transitivity ((a0 ^ 2 + a1 ^ 2 + a2 ^ 2) / (na * na)); [field; lra|]. rewrite <- Qa. field. lra. }
  assert (Ub : (b0 / nb) ^ 2 + (b1 / nb) ^ 2 + (b2 / nb) ^ 2 = 1).
  { transitivity ((b0 ^ 2 + b1 ^ 2 + b2 ^ 2) / (nb * nb)); [field; lra|]. rewrite <- Qb. field. lra. }
  assert (D : (a0 / na) * (b0 / nb) + (a1 / na) * (b1 / nb) + (a2 / na) * (b2 / nb) = c).
  { transitivity ((b0 * a0 + b1 * a1 + b2 * a2) / (na * nb)); [field; lra|]. rewrite E. field. lra. }
  set (x0 := a0 / na) in *. set (x1 := a1 / na) in *. set (x2 := a2 / na) in *.
  assert (Ea : a0 = x0 * na /\ a1 = x1 * na /\ a2 = x2 * na) by (unfold x0, x1, x2; repeat split; field; lra).
  set (y0 := b0 / nb) in *. set (y1 := b1 / nb) in *. set (y2 := b2 / nb) in *.
  assert (Eb : b0 = y0 * nb /\ b1 = y1 * nb /\ b2 = y2 * nb) by (unfold y0, y1, y2; repeat split; field; lra).
  split; [exact U1|]. split.
  { unfold unit_vector. cbn [vx vy vz].
    transitivity (((y0 ^ 2 + y1 ^ 2 + y2 ^ 2) - 2 * c * (x0 * y0 + x1 * y1 + x2 * y2) + c * c * (x0 ^ 2 + x1 ^ 2 + x2 ^ 2)) / (s * s)); [field; lra|].
    rewrite Ub, D, U1. replace (1 - 2 * c * c + c * c * 1) with (s * s) by lra. field. lra. }
  split.
  { unfold v_dot. cbn [vx vy vz]. transitivity (((x0 * y0 + x1 * y1 + x2 * y2) - c * (x0 ^ 2 + x1 ^ 2 + x2 ^ 2)) / s); [field; lra|].
    rewrite D, U1. field. lra. }
  split.
  - apply v_ext; cbn [v_scale vx vy vz]; [apply Ea|apply Ea|apply Ea].
  - destruct Eb as (Eb0 & Eb1 & Eb2). apply v_ext; unfold v_scale, v_add; cbn [vx vy vz]; [rewrite Eb0 at 1|rewrite Eb1 at 1|rewrite Eb2 at 1]; field; lra.
Qed.

Lemma half_tan alpha : 0 < alpha < PI -> 0 < tan (alpha / 2) /\
  tan (alpha / 2) * (1 + cos alpha) = sin alpha /\ tan (alpha / 2) * sin alpha = 1 - cos alpha.
Proof.
  intros H. assert (C : 0 < cos (alpha / 2)) by (apply cos_gt_0; lra). assert (S : 0 < sin (alpha / 2)) by (apply sin_gt_0; lra).
  assert (EC : cos alpha = cos (alpha / 2) * cos (alpha / 2) - sin (alpha / 2) * sin (alpha / 2)) by (rewrite <- cos_2a; f_equal; field).
  assert (ES : sin alpha = 2 * sin (alpha / 2) * cos (alpha / 2)) by (rewrite <- sin_2a; f_equal; field).
  rewrite EC, ES. unfold tan.
  pose proof (sin2_cos2 (alpha / 2)) as Q. unfold Rsqr in Q. set (c := cos (alpha / 2)) in *. set (s := sin (alpha / 2)) in *.
  split; [apply Rdiv_lt_0_compat; assumption|]. split; apply (Rmult_eq_reg_r c); try lra.
  - transitivity (s * (1 + (c * c - s * s))); [field; lra|]. replace (s * s) with (1 - c * c) by lra. ring.
  - transitivity (s * (2 * s * c)); [field; lra|]. replace (c * c - s * s) with (1 - 2 * (s * s)) by lra. ring.
Qed.
Lemma code_d r alpha : 0 < alpha < PI -> r / tan ((PI - alpha) / 2) = r * tan (alpha / 2).
Proof.
  intros H. assert (C : 0 < cos (alpha / 2)) by (apply cos_gt_0; lra). assert (S : 0 < sin (alpha / 2)) by (apply sin_gt_0; lra).
  unfold tan. replace ((PI - alpha) / 2) with (PI / 2 - alpha / 2) by field. rewrite sin_shift, cos_shift. field. lra.
Qed.

Lemma scale_inj e k a v : 0 < k -> v_scale e k = v_scale a k -> v = e -> v = a.
Proof.
  intros P H ->. apply v_ext; [assert (Q := f_equal vx H)|assert (Q := f_equal vy H)|assert (Q := f_equal vz H)]; cbn in Q; nra.
Qed.

Lemma same_direction u v k : unit_vector u -> unit_vector v -> 0 < k -> forall m, 0 < m -> v_scale u k = v_scale v m -> u = v.
Proof.
  intros Hu Hv Hk m Hm E. assert (K : k = m).
  { assert (Q : euclid_norm (v_scale u k) = euclid_norm (v_scale v m)) by (rewrite E; reflexivity).
    rewrite !euclid_norm_scale, (unit_norm _ Hu), (unit_norm _ Hv), !Rabs_pos_eq in Q by lra. lra. }
  subst m. apply (scale_inj u k v u Hk E). reflexivity.
Qed.

Lemma v_norm_reported v : ~ v_norm v < / 10000000 -> v_norm v = euclid_norm v /\ 0 < euclid_norm v.
Proof. intros H. destruct (v_norm_0_or v) as [Z|Z]; rewrite Z in H |- *; [exfalso; lra|]. split; [reflexivity|lra]. Qed.

(** ** A point on a line at a given distance *)
Lemma line_cut o F G eq x : resolved F G -> 0 < eq -> 0 < euclid_norm (v_sub (fp G) (fp F)) ->
  let l := line_make F G o eq in
  exists s, line_LengthToS l x = Val s /\ s = x / euclid_norm (v_sub (fp G) (fp F)) * ln_len l.
Proof.
  intros HR He Hn l. pose proof (line_make_facts o F G eq HR He) as H. fold l in H.
  pose proof (lf_lin _ _ _ _ H) as E.
  assert (N : ln_scalelin l <> 0) by (intros Q; rewrite Q in E; lra).
  unfold line_LengthToS. destruct (Req_EM_T (ln_scalelin l) 0); [contradiction|].
  eexists. split; [reflexivity|]. rewrite <- E.
  assert (L : ln_len l <> 0) by (intros Q; rewrite Q in E; lra). field. split; assumption.
Qed.

Lemma line_tangent o F G eq s : resolved F G -> 0 < eq -> 0 < euclid_norm (v_sub (fp G) (fp F)) ->
  exists k, 0 < k /\ tvel (line_Vel (line_make F G o eq) s 1) = v_scale (v_sub (fp G) (fp F)) k.
Proof.
  intros HR He Hn. pose proof (line_make_facts o F G eq HR He) as H. set (l := line_make F G o eq) in *.
  pose proof (lf_lin _ _ _ _ H) as E. pose proof (lf_len _ _ _ _ H) as EL.
  assert (L : 0 < ln_len l) by (rewrite EL; eapply Rlt_le_trans; [exact Hn|apply Rmax_l]).
  exists (/ ln_len l). split; [apply Rinv_0_lt_compat; exact L|].
  unfold line_Vel. cbn [tvel]. rewrite <- (lf_disp _ _ _ _ H), <- E. rewrite !v_scale_scale. f_equal. field. lra.
Qed.

Lemma cross_cross e1 e2 : unit_vector e1 -> unit_vector e2 -> v_dot e1 e2 = 0 ->
  unit_vector (v_cross e1 e2) /\ v_cross (v_cross e1 e2) e2 = v_scale e1 (-1) /\ v_cross e1 (v_cross e1 e2) = v_scale e2 (-1).
Proof.
  destruct e1 as [a0 a1 a2], e2 as [b0 b1 b2]. unfold unit_vector, v_dot, v_cross, v_scale. cbn [vx vy vz]. intros A B D.
  replace (b0 * a0 + b1 * a1 + b2 * a2) with (a0 * b0 + a1 * b1 + a2 * b2) in D by ring.
  split; [|split].
  - transitivity ((a0 ^ 2 + a1 ^ 2 + a2 ^ 2) * (b0 ^ 2 + b1 ^ 2 + b2 ^ 2) - (a0 * b0 + a1 * b1 + a2 * b2) ^ 2); [ring|]. rewrite A, B, D. ring.
  - f_equal.
    + transitivity (b0 * (a0 * b0 + a1 * b1 + a2 * b2) - a0 * (b0 ^ 2 + b1 ^ 2 + b2 ^ 2)); [ring|rewrite B, D; ring].
    + transitivity (b1 * (a0 * b0 + a1 * b1 + a2 * b2) - a1 * (b0 ^ 2 + b1 ^ 2 + b2 ^ 2)); [ring|rewrite B, D; ring].
    + transitivity (b2 * (a0 * b0 + a1 * b1 + a2 * b2) - a2 * (b0 ^ 2 + b1 ^ 2 + b2 ^ 2)); [ring|rewrite B, D; ring].
  - f_equal.
    + transitivity (a0 * (a0 * b0 + a1 * b1 + a2 * b2) - b0 * (a0 ^ 2 + a1 ^ 2 + a2 ^ 2)); [ring|rewrite A, D; ring].
    + transitivity (a1 * (a0 * b0 + a1 * b1 + a2 * b2) - b1 * (a0 ^ 2 + a1 ^ 2 + a2 ^ 2)); [ring|rewrite A, D; ring].
    + transitivity (a2 * (a0 * b0 + a1 * b1 + a2 * b2) - b2 * (a0 ^ 2 + a1 ^ 2 + a2 ^ 2)); [ring|rewrite A, D; ring].
Qed.

(** ** The arc *)
Lemma arc_id1 e1 e2 r s c : v_cross (v_scale e2 (- r)) (v_scale (v_sub (v_scale e1 s) (v_scale e2 c)) r) = v_scale (v_cross e1 e2) (r * r * s).
Proof. geo. Qed.
Lemma arc_id2 C B : v_add C (v_sub B C) = B.
Proof. geo. Qed.
Lemma arc_id3 e1 e2 r : v_dot (v_cross e1 e2) (v_scale e2 (- r)) = 0.
Proof. geo. Qed.
Lemma arc_id4 e1 e2 : v_add (v_scale e2 0) (v_scale e1 1) = e1.
Proof. geo. Qed.
Lemma arc_id5 e1 e2 r s c : v_add (v_scale (v_scale e2 (- r)) c) (v_scale (v_scale (v_scale e1 (-1)) (- r)) s) = v_scale (v_sub (v_scale e1 s) (v_scale e2 c)) r.
Proof. geo. Qed.
Section Arc.
  Variables (A B : Frame) (P e1 e2 : Vector) (r alpha eq : R).
  Hypothesis HA : rigid A. Hypothesis HB : rigid B. Hypothesis HR : resolved_rotation (fM A) (fM B).
  Hypothesis U1 : unit_vector e1. Hypothesis U2 : unit_vector e2. Hypothesis D : v_dot e1 e2 = 0.
  Hypothesis Ba : 0 < alpha < PI. Hypothesis Hr : 2 * kdl_epsilon <= r. Hypothesis He : 0 < eq.
  Let t := tan (alpha / 2).
  Let w := v_add (v_scale e1 (cos alpha)) (v_scale e2 (sin alpha)).
  Hypothesis EA : fp A = v_sub P (v_scale e1 (r * t)).
  Hypothesis EB : fp B = v_add P (v_scale w (r * t)).
  Let C := v_add (fp A) (v_scale e2 r).

  Lemma arc_start_rel : v_sub (fp A) C = v_scale e2 (- r).
  Proof. unfold C. destruct (fp A), e2. apply v_ext; cbn; ring. Qed.
  Lemma arc_end_rel : v_sub (fp B) C = v_scale (v_sub (v_scale e1 (sin alpha)) (v_scale e2 (cos alpha))) r.
  Proof.
    destruct (half_tan alpha Ba) as (_ & T1 & T2). fold t in T1, T2. unfold C. rewrite EA, EB. unfold w. clear - T1 T2.
    set (c := cos alpha) in *. set (s := sin alpha) in *.
    destruct e1 as [a0 a1 a2], e2 as [b0 b1 b2], P as [p0 p1 p2].
    apply v_ext; cbn.
    - transitivity (r * (a0 * (t * (1 + c)) + b0 * (t * s - 1))); [ring|rewrite T1, T2; ring].
    - transitivity (r * (a1 * (t * (1 + c)) + b1 * (t * s - 1))); [ring|rewrite T1, T2; ring].
    - transitivity (r * (a2 * (t * (1 + c)) + b2 * (t * s - 1))); [ring|rewrite T1, T2; ring].
  Qed.
  Lemma arc_unit : unit_vector (v_sub (v_scale e1 (sin alpha)) (v_scale e2 (cos alpha))).
  Proof.
    pose proof (sin2_cos2 alpha) as Q. unfold Rsqr in Q. clear - U1 U2 D Q. set (c := cos alpha) in *. set (s := sin alpha) in *.
    destruct e1 as [a0 a1 a2], e2 as [b0 b1 b2]. unfold unit_vector, v_dot in *. cbn in *.
    transitivity (s * s * (a0 ^ 2 + a1 ^ 2 + a2 ^ 2) + c * c * (b0 ^ 2 + b1 ^ 2 + b2 ^ 2) - 2 * s * c * (b0 * a0 + b1 * a1 + b2 * a2)); [ring|].
    replace (a0 ^ 2 + a1 ^ 2 + a2 ^ 2) with 1 by (cbn; lra). replace (b0 ^ 2 + b1 ^ 2 + b2 ^ 2) with 1 by (cbn; lra). rewrite D. lra.
  Qed.
  Lemma unit_big v k : unit_vector v -> 2 * kdl_epsilon <= k -> kdl_epsilon <= max_abs (v_scale v k).
  Proof.
    intros U K. pose proof kdl_epsilon_pos as Pe.
    destruct (Rle_lt_dec kdl_epsilon (max_abs (v_scale v k))) as [L|L]; [exact L|exfalso].
    unfold max_abs in L. destruct v as [x y z]. unfold unit_vector in U. cbn in U, L.
    pose proof (Rmax_l (Rabs (x * k)) (Rmax (Rabs (y * k)) (Rabs (z * k)))).
    pose proof (Rmax_r (Rabs (x * k)) (Rmax (Rabs (y * k)) (Rabs (z * k)))).
    pose proof (Rmax_l (Rabs (y * k)) (Rabs (z * k))). pose proof (Rmax_r (Rabs (y * k)) (Rabs (z * k))).
    assert (S : forall u, Rabs (u * k) < kdl_epsilon -> u * u * (k * k) < kdl_epsilon * kdl_epsilon).
    { intros u Hu. replace (u * u * (k * k)) with (Rabs (u * k) * Rabs (u * k)); [pose proof (Rabs_pos (u * k)); nra|].
      rewrite <- Rabs_mult, Rabs_right; [ring|]. pose proof (Rle_0_sqr (u * k)) as Q. unfold Rsqr in Q. lra. }
    pose proof (S x ltac:(lra)). pose proof (S y ltac:(lra)). pose proof (S z ltac:(lra)).
    assert (k * k = (x * x + y * y + z * z) * (k * k)) by (replace (x * x + y * y + z * z) with 1 by lra; ring).
    nra.
  Qed.

  Lemma arc_ok o : forall c, circle_make A C (fp B) (fM B) alpha o eq = Val c ->
    circle_Pos c 0 = A /\ circle_Pos c (ci_len c) = B /\ 0 < ci_len c /\
    (forall s, euclid_norm (v_sub (fp (circle_Pos c s)) C) = r) /\
    curve_derivatives (circle_Pos c) (circle_Vel c) (circle_Acc c) /\
    exists k, 0 < k /\ tvel (circle_Vel c 0 1) = v_scale e1 k /\ tvel (circle_Vel c (ci_len c) 1) = v_scale w k.
  Proof.
    intros c E. pose proof kdl_epsilon_pos as Pe. assert (Pr : 0 < r) by lra.
    assert (S : 0 < sin alpha) by (apply sin_gt_0; lra).
    assert (HD : resolved_displacement C (fp B)).
    { right. rewrite arc_end_rel. apply unit_big; [apply arc_unit|exact Hr]. }
    assert (NC : C <> fp B).
    { intros Q. pose proof arc_end_rel as X. rewrite <- Q, v_sub_diag in X.
      assert (Y : euclid_norm v_zero = r) by (rewrite X, euclid_norm_scale, (unit_norm _ arc_unit), Rabs_pos_eq; lra).
      rewrite norm_zero in Y. lra. }
    pose proof (circle_make_cases A C (fp B) (fM B) alpha o eq HA HB HR HD (proj1 Ba) He) as H.
    pose proof (circle_correct A C (fp B) (fM B) alpha o eq HA HB HR HD NC (proj1 Ba) He) as H2.
    rewrite E in H, H2. destruct H2 as (_ & H21 & H22 & H23 & _).
    destruct (cross_cross e1 e2 U1 U2 D) as (UZ & X1 & X2).
    assert (EZ : r_UnitZ (fM (ci_center c)) = v_cross e1 e2).
    { destruct (cf_plane _ _ _ _ _ _ _ H NC) as (Uz & k & Pk & Ek).
      apply (same_direction _ _ k Uz UZ Pk (r * r * sin alpha)).
      - apply Rmult_lt_0_compat; [nra|exact S].
      - rewrite <- Ek, arc_start_rel, arc_end_rel. apply arc_id1. }
    assert (ER : ci_radius c = r).
    { rewrite (cf_radius _ _ _ _ _ _ _ H), arc_start_rel, euclid_norm_scale, (unit_norm _ U2), Rabs_Ropp, Rabs_pos_eq; lra. }
    assert (EX : r_UnitX (fM (ci_center c)) = v_scale e2 (-1)).
    { pose proof (cf_x _ _ _ _ _ _ _ H) as Q. rewrite ER, arc_start_rel in Q.
      apply (scale_inj (r_UnitX (fM (ci_center c))) r (v_scale e2 (-1)) _ Pr); [|reflexivity].
      rewrite Q, v_scale_scale. f_equal. ring. }
    assert (EY : r_UnitY (fM (ci_center c)) = e1).
    { rewrite (cf_y _ _ _ _ _ _ _ H), EZ, EX, v_cross_scale_r, X1, v_scale_scale. replace (-1 * -1) with 1 by ring. apply v_scale_1. }
    destruct (circle_circular _ _ _ _ _ _ _ H) as (C0 & CU).
    split; [exact C0|]. split.
    { apply f_ext; [exact H21|]. rewrite <- (Rmult_1_l (ci_len c)), CU, Rmult_1_l, arc_start_rel, EZ.
      rewrite Rot2_perp.
      - rewrite v_cross_scale_r, X1. transitivity (v_add C (v_sub (fp B) C)); [|apply arc_id2]. f_equal. rewrite arc_end_rel. apply arc_id5.
      - apply arc_id3. }
    split; [apply (cf_lenpos _ _ _ _ _ _ _ H)|]. split.
    { intros s. rewrite H22, arc_start_rel, euclid_norm_scale, (unit_norm _ U2), Rabs_Ropp, Rabs_pos_eq; lra. }
    split; [exact H23|].
    exists (ci_scalelin c). split; [apply (cf_speed _ _ _ _ _ _ _ H)|].
    assert (EV : forall s, tvel (circle_Vel c s 1) = v_scale (v_add (v_scale e2 (sin (s * ci_scalelin c / r))) (v_scale e1 (cos (s * ci_scalelin c / r)))) (ci_scalelin c)).
    { intros s. unfold circle_Vel. cbn [tvel]. rewrite ER. rewrite (cols_of (fM (ci_center c))) at 1. rewrite cols_app, EX, EY.
      set (p := s * ci_scalelin c / r). generalize (sin p) (cos p) (ci_scalelin c) (r_UnitZ (fM (ci_center c))). clear - Pr. intros a b k z.
      destruct e1 as [a0 a1 a2], e2 as [b0 b1 b2], z. apply v_ext; cbn; field; lra. }
    split.
    - rewrite EV. replace (0 * ci_scalelin c / r) with 0 by (field; lra). rewrite sin_0, cos_0. f_equal. apply arc_id4.
    - rewrite EV. rewrite (cf_lin _ _ _ _ _ _ _ H), ER. replace (alpha * r / r) with alpha by (field; lra).
      unfold w. f_equal. apply v_add_comm.
  Qed.
End Arc.

(** ** One call of Add *)
Lemma on_straight_rigid F G u A : rigid F -> on_straight F G u A -> rigid A.
Proof.
  intros HF (L & pos & (_ & _ & n & a & Un & _ & H) & ->). rewrite H. unfold rigid. cbn [fM].
  apply is_rotation_mul; [exact HF|]. apply is_rotation_Rot2. exact Un.
Qed.
Lemma towards_unit a b e d : unit_vector e -> v_sub b a = v_scale e (euclid_norm (v_sub b a)) -> 0 < euclid_norm (v_sub b a) ->
  towards a b d = v_add a (v_scale e d).
Proof.
  intros U E P. unfold towards. set (n := euclid_norm (v_sub b a)) in *. rewrite E, v_scale_scale. do 2 f_equal. field. lra.
Qed.
Lemma sub_swap a b : v_sub a b = v_scale (v_sub b a) (-1).
Proof. geo. Qed.
Lemma norm_swap a b : euclid_norm (v_sub a b) = euclid_norm (v_sub b a).
Proof. rewrite sub_swap, euclid_norm_scale, (Rabs_left (-1)) by lra. lra. Qed.
Lemma cross_corner e1 e2 na nb s c : unit_vector e1 -> unit_vector e2 -> v_dot e1 e2 = 0 ->
  v_cross (v_scale e1 na) (v_cross (v_scale e1 na) (v_scale (v_add (v_scale e1 c) (v_scale e2 s)) nb)) = v_scale (v_scale e2 (-1)) (na * na * nb * s).
Proof.
  intros U1 U2 D. destruct (cross_cross e1 e2 U1 U2 D) as (_ & _ & X).
  transitivity (v_scale (v_cross e1 (v_cross e1 e2)) (na * na * nb * s)); [|rewrite X; reflexivity].
  clear. geo.
Qed.
Lemma unit_neg e : unit_vector e -> unit_vector (v_scale e (-1)).
Proof. destruct e. unfold unit_vector. cbn. lra. Qed.
Lemma center_eq A e r : v_sub A (v_scale (v_scale e (-1)) r) = v_add A (v_scale e r).
Proof. geo. Qed.
Lemma cut_eq Fs Fv e na d : v_sub Fv Fs = v_scale e na -> 0 < na ->
  v_add Fs (v_scale (v_sub Fv Fs) (1 - d / na)) = v_sub Fv (v_scale e d).
Proof.
  intros E P. rewrite E. assert (X : Fv = v_add Fs (v_scale e na)) by (rewrite <- E; geo). rewrite X. clear E X.
  destruct Fs, e. apply v_ext; cbn; field; lra.
Qed.
Lemma dir_neg Fs Fv e na : v_sub Fv Fs = v_scale e na -> v_sub Fs Fv = v_scale (v_scale e (-1)) na.
Proof. intros H. rewrite sub_swap, H. clear. geo. Qed.

Lemma rounded_corner comp r eq n Fs Fv F p' :
  (2 <= n)%nat -> resolved Fs Fv -> resolved Fv F -> 2 * kdl_epsilon <= r -> 0 < eq ->
  rounded_Add (PRounded comp r eq n Fs Fv) F = (p', Val tt) ->
  let ab := v_sub (fp Fv) (fp Fs) in
  let bc := v_sub (fp F) (fp Fv) in
  exists alpha, angle_between ab bc alpha /\ alpha <= PI - corner_eps /\ 0 < euclid_norm ab /\ 0 < euclid_norm bc /\
  (alpha < corner_eps -> p' = PRounded (comp_Add comp (PLeaf (LLine (line_make Fs Fv sa_make eq)))) r eq (S n) Fv F) /\
  (corner_eps <= alpha ->
   let d := r * tan (alpha / 2) in
   exists A B c,
     p' = PRounded (comp_Add (comp_Add comp (PLeaf (LLine (line_make Fs A sa_make eq)))) (PLeaf (LCircle c))) r eq (S n) B F /\
     0 < d < euclid_norm ab /\ d < euclid_norm bc /\
     on_straight Fs Fv (1 - d / euclid_norm ab) A /\ fp A = towards (fp Fv) (fp Fs) d /\
     on_straight Fv F (d / euclid_norm bc) B /\ fp B = towards (fp Fv) (fp F) d /\
     (kdl_epsilon <= max_abs (v_cross ab (v_cross ab bc)) -> resolved_rotation (fM A) (fM B) ->
        circle_Pos c 0 = A /\ circle_Pos c (ci_len c) = B /\ 0 < ci_len c /\
        (exists C, forall s, euclid_norm (v_sub (fp (circle_Pos c s)) C) = r) /\
        curve_derivatives (circle_Pos c) (circle_Vel c) (circle_Acc c) /\
        exists k, 0 < k /\ tvel (circle_Vel c 0 1) = v_scale ab (k / euclid_norm ab) /\
                  tvel (circle_Vel c (ci_len c) 1) = v_scale bc (k / euclid_norm bc))).
Proof.
  intros Hn R1 R2 Hr He H ab bc. unfold rounded_Add in H. destruct n as [|[|n]]; [lia|lia|]. cbv zeta in H.
  fold ab bc in H.
  destruct (Rlt_dec (v_norm ab) (/ 10000000)) as [L1|L1]; [discriminate|].
  destruct (Rlt_dec (v_norm bc) (/ 10000000)) as [L2|L2]; [discriminate|].
  destruct (v_norm_reported _ L1) as (N1 & P1). destruct (v_norm_reported _ L2) as (N2 & P2). rewrite N1, N2 in H.
  pose proof (code_angle ab bc P1 P2) as HA.
  set (alpha := acos _) in *. exists alpha. split; [exact HA|].
  destruct (Rlt_dec (PI - alpha) (/ 10000000)) as [L3|L3]; [discriminate|].
  split; [unfold corner_eps; lra|]. split; [exact P1|]. split; [exact P2|].
  destruct (Rlt_dec alpha (/ 10000000)) as [L4|L4].
  - injection H as <-. split; [reflexivity|]. unfold corner_eps. intros Q. exfalso. lra.
  - split; [unfold corner_eps; intros Q; exfalso; lra|]. intros _ d.
    assert (Ba : 0 < alpha < PI) by (split; lra).
    rewrite (code_d r alpha Ba) in H. fold d in H.
    destruct (Rle_dec (euclid_norm ab) d) as [L5|L5]; [discriminate|].
    destruct (Rle_dec (euclid_norm bc) d) as [L6|L6]; [discriminate|].
    destruct (line_cut sa_make Fs Fv eq (euclid_norm ab - d) R1 He P1) as (s1 & E1 & S1). rewrite E1 in H.
    destruct (line_cut sa_make Fv F eq d R2 He P2) as (s2 & E2 & S2). rewrite E2 in H.
    fold ab in S1. fold bc in S2.
    set (l1 := line_make Fs Fv sa_make eq) in *. set (l2 := line_make Fv F sa_make eq) in *.
    pose proof (line_make_facts sa_make _ _ eq R1 He) as F1. fold l1 in F1.
    pose proof (line_make_facts sa_make _ _ eq R2 He) as F2. fold l2 in F2.
    pose proof (line_straight _ _ _ _ F1) as T1. pose proof (line_straight _ _ _ _ F2) as T2.
    assert (OA : on_straight Fs Fv (1 - d / euclid_norm ab) (line_Pos l1 s1)).
    { exists (ln_len l1), (line_Pos l1). split; [exact T1|]. rewrite S1. do 2 f_equal. field. lra. }
    assert (OB : on_straight Fv F (d / euclid_norm bc) (line_Pos l2 s2)).
    { exists (ln_len l2), (line_Pos l2). split; [exact T2|]. rewrite S2. reflexivity. }
    destruct (corner_frame ab bc alpha P1 P2 HA Ba) as (e1 & e2 & U1 & U2 & D & Ea & Eb).
    set (w := v_add (v_scale e1 (cos alpha)) (v_scale e2 (sin alpha))) in *.
    assert (PA : fp (line_Pos l1 s1) = v_sub (fp Fv) (v_scale e1 d)).
    { rewrite S1. rewrite (line_at _ _ _ _ _ F1). cbn [fp].
      replace ((euclid_norm ab - d) / euclid_norm ab) with (1 - d / euclid_norm ab) by (field; lra).
      apply (cut_eq _ _ _ _ _ Ea P1). }
    assert (PB : fp (line_Pos l2 s2) = v_add (fp Fv) (v_scale w d)).
    { rewrite S2. rewrite (line_at _ _ _ _ _ F2). cbn [fp]. f_equal. fold bc. rewrite Eb at 1. rewrite v_scale_scale. f_equal. field. lra. }
    destruct (half_tan alpha Ba) as (PT & _ & _). pose proof kdl_epsilon_pos as Pe.
    assert (Pd : 0 < d) by (apply Rmult_lt_0_compat; lra).
    assert (Uw : unit_vector w).
    { pose proof (sin2_cos2 alpha) as Q. unfold Rsqr in Q. unfold w. clear - U1 U2 D Q. set (c := cos alpha) in *. set (s := sin alpha) in *.
      destruct e1 as [a0 a1 a2], e2 as [b0 b1 b2]. unfold unit_vector, v_dot in *. cbn in *.
      transitivity (c * c * (a0 ^ 2 + a1 ^ 2 + a2 ^ 2) + s * s * (b0 ^ 2 + b1 ^ 2 + b2 ^ 2) + 2 * s * c * (b0 * a0 + b1 * a1 + b2 * a2)); [ring|].
      replace (a0 ^ 2 + a1 ^ 2 + a2 ^ 2) with 1 by (cbn; lra). replace (b0 ^ 2 + b1 ^ 2 + b2 ^ 2) with 1 by (cbn; lra). rewrite D. lra. }
    set (A := line_Pos l1 s1) in *. set (B := line_Pos l2 s2) in *.
    set (ctr := v_sub (fp A) _) in H.
    destruct (circle_make A ctr (fp B) (fM B) alpha sa_make eq) as [c|e|] eqn:EC; try discriminate.
    injection H as <-. exists A, B, c. split; [reflexivity|]. split; [split; lra|]. split; [lra|].
    split; [exact OA|]. split.
    { rewrite PA. symmetry. rewrite (towards_unit _ _ (v_scale e1 (-1)) d).
      - clear. geo.
      - apply unit_neg; exact U1.
      - rewrite (norm_swap (fp Fs) (fp Fv)). apply dir_neg. exact Ea.
      - rewrite norm_swap. exact P1. }
    split; [exact OB|]. split.
    { rewrite PB. symmetry. apply towards_unit; [exact Uw|exact Eb|exact P2]. }
    intros HM HRR.
    assert (ET : ctr = v_add (fp A) (v_scale e2 r)).
    { unfold ctr. rewrite <- center_eq. do 2 f_equal.
      pose proof (normalize_resolved v_zero (v_cross ab (v_cross ab bc))) as N.
      assert (Z : v_sub (v_cross ab (v_cross ab bc)) v_zero = v_cross ab (v_cross ab bc)) by (clear; generalize (v_cross ab (v_cross ab bc)); geo).
      rewrite Z in N. specialize (N (or_intror (eq_ind_r (fun x => kdl_epsilon <= max_abs x) HM Z))).
      destruct (v_normalize (v_cross ab (v_cross ab bc))) as [t nt]. destruct N as (Ut & Pn & St & En & _). cbn [fst].
      assert (EX : v_cross ab (v_cross ab bc) = v_scale (v_scale e2 (-1)) (euclid_norm ab * euclid_norm ab * euclid_norm bc * sin alpha)).
      { rewrite Ea at 1 2. rewrite Eb at 1. apply cross_corner; assumption. }
      assert (PS : 0 < sin alpha) by (apply sin_gt_0; lra).
      assert (PP : 0 < euclid_norm ab * euclid_norm ab * euclid_norm bc * sin alpha) by (repeat apply Rmult_lt_0_compat; assumption).
      apply (same_direction t (v_scale e2 (-1)) nt Ut (unit_neg _ U2)) with (m := euclid_norm ab * euclid_norm ab * euclid_norm bc * sin alpha).
      - rewrite En, EX, euclid_norm_scale, (unit_norm _ (unit_neg _ U2)), Rabs_pos_eq by lra. lra.
      - exact PP.
      - rewrite St. exact EX. }
    rewrite ET in EC.
    destruct (arc_ok A B (fp Fv) e1 e2 r alpha eq (on_straight_rigid _ _ _ _ (proj1 R1) OA) (on_straight_rigid _ _ _ _ (proj1 R2) OB) HRR
       U1 U2 D Ba Hr He PA PB sa_make c EC) as (K1 & K2 & K3 & K4 & K5 & k & Pk & K6 & K7).
    split; [exact K1|]. split; [exact K2|]. split; [exact K3|]. split; [eexists; exact K4|]. split; [exact K5|].
    exists k. split; [exact Pk|]. split.
    + rewrite K6. rewrite Ea at 1. rewrite v_scale_scale. f_equal. field. lra.
    + rewrite K7. rewrite Eb at 1. rewrite v_scale_scale. f_equal. field. lra.
Qed.
