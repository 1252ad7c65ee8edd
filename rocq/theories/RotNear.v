(** Rotations close to each other: the difference that r_diff returns, to first order. *)
From Coq Require Import Reals Lra Psatz Bool.
From Verif Require Import FramesModel FramesSpec FramesProofs RotationProofs RotationProofs2 RotationProofs3 RotationBands
  FrameOpsProofs IkSpec IkGeoProofs.
Local Open Scope R_scope.

(** Sums of absolute values. *)
Definition vn (v : Vector) : R := Rabs (vx v) + Rabs (vy v) + Rabs (vz v).
Definition rn (r : Rotation) : R :=
  Rabs (r0 r) + Rabs (r1 r) + Rabs (r2 r) + Rabs (r3 r) + Rabs (r4 r) + Rabs (r5 r) + Rabs (r6 r) + Rabs (r7 r) + Rabs (r8 r).
Definition tn (t : Twist) : R := vn (tvel t) + vn (trot t).
Definition r_minus (a b : Rotation) : Rotation :=
  mkR (r0 a - r0 b) (r1 a - r1 b) (r2 a - r2 b) (r3 a - r3 b) (r4 a - r4 b) (r5 a - r5 b) (r6 a - r6 b) (r7 a - r7 b) (r8 a - r8 b).
(** The matrix of the cross product with w. *)
Definition skew (w : Vector) : Rotation := mkR 0 (- vz w) (vy w) (vz w) 0 (- vx w) (- vy w) (vx w) 0.

Lemma vn_nn v : 0 <= vn v.
Proof. unfold vn. pose proof (Rabs_pos (vx v)). pose proof (Rabs_pos (vy v)). pose proof (Rabs_pos (vz v)). lra. Qed.
Lemma rn_nn r : 0 <= rn r.
Proof.
  unfold rn. pose proof (Rabs_pos (r0 r)). pose proof (Rabs_pos (r1 r)). pose proof (Rabs_pos (r2 r)). pose proof (Rabs_pos (r3 r)).
  pose proof (Rabs_pos (r4 r)). pose proof (Rabs_pos (r5 r)). pose proof (Rabs_pos (r6 r)). pose proof (Rabs_pos (r7 r)). pose proof (Rabs_pos (r8 r)). lra.
Qed.
Lemma tn_nn t : 0 <= tn t. Proof. unfold tn. pose proof (vn_nn (tvel t)). pose proof (vn_nn (trot t)). lra. Qed.
Lemma Rabs_add3 x y z : Rabs (x + y + z) <= Rabs x + Rabs y + Rabs z.
Proof. pose proof (Rabs_triang (x + y) z). pose proof (Rabs_triang x y). lra. Qed.
Lemma vn_add a b : vn (v_add a b) <= vn a + vn b.
Proof.
  unfold vn, v_add; cbn [vx vy vz]. pose proof (Rabs_triang (vx a) (vx b)). pose proof (Rabs_triang (vy a) (vy b)).
  pose proof (Rabs_triang (vz a) (vz b)). lra.
Qed.
Lemma combo3 a b c x y z : Rabs a <= 1 -> Rabs b <= 1 -> Rabs c <= 1 -> Rabs (a * x + b * y + c * z) <= Rabs x + Rabs y + Rabs z.
Proof.
  intros A B C. eapply Rle_trans; [apply Rabs_add3|]. rewrite !Rabs_mult.
  pose proof (Rabs_pos x). pose proof (Rabs_pos y). pose proof (Rabs_pos z). nra.
Qed.
Lemma rot_entries r : is_rotation r ->
  Rabs (r0 r) <= 1 /\ Rabs (r1 r) <= 1 /\ Rabs (r2 r) <= 1 /\ Rabs (r3 r) <= 1 /\ Rabs (r4 r) <= 1 /\ Rabs (r5 r) <= 1 /\
  Rabs (r6 r) <= 1 /\ Rabs (r7 r) <= 1 /\ Rabs (r8 r) <= 1.
Proof.
  intros [A B C _ _ _ _]. assert (Q : forall x, x ^ 2 <= 1 -> Rabs x <= 1).
  { intros x H. apply Rabs_le. split; nra. }
  repeat split; apply Q; nra.
Qed.
Lemma rn_mul_l a x : is_rotation a -> rn (r_mul a x) <= 3 * rn x.
Proof.
  intros H. apply rot_entries in H. destruct H as (A0 & A1 & A2 & A3 & A4 & A5 & A6 & A7 & A8).
  unfold rn, r_mul; cbn [r0 r1 r2 r3 r4 r5 r6 r7 r8].
  pose proof (combo3 _ _ _ (r0 x) (r3 x) (r6 x) A0 A1 A2). pose proof (combo3 _ _ _ (r1 x) (r4 x) (r7 x) A0 A1 A2).
  pose proof (combo3 _ _ _ (r2 x) (r5 x) (r8 x) A0 A1 A2). pose proof (combo3 _ _ _ (r0 x) (r3 x) (r6 x) A3 A4 A5).
  pose proof (combo3 _ _ _ (r1 x) (r4 x) (r7 x) A3 A4 A5). pose proof (combo3 _ _ _ (r2 x) (r5 x) (r8 x) A3 A4 A5).
  pose proof (combo3 _ _ _ (r0 x) (r3 x) (r6 x) A6 A7 A8). pose proof (combo3 _ _ _ (r1 x) (r4 x) (r7 x) A6 A7 A8).
  pose proof (combo3 _ _ _ (r2 x) (r5 x) (r8 x) A6 A7 A8). lra.
Qed.
Lemma rn_mul_r a x : is_rotation a -> rn (r_mul x a) <= 3 * rn x.
Proof.
  intros H. apply rot_entries in H. destruct H as (A0 & A1 & A2 & A3 & A4 & A5 & A6 & A7 & A8).
  unfold rn, r_mul; cbn [r0 r1 r2 r3 r4 r5 r6 r7 r8].
  assert (K : forall p q r x y z, Rabs p <= 1 -> Rabs q <= 1 -> Rabs r <= 1 -> Rabs (x * p + y * q + z * r) <= Rabs x + Rabs y + Rabs z).
  { intros p q r y0 y1 y2 P Q Rr. replace (y0 * p + y1 * q + y2 * r) with (p * y0 + q * y1 + r * y2) by ring. apply combo3; auto. }
  pose proof (K _ _ _ (r0 x) (r1 x) (r2 x) A0 A3 A6). pose proof (K _ _ _ (r0 x) (r1 x) (r2 x) A1 A4 A7).
  pose proof (K _ _ _ (r0 x) (r1 x) (r2 x) A2 A5 A8). pose proof (K _ _ _ (r3 x) (r4 x) (r5 x) A0 A3 A6).
  pose proof (K _ _ _ (r3 x) (r4 x) (r5 x) A1 A4 A7). pose proof (K _ _ _ (r3 x) (r4 x) (r5 x) A2 A5 A8).
  pose proof (K _ _ _ (r6 x) (r7 x) (r8 x) A0 A3 A6). pose proof (K _ _ _ (r6 x) (r7 x) (r8 x) A1 A4 A7).
  pose proof (K _ _ _ (r6 x) (r7 x) (r8 x) A2 A5 A8). lra.
Qed.
Lemma vn_app a v : is_rotation a -> vn (r_app a v) <= 3 * vn v.
Proof.
  intros H. apply rot_entries in H. destruct H as (A0 & A1 & A2 & A3 & A4 & A5 & A6 & A7 & A8).
  unfold vn, r_app; cbn [vx vy vz].
  pose proof (combo3 _ _ _ (vx v) (vy v) (vz v) A0 A1 A2). pose proof (combo3 _ _ _ (vx v) (vy v) (vz v) A3 A4 A5).
  pose proof (combo3 _ _ _ (vx v) (vy v) (vz v) A6 A7 A8). lra.
Qed.
Lemma rn_minus_triangle a b c : rn (r_minus a c) <= rn (r_minus a b) + rn (r_minus b c).
Proof.
  unfold rn, r_minus; cbn [r0 r1 r2 r3 r4 r5 r6 r7 r8].
  assert (K : forall x y z, Rabs (x - z) <= Rabs (x - y) + Rabs (y - z)).
  { intros x y z. replace (x - z) with ((x - y) + (y - z)) by ring. apply Rabs_triang. }
  pose proof (K (r0 a) (r0 b) (r0 c)). pose proof (K (r1 a) (r1 b) (r1 c)). pose proof (K (r2 a) (r2 b) (r2 c)).
  pose proof (K (r3 a) (r3 b) (r3 c)). pose proof (K (r4 a) (r4 b) (r4 c)). pose proof (K (r5 a) (r5 b) (r5 c)).
  pose proof (K (r6 a) (r6 b) (r6 c)). pose proof (K (r7 a) (r7 b) (r7 c)). pose proof (K (r8 a) (r8 b) (r8 c)). lra.
Qed.
Lemma rn_skew w : rn (skew w) <= 2 * vn w.
Proof. unfold rn, skew, vn; cbn [r0 r1 r2 r3 r4 r5 r6 r7 r8]. rewrite !Rabs_Ropp, Rabs_R0. lra. Qed.

Lemma sin_below a : 0 <= a -> a <= 1 -> 0 <= a - sin a <= a * a / 2 /\ a <= 2 * sin a.
Proof.
  intros H0 H1. destruct H0 as [H0|<-].
  2:{ rewrite sin_0. lra. }
  assert (L : sin a < a) by (apply sin_lt_x; exact H0).
  destruct (MVT_cor2 sin cos 0 a H0) as (c & E & Hc); [intros; apply derivable_pt_lim_sin|].
  rewrite sin_0, !Rminus_0_r in E. pose proof (one_minus_cos c) as B. rewrite E in *.
  assert (c * c <= a * a) by nra. assert (a * a <= a) by nra. split; nra.
Qed.

Lemma cos_near a : 0 <= a <= PI -> 19 / 20 <= cos a -> a <= 1.
Proof.
  intros [H0 H1] C. apply Rnot_lt_le. intros L.
  assert (D : cos a < cos 1) by (apply cos_decreasing_1; pose proof PI2_1; lra).
  destruct (sin_below 1) as (_ & S1); [lra|lra|]. pose proof (sin2_cos2 1) as SC. unfold Rsqr in SC.
  assert (/ 4 <= sin 1 * sin 1) by nra. nra.
Qed.
Lemma abs_prod_le k x y : 0 <= k -> Rabs x <= 1 -> Rabs y <= 1 -> Rabs (k * x * y) <= k.
Proof. intros K X Y. rewrite !Rabs_mult, (Rabs_pos_eq k) by exact K. pose proof (Rabs_pos x). pose proof (Rabs_pos y).
  assert (Rabs x * Rabs y <= 1) by nra. rewrite Rmult_assoc. nra. Qed.
Lemma unit_entries n : unit_vector n -> Rabs (vx n) <= 1 /\ Rabs (vy n) <= 1 /\ Rabs (vz n) <= 1.
Proof.
  intros U. unfold unit_vector in U. assert (Q : forall x, x ^ 2 <= 1 -> Rabs x <= 1) by (intros x H; apply Rabs_le; split; nra).
  repeat split; apply Q; nra.
Qed.
Lemma Rot2_first n a : unit_vector n -> 0 <= a <= 1 ->
  rn (r_minus (r_minus (r_Rot2 n a) r_id) (skew (v_scale n a))) <= 9 * (a * a).
Proof.
  intros U [A0 A1]. pose proof (one_minus_cos a) as C. destruct (sin_below a A0 A1) as ((S0 & S1) & _).
  assert (C0 : 0 <= 1 - cos a) by (pose proof (COS_bound a); lra).
  destruct (unit_entries n U) as (X & Y & Z). unfold unit_vector in U. destruct n as [x y z]. cbn [vx vy vz] in *.
  unfold rn, r_minus, r_Rot2, r_id, skew, v_scale; psimp. cbn [r0 r1 r2 r3 r4 r5 r6 r7 r8 vx vy vz].
  set (c := cos a) in *. set (s := sin a) in *.
  assert (D : forall k, 0 <= k <= 1 -> Rabs ((1 - c) * (k - 1)) <= a * a).
  { intros k Hk. rewrite Rabs_mult, Rabs_pos_eq by exact C0. rewrite (Rabs_left1 (k - 1)) by lra. nra. }
  assert (O : forall p q w, Rabs p <= 1 -> Rabs q <= 1 -> Rabs w <= 1 -> Rabs ((1 - c) * p * q + (a - s) * w) <= a * a).
  { intros p q w P Q W. eapply Rle_trans; [apply Rabs_triang|]. pose proof (abs_prod_le (1 - c) p q C0 P Q).
    rewrite (Rabs_mult (a - s)), (Rabs_pos_eq (a - s)) by lra. pose proof (Rabs_pos w). nra. }
  assert (Nx : Rabs (- x) <= 1) by (rewrite Rabs_Ropp; exact X).
  assert (Ny : Rabs (- y) <= 1) by (rewrite Rabs_Ropp; exact Y).
  assert (Nz : Rabs (- z) <= 1) by (rewrite Rabs_Ropp; exact Z).
  pose proof (O x y z X Y Z) as O1. pose proof (O x z (- y) X Z Ny) as O2. pose proof (O x y (- z) X Y Nz) as O3.
  pose proof (O y z x Y Z X) as O5. pose proof (O x z y X Z Y) as O6. pose proof (O y z (- x) Y Z Nx) as O7.
  pose proof (D (x * x)) as D0. pose proof (D (y * y)) as D4. pose proof (D (z * z)) as D8.
  specialize (D0 ltac:(nra)). specialize (D4 ltac:(nra)). specialize (D8 ltac:(nra)).
  replace (c + (1 - c) * x * x - 1 - 0) with ((1 - c) * (x * x - 1)) by ring.
  replace (c + (1 - c) * y * y - 1 - 0) with ((1 - c) * (y * y - 1)) by ring.
  replace (c + (1 - c) * z * z - 1 - 0) with ((1 - c) * (z * z - 1)) by ring.
  replace (- (z * s) + (1 - c) * x * y - 0 - - (z * a)) with ((1 - c) * x * y + (a - s) * z) by ring.
  replace (y * s + (1 - c) * x * z - 0 - y * a) with ((1 - c) * x * z + (a - s) * - y) by ring.
  replace (z * s + (1 - c) * x * y - 0 - z * a) with ((1 - c) * x * y + (a - s) * - z) by ring.
  replace (- (x * s) + (1 - c) * y * z - 0 - - (x * a)) with ((1 - c) * y * z + (a - s) * x) by ring.
  replace (- (y * s) + (1 - c) * x * z - 0 - - (y * a)) with ((1 - c) * x * z + (a - s) * y) by ring.
  replace (x * s + (1 - c) * y * z - 0 - x * a) with ((1 - c) * y * z + (a - s) * - x) by ring.
  lra.
Qed.
Lemma Rot2_size n a : unit_vector n -> 0 <= a <= 1 -> vn (v_scale n a) <= rn (r_minus (r_Rot2 n a) r_id).
Proof.
  intros U [A0 A1]. destruct (sin_below a A0 A1) as (_ & S2).
  destruct n as [x y z]. unfold vn, rn, r_minus, r_Rot2, r_id, v_scale; psimp. cbn [r0 r1 r2 r3 r4 r5 r6 r7 r8 vx vy vz].
  set (c := cos a) in *. set (s := sin a) in *.
  assert (K : forall w m, Rabs (w * a) <= Rabs (w * s + m - 0) + Rabs (- (w * s) + m - 0)).
  { intros w m. replace (w * a) with (w * a) by ring.
    apply Rle_trans with (Rabs (2 * (w * s))).
    - rewrite !Rabs_mult, (Rabs_pos_eq a), (Rabs_pos_eq 2), (Rabs_pos_eq s) by lra. pose proof (Rabs_pos w). nra.
    - replace (2 * (w * s)) with ((w * s + m - 0) + - (- (w * s) + m - 0)) by ring.
      eapply Rle_trans; [apply Rabs_triang|]. rewrite Rabs_Ropp. lra. }
  pose proof (K x ((1 - c) * y * z)). pose proof (K y ((1 - c) * x * z)). pose proof (K z ((1 - c) * x * y)).
  pose proof (Rabs_pos (c + (1 - c) * x * x - 1)). pose proof (Rabs_pos (c + (1 - c) * y * y - 1)). pose proof (Rabs_pos (c + (1 - c) * z * z - 1)).
  lra.
Qed.
Lemma norm2_vn w : vx w * vx w + vy w * vy w + vz w * vz w <= vn w * vn w.
Proof.
  unfold vn. rewrite <- (Rabs_pos_eq (vx w * vx w)), <- (Rabs_pos_eq (vy w * vy w)), <- (Rabs_pos_eq (vz w * vz w)) by nra.
  rewrite !Rabs_mult. pose proof (Rabs_pos (vx w)). pose proof (Rabs_pos (vy w)). pose proof (Rabs_pos (vz w)). nra.
Qed.

(** The rotation vector of a small rotation: not longer than the rotation is far from the identity, and
    right to first order unless it is dropped. *)
Lemma GetRot_near r : is_rotation r -> rn (r_minus r r_id) <= / 10 ->
  let w := r_GetRot r in vn w <= rn (r_minus r r_id) /\
  (w = v_zero \/ rn (r_minus (r_minus r r_id) (skew w)) <= 9 * (vn w * vn w)).
Proof.
  intros H Hn w. pose proof kdl_epsilon_pos as KP.
  assert (KB : kdl_epsilon <= / 100) by (unfold kdl_epsilon; lra).
  assert (TR : 29 / 10 <= r0 r + r4 r + r8 r).
  { unfold rn, r_minus, r_id in Hn; cbn [r0 r1 r2 r3 r4 r5 r6 r7 r8] in Hn.
    pose proof (Rabs_pos (r1 r - 0)). pose proof (Rabs_pos (r2 r - 0)). pose proof (Rabs_pos (r3 r - 0)).
    pose proof (Rabs_pos (r5 r - 0)). pose proof (Rabs_pos (r6 r - 0)). pose proof (Rabs_pos (r7 r - 0)).
    pose proof (Rle_abs (- (r0 r - 1))). pose proof (Rle_abs (- (r4 r - 1))). pose proof (Rle_abs (- (r8 r - 1))).
    rewrite !Rabs_Ropp in *. lra. }
  assert (D : axis_angle_regular r kdl_epsilon \/ ~ axis_angle_regular r kdl_epsilon).
  { unfold axis_angle_regular. destruct (Rle_dec kdl_epsilon (Rabs (r1 r - r3 r))); [left; lra|].
    destruct (Rle_dec kdl_epsilon (Rabs (r2 r - r6 r))); [left; lra|].
    destruct (Rle_dec kdl_epsilon (Rabs (r5 r - r7 r))); [left; lra|right; lra]. }
  subst w. unfold r_GetRot.
  destruct D as [D|D].
  - pose proof (GetRotAngle_regular r kdl_epsilon H (Rle_refl _) D) as G.
    destruct (r_GetRotAngle r kdl_epsilon) as [n a]. destruct G as (U & Ra & E).
    rewrite r_Rot_unit in E by exact U. subst r.
    rewrite (Rot2_trace n a U) in TR.
    assert (A1 : a <= 1) by (apply cos_near; [exact Ra|lra]).
    split; [apply Rot2_size; [exact U|lra]|]. right.
    eapply Rle_trans; [apply Rot2_first; [exact U|lra]|].
    assert (a * a <= vn (v_scale n a) * vn (v_scale n a)); [|lra].
    eapply Rle_trans; [|apply norm2_vn]. unfold v_scale; psimp. cbn [vx vy vz]. unfold unit_vector in U.
    replace (a * a) with ((vx n ^ 2 + vy n ^ 2 + vz n ^ 2) * (a * a)) by (rewrite U; ring). right. ring.
  - pose proof (GetRotAngle_total r kdl_epsilon H (conj (Rle_refl _) KB)) as T.
    assert (A1 : Rabs (r1 r - r3 r) < kdl_epsilon) by (apply Rnot_le_lt; intros C; apply D; left; exact C).
    assert (A2 : Rabs (r2 r - r6 r) < kdl_epsilon) by (apply Rnot_le_lt; intros C; apply D; right; left; exact C).
    assert (A3 : Rabs (r5 r - r7 r) < kdl_epsilon) by (apply Rnot_le_lt; intros C; apply D; right; right; exact C).
    unfold r_GetRotAngle in T |- *.
    replace (if Rlt_dec (Rabs (r1 r - r3 r)) kdl_epsilon then true else false) with true in * by (symmetry; apply lt_true; exact A1).
    replace (if Rlt_dec (Rabs (r2 r - r6 r)) kdl_epsilon then true else false) with true in * by (symmetry; apply lt_true; exact A2).
    replace (if Rlt_dec (Rabs (r5 r - r7 r)) kdl_epsilon then true else false) with true in * by (symmetry; apply lt_true; exact A3).
    cbn [andb] in T |- *.
    destruct (((if Rlt_dec (Rabs (r1 r + r3 r)) (kdl_epsilon * 10) then true else false) &&
      (if Rlt_dec (Rabs (r2 r + r6 r)) (kdl_epsilon * 10) then true else false) &&
      (if Rlt_dec (Rabs (r5 r + r7 r)) (kdl_epsilon * 10) then true else false) &&
      (if Rlt_dec (Rabs (r0 r + r4 r + r8 r - 3)) (kdl_epsilon * 10) then true else false))%bool) eqn:EB.
    + assert (Z : v_scale (mkV 0 0 1) 0 = v_zero) by (unfold v_scale, v_zero; psimp; cbn [vx vy vz]; f_equal; ring).
      rewrite Z. split; [|left; reflexivity]. unfold vn, v_zero; cbn [vx vy vz]. rewrite Rabs_R0. pose proof (rn_nn (r_minus r r_id)). lra.
    + exfalso.
      assert (Tr : forall n, r_close (r_Rot n PI) r kdl_epsilon -> False).
      { intros n C. unfold r_Rot in C.
        pose proof (Rot2_trace (fst (v_normalize n)) PI (v_normalize_unit n)) as TT. rewrite cos_PI in TT.
        destruct C as (C0 & _ & _ & _ & C4 & _ & _ & _ & C8). unfold close in *.
        apply Rabs_def2 in C0, C4, C8. lra. }
      destruct ((if Rlt_dec ((r4 r + 1) / 2) ((r0 r + 1) / 2) then true else false) &&
                (if Rlt_dec ((r8 r + 1) / 2) ((r0 r + 1) / 2) then true else false))%bool; [exact (Tr _ T)|].
      destruct (if Rlt_dec ((r8 r + 1) / 2) ((r4 r + 1) / 2) then true else false); exact (Tr _ T).
Qed.

Lemma skew_conj a w : is_rotation a -> r_mul a (skew w) = r_mul (skew (r_app a w)) a.
Proof.
  intros H. pose proof (r_app_cross a H w (mkV 1 0 0)) as X. pose proof (r_app_cross a H w (mkV 0 1 0)) as Y.
  pose proof (r_app_cross a H w (mkV 0 0 1)) as Z. clear H.
  destruct a as [a0 a1 a2 a3 a4 a5 a6 a7 a8], w as [x y z].
  unfold r_app, v_cross in X, Y, Z. cbn [r0 r1 r2 r3 r4 r5 r6 r7 r8 vx vy vz] in X, Y, Z.
  injection X as X1 X2 X3. injection Y as Y1 Y2 Y3. injection Z as Z1 Z2 Z3.
  unfold r_mul, skew, r_app. cbn [r0 r1 r2 r3 r4 r5 r6 r7 r8 vx vy vz]. f_equal; lra.
Qed.
(** The same for the difference of two rotations. *)
Lemma r_diff_near a b : is_rotation a -> is_rotation b -> rn (r_minus b a) <= / 30 ->
  let e := r_diff a b 1 in vn e <= 9 * rn (r_minus b a) /\
  (e = v_zero \/ rn (r_minus (r_minus b a) (r_mul (skew e) a)) <= 243 * (vn e * vn e)).
Proof.
  intros Ha Hb Hn e. set (r := r_mul (r_inv a) b). set (w := r_GetRot r).
  assert (Hr : is_rotation r) by (apply is_rotation_rel; assumption).
  assert (Ea : e = r_app a w).
  { unfold e, r_diff. fold r. fold w. unfold v_div. destruct (r_app a w) as [x y z]. cbn [vx vy vz]. f_equal; field. }
  assert (Hi : is_rotation (r_inv a)) by (apply r_inv_rotation; exact Ha).
  assert (E1 : r_minus r r_id = r_mul (r_inv a) (r_minus b a)).
  { unfold r. rewrite <- (r_inv_l a Ha). unfold r_minus, r_mul; cbn [r0 r1 r2 r3 r4 r5 r6 r7 r8]. f_equal; ring. }
  assert (Hr1 : rn (r_minus r r_id) <= 3 * rn (r_minus b a)) by (rewrite E1; apply rn_mul_l; exact Hi).
  destruct (GetRot_near r Hr) as (N1 & N2); [lra|]. fold w in N1, N2.
  assert (Ew : w = r_app (r_inv a) e).
  { rewrite Ea, <- r_mul_app, (r_inv_l a Ha). symmetry. apply r_app_id. }
  split.
  - rewrite Ea. eapply Rle_trans; [apply vn_app; exact Ha|]. lra.
  - destruct N2 as [N2|N2].
    + left. rewrite Ea, N2. unfold r_app, v_zero; cbn [vx vy vz]. f_equal; ring.
    + right.
      assert (E2 : r_minus (r_minus b a) (r_mul (skew e) a) = r_mul a (r_minus (r_minus r r_id) (skew w))).
      { rewrite Ea, <- (skew_conj a w Ha). replace b with (r_mul a r) at 1.
        - unfold r_minus, r_mul, r_id; cbn [r0 r1 r2 r3 r4 r5 r6 r7 r8]. f_equal; ring.
        - unfold r. rewrite <- r_mul_assoc, (r_inv_r a Ha). apply r_mul_id_l. }
      rewrite E2. eapply Rle_trans; [apply rn_mul_l; exact Ha|].
      assert (vn w <= 3 * vn e) by (rewrite Ew; apply vn_app; exact Hi). pose proof (vn_nn w). pose proof (vn_nn e).
      assert (vn w * vn w <= 9 * (vn e * vn e)) by nra. lra.
Qed.
