(** Errors of rounded arithmetic on frames. *)
From Coq Require Import Reals String List ZArith Bool Arith Lia Lra Psatz.
From Verif Require Import FramesModel FramesSpec FramesProofs FrameOpsProofs Outcome InertiaModel DualModel KinModel KinSpec DerivProofs
  ProfModel ProfSpec PathModel PathSpec PathProofs PathProofs6 RotNear FlModel FlSpec.
Import ListNotations.
Local Open Scope R_scope.

Notation en := euclid_norm.
Lemma en_nn v : 0 <= en v. Proof. apply sqrt_pos. Qed.
Lemma en_sq v : en v * en v = vx v * vx v + vy v * vy v + vz v * vz v.
Proof. unfold euclid_norm. rewrite sqrt_sqrt; [ring|]. pose proof (pow2_ge_0 (vx v)). pose proof (pow2_ge_0 (vy v)). pose proof (pow2_ge_0 (vz v)). lra. Qed.
Lemma en_le v x : 0 <= x -> vx v * vx v + vy v * vy v + vz v * vz v <= x * x -> en v <= x.
Proof. intros Hx H. apply Rsqr_incr_0_var; [|exact Hx]. unfold Rsqr. rewrite en_sq. exact H. Qed.
Lemma en_add a b : en (v_add a b) <= en a + en b.
Proof.
  pose proof (en_nn a). pose proof (en_nn b). apply en_le; [lra|].
  pose proof (cauchy a b) as C. pose proof (Rle_abs (v_dot a b)). pose proof (en_sq a). pose proof (en_sq b).
  unfold v_dot, v_add in *; cbn [vx vy vz] in *. nra.
Qed.
Lemma Rabs_sq x : Rabs x * Rabs x = x * x. Proof. unfold Rabs. destruct (Rcase_abs x); ring. Qed.
Lemma abs_sq x e : Rabs x <= e -> x * x <= e * e.
Proof. intros H. rewrite <- Rabs_sq. pose proof (Rabs_pos x). nra. Qed.
Lemma sq_abs x e : 0 <= e -> x * x <= e * e -> Rabs x <= e.
Proof. intros He H. apply Rsqr_le_abs_0 in H. rewrite (Rabs_right e) in H by lra. exact H. Qed.
Lemma en_x v : Rabs (vx v) <= en v. Proof. apply sq_abs; [apply en_nn|]. rewrite en_sq. nra. Qed.
Lemma en_y v : Rabs (vy v) <= en v. Proof. apply sq_abs; [apply en_nn|]. rewrite en_sq. nra. Qed.
Lemma en_z v : Rabs (vz v) <= en v. Proof. apply sq_abs; [apply en_nn|]. rewrite en_sq. nra. Qed.
(** Entrywise bounds and the norm. *)
Lemma en_near e a b : 0 <= e -> v_near e a b -> en (v_sub a b) <= 2 * e.
Proof.
  intros He (X & Y & Z). apply en_le; [lra|]. unfold v_sub; cbn [vx vy vz]. apply abs_sq in X, Y, Z. nra.
Qed.
Lemma near_en e a b : en (v_sub a b) <= e -> v_near e a b.
Proof.
  intros H. pose proof (en_x (v_sub a b)). pose proof (en_y (v_sub a b)). pose proof (en_z (v_sub a b)). unfold v_sub in *; cbn [vx vy vz] in *.
  split; [|split]; lra.
Qed.

(** Operator bounds. *)
Definition opb (M : Rotation) (e : R) : Prop := forall v, en (r_app M v) <= e * en v.
Lemma opb_rot M : is_rotation M -> opb M 1.
Proof. intros H v. rewrite euclid_app by exact H. lra. Qed.
Lemma opb_weaken M e e' : opb M e -> e <= e' -> opb M e'.
Proof. intros H L v. specialize (H v). pose proof (en_nn v). nra. Qed.
Lemma opb_nn M e : opb M e -> 0 <= e.
Proof.
  intros H. specialize (H (mkV 1 0 0)). pose proof (en_nn (r_app M (mkV 1 0 0))).
  assert (E : en (mkV 1 0 0) = 1). { unfold euclid_norm; cbn [vx vy vz]. replace (1 ^ 2 + 0 ^ 2 + 0 ^ 2) with 1 by ring. apply sqrt_1. }
  rewrite E in H. lra.
Qed.
Lemma opb_mul A B a b : opb A a -> opb B b -> opb (r_mul A B) (a * b).
Proof.
  intros HA HB v. pose proof (opb_nn _ _ HA). replace (r_app (r_mul A B) v) with (r_app A (r_app B v)) by (destruct A, B, v; unfold r_app, r_mul; cbn; f_equal; ring).
  eapply Rle_trans; [apply HA|]. specialize (HB v). rewrite Rmult_assoc. apply Rmult_le_compat_l; assumption.
Qed.
Definition r_plus (a b : Rotation) : Rotation :=
  mkR (r0 a + r0 b) (r1 a + r1 b) (r2 a + r2 b) (r3 a + r3 b) (r4 a + r4 b) (r5 a + r5 b) (r6 a + r6 b) (r7 a + r7 b) (r8 a + r8 b).
Lemma opb_plus A B a b : opb A a -> opb B b -> opb (r_plus A B) (a + b).
Proof.
  intros HA HB v. replace (r_app (r_plus A B) v) with (v_add (r_app A v) (r_app B v)) by (destruct A, B, v; unfold r_app, r_plus, v_add; cbn; f_equal; ring).
  eapply Rle_trans; [apply en_add|]. specialize (HA v). specialize (HB v). lra.
Qed.
Lemma row_bound a b c x y z e : Rabs a <= e -> Rabs b <= e -> Rabs c <= e ->
  (a * x + b * y + c * z) * (a * x + b * y + c * z) <= 3 * (e * e) * (x * x + y * y + z * z).
Proof.
  intros A B C. apply abs_sq in A, B, C.
  assert ((a * x + b * y + c * z) * (a * x + b * y + c * z) <= (a * a + b * b + c * c) * (x * x + y * y + z * z)).
  { pose proof (Rle_0_sqr (a * y - b * x)). pose proof (Rle_0_sqr (a * z - c * x)). pose proof (Rle_0_sqr (b * z - c * y)). unfold Rsqr in *. nra. }
  assert (0 <= x * x + y * y + z * z) by nra. nra.
Qed.
Lemma opb_near e A B : 0 <= e -> r_near e A B -> opb (r_minus A B) (3 * e).
Proof.
  intros He ((R0 & R1 & R2) & (R3 & R4 & R5) & (R6 & R7 & R8)) v. pose proof (en_nn v). apply en_le; [nra|].
  unfold r_app, r_minus; cbn [vx vy vz r0 r1 r2 r3 r4 r5 r6 r7 r8].
  pose proof (row_bound _ _ _ (vx v) (vy v) (vz v) e R0 R1 R2). pose proof (row_bound _ _ _ (vx v) (vy v) (vz v) e R3 R4 R5).
  pose proof (row_bound _ _ _ (vx v) (vy v) (vz v) e R6 R7 R8). replace (3 * e * en v * (3 * e * en v)) with (9 * (e * e) * (en v * en v)) by ring. rewrite en_sq. lra.
Qed.
Lemma near_opb e A B : opb (r_minus A B) e -> r_near e A B.
Proof.
  intros H.
  assert (E : forall v, vx v * vx v + vy v * vy v + vz v * vz v = 1 -> en (r_app (r_minus A B) v) <= e).
  { intros v Ev. specialize (H v). assert (Q : en v = 1). { unfold euclid_norm. replace (vx v ^ 2 + vy v ^ 2 + vz v ^ 2) with 1 by (rewrite <- Ev; ring). apply sqrt_1. } rewrite Q in H. lra. }
  pose proof (E (mkV 1 0 0) ltac:(cbn; ring)) as E1. pose proof (E (mkV 0 1 0) ltac:(cbn; ring)) as E2. pose proof (E (mkV 0 0 1) ltac:(cbn; ring)) as E3.
  assert (K : forall a b c e', a - b = c -> Rabs c <= e' -> e' <= e -> Rabs (a - b) <= e) by (intros ? ? ? ? -> ? ?; lra).
  repeat split.
  - eapply K; [|apply en_x|exact E1]. unfold r_app, r_minus; cbn [vx r0 r1 r2 vy vz]. ring.
  - eapply K; [|apply en_x|exact E2]. unfold r_app, r_minus; cbn [vx r0 r1 r2 vy vz]. ring.
  - eapply K; [|apply en_x|exact E3]. unfold r_app, r_minus; cbn [vx r0 r1 r2 vy vz]. ring.
  - eapply K; [|apply en_y|exact E1]. unfold r_app, r_minus; cbn [vx r3 r4 r5 vy vz]. ring.
  - eapply K; [|apply en_y|exact E2]. unfold r_app, r_minus; cbn [vx r3 r4 r5 vy vz]. ring.
  - eapply K; [|apply en_y|exact E3]. unfold r_app, r_minus; cbn [vx r3 r4 r5 vy vz]. ring.
  - eapply K; [|apply en_z|exact E1]. unfold r_app, r_minus; cbn [vx r6 r7 r8 vy vz]. ring.
  - eapply K; [|apply en_z|exact E2]. unfold r_app, r_minus; cbn [vx r6 r7 r8 vy vz]. ring.
  - eapply K; [|apply en_z|exact E3]. unfold r_app, r_minus; cbn [vx r6 r7 r8 vy vz]. ring.
Qed.
(** Entries of a matrix with an operator bound. *)
Lemma opb_entries M e : opb M e -> (Rabs (r0 M) <= e /\ Rabs (r1 M) <= e /\ Rabs (r2 M) <= e) /\ (Rabs (r3 M) <= e /\ Rabs (r4 M) <= e /\ Rabs (r5 M) <= e) /\
  (Rabs (r6 M) <= e /\ Rabs (r7 M) <= e /\ Rabs (r8 M) <= e).
Proof.
  intros H. set (Z0 := mkR 0 0 0 0 0 0 0 0 0).
  assert (E : r_minus M Z0 = M) by (destruct M; unfold r_minus, Z0; cbn; f_equal; ring).
  rewrite <- E in H. apply near_opb in H. unfold r_near, Z0 in H; cbn [r0 r1 r2 r3 r4 r5 r6 r7 r8] in H. rewrite !Rminus_0_r in H. exact H.
Qed.

Lemma abs_split x e : Rabs x <= e -> - e <= x <= e.
Proof. intros H. pose proof (Rle_abs x). pose proof (Rle_abs (- x)). rewrite Rabs_Ropp in *. lra. Qed.
Lemma abs_join x e : - e <= x <= e -> Rabs x <= e.
Proof. intros H. apply Rabs_le. lra. Qed.
Lemma abs_mul x y X Y : Rabs x <= X -> Rabs y <= Y -> Rabs (x * y) <= X * Y.
Proof. intros HX HY. rewrite Rabs_mult. apply Rmult_le_compat; auto using Rabs_pos. Qed.

Section Rnd.
Variables (eps : R) (rnd : R -> R).
Hypothesis Heps : 0 <= eps <= / 100.
Hypothesis Hrnd : rounds eps rnd.

Lemma rnd_bound x m : Rabs x <= m -> Rabs (rnd x - x) <= eps * (m + 1).
Proof. intros H. eapply Rle_trans; [apply Hrnd|]. apply Rmult_le_compat_l; lra. Qed.
Lemma fl_dot3_err a b c d e f m : Rabs (a * b) <= m -> Rabs (c * d) <= m -> Rabs (e * f) <= m ->
  Rabs (fl_dot3 rnd a b c d e f - (a * b + c * d + e * f)) <= eps * (9 * m + 6).
Proof.
  intros H1 H2 H3. assert (Hm : 0 <= m) by (pose proof (Rabs_pos (a * b)); lra).
  pose proof (rnd_bound _ _ H1) as E1. pose proof (rnd_bound _ _ H2) as E2. pose proof (rnd_bound _ _ H3) as E3.
  unfold fl_dot3. set (p1 := a * b) in *. set (p2 := c * d) in *. set (p3 := e * f) in *.
  set (x1 := rnd p1) in *. set (x2 := rnd p2) in *. set (x3 := rnd p3) in *.
  assert (Ho : 0 <= eps * (m + 1) <= / 100 * (m + 1)) by (split; [apply Rmult_le_pos; lra|apply Rmult_le_compat_r; lra]).
  apply abs_split in H1, H2, H3, E1, E2, E3.
  assert (B1 : Rabs (x1 + x2) <= 2 * m + 2 * (/ 100 * (m + 1))) by (apply abs_join; lra).
  pose proof (rnd_bound _ _ B1) as E4. set (y := rnd (x1 + x2)) in *. apply abs_split in E4.
  assert (Ho2 : eps * (2 * m + 2 * (/ 100 * (m + 1)) + 1) <= / 100 * (2 * m + 2 * (/ 100 * (m + 1)) + 1)) by (apply Rmult_le_compat_r; lra).
  assert (B2 : Rabs (y + x3) <= 3 * m + (/ 10) * (m + 1)) by (apply abs_join; lra).
  pose proof (rnd_bound _ _ B2) as E5. set (z := rnd (y + x3)) in *. apply abs_split in E5.
  apply abs_join. assert (0 <= eps * m) by (apply Rmult_le_pos; lra). lra.
Qed.
(** The products of the frame class, against the exact products of the same operands. *)
Lemma fl_mul_err P Q x y : opb P x -> opb Q y -> opb (r_minus (fl_r_mul rnd P Q) (r_mul P Q)) (3 * (eps * (9 * (x * y) + 6))).
Proof.
  intros HP HQ. pose proof (opb_nn _ _ HP). pose proof (opb_nn _ _ HQ).
  destruct (opb_entries _ _ HP) as ((P0 & P1 & P2) & (P3 & P4 & P5) & (P6 & P7 & P8)).
  destruct (opb_entries _ _ HQ) as ((Q0 & Q1 & Q2) & (Q3 & Q4 & Q5) & (Q6 & Q7 & Q8)).
  apply opb_near; [apply Rmult_le_pos; nra|].
  unfold r_near, fl_r_mul, r_mul; cbn [r0 r1 r2 r3 r4 r5 r6 r7 r8]. repeat split; apply fl_dot3_err; apply abs_mul; assumption.
Qed.
Lemma fl_app_err P v x y : opb P x -> en v <= y -> en (v_sub (fl_r_app rnd P v) (r_app P v)) <= 2 * (eps * (9 * (x * y) + 6)).
Proof.
  intros HP Hv. pose proof (opb_nn _ _ HP). pose proof (en_nn v).
  destruct (opb_entries _ _ HP) as ((P0 & P1 & P2) & (P3 & P4 & P5) & (P6 & P7 & P8)).
  assert (X : Rabs (vx v) <= y) by (pose proof (en_x v); lra). assert (Y : Rabs (vy v) <= y) by (pose proof (en_y v); lra). assert (Z : Rabs (vz v) <= y) by (pose proof (en_z v); lra).
  apply en_near; [apply Rmult_le_pos; nra|]. unfold v_near, fl_r_app, r_app; cbn [vx vy vz]. repeat split; apply fl_dot3_err; apply abs_mul; assumption.
Qed.
Lemma fl_add_err a b m : en (v_add a b) <= m -> en (v_sub (fl_v_add rnd a b) (v_add a b)) <= 2 * (eps * (m + 1)).
Proof.
  intros H. pose proof (en_nn (v_add a b)). apply en_near; [apply Rmult_le_pos; lra|].
  pose proof (en_x (v_add a b)). pose proof (en_y (v_add a b)). pose proof (en_z (v_add a b)).
  unfold v_near, fl_v_add, v_add in *; cbn [vx vy vz] in *. repeat split; apply rnd_bound; lra.
Qed.
End Rnd.
