(** Drift of rotations computed by a program in rounded arithmetic. *)
From Coq Require Import Reals String List ZArith Bool Arith Lia Lra Psatz.
From Verif Require Import FramesModel FramesSpec FramesProofs RotationProofs FrameOpsProofs PathProofs6 RotNear LipProofs FlModel FlSpec FlProofs FlJoint FlRotModel FlRotSpec.
Local Open Scope R_scope.

Lemma opb_inv M e : opb M e -> opb (r_inv M) e.
Proof.
  intros H v. pose proof (opb_nn _ _ H) as He. set (u := r_app (r_inv M) v).
  assert (E : en u * en u = v_dot v (r_app M u)).
  { rewrite en_sq. unfold u, v_dot, r_app, r_inv; cbn [vx vy vz r0 r1 r2 r3 r4 r5 r6 r7 r8]. ring. }
  pose proof (cauchy v (r_app M u)) as C. pose proof (Rle_abs (v_dot v (r_app M u))). pose proof (H u) as Hu. pose proof (en_nn v). pose proof (en_nn u).
  fold (en v) in *. fold (en (r_app M u)) in C.
  assert (en v * en (r_app M u) <= en v * (e * en u)) by (apply Rmult_le_compat_l; assumption).
  destruct (Req_dec (en u) 0) as [Z|NZ]; [rewrite Z; apply Rmult_le_pos; assumption|].
  apply Rmult_le_reg_r with (en u); [lra|]. rewrite E. lra.
Qed.
Lemma pow_lin x n : 0 <= x -> 2 * INR n * x <= 1 -> (1 + x) ^ n <= 1 + 2 * INR n * x.
Proof.
  intros Hx. induction n as [|n IH]; intros H; [cbn; lra|]. rewrite S_INR in *. cbn [pow]. pose proof (pos_INR n) as N0.
  assert (N1 : 0 <= INR n * x) by (apply Rmult_le_pos; assumption).
  assert (I : (1 + x) ^ n <= 1 + 2 * INR n * x) by (apply IH; lra).
  assert ((1 + x) * (1 + x) ^ n <= (1 + x) * (1 + 2 * INR n * x)) by (apply Rmult_le_compat_l; lra).
  assert (x * (2 * INR n * x) <= x * 1) by (apply Rmult_le_compat_l; lra). lra.
Qed.

Section Drift.
Variables (eps : R) (rnd fsin fcos : R -> R).
Hypothesis He : 0 <= eps <= / 2500.
Hypothesis Hrnd : rounds eps rnd.
Hypothesis Hsin : computes eps fsin sin.
Hypothesis Hcos : computes eps fcos cos.

Let k1 : eps * 1 <= / 2500. Proof. lra. Qed.
Notation ap := (ap eps 1).
Lemma se a : ap 1 1 1 (fsin a) (sin a).
Proof. split; [lra|]. split; [lra|]. split; [rewrite !Rmult_1_r, Rmult_1_l; apply Hsin|]. pose proof (SIN_bound a). apply Rabs_le. lra. Qed.
Lemma ce a : ap 1 1 1 (fcos a) (cos a).
Proof. split; [lra|]. split; [lra|]. split; [rewrite !Rmult_1_r, Rmult_1_l; apply Hcos|]. pose proof (COS_bound a). apply Rabs_le. lra. Qed.
Let E0 : 0 <= eps. Proof. lra. Qed.
Lemma weak c w X x' x c' X' : ap c w X x' x -> c <= c' -> X <= X' -> 0 <= w -> ap c' w X' x' x.
Proof. apply ap_weaken; lra. Qed.
Lemma mul c d w X Y x' x y' y : 1 <= w -> ap c w X x' x -> ap d 1 Y y' y ->
  ap (c * Y + d * X + c * d / 2500 + X * Y + (c * Y + d * X + c * d / 2500) / 2500 + 1) w (X * Y) (rnd (x' * y')) (x * y).
Proof. apply ap_mul; auto; lra. Qed.
Lemma add c d w X Y x' x y' y : 1 <= w -> ap c w X x' x -> ap d w Y y' y ->
  ap (c + d + (X + Y) + (c + d) / 2500 + 1) w (X + Y) (rnd (x' + y')) (x + y).
Proof. apply ap_add; auto; lra. Qed.
Lemma neg c w X x' x : ap c w X x' x -> ap c w X (- x') (- x).
Proof. apply ap_neg. Qed.
Lemma entry c X x' x C : ap c 1 X x' x -> c <= C -> Rabs (x' - x) <= C * eps.
Proof. intros H L. pose proof (ap_entry eps 1 ltac:(lra) E0 _ _ _ _ _ C H L ltac:(lra)) as Q. rewrite !Rmult_1_r in Q. exact Q. Qed.
Lemma p2 x' x y' y : ap 1 1 1 x' x -> ap 1 1 1 y' y -> ap (401 / 100) 1 1 (rnd (x' * y')) (x * y).
Proof. intros H1 H2. eapply weak; [apply mul; [lra|exact H1|exact H2]|lra|lra|lra]. Qed.
Lemma p3 x' x y' y z' z : ap 1 1 1 x' x -> ap 1 1 1 y' y -> ap 1 1 1 z' z -> ap (71 / 10) 1 1 (rnd (rnd (x' * y') * z')) (x * y * z).
Proof. intros H1 H2 H3. eapply weak; [apply mul; [lra|apply p2; [exact H1|exact H2]|exact H3]|lra|lra|lra]. Qed.
Lemma s2 c d X Y x' x y' y : ap c 1 X x' x -> ap d 1 Y y' y -> c + d + (X + Y) + (c + d) / 2500 + 1 <= 30 -> Rabs (rnd (x' + y') - (x + y)) <= 30 * eps.
Proof. intros H1 H2 L. eapply entry; [apply add; [lra|exact H1|exact H2]|exact L]. Qed.
Lemma d2 c d X Y x' x y' y : ap c 1 X x' x -> ap d 1 Y y' y -> c + d + (X + Y) + (c + d) / 2500 + 1 <= 30 -> Rabs (rnd (x' - y') - (x - y)) <= 30 * eps.
Proof. intros H1 H2 L. unfold Rminus at 1 3. eapply s2; [exact H1|apply neg; exact H2|exact L]. Qed.

Lemma RPY_err r p y : r_near (30 * eps) (fl_RPY rnd fsin fcos r p y) (r_RPY r p y).
Proof.
  unfold r_near, fl_RPY, r_RPY; cbn [r0 r1 r2 r3 r4 r5 r6 r7 r8].
  pose proof (se r). pose proof (se p). pose proof (se y). pose proof (ce r). pose proof (ce p). pose proof (ce y).
  repeat split; first
    [ eapply s2; [apply p3; assumption|apply p2; assumption|lra] | eapply d2; [apply p3; assumption|apply p2; assumption|lra]
    | eapply entry; [apply p2; assumption|lra] | eapply entry; [apply neg; eassumption|lra] ].
Qed.
Lemma ZYZ_err a b c : r_near (30 * eps) (fl_EulerZYZ rnd fsin fcos a b c) (r_EulerZYZ a b c).
Proof.
  unfold r_near, fl_EulerZYZ, r_EulerZYZ; cbn [r0 r1 r2 r3 r4 r5 r6 r7 r8].
  pose proof (se a). pose proof (se b). pose proof (se c). pose proof (ce a). pose proof (ce b). pose proof (ce c).
  pose proof (neg _ _ _ _ _ (se a)). pose proof (neg _ _ _ _ _ (se b)). pose proof (neg _ _ _ _ _ (ce a)).
  repeat split; first
    [ eapply s2; [apply p3; assumption|apply p2; assumption|lra] | eapply d2; [apply p3; assumption|apply p2; assumption|lra]
    | eapply entry; [apply p2; assumption|lra] | eapply entry; [eassumption|lra] ].
Qed.
Lemma quat_err x' y' z' w' x y z w : x ^ 2 + y ^ 2 + z ^ 2 + w ^ 2 = 1 ->
  Rabs (x' - x) <= eps -> Rabs (y' - y) <= eps -> Rabs (z' - z) <= eps -> Rabs (w' - w) <= eps ->
  r_near (30 * eps) (fl_Quaternion rnd x' y' z' w') (r_Quaternion x y z w).
Proof.
  intros U Ex Ey Ez Ew.
  assert (B : forall u' u, Rabs (u' - u) <= eps -> u * u <= 1 -> ap 1 1 1 u' u).
  { intros u' u E S. split; [lra|]. split; [lra|]. split; [lra|]. rewrite Rmult_1_r. apply sq_abs; lra. }
  assert (X : ap 1 1 1 x' x) by (apply B; [exact Ex|nra]). assert (Y : ap 1 1 1 y' y) by (apply B; [exact Ey|nra]).
  assert (Z : ap 1 1 1 z' z) by (apply B; [exact Ez|nra]). assert (W : ap 1 1 1 w' w) by (apply B; [exact Ew|nra]).
  assert (T : ap 0 1 2 2 2) by (apply ap_const; [lra|rewrite Rabs_right; lra]).
  assert (DD : forall a' a b' b, ap 1 1 1 a' a -> ap 1 1 1 b' b -> ap (101 / 10) 1 2 (rnd (rnd (2 * a') * b')) (2 * a * b)).
  { intros a' a b' b Ha Hb. assert (Q : ap (501 / 100) 1 2 (rnd (2 * a')) (2 * a)) by (eapply weak; [apply mul; [lra|exact T|exact Ha]|lra|lra|lra]).
    eapply weak; [apply mul; [lra|exact Q|exact Hb]|lra|lra|lra]. }
  assert (A2 : forall a' a b' b, ap (401 / 100) 1 1 a' a -> ap (401 / 100) 1 1 b' b -> ap (111 / 10) 1 2 (rnd (a' + b')) (a + b)).
  { intros a' a b' b Ha Hb. eapply weak; [apply add; [lra|exact Ha|exact Hb]|lra|lra|lra]. }
  assert (A3 : forall a' a b' b, ap (111 / 10) 1 2 a' a -> ap (401 / 100) 1 1 b' b -> ap (192 / 10) 1 3 (rnd (a' + b')) (a + b)).
  { intros a' a b' b Ha Hb. eapply weak; [apply add; [lra|exact Ha|exact Hb]|lra|lra|lra]. }
  pose proof (p2 _ _ _ _ X X) as X2. pose proof (p2 _ _ _ _ Y Y) as Y2. pose proof (p2 _ _ _ _ Z Z) as Z2. pose proof (p2 _ _ _ _ W W) as W2.
  pose proof (neg _ _ _ _ _ X2) as NX. pose proof (neg _ _ _ _ _ Y2) as NY. pose proof (neg _ _ _ _ _ Z2) as NZ.
  unfold r_near, fl_Quaternion, r_Quaternion; cbn [r0 r1 r2 r3 r4 r5 r6 r7 r8].
  repeat split; first
    [ eapply s2; [apply DD; assumption|apply DD; assumption|lra] | eapply d2; [apply DD; assumption|apply DD; assumption|lra]
    | unfold Rminus at 1 2 3; unfold Rminus; eapply s2; [apply A3; [apply A2|]|..]; try eassumption; lra | idtac ].
  all: match goal with |- Rabs (?a - ?b) <= _ => let a' := eval unfold Rminus in a in let b' := eval unfold Rminus in b in change (Rabs (a' - b') <= 30 * eps) end;
    eapply s2; [apply A3; [apply A2; eassumption|eassumption]|eassumption|lra].
Qed.

(** In-place rotations. *)
Lemma doterm x u t cs' cs sn' sn : 1 <= x -> Rabs u <= x -> Rabs t <= x -> ap 1 1 1 cs' cs -> ap 1 1 1 sn' sn ->
  Rabs (rnd (rnd (cs' * u) + rnd (sn' * t)) - (cs * u + sn * t)) <= 10 * (eps * x).
Proof.
  intros Hx Hu Ht Hc Hs. assert (U : ap 0 x 1 u u) by (apply ap_const; lra). assert (T : ap 0 x 1 t t) by (apply ap_const; lra).
  assert (P : ap (301 / 100) x 1 (rnd (cs' * u)) (cs * u)) by (rewrite (Rmult_comm cs' u), (Rmult_comm cs u); eapply weak; [apply mul; [exact Hx|exact U|exact Hc]|lra|lra|lra]).
  assert (Q : ap (301 / 100) x 1 (rnd (sn' * t)) (sn * t)) by (rewrite (Rmult_comm sn' t), (Rmult_comm sn t); eapply weak; [apply mul; [exact Hx|exact T|exact Hs]|lra|lra|lra]).
  pose proof (ap_entry eps 1 ltac:(lra) E0 _ _ _ _ _ 10 (add _ _ _ _ _ _ _ _ _ Hx P Q) ltac:(lra) ltac:(lra)) as R. rewrite !Rmult_1_r in R. exact R.
Qed.
Lemma doterm_sub x u t cs' cs sn' sn : 1 <= x -> Rabs u <= x -> Rabs t <= x -> ap 1 1 1 cs' cs -> ap 1 1 1 sn' sn ->
  Rabs (rnd (rnd (cs' * u) - rnd (sn' * t)) - (cs * u - sn * t)) <= 10 * (eps * x).
Proof.
  intros Hx Hu Ht Hc Hs. assert (U : ap 0 x 1 u u) by (apply ap_const; lra). assert (T : ap 0 x 1 t t) by (apply ap_const; lra).
  assert (P : ap (301 / 100) x 1 (rnd (cs' * u)) (cs * u)) by (rewrite (Rmult_comm cs' u), (Rmult_comm cs u); eapply weak; [apply mul; [exact Hx|exact U|exact Hc]|lra|lra|lra]).
  assert (Q : ap (301 / 100) x 1 (rnd (sn' * t)) (sn * t)) by (rewrite (Rmult_comm sn' t), (Rmult_comm sn t); eapply weak; [apply mul; [exact Hx|exact T|exact Hs]|lra|lra|lra]).
  pose proof (ap_entry eps 1 ltac:(lra) E0 _ _ _ _ _ 10 (add _ _ _ _ _ _ _ _ _ Hx P (neg _ _ _ _ _ Q)) ltac:(lra) ltac:(lra)) as R. rewrite !Rmult_1_r in R. exact R.
Qed.
Lemma kept x u : 0 <= x -> Rabs (u - u) <= 10 * (eps * x).
Proof. intros H. rewrite Rminus_diag_eq by reflexivity. rewrite Rabs_R0. assert (0 <= eps * x) by (apply Rmult_le_pos; lra). lra. Qed.
Lemma DoRotX_err M x a : 1 <= x -> opb M x -> opb (r_minus (fl_DoRotX rnd fsin fcos M a) (r_DoRotX M a)) (30 * (eps * x)).
Proof.
  intros Hx H. destruct (opb_entries _ _ H) as ((P0 & P1 & P2) & (P3 & P4 & P5) & (P6 & P7 & P8)). assert (0 <= eps * x) by (apply Rmult_le_pos; lra).
  pose proof (ce a). pose proof (se a). pose proof (neg _ _ _ _ _ (se a)).
  eapply opb_weaken; [apply (opb_near (10 * (eps * x))); [lra|]|lra].
  unfold r_near, fl_DoRotX, r_DoRotX; cbn [r0 r1 r2 r3 r4 r5 r6 r7 r8]. repeat split; first [apply kept; lra | apply doterm; assumption].
Qed.
Lemma DoRotY_err M x a : 1 <= x -> opb M x -> opb (r_minus (fl_DoRotY rnd fsin fcos M a) (r_DoRotY M a)) (30 * (eps * x)).
Proof.
  intros Hx H. destruct (opb_entries _ _ H) as ((P0 & P1 & P2) & (P3 & P4 & P5) & (P6 & P7 & P8)). assert (0 <= eps * x) by (apply Rmult_le_pos; lra).
  pose proof (ce a). pose proof (se a). pose proof (neg _ _ _ _ _ (se a)).
  eapply opb_weaken; [apply (opb_near (10 * (eps * x))); [lra|]|lra].
  unfold r_near, fl_DoRotY, r_DoRotY; cbn [r0 r1 r2 r3 r4 r5 r6 r7 r8]. repeat split; first [apply kept; lra | apply doterm; assumption | apply doterm_sub; assumption].
Qed.
Lemma DoRotZ_err M x a : 1 <= x -> opb M x -> opb (r_minus (fl_DoRotZ rnd fsin fcos M a) (r_DoRotZ M a)) (30 * (eps * x)).
Proof.
  intros Hx H. destruct (opb_entries _ _ H) as ((P0 & P1 & P2) & (P3 & P4 & P5) & (P6 & P7 & P8)). assert (0 <= eps * x) by (apply Rmult_le_pos; lra).
  pose proof (ce a). pose proof (se a). pose proof (neg _ _ _ _ _ (se a)).
  eapply opb_weaken; [apply (opb_near (10 * (eps * x))); [lra|]|lra].
  unfold r_near, fl_DoRotZ, r_DoRotZ; cbn [r0 r1 r2 r3 r4 r5 r6 r7 r8]. repeat split; first [apply kept; lra | apply doterm; assumption].
Qed.

(** * Programs *)
Let g : R := 1 + 110 * eps.
Lemma g1 n : 1 <= g ^ n. Proof. apply pow_R1_Rle. unfold g. lra. Qed.
Lemma split_minus A B C : r_minus A C = r_plus (r_minus A B) (r_minus B C).
Proof. destruct A, B, C; unfold r_minus, r_plus; cbn; f_equal; ring. Qed.
Lemma opb_split A B C a b : opb (r_minus A B) a -> opb (r_minus B C) b -> opb (r_minus A C) (a + b).
Proof. intros HA HB. rewrite (split_minus A B C). apply opb_plus; assumption. Qed.
Lemma opb_from A B a : is_rotation B -> opb (r_minus A B) a -> opb A (1 + a).
Proof.
  intros HB HA. replace A with (r_plus B (r_minus A B)) by (destruct A, B; unfold r_minus, r_plus; cbn; f_equal; ring). apply opb_plus; [apply opb_rot; exact HB|exact HA].
Qed.
Lemma leaf A B : r_near (34 * eps) A B -> opb (r_minus A B) (g ^ 1 - 1).
Proof. intros H. eapply opb_weaken; [apply (opb_near (34 * eps)); [lra|exact H]|unfold g; lra]. Qed.
Lemma leaf30 A B : r_near (30 * eps) A B -> opb (r_minus A B) (g ^ 1 - 1).
Proof. intros H. eapply opb_weaken; [apply (opb_near (30 * eps)); [lra|exact H]|unfold g; lra]. Qed.
Lemma one_more (P Q : Rotation) (f f' : Rotation -> Rotation) (T : Rotation) n : is_rotation Q -> is_rotation T ->
  opb (r_minus P Q) (g ^ n - 1) -> (forall M, f M = r_mul M T) -> (forall M x, 1 <= x -> opb M x -> opb (r_minus (f' M) (f M)) (30 * (eps * x))) ->
  opb (r_minus (f' P) (f Q)) (g ^ S n - 1).
Proof.
  intros HQ HT H F E. pose proof (g1 n) as G. pose proof (opb_from _ _ _ HQ H) as B. replace (1 + (g ^ n - 1)) with (g ^ n) in B by ring.
  eapply opb_weaken; [eapply opb_split; [apply (E P (g ^ n) G B)|]|].
  - rewrite !F. replace (r_minus (r_mul P T) (r_mul Q T)) with (r_mul (r_minus P Q) T) by (destruct P, Q, T; unfold r_minus, r_mul; cbn; f_equal; ring).
    apply opb_mul; [exact H|apply opb_rot; exact HT].
  - cbn [pow]. unfold g at 3. assert (0 <= eps * g ^ n) by (apply Rmult_le_pos; lra). lra.
Qed.

Theorem drift p' p : prog_stored eps p' p -> is_rotation (run p) /\ opb (r_minus (fl_run rnd fsin fcos p') (run p)) (g ^ calls p - 1).
Proof.
  assert (AE : forall x, Rabs (x - x) <= 5 * (eps * 1)) by (intros x; rewrite Rminus_diag_eq by reflexivity; rewrite Rabs_R0; lra).
  assert (Nid : forall M e, 0 <= e -> r_near e M M) by (intros; apply near_self; assumption).
  induction 1 as [|a|a|a|r q y|a b c|a b c|v' v a U N|x' y' z' w' x y z w U X Y Z W|l' l r' r H1 [I1 J1] H2 [I2 J2]|p' p H [I J]|p' p a H [I J]|p' p a H [I J]|p' p a H [I J]];
    cbn [run fl_run calls].
  - split; [apply is_rotation_id|]. apply leaf, Nid. lra.
  - split; [apply is_rotation_RotX|]. apply leaf30. pose proof (se a). pose proof (ce a). pose proof (neg _ _ _ _ _ (se a)).
    unfold r_near, fl_RotX, r_RotX; cbn [r0 r1 r2 r3 r4 r5 r6 r7 r8]. repeat split; first [eapply entry; [eassumption|lra] | rewrite Rminus_diag_eq by reflexivity; rewrite Rabs_R0; lra].
  - split; [apply is_rotation_RotY|]. apply leaf30. pose proof (se a). pose proof (ce a). pose proof (neg _ _ _ _ _ (se a)).
    unfold r_near, fl_RotY, r_RotY; cbn [r0 r1 r2 r3 r4 r5 r6 r7 r8]. repeat split; first [eapply entry; [eassumption|lra] | rewrite Rminus_diag_eq by reflexivity; rewrite Rabs_R0; lra].
  - split; [apply is_rotation_RotZ|]. apply leaf30. pose proof (se a). pose proof (ce a). pose proof (neg _ _ _ _ _ (se a)).
    unfold r_near, fl_RotZ, r_RotZ; cbn [r0 r1 r2 r3 r4 r5 r6 r7 r8]. repeat split; first [eapply entry; [eassumption|lra] | rewrite Rminus_diag_eq by reflexivity; rewrite Rabs_R0; lra].
  - split; [apply is_rotation_RPY|]. apply leaf30, RPY_err.
  - split; [apply is_rotation_RPY|]. apply leaf30, RPY_err.
  - split; [apply is_rotation_EulerZYZ|]. apply leaf30, ZYZ_err.
  - split; [apply is_rotation_Rot2; exact U|]. apply leaf. replace (34 * eps) with (34 * (eps * 1)) by ring.
    apply (Rot2_err eps 1); auto; try lra. unfold unit_vector in U. unfold v_near, v_zero; cbn [vx vy vz]. rewrite !Rminus_0_r. repeat split; apply sq_abs; try lra; nra.
  - split; [apply is_rotation_Quaternion; exact U|]. apply leaf30, quat_err; assumption.
  - split; [apply is_rotation_mul; assumption|]. set (P := fl_run rnd fsin fcos l') in *. set (Q := fl_run rnd fsin fcos r') in *.
    pose proof (g1 (calls l)) as G1. pose proof (g1 (calls r)) as G2.
    pose proof (opb_from _ _ _ I1 J1) as B1. replace (1 + (g ^ calls l - 1)) with (g ^ calls l) in B1 by ring.
    pose proof (opb_from _ _ _ I2 J2) as B2. replace (1 + (g ^ calls r - 1)) with (g ^ calls r) in B2 by ring.
    eapply opb_weaken; [eapply opb_split; [apply (fl_mul_err eps rnd ltac:(lra) Hrnd P Q _ _ B1 B2)|]|].
    + replace (r_minus (r_mul P Q) (r_mul (run l) (run r))) with (r_plus (r_mul (r_minus P (run l)) Q) (r_mul (run l) (r_minus Q (run r))))
        by (destruct P, Q, (run l), (run r); unfold r_minus, r_mul, r_plus; cbn; f_equal; ring).
      apply opb_plus; [apply opb_mul; [exact J1|exact B2]|apply opb_mul; [apply opb_rot; exact I1|exact J2]].
    + cbn [pow]. rewrite pow_add. set (u := g ^ calls l) in *. set (t := g ^ calls r) in *. unfold g.
      assert (1 <= u * t) by (replace 1 with (1 * 1) by ring; apply Rmult_le_compat; lra). assert (eps * 1 <= eps * (u * t)) by (apply Rmult_le_compat_l; lra). lra.
  - split; [apply r_inv_rotation; exact I|]. pose proof (g1 (calls p)) as G.
    replace (r_minus (r_inv (fl_run rnd fsin fcos p')) (r_inv (run p))) with (r_inv (r_minus (fl_run rnd fsin fcos p') (run p))) by reflexivity.
    eapply opb_weaken; [apply opb_inv; exact J|]. cbn [pow]. unfold g at 2. assert (0 <= eps * g ^ calls p) by (apply Rmult_le_pos; lra). lra.
  - split; [rewrite DoRotX_mul; apply is_rotation_mul; [exact I|apply is_rotation_RotX]|].
    apply (one_more _ _ (fun M => r_DoRotX M a) (fun M => fl_DoRotX rnd fsin fcos M a) (r_RotX a) _ I (is_rotation_RotX a) J); [intros; apply DoRotX_mul|intros; apply DoRotX_err; assumption].
  - split; [rewrite DoRotY_mul; apply is_rotation_mul; [exact I|apply is_rotation_RotY]|].
    apply (one_more _ _ (fun M => r_DoRotY M a) (fun M => fl_DoRotY rnd fsin fcos M a) (r_RotY a) _ I (is_rotation_RotY a) J); [intros; apply DoRotY_mul|intros; apply DoRotY_err; assumption].
  - split; [rewrite DoRotZ_mul; apply is_rotation_mul; [exact I|apply is_rotation_RotZ]|].
    apply (one_more _ _ (fun M => r_DoRotZ M a) (fun M => fl_DoRotZ rnd fsin fcos M a) (r_RotZ a) _ I (is_rotation_RotZ a) J); [intros; apply DoRotZ_mul|intros; apply DoRotZ_err; assumption].
Qed.
End Drift.
