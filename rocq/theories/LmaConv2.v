(** What one step of any joint change does to the pose error. *)
From Coq Require Import Reals String List ZArith Bool Arith Lia Lra Psatz.
From Verif Require Import FramesModel FramesSpec FramesProofs FrameOpsProofs Outcome InertiaModel DualModel KinModel KinSpec DerivProofs KinProofs JacProofs JacDotProofs
  LinModel LinSpec SumProofs IkModel IkSpec IkProofs IkGeoProofs VelIkModel VelIkSpec VelIkWitness RotNear LipProofs TaylorProofs NewtonSpec NewtonProofs NewtonLoop.
Import ListNotations.
Local Open Scope R_scope.

(** The pose is Lipschitz between any two near positions. *)
Lemma pose_lip2 c q0 : chain_ok c -> length q0 = ch_nj c ->
  exists L, 0 <= L /\ forall a b, length a = length q0 -> length b = length q0 -> d1 a q0 <= 1 -> d1 b q0 <= 1 ->
    vn (v_sub (fp (tip c a)) (fp (tip c b))) + rn (r_minus (fM (tip c a)) (fM (tip c b))) <= L * d1 a b.
Proof.
  intros [[Hs Hj] _] Hq. unfold tip, tip_frame. rewrite firstn_all.
  destruct (lip_chain (ch_segs c) q0 ltac:(lia)) as ((((L0 & L1 & L2) & (L3 & L4 & L5) & (L6 & L7 & L8)) & (X & Y & Z)) & _).
  destruct L0 as (M0 & P0 & H0). destruct L1 as (M1 & P1 & H1). destruct L2 as (M2 & P2 & H2). destruct L3 as (M3 & P3 & H3).
  destruct L4 as (M4 & P4 & H4). destruct L5 as (M5 & P5 & H5). destruct L6 as (M6 & P6 & H6). destruct L7 as (M7 & P7 & H7).
  destruct L8 as (M8 & P8 & H8). destruct X as (M9 & P9 & H9). destruct Y as (M10 & P10 & H10). destruct Z as (M11 & P11 & H11).
  exists (M0 + M1 + M2 + M3 + M4 + M5 + M6 + M7 + M8 + M9 + M10 + M11). split; [lra|]. intros a b Ha Hb Na Nb.
  specialize (H0 a b Ha Hb Na Nb). specialize (H1 a b Ha Hb Na Nb). specialize (H2 a b Ha Hb Na Nb). specialize (H3 a b Ha Hb Na Nb). specialize (H4 a b Ha Hb Na Nb). specialize (H5 a b Ha Hb Na Nb).
  specialize (H6 a b Ha Hb Na Nb). specialize (H7 a b Ha Hb Na Nb). specialize (H8 a b Ha Hb Na Nb). specialize (H9 a b Ha Hb Na Nb). specialize (H10 a b Ha Hb Na Nb). specialize (H11 a b Ha Hb Na Nb).
  unfold vn, rn, v_sub, r_minus; cbn [vx vy vz r0 r1 r2 r3 r4 r5 r6 r7 r8]. lra.
Qed.

(** ** Products of small matrices *)
Lemma prod3 x y z u v w : 0 <= x -> 0 <= y -> 0 <= z -> 0 <= u -> 0 <= v -> 0 <= w -> x * u + y * v + z * w <= (x + y + z) * (u + v + w).
Proof.
  intros. assert (M : forall s t, 0 <= s -> 0 <= t -> 0 <= s * t) by (intros; apply Rmult_le_pos; assumption).
  pose proof (M x v). pose proof (M x w). pose proof (M y u). pose proof (M y w). pose proof (M z u). pose proof (M z v). lra.
Qed.
Lemma rn_mul a b : rn (r_mul a b) <= rn a * rn b.
Proof.
  assert (K : forall x y z u v w : R, Rabs (x * u + y * v + z * w) <= Rabs x * Rabs u + Rabs y * Rabs v + Rabs z * Rabs w).
  { intros. eapply Rle_trans; [apply Rabs_add3|]. rewrite !Rabs_mult. lra. }
  destruct a as [a0 a1 a2 a3 a4 a5 a6 a7 a8], b as [b0 b1 b2 b3 b4 b5 b6 b7 b8].
  unfold rn, r_mul; cbn [r0 r1 r2 r3 r4 r5 r6 r7 r8].
  pose proof (K a0 a1 a2 b0 b3 b6). pose proof (K a0 a1 a2 b1 b4 b7). pose proof (K a0 a1 a2 b2 b5 b8).
  pose proof (K a3 a4 a5 b0 b3 b6). pose proof (K a3 a4 a5 b1 b4 b7). pose proof (K a3 a4 a5 b2 b5 b8).
  pose proof (K a6 a7 a8 b0 b3 b6). pose proof (K a6 a7 a8 b1 b4 b7). pose proof (K a6 a7 a8 b2 b5 b8).
  assert (P : forall x y, 0 <= Rabs x * Rabs y) by (intros; apply Rmult_le_pos; apply Rabs_pos).
  pose proof (Rabs_pos a0). pose proof (Rabs_pos a1). pose proof (Rabs_pos a2). pose proof (Rabs_pos a3). pose proof (Rabs_pos a4).
  pose proof (Rabs_pos a5). pose proof (Rabs_pos a6). pose proof (Rabs_pos a7). pose proof (Rabs_pos a8).
  set (A0 := Rabs a0) in *. set (A1 := Rabs a1) in *. set (A2 := Rabs a2) in *. set (A3 := Rabs a3) in *. set (A4 := Rabs a4) in *.
  set (A5 := Rabs a5) in *. set (A6 := Rabs a6) in *. set (A7 := Rabs a7) in *. set (A8 := Rabs a8) in *.
  pose proof (Rabs_pos b0). pose proof (Rabs_pos b1). pose proof (Rabs_pos b2). pose proof (Rabs_pos b3). pose proof (Rabs_pos b4).
  pose proof (Rabs_pos b5). pose proof (Rabs_pos b6). pose proof (Rabs_pos b7). pose proof (Rabs_pos b8).
  set (B0 := Rabs b0) in *. set (B1 := Rabs b1) in *. set (B2 := Rabs b2) in *. set (B3 := Rabs b3) in *. set (B4 := Rabs b4) in *.
  set (B5 := Rabs b5) in *. set (B6 := Rabs b6) in *. set (B7 := Rabs b7) in *. set (B8 := Rabs b8) in *.
  assert (Q : (A0 + A3 + A6) * (B0 + B1 + B2) + (A1 + A4 + A7) * (B3 + B4 + B5) + (A2 + A5 + A8) * (B6 + B7 + B8) <=
    (A0 + A1 + A2 + A3 + A4 + A5 + A6 + A7 + A8) * (B0 + B1 + B2 + B3 + B4 + B5 + B6 + B7 + B8)).
  { eapply Rle_trans; [apply prod3; lra|]. right. ring. }
  eapply Rle_trans; [|exact Q]. lra.
Qed.
Lemma vn_skew w : 2 * vn w = rn (skew w).
Proof. unfold vn, rn, skew; cbn [r0 r1 r2 r3 r4 r5 r6 r7 r8]. rewrite !Rabs_Ropp, !Rabs_R0. ring. Qed.
Lemma vn_skew_mul w a : is_rotation a -> vn w <= 3 * rn (r_mul (skew w) a).
Proof.
  intros Ha. assert (E : skew w = r_mul (r_mul (skew w) a) (r_inv a)) by (rewrite r_mul_assoc, (r_inv_r a Ha); symmetry; apply r_mul_id_r).
  pose proof (vn_skew w) as V. rewrite E in V. pose proof (rn_mul_r (r_inv a) (r_mul (skew w) a) (r_inv_rotation a Ha)). pose proof (vn_nn w). lra.
Qed.

(** ** The rotational error after the step *)
Definition rsum (a b : Rotation) : Rotation :=
  mkR (r0 a + r0 b) (r1 a + r1 b) (r2 a + r2 b) (r3 a + r3 b) (r4 a + r4 b) (r5 a + r5 b) (r6 a + r6 b) (r7 a + r7 b) (r8 a + r8 b).
Lemma rn4 a b c d : rn (r_minus (r_minus a b) (rsum c d)) <= rn c + rn d + rn a + rn b.
Proof.
  assert (K : forall a b c d : R, Rabs (a - b - (c + d)) <= Rabs c + Rabs d + Rabs a + Rabs b).
  { clear. intros a b c d. replace (a - b - (c + d)) with (a + - b + (- c + - d)) by ring. eapply Rle_trans; [apply Rabs_triang|].
    pose proof (Rabs_triang a (- b)). pose proof (Rabs_triang (- c) (- d)). rewrite !Rabs_Ropp in *. lra. }
  unfold rn, r_minus, rsum; cbn [r0 r1 r2 r3 r4 r5 r6 r7 r8].
  pose proof (K (r0 a) (r0 b) (r0 c) (r0 d)). pose proof (K (r1 a) (r1 b) (r1 c) (r1 d)). pose proof (K (r2 a) (r2 b) (r2 c) (r2 d)).
  pose proof (K (r3 a) (r3 b) (r3 c) (r3 d)). pose proof (K (r4 a) (r4 b) (r4 c) (r4 d)). pose proof (K (r5 a) (r5 b) (r5 c) (r5 d)).
  pose proof (K (r6 a) (r6 b) (r6 c) (r6 d)). pose proof (K (r7 a) (r7 b) (r7 c) (r7 d)). pose proof (K (r8 a) (r8 b) (r8 c) (r8 d)). lra.
Qed.
Lemma rot_after R1 R2 G w w2 v : is_rotation R1 ->
  vn (v_sub w2 (v_sub w v)) <= 3 * (rn (r_minus (r_minus G R2) (r_mul (skew w2) R2)) + 2 * vn w2 * rn (r_minus R2 R1) +
    rn (r_minus (r_minus G R1) (r_mul (skew w) R1)) + rn (r_minus (r_minus R2 R1) (r_mul (skew v) R1))).
Proof.
  intros H. eapply Rle_trans; [apply (vn_skew_mul _ R1 H)|]. apply Rmult_le_compat_l; [lra|].
  assert (S : rn (r_mul (skew w2) (r_minus R2 R1)) <= 2 * vn w2 * rn (r_minus R2 R1)) by (rewrite vn_skew; apply rn_mul).
  eapply Rle_trans; [|apply Rplus_le_compat_r, Rplus_le_compat_r, Rplus_le_compat_l, S].
  set (E2 := r_minus (r_minus G R2) (r_mul (skew w2) R2)). set (E3 := r_mul (skew w2) (r_minus R2 R1)).
  set (E4 := r_minus (r_minus G R1) (r_mul (skew w) R1)). set (E5 := r_minus (r_minus R2 R1) (r_mul (skew v) R1)).
  assert (EQ : r_mul (skew (v_sub w2 (v_sub w v))) R1 = r_minus (r_minus E4 E5) (rsum E2 E3)).
  { unfold E2, E3, E4, E5. destruct R1 as [a0 a1 a2 a3 a4 a5 a6 a7 a8], R2 as [b0 b1 b2 b3 b4 b5 b6 b7 b8], G as [c0 c1 c2 c3 c4 c5 c6 c7 c8], w as [wx wy wz], w2 as [ux uy uz], v as [px py pz]. unfold rsum, r_mul, skew, v_sub, r_minus; cbn [vx vy vz r0 r1 r2 r3 r4 r5 r6 r7 r8]. f_equal; ring. }
  rewrite EQ.
  apply rn4.
Qed.

(** The rotation that [diff] reports as zero. *)
Lemma dropped_near f g : rigid f -> rigid g -> r_diff (fM f) (fM g) 1 = v_zero -> rn (r_minus (fM g) (fM f)) <= 36 * kdl_epsilon.
Proof.
  intros Hf Hg E. assert (K : 0 < kdl_epsilon <= / 2) by (unfold kdl_epsilon; lra).
  pose proof (rotation_dropped f g kdl_epsilon Hf Hg K E) as C. unfold r_close, close in C. unfold rn, r_minus; cbn [r0 r1 r2 r3 r4 r5 r6 r7 r8].
  rewrite (Rabs_minus_sym (r0 (fM g))), (Rabs_minus_sym (r1 (fM g))), (Rabs_minus_sym (r2 (fM g))), (Rabs_minus_sym (r3 (fM g))), (Rabs_minus_sym (r4 (fM g))),
    (Rabs_minus_sym (r5 (fM g))), (Rabs_minus_sym (r6 (fM g))), (Rabs_minus_sym (r7 (fM g))), (Rabs_minus_sym (r8 (fM g))).
  decompose [and] C. lra.
Qed.

Section Error.
Variable c : Chain.
Variable q0 : list R.
Hypothesis Hok : chain_ok c.
Hypothesis Hq0 : length q0 = ch_nj c.

(** After a step [d], the error is the old one minus what the Jacobian makes of the step, up to a small fraction of the old error and, if the
    old error was too small a rotation to be seen, a multiple of the library's epsilon; or the new rotation is too small to be seen. *)
Lemma error_after B k : 0 <= B -> 0 < k ->
  exists eta, 0 < eta <= / 60 /\ forall g q d, rigid g -> length q = length q0 -> length d = length q0 -> d1 q q0 <= eta ->
    perr g (tip c q) + rerr g (tip c q) <= eta ->
    let t := f_diff (tip c q) g 1 in let q' := line q d 1 in let t' := f_diff (tip c q') g 1 in let V := jac_mul (jacl (ch_segs c) q) d in
    s1 d <= B * tn t ->
    tn t <= 9 * (perr g (tip c q) + rerr g (tip c q)) /\
    vn (v_sub (tvel t') (v_sub (tvel t) (tvel V))) <= k * tn t /\
    (trot t' = v_zero \/ vn (v_sub (trot t') (v_sub (trot t) (trot V))) <= k * tn t + 2268 * kdl_epsilon).
Proof.
  intros HB Hk. pose proof Hok as [[Hs Hj] Hsegs].
  destruct (taylor_pose (ch_segs c) q0 Hsegs ltac:(lia)) as (K & HK & T).
  destruct (pose_lip2 c q0 Hok Hq0) as (L & HL & PL).
  set (LB := L * B). assert (HLB : 0 <= LB) by (apply Rmult_le_pos; assumption).
  set (D := 9 * (249 + LB)).
  set (Q := 243 + 243 * (D * D) + 2 * D * LB + K * (B * B)).
  assert (HQ : 243 <= Q). { unfold Q. assert (0 <= D) by (unfold D; lra). assert (0 <= D * D) by nra. assert (0 <= 2 * D * LB) by nra. assert (0 <= K * (B * B)) by nra. lra. }
  set (Q2 := 39366 * (LB * LB) + 18 * (LB * LB) + K * (B * B) + Q).
  assert (HQ2 : Q <= Q2). { unfold Q2. assert (0 <= LB * LB) by nra. assert (0 <= K * (B * B)) by nra. lra. }
  exists (Rmin (Rmin (/ 60) (/ (540 * (B + LB + 1)))) (k / (27 * Q2))).
  set (eta := Rmin (Rmin (/ 60) (/ (540 * (B + LB + 1)))) (k / (27 * Q2))).
  assert (E1 : 0 < / (540 * (B + LB + 1))) by (apply Rinv_0_lt_compat; lra).
  assert (E2 : 0 < k / (27 * Q2)) by (apply Rdiv_lt_0_compat; lra).
  assert (H60 : eta <= / 60) by (unfold eta; eapply Rle_trans; [apply Rmin_l|apply Rmin_l]).
  assert (HB18 : eta <= / (540 * (B + LB + 1))) by (unfold eta; eapply Rle_trans; [apply Rmin_l|apply Rmin_r]).
  assert (HQk : eta <= k / (27 * Q2)) by (unfold eta; apply Rmin_r).
  assert (He : 0 < eta) by (unfold eta; repeat apply Rmin_glb_lt; lra).
  split; [lra|]. intros g q d Hg Hl Hd Nq Ne t q' t' V Hs1.
  assert (Et : tip c q = pose_product (assign (ch_segs c) q)) by (unfold tip, tip_frame; rewrite firstn_all; reflexivity).
  assert (Et' : tip c q' = pose_product (assign (ch_segs c) q')) by (unfold tip, tip_frame; rewrite firstn_all; reflexivity).
  assert (Hf : rigid (tip c q)) by (apply tip_frame_rigid; exact Hok).
  assert (Hf' : rigid (tip c q')) by (apply tip_frame_rigid; exact Hok).
  assert (Pp : 0 <= perr g (tip c q)) by apply vn_nn. assert (Pr : 0 <= rerr g (tip c q)) by apply rn_nn.
  destruct (r_diff_near (fM (tip c q)) (fM g) Hf Hg ltac:(unfold rerr in *; lra)) as (D1 & D2). cbv zeta in D1, D2.
  change (r_diff (fM (tip c q)) (fM g) 1) with (trot t) in D1, D2.
  assert (Ev : tvel t = v_sub (fp g) (fp (tip c q))).
  { unfold t, f_diff, v_diff, v_div, v_sub; cbn [tvel vx vy vz]. f_equal; field. }
  assert (Ev' : tvel t' = v_sub (fp g) (fp (tip c q'))).
  { unfold t', f_diff, v_diff, v_div, v_sub; cbn [tvel vx vy vz]. f_equal; field. }
  assert (EP : vn (tvel t) = perr g (tip c q)) by (rewrite Ev; reflexivity).
  assert (Tn : tn t <= 9 * (perr g (tip c q) + rerr g (tip c q))) by (unfold tn; rewrite EP; unfold rerr in *; lra).
  pose proof (tn_nn t) as T0. split; [exact Tn|].
  set (x := tn t) in *.
  assert (BLx : (B + LB + 1) * x <= / 60).
  { apply Rle_trans with ((B + LB + 1) * (9 * / (540 * (B + LB + 1)))); [|right; field; lra]. apply Rmult_le_compat_l; lra. }
  assert (Bx : B * x <= / 60) by nra. assert (LBx : LB * x <= / 60) by nra. assert (X1 : x <= / 60) by nra.
  assert (BX0 : 0 <= B * x) by nra. assert (LBX0 : 0 <= LB * x) by nra.
  assert (Qx : 3 * Q2 * x <= k).
  { apply Rle_trans with (3 * Q2 * (9 * (k / (27 * Q2)))); [|right; field; lra]. apply Rmult_le_compat_l; lra. }
  destruct (T q d Hl Hd ltac:(lra) ltac:(lra)) as (T1 & T2). clear T. cbv beta zeta in T1, T2. fold q' in T1, T2. rewrite <- Et, <- Et' in T1, T2. fold V in T1, T2.
  assert (S2 : K * (s1 d * s1 d) <= K * (B * B) * (x * x)).
  { rewrite Rmult_assoc. apply Rmult_le_compat_l; [exact HK|]. pose proof (s1_nn d). assert (s1 d * s1 d <= (B * x) * (B * x)) by nra. nra. }
  assert (KB0 : 0 <= K * (B * B)) by nra. assert (X2 : 0 <= x * x) by nra.
  assert (QX : 3 * (Q2 * (x * x)) <= k * x) by nra.
  assert (KQ : K * (B * B) * (x * x) <= Q2 * (x * x)).
  { apply Rmult_le_compat_r; [exact X2|]. unfold Q2. assert (0 <= LB * LB) by nra. lra. }
  split.
  - replace (v_sub (tvel t') (v_sub (tvel t) (tvel V))) with (v_sub v_zero (v_sub (v_sub (fp (tip c q')) (fp (tip c q))) (tvel V))).
    2:{ rewrite Ev, Ev'. unfold v_sub, v_zero; cbn [vx vy vz]. f_equal; ring. }
    assert (N : forall a, vn (v_sub v_zero a) = vn a) by (intros a; unfold vn, v_sub, v_zero; cbn [vx vy vz]; rewrite !Rminus_0_l, !Rabs_Ropp; reflexivity).
    rewrite N. assert (0 <= Q2 * (x * x)) by (apply Rmult_le_pos; lra). lra.
  - assert (Lq' : length q' = length q0) by (unfold q'; rewrite line_length by lia; exact Hl).
    assert (DD : d1 q' q = s1 d). { unfold q'. rewrite line_d1 by lia. rewrite Rabs_R1. ring. }
    assert (Nq' : d1 q' q0 <= 1). { pose proof (d1_tri q' q q0 ltac:(lia) ltac:(lia)). lra. }
    assert (RR : rn (r_minus (fM (tip c q')) (fM (tip c q))) <= LB * x).
    { pose proof (PL q' q Lq' Hl Nq' ltac:(lra)) as P. pose proof (vn_nn (v_sub (fp (tip c q')) (fp (tip c q)))). rewrite DD in P.
      assert (L * s1 d <= L * (B * x)) by (apply Rmult_le_compat_l; lra). unfold LB. lra. }
    assert (GR' : rn (r_minus (fM g) (fM (tip c q'))) <= rn (r_minus (fM g) (fM (tip c q))) + LB * x).
    { eapply Rle_trans; [apply (rn_minus_triangle (fM g) (fM (tip c q)) (fM (tip c q')))|]. apply Rplus_le_compat_l.
      replace (rn (r_minus (fM (tip c q)) (fM (tip c q')))) with (rn (r_minus (fM (tip c q')) (fM (tip c q)))); [exact RR|].
      unfold rn, r_minus; cbn [r0 r1 r2 r3 r4 r5 r6 r7 r8].
      rewrite (Rabs_minus_sym (r0 (fM (tip c q')))), (Rabs_minus_sym (r1 (fM (tip c q')))), (Rabs_minus_sym (r2 (fM (tip c q')))), (Rabs_minus_sym (r3 (fM (tip c q')))), (Rabs_minus_sym (r4 (fM (tip c q')))),
        (Rabs_minus_sym (r5 (fM (tip c q')))), (Rabs_minus_sym (r6 (fM (tip c q')))), (Rabs_minus_sym (r7 (fM (tip c q')))), (Rabs_minus_sym (r8 (fM (tip c q')))). reflexivity. }
    destruct (r_diff_near (fM (tip c q')) (fM g) Hf' Hg ltac:(unfold rerr in *; lra)) as (F1 & F2). cbv zeta in F1, F2.
    change (r_diff (fM (tip c q')) (fM g) 1) with (trot t') in F1, F2.
    destruct F2 as [F2|F2]; [left; exact F2|right].
    eapply Rle_trans; [apply (rot_after (fM (tip c q)) (fM (tip c q')) (fM g) (trot t) (trot t') (trot V) Hf)|].
    pose proof (vn_nn (trot t')) as W0. set (w := vn (trot t')) in *.
    assert (KE : 0 < kdl_epsilon) by (unfold kdl_epsilon; lra).
    destruct D2 as [D2|D2].
    + pose proof (dropped_near (tip c q) g Hf Hg D2) as DN.
      assert (E4 : rn (r_minus (r_minus (fM g) (fM (tip c q))) (r_mul (skew (trot t)) (fM (tip c q)))) <= 36 * kdl_epsilon).
      { eapply Rle_trans; [|exact DN]. right. f_equal. rewrite D2. destruct (fM g) as [a0 a1 a2 a3 a4 a5 a6 a7 a8], (fM (tip c q)) as [b0 b1 b2 b3 b4 b5 b6 b7 b8]. unfold r_minus, r_mul, skew, v_zero; cbn [vx vy vz r0 r1 r2 r3 r4 r5 r6 r7 r8]. f_equal; ring. }
      set (tau := 36 * kdl_epsilon) in *. assert (HT : 0 < tau <= 36 / 1000000) by (unfold tau, kdl_epsilon; lra).
      assert (W1 : w <= 9 * (tau + LB * x)) by lra.
      assert (WW : w * w <= 162 * (tau * tau + LB * x * (LB * x))).
      { assert (w * w <= 9 * (tau + LB * x) * (9 * (tau + LB * x))) by (apply Rmult_le_compat; lra). pose proof (Rle_0_sqr (tau - LB * x)) as Sq. unfold Rsqr in Sq. lra. }
      assert (TT : tau * tau <= 36 / 1000000 * tau) by nra.
      assert (G1 : 243 * (w * w) <= 2 * tau + 39366 * (LB * LB) * (x * x)) by lra.
      assert (G2 : 2 * w * rn (r_minus (fM (tip c q')) (fM (tip c q))) <= 18 * tau + 18 * (LB * LB) * (x * x)).
      { apply Rle_trans with (2 * (9 * (tau + LB * x)) * (LB * x)).
        - apply Rmult_le_compat; [lra|apply rn_nn|lra|exact RR].
        - assert (tau * (LB * x) <= tau * 1) by (apply Rmult_le_compat_l; lra). lra. }
      assert (G3 : 39366 * (LB * LB) * (x * x) + 18 * (LB * LB) * (x * x) + K * (B * B) * (x * x) <= Q2 * (x * x)).
      { assert (0 <= Q * (x * x)) by (apply Rmult_le_pos; lra). unfold Q2. lra. }
      replace (2268 * kdl_epsilon) with (63 * tau) by (unfold tau; ring). lra.
    + assert (Wt : vn (trot t) <= x) by (unfold x, tn; pose proof (vn_nn (tvel t)); lra). pose proof (vn_nn (trot t)) as Wt0.
      assert (WS : vn (trot t) * vn (trot t) <= x * x) by nra.
      assert (GR : rn (r_minus (fM g) (fM (tip c q))) <= 249 * x).
      { eapply Rle_trans; [apply (rn_minus_triangle_zero (fM g) (fM (tip c q)) (r_mul (skew (trot t)) (fM (tip c q))))|].
        pose proof (rn_mul_r (fM (tip c q)) (skew (trot t)) Hf) as M. pose proof (rn_skew (trot t)).
        assert (243 * (x * x) <= 243 * x) by nra. lra. }
      assert (W1 : w <= D * x) by (unfold D; lra).
      assert (WW : w * w <= D * D * (x * x)) by nra.
      assert (G2 : 2 * w * rn (r_minus (fM (tip c q')) (fM (tip c q))) <= 2 * D * LB * (x * x)).
      { apply Rle_trans with (2 * (D * x) * (LB * x)); [|right; ring]. apply Rmult_le_compat; [lra|apply rn_nn|lra|exact RR]. }
      assert (G3 : 243 * (D * D) * (x * x) + 2 * D * LB * (x * x) + 243 * (x * x) + K * (B * B) * (x * x) <= Q2 * (x * x)).
      { replace (243 * (D * D) * (x * x) + 2 * D * LB * (x * x) + 243 * (x * x) + K * (B * B) * (x * x)) with (Q * (x * x)) by (unfold Q; ring).
        apply Rmult_le_compat_r; assumption. }
      lra.
Qed.
End Error.
