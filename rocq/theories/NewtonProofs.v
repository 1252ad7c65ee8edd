(** The Newton iteration of the position solvers converges near a regular solution. *)
From Coq Require Import Reals String List ZArith Bool Arith Lia Lra Psatz.
From Verif Require Import FramesModel FramesSpec FramesProofs FrameOpsProofs Outcome InertiaModel DualModel KinModel KinSpec DerivProofs KinProofs JacProofs JacDotProofs
  LinModel LinSpec SumProofs IkModel IkSpec IkProofs IkGeoProofs VelIkModel VelIkSpec VelIkWitness RotNear LipProofs TaylorProofs NewtonSpec.
Import ListNotations.
Local Open Scope R_scope.

Lemma size_s1 d : size (length d) d = s1 d.
Proof.
  unfold size. induction d as [|x d IH]; [reflexivity|]. cbn [length]. rewrite sumn_head. cbn [nth]. rewrite IH, s1_cons. reflexivity.
Qed.
Lemma twist_size_tn t : twist_size t = tn t.
Proof. unfold twist_size, tn, vn. cbn [sumn t_at]. ring. Qed.
Lemma d1_within q q0 rho : length q = length q0 -> d1 q q0 <= rho -> joints_within rho q q0.
Proof.
  revert q0. induction q as [|x q IH]; intros [|y q0] H N; try discriminate; (split; [exact H|]).
  - intros i Hi. cbn in Hi. lia.
  - cbn [d1] in N. cbn [length] in H. injection H as H. pose proof (d1_nn q q0). pose proof (Rabs_pos (x - y)).
    intros [|i] Hi; cbn [nth]; [lra|]. destruct (IH q0 H ltac:(lra)) as (_ & P). apply P. cbn in Hi. lia.
Qed.
Lemma within_d1 q q0 rho : joints_within rho q q0 -> d1 q q0 <= INR (length q0) * rho.
Proof.
  revert q0. induction q as [|x q IH]; intros [|y q0] (H & P); try discriminate.
  - cbn. lra.
  - cbn [d1]. cbn [length] in *. injection H as H. rewrite S_INR. pose proof (P 0%nat ltac:(lia)) as P0. cbn [nth] in P0.
    assert (d1 q q0 <= INR (length q0) * rho); [|lra]. apply IH. split; [exact H|]. intros i Hi. apply (P (S i)). lia.
Qed.

(** ** Lipschitz bound of the pose *)
Lemma vn_sub_tri a b c : vn (v_sub a c) <= vn (v_sub a b) + vn (v_sub b c).
Proof.
  unfold vn, v_sub; cbn [vx vy vz]. assert (K : forall x y z, Rabs (x - z) <= Rabs (x - y) + Rabs (y - z)).
  { intros x y z. replace (x - z) with ((x - y) + (y - z)) by ring. apply Rabs_triang. }
  pose proof (K (vx a) (vx b) (vx c)). pose proof (K (vy a) (vy b) (vy c)). pose proof (K (vz a) (vz b) (vz c)). lra.
Qed.
Lemma lip_at q0 f : lip q0 f -> exists L, 0 <= L /\ forall q, length q = length q0 -> d1 q q0 <= 1 -> Rabs (f q0 - f q) <= L * d1 q q0.
Proof.
  intros (L & HL & H). exists L. split; [exact HL|]. intros q Hq N. rewrite d1_sym. apply H; auto. rewrite d1_refl; lra.
Qed.
Lemma pose_lip c q0 : chain_ok c -> length q0 = ch_nj c ->
  exists L, 0 <= L /\ forall q, length q = length q0 -> d1 q q0 <= 1 ->
    vn (v_sub (fp (tip c q0)) (fp (tip c q))) + rn (r_minus (fM (tip c q0)) (fM (tip c q))) <= L * d1 q q0.
Proof.
  intros [[Hs Hj] _] Hq. unfold tip, tip_frame. rewrite firstn_all.
  destruct (lip_chain (ch_segs c) q0 ltac:(lia)) as ((((L0 & L1 & L2) & (L3 & L4 & L5) & (L6 & L7 & L8)) & (X & Y & Z)) & _).
  apply lip_at in L0, L1, L2, L3, L4, L5, L6, L7, L8, X, Y, Z.
  destruct L0 as (M0 & P0 & H0). destruct L1 as (M1 & P1 & H1). destruct L2 as (M2 & P2 & H2). destruct L3 as (M3 & P3 & H3).
  destruct L4 as (M4 & P4 & H4). destruct L5 as (M5 & P5 & H5). destruct L6 as (M6 & P6 & H6). destruct L7 as (M7 & P7 & H7).
  destruct L8 as (M8 & P8 & H8). destruct X as (M9 & P9 & H9). destruct Y as (M10 & P10 & H10). destruct Z as (M11 & P11 & H11).
  exists (M0 + M1 + M2 + M3 + M4 + M5 + M6 + M7 + M8 + M9 + M10 + M11). split; [lra|]. intros q Hl N.
  specialize (H0 q Hl N). specialize (H1 q Hl N). specialize (H2 q Hl N). specialize (H3 q Hl N). specialize (H4 q Hl N). specialize (H5 q Hl N).
  specialize (H6 q Hl N). specialize (H7 q Hl N). specialize (H8 q Hl N). specialize (H9 q Hl N). specialize (H10 q Hl N). specialize (H11 q Hl N).
  unfold vn, rn, v_sub, r_minus; cbn [vx vy vz r0 r1 r2 r3 r4 r5 r6 r7 r8]. lra.
Qed.

(** ** Algebra of the error matrices *)
Lemma rn_tri3 a b c d : rn (r_minus (r_minus a b) c) <= rn (r_minus (r_minus a b) d) + rn (r_minus d c).
Proof. apply (rn_minus_triangle (r_minus a b) d c). Qed.
Lemma r_minus_split g r r' we wd R0 : r_mul (skew (v_sub we wd)) R0 = r_minus (r_mul (skew we) R0) (r_mul (skew wd) R0) ->
  rn (r_minus g r') <= rn (r_minus (r_minus g r) (r_mul (skew we) R0)) + rn (r_mul (skew (v_sub we wd)) R0) + rn (r_minus (r_minus r' r) (r_mul (skew wd) R0)).
Proof.
  intros ->. set (A := r_mul (skew we) R0). set (B := r_mul (skew wd) R0).
  assert (K : forall g r r' a b : R, Rabs (g - r') <= Rabs (g - r - a) + Rabs (a - b) + Rabs (r' - r - b)).
  { intros x y z a b. replace (x - z) with ((x - y - a) + (a - b) + - (z - y - b)) by ring.
    eapply Rle_trans; [apply Rabs_add3|]. rewrite Rabs_Ropp. lra. }
  unfold rn, r_minus; cbn [r0 r1 r2 r3 r4 r5 r6 r7 r8].
  pose proof (K (r0 g) (r0 r) (r0 r') (r0 A) (r0 B)). pose proof (K (r1 g) (r1 r) (r1 r') (r1 A) (r1 B)). pose proof (K (r2 g) (r2 r) (r2 r') (r2 A) (r2 B)).
  pose proof (K (r3 g) (r3 r) (r3 r') (r3 A) (r3 B)). pose proof (K (r4 g) (r4 r) (r4 r') (r4 A) (r4 B)). pose proof (K (r5 g) (r5 r) (r5 r') (r5 A) (r5 B)).
  pose proof (K (r6 g) (r6 r) (r6 r') (r6 A) (r6 B)). pose proof (K (r7 g) (r7 r) (r7 r') (r7 A) (r7 B)). pose proof (K (r8 g) (r8 r) (r8 r') (r8 A) (r8 B)). lra.
Qed.
Lemma skew_mul_sub we wd R0 : r_mul (skew (v_sub we wd)) R0 = r_minus (r_mul (skew we) R0) (r_mul (skew wd) R0).
Proof. destruct we as [a b d], wd as [e f g], R0 as [h i j k l m n o p]. unfold r_mul, skew, v_sub, r_minus; cbn [vx vy vz r0 r1 r2 r3 r4 r5 r6 r7 r8]. f_equal; ring. Qed.

Lemma rn_minus_triangle_zero a b d : rn (r_minus a b) <= rn d + rn (r_minus (r_minus a b) d).
Proof.
  assert (K : forall x y z : R, Rabs (x - y) <= Rabs z + Rabs (x - y - z)).
  { intros x y z. replace (x - y) with (z + (x - y - z)) at 1 by ring. apply Rabs_triang. }
  unfold rn, r_minus; cbn [r0 r1 r2 r3 r4 r5 r6 r7 r8].
  pose proof (K (r0 a) (r0 b) (r0 d)). pose proof (K (r1 a) (r1 b) (r1 d)). pose proof (K (r2 a) (r2 b) (r2 d)).
  pose proof (K (r3 a) (r3 b) (r3 d)). pose proof (K (r4 a) (r4 b) (r4 d)). pose proof (K (r5 a) (r5 b) (r5 d)).
  pose proof (K (r6 a) (r6 b) (r6 d)). pose proof (K (r7 a) (r7 b) (r7 d)). pose proof (K (r8 a) (r8 b) (r8 d)). lra.
Qed.

(** The error of a pose: distance of the positions, and of the matrices. *)
Definition perr (g f : Frame) : R := vn (v_sub (fp g) (fp f)).
Definition rerr (g f : Frame) : R := rn (r_minus (fM g) (fM f)).

Section Newton.
Variable c : Chain.
Variable q0 : list R.
Hypothesis Hok : chain_ok c.
Hypothesis Hq0 : length q0 = ch_nj c.

(** What one step does. *)
Lemma newton_step B r k : 0 <= B -> 0 <= r -> 0 < k -> 36 * r <= k ->
  exists eta, 0 < eta <= / 30 /\ forall g q d, rigid g -> length q = length q0 -> length d = length q0 -> d1 q q0 <= eta ->
    perr g (tip c q) + rerr g (tip c q) <= eta ->
    let t := f_diff (tip c q) g 1 in let q' := line q d 1 in
    s1 d <= B * tn t -> (forall i, (i < 6)%nat -> Rabs (image (ch_nj c) (tip_jacobian c q) d i - t_at t i) <= r * tn t) ->
    tn t <= 9 * (perr g (tip c q) + rerr g (tip c q)) /\ vn (tvel t) = perr g (tip c q) /\
    perr g (tip c q') <= k * tn t /\
    (rerr g (tip c q') <= k * tn t \/ trot t = v_zero /\ rn (r_minus (fM (tip c q')) (fM (tip c q))) <= k * tn t).
Proof.
  intros HB Hr Hk Hrk. pose proof Hok as [[Hs Hj] Hsegs].
  destruct (taylor_pose (ch_segs c) q0 Hsegs ltac:(lia)) as (K & HK & T).
  set (Q := 243 + K * (B * B)). assert (HQ : 243 <= Q) by (unfold Q; nra).
  assert (HBQ : 0 < 18 * (B + 1)) by lra.
  exists (Rmin (Rmin (/ 30) (/ (18 * (B + 1)))) (k / (18 * Q))).
  assert (E1 : 0 < / (18 * (B + 1))) by (apply Rinv_0_lt_compat; lra).
  assert (E2 : 0 < k / (18 * Q)) by (apply Rdiv_lt_0_compat; lra).
  set (eta := Rmin (Rmin (/ 30) (/ (18 * (B + 1)))) (k / (18 * Q))).
  assert (H30 : eta <= / 30) by (unfold eta; eapply Rle_trans; [apply Rmin_l|apply Rmin_l]).
  assert (HB18 : eta <= / (18 * (B + 1))) by (unfold eta; eapply Rle_trans; [apply Rmin_l|apply Rmin_r]).
  assert (HQk : eta <= k / (18 * Q)) by (unfold eta; apply Rmin_r).
  assert (He : 0 < eta) by (unfold eta; repeat apply Rmin_glb_lt; lra).
  split; [lra|]. intros g q d Hg Hl Hd Nq Ne t q' Hs1 Hres.
  assert (Et : tip c q = pose_product (assign (ch_segs c) q)) by (unfold tip, tip_frame; rewrite firstn_all; reflexivity).
  assert (Et' : tip c q' = pose_product (assign (ch_segs c) q')) by (unfold tip, tip_frame; rewrite firstn_all; reflexivity).
  assert (Hf : rigid (tip c q)) by (apply tip_frame_rigid; exact Hok).
  assert (Pp : 0 <= perr g (tip c q)) by apply vn_nn. assert (Pr : 0 <= rerr g (tip c q)) by apply rn_nn.
  destruct (r_diff_near (fM (tip c q)) (fM g) Hf Hg ltac:(unfold rerr in *; lra)) as (D1 & D2). cbv zeta in D1, D2.
  change (r_diff (fM (tip c q)) (fM g) 1) with (trot t) in D1, D2.
  assert (Ev : tvel t = v_sub (fp g) (fp (tip c q))).
  { unfold t, f_diff, v_diff, v_div, v_sub; cbn [tvel vx vy vz]. f_equal; field. }
  assert (EP : vn (tvel t) = perr g (tip c q)) by (rewrite Ev; reflexivity).
  assert (Tn : tn t <= 9 * (perr g (tip c q) + rerr g (tip c q))) by (unfold tn; rewrite EP; unfold rerr in *; lra).
  pose proof (tn_nn t) as T0. split; [exact Tn|]. split; [exact EP|].
  set (x := tn t) in *.
  assert (Bx : B * x <= / 2).
  { apply Rle_trans with ((B + 1) * (9 * / (18 * (B + 1)))); [|right; field; lra]. apply Rle_trans with ((B + 1) * x); [nra|].
    apply Rmult_le_compat_l; lra. }
  assert (Qx : Q * x <= k / 2).
  { apply Rle_trans with (Q * (9 * (k / (18 * Q)))); [|right; field; lra]. apply Rmult_le_compat_l; lra. }
  destruct (T q d Hl Hd ltac:(lra) ltac:(lra)) as (T1 & T2). clear T. cbv beta zeta in T1, T2. fold q' in T1, T2. rewrite <- Et, <- Et' in T1, T2.
  assert (S2 : K * (s1 d * s1 d) <= K * (B * B) * (x * x)).
  { rewrite Rmult_assoc. apply Rmult_le_compat_l; [exact HK|]. pose proof (s1_nn d). assert (s1 d * s1 d <= (B * x) * (B * x)) by nra. nra. }
  set (V := jac_mul (jacl (ch_segs c) q) d) in *.
  assert (RV : forall i, (i < 6)%nat -> image (ch_nj c) (tip_jacobian c q) d i = t_at V i).
  { intros i Hi. unfold image, tip_jacobian. rewrite jac_is_jacl by (auto; lia). unfold V.
    rewrite (jac_mul_row (fun t => t_at t i)).
    - rewrite Hd, Hq0. apply sumn_ext. intros j _. ring.
    - intros a b. do 6 (destruct i as [|i]; [unfold t_add, v_add; cbn; ring|]). lia.
    - intros a b. do 6 (destruct i as [|i]; [unfold t_scale, v_scale; cbn; ring|]). lia.
    - do 6 (destruct i as [|i]; [reflexivity|]). lia.
    - rewrite jacl_length by lia. lia. }
  assert (Vv : vn (v_sub (tvel t) (tvel V)) <= 3 * r * x).
  { pose proof (Hres 0%nat ltac:(lia)) as A0. pose proof (Hres 1%nat ltac:(lia)) as A1. pose proof (Hres 2%nat ltac:(lia)) as A2.
    rewrite RV in A0, A1, A2 by lia. cbn [t_at] in A0, A1, A2. unfold vn, v_sub; cbn [vx vy vz].
    rewrite (Rabs_minus_sym (vx (tvel t))), (Rabs_minus_sym (vy (tvel t))), (Rabs_minus_sym (vz (tvel t))). lra. }
  assert (Vw : vn (v_sub (trot t) (trot V)) <= 3 * r * x).
  { pose proof (Hres 3%nat ltac:(lia)) as A0. pose proof (Hres 4%nat ltac:(lia)) as A1. pose proof (Hres 5%nat ltac:(lia)) as A2.
    rewrite RV in A0, A1, A2 by lia. cbn [t_at] in A0, A1, A2. unfold vn, v_sub; cbn [vx vy vz].
    rewrite (Rabs_minus_sym (vx (trot t))), (Rabs_minus_sym (vy (trot t))), (Rabs_minus_sym (vz (trot t))). lra. }
  assert (W3 : forall w, vn w <= 3 * r * x -> rn (r_mul (skew w) (fM (tip c q))) <= 18 * r * x).
  { intros w Hw. eapply Rle_trans; [apply rn_mul_r; apply Hf|]. pose proof (rn_skew w). lra. }
  assert (F1 : 18 * r * x <= k / 2 * x) by nra.
  assert (F2 : 243 * (x * x) + K * (B * B) * (x * x) <= k / 2 * x).
  { replace (243 * (x * x) + K * (B * B) * (x * x)) with (Q * x * x) by (unfold Q; ring). apply Rmult_le_compat_r; assumption. }
  assert (F3 : 0 <= 243 * (x * x)) by nra. assert (F4 : 0 <= K * (B * B) * (x * x)) by (apply Rmult_le_pos; nra).
  split.
  - unfold perr.
    assert (Sp : vn (v_sub (fp g) (fp (tip c q'))) <= vn (v_sub (tvel t) (tvel V)) + vn (v_sub (v_sub (fp (tip c q')) (fp (tip c q))) (tvel V))).
    { rewrite Ev. unfold vn, v_sub; cbn [vx vy vz].
      assert (KK : forall g p p' v : R, Rabs (g - p') <= Rabs (g - p - v) + Rabs (p' - p - v)).
      { intros a b a' v. replace (a - a') with ((a - b - v) + - (a' - b - v)) by ring. eapply Rle_trans; [apply Rabs_triang|]. rewrite Rabs_Ropp. lra. }
      pose proof (KK (vx (fp g)) (vx (fp (tip c q))) (vx (fp (tip c q'))) (vx (tvel V))).
      pose proof (KK (vy (fp g)) (vy (fp (tip c q))) (vy (fp (tip c q'))) (vy (tvel V))).
      pose proof (KK (vz (fp g)) (vz (fp (tip c q))) (vz (fp (tip c q'))) (vz (tvel V))). lra. }
    assert (3 * r * x <= 18 * r * x) by nra. lra.
  - destruct D2 as [D2|D2].
    + right. split; [exact D2|].
      eapply Rle_trans; [apply (rn_minus_triangle_zero (fM (tip c q')) (fM (tip c q)) (r_mul (skew (trot V)) (fM (tip c q))))|].
      assert (vn (trot V) <= 3 * r * x).
      { eapply Rle_trans; [|exact Vw]. rewrite D2. unfold vn, v_sub, v_zero; cbn [vx vy vz]. rewrite !Rminus_0_l, !Rabs_Ropp. lra. }
      pose proof (W3 (trot V) ltac:(assumption)). lra.
    + left. unfold rerr.
      eapply Rle_trans; [apply (r_minus_split (fM g) (fM (tip c q)) (fM (tip c q')) (trot t) (trot V) (fM (tip c q)) (skew_mul_sub _ _ _))|].
      pose proof (W3 _ Vw).
      assert (vn (trot t) * vn (trot t) <= x * x).
      { assert (vn (trot t) <= x) by (unfold x, tn; pose proof (vn_nn (tvel t)); lra). pose proof (vn_nn (trot t)). nra. }
      lra.
Qed.
End Newton.
