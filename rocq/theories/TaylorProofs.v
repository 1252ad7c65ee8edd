(** First order expansion of the tip pose in the joint values, with a quadratic remainder. *)
From Coq Require Import Reals List ZArith Bool Arith Lia Lra Psatz.
From Verif Require Import FramesModel FramesSpec FramesProofs Outcome InertiaModel DualModel KinModel KinSpec DerivProofs KinProofs JacProofs JacDotProofs LinModel LinSpec SumProofs RotNear LipProofs.
Import ListNotations.
Local Open Scope R_scope.

Definition s1 (d : list R) : R := d1 d (map (fun _ => 0) d).
Lemma s1_cons x d : s1 (x :: d) = Rabs x + s1 d.
Proof. unfold s1. cbn [map d1]. rewrite Rminus_0_r. reflexivity. Qed.
Lemma s1_nn d : 0 <= s1 d. Proof. apply d1_nn. Qed.
Lemma s1_nth d : forall k, Rabs (nth k d 0) <= s1 d.
Proof.
  induction d as [|x d IH]; intros [|k].
  - cbn [nth]. rewrite Rabs_R0. apply s1_nn.
  - cbn [nth]. rewrite Rabs_R0. apply s1_nn.
  - rewrite s1_cons. cbn [nth]. pose proof (s1_nn d). lra.
  - rewrite s1_cons. cbn [nth]. pose proof (IH k). pose proof (Rabs_pos x). lra.
Qed.

(** The point q + s d. *)
Definition line (q d : list R) (s : R) : list R := map (fun p => fst p + s * snd p) (combine q d).
Lemma line_length q d s : length d = length q -> length (line q d s) = length q.
Proof. intros H. unfold line. rewrite map_length, combine_length, H. apply Nat.min_id. Qed.
Lemma line_0 q : forall d, length d = length q -> line q d 0 = q.
Proof.
  induction q as [|x q IH]; intros [|y d] H; try discriminate; [reflexivity|]. unfold line in *. cbn [combine map fst snd].
  rewrite IH by (cbn in H; lia). f_equal. ring.
Qed.
Lemma line_nth q : forall d s i, length d = length q -> nth i (line q d s) 0 = nth i q 0 + s * nth i d 0.
Proof.
  induction q as [|x q IH]; intros [|y d] s [|i] H; try discriminate; unfold line in *; cbn [combine map fst snd nth].
  - ring.
  - ring.
  - reflexivity.
  - apply IH. cbn in H. lia.
Qed.
Lemma line_d1 q : forall d s, length d = length q -> d1 (line q d s) q = Rabs s * s1 d.
Proof.
  induction q as [|x q IH]; intros [|y d] s H; try discriminate; [unfold s1; cbn; ring|].
  unfold line in *. cbn [combine map fst snd d1]. rewrite IH by (cbn in H; lia). rewrite s1_cons.
  replace (x + s * y - x) with (s * y) by ring. rewrite Rabs_mult. ring.
Qed.
Lemma line_motion n q d t : length q = n -> length d = n -> joint_motion n (line q d) t d.
Proof.
  intros Hq Hd. split; [|split; [exact Hd|]].
  - intros s. rewrite line_length; lia.
  - intros i Hi. apply (dl_ext (fun s => nth i q 0 + s * nth i d 0)); [intros s; rewrite line_nth by lia; reflexivity|].
    eapply dl_eq.
    + apply (derivable_pt_lim_plus (fun _ => nth i q 0) (fun s => s * nth i d 0)); [apply derivable_pt_lim_const|].
      apply (derivable_pt_lim_mult id (fun _ => nth i d 0)); [apply derivable_pt_lim_id|apply derivable_pt_lim_const].
    + unfold id. ring.
Qed.

(** Lipschitz in q, uniformly in the direction d. *)
Definition lipl (q0 : list R) (f : list R -> list R -> R) : Prop :=
  exists L, 0 <= L /\ forall d, length d = length q0 ->
    (forall a, length a = length q0 -> d1 a q0 <= 1 -> Rabs (f a d) <= L * s1 d) /\
    (forall a b, length a = length q0 -> length b = length q0 -> d1 a q0 <= 1 -> d1 b q0 <= 1 ->
       Rabs (f a d - f b d) <= L * d1 a b * s1 d).
Lemma lip_bounded q0 g : lip q0 g -> exists B, 0 <= B /\ forall a, length a = length q0 -> d1 a q0 <= 1 -> Rabs (g a) <= B.
Proof.
  intros (L & HL & H). exists (Rabs (g q0) + L). pose proof (Rabs_pos (g q0)). split; [lra|]. intros a Ha Na.
  assert (Z : d1 q0 q0 <= 1) by (rewrite d1_refl; lra). specialize (H a q0 Ha eq_refl Na Z).
  replace (g a) with (g q0 + (g a - g q0)) by ring. eapply Rle_trans; [apply Rabs_triang|]. nra.
Qed.
Lemma lipl_ext q0 f g : (forall q d, length q = length q0 -> length d = length q0 -> f q d = g q d) -> lipl q0 f -> lipl q0 g.
Proof.
  intros E (L & HL & H). exists L. split; [exact HL|]. intros d Hd. destruct (H d Hd) as (H1 & H2). split.
  - intros a Ha Na. rewrite <- E by assumption. auto.
  - intros a b Ha Hb Na Nb. rewrite <- !E by assumption. auto.
Qed.
Lemma lipl_zero q0 : lipl q0 (fun _ _ => 0).
Proof. exists 0. split; [lra|]. intros d _. split; intros; rewrite ?Rminus_0_r, Rabs_R0; lra. Qed.
Lemma lipl_add q0 f g : lipl q0 f -> lipl q0 g -> lipl q0 (fun q d => f q d + g q d).
Proof.
  intros (L & HL & H) (M & HM & G). exists (L + M). split; [lra|]. intros d Hd. destruct (H d Hd) as (H1 & H2). destruct (G d Hd) as (G1 & G2). split.
  - intros a Ha Na. specialize (H1 a Ha Na). specialize (G1 a Ha Na). eapply Rle_trans; [apply Rabs_triang|]. lra.
  - intros a b Ha Hb Na Nb. specialize (H2 a b Ha Hb Na Nb). specialize (G2 a b Ha Hb Na Nb).
    replace (f a d + g a d - (f b d + g b d)) with ((f a d - f b d) + (g a d - g b d)) by ring.
    eapply Rle_trans; [apply Rabs_triang|]. lra.
Qed.
Lemma lipl_opp q0 f : lipl q0 f -> lipl q0 (fun q d => - f q d).
Proof.
  intros (L & HL & H). exists L. split; [exact HL|]. intros d Hd. destruct (H d Hd) as (H1 & H2). split.
  - intros a Ha Na. rewrite Rabs_Ropp. auto.
  - intros a b Ha Hb Na Nb. replace (- f a d - - f b d) with (- (f a d - f b d)) by ring. rewrite Rabs_Ropp. auto.
Qed.
Lemma lipl_sub q0 f g : lipl q0 f -> lipl q0 g -> lipl q0 (fun q d => f q d - g q d).
Proof. intros F G. unfold Rminus. apply lipl_add; [exact F|apply lipl_opp; exact G]. Qed.
Lemma lipl_mul q0 f g : lipl q0 f -> lip q0 g -> lipl q0 (fun q d => f q d * g q).
Proof.
  intros (L & HL & H) G0. destruct (lip_bounded _ _ G0) as (B & HB & GB). destruct G0 as (M & HM & G).
  exists (L * B + L * M). split; [nra|]. intros d Hd. destruct (H d Hd) as (H1 & H2). pose proof (s1_nn d) as Sd. split.
  - intros a Ha Na. rewrite Rabs_mult. specialize (H1 a Ha Na). specialize (GB a Ha Na).
    assert (Rabs (f a d) * Rabs (g a) <= (L * s1 d) * B) by (apply Rmult_le_compat; try apply Rabs_pos; lra).
    assert (0 <= L * M * s1 d) by (apply Rmult_le_pos; nra). lra.
  - intros a b Ha Hb Na Nb. specialize (H1 b Hb Nb). specialize (H2 a b Ha Hb Na Nb). specialize (G a b Ha Hb Na Nb). specialize (GB a Ha Na).
    replace (f a d * g a - f b d * g b) with ((f a d - f b d) * g a + f b d * (g a - g b)) by ring.
    eapply Rle_trans; [apply Rabs_triang|]. rewrite !Rabs_mult.
    assert (Rabs (f a d - f b d) * Rabs (g a) <= (L * d1 a b * s1 d) * B) by (apply Rmult_le_compat; try apply Rabs_pos; lra).
    assert (Rabs (f b d) * Rabs (g a - g b) <= (L * s1 d) * (M * d1 a b)) by (apply Rmult_le_compat; try apply Rabs_pos; lra).
    lra.
Qed.
Lemma lipl_nth q0 g k : lip q0 g -> lipl q0 (fun q d => nth k d 0 * g q).
Proof.
  intros G. apply (lipl_mul q0 (fun _ d => nth k d 0) g); [|exact G].
  exists 1. split; [lra|]. intros d _. split.
  - intros a _ _. pose proof (s1_nth d k). lra.
  - intros a b _ _ _ _. rewrite Rminus_diag_eq, Rabs_R0 by reflexivity. pose proof (d1_nn a b). pose proof (s1_nn d). nra.
Qed.
Lemma lipl_sumn q0 g : (forall k, lip q0 (g k)) -> forall n, lipl q0 (fun q d => sumn n (fun k => nth k d 0 * g k q)).
Proof.
  intros G. induction n as [|n IH]; cbn [sumn]; [apply lipl_zero|]. apply lipl_add; [exact IH|]. apply lipl_nth. apply G.
Qed.

(** Rows of the product of a Jacobian and a joint velocity. *)
Lemma jac_mul_row (p : Twist -> R) : (forall a b, p (t_add a b) = p a + p b) -> (forall a x, p (t_scale a x) = x * p a) -> p t_zero = 0 ->
  forall J d, length J = length d -> p (jac_mul J d) = sumn (length d) (fun k => nth k d 0 * p (nth k J t_zero)).
Proof.
  intros A S Z. induction J as [|c J IH]; intros [|x d] H; try discriminate; [exact Z|].
  cbn [jac_mul length]. rewrite sumn_head. cbn [nth]. rewrite A, S, IH by (cbn in H; lia). reflexivity.
Qed.

Definition lipld q0 (f : list R -> list R -> Vector) : Prop :=
  lipl q0 (fun q d => vx (f q d)) /\ lipl q0 (fun q d => vy (f q d)) /\ lipl q0 (fun q d => vz (f q d)).
Lemma lipl_row segs q0 (p : Twist -> R) : length q0 = count_moving segs ->
  (forall a b, p (t_add a b) = p a + p b) -> (forall a x, p (t_scale a x) = x * p a) -> p t_zero = 0 ->
  (forall j, lip q0 (fun q => p (nth j (jacl segs q) t_zero))) -> lipl q0 (fun q d => p (jac_mul (jacl segs q) d)).
Proof.
  intros Hq A S Z L. apply (lipl_ext q0 (fun q d => sumn (length q0) (fun k => nth k d 0 * p (nth k (jacl segs q) t_zero)))).
  - intros q d Hl Hd. rewrite (jac_mul_row p A S Z), Hd; [reflexivity|]. rewrite jacl_length by lia. lia.
  - apply (lipl_sumn q0 (fun k q => p (nth k (jacl segs q) t_zero))). exact L.
Qed.
Lemma lipl_jac segs q0 : length q0 = count_moving segs ->
  lipld q0 (fun q d => tvel (jac_mul (jacl segs q) d)) /\ lipld q0 (fun q d => trot (jac_mul (jacl segs q) d)).
Proof.
  intros Hq. destruct (lip_chain segs q0 Hq) as (_ & J).
  assert (J1 : forall j, _) by (intros j; exact (proj1 (J j))). assert (J2 : forall j, _) by (intros j; exact (proj2 (J j))). clear J.
  repeat split;
  match goal with |- lipl _ (fun q d => ?f (?g _)) => apply (lipl_row segs q0 (fun t => f (g t)) Hq) end;
   try (intros; unfold t_add, t_scale, v_add, v_scale, t_zero, v_zero; cbn [tvel trot vx vy vz]; ring);
   intros j; first [apply (proj1 (J1 j))|apply (proj1 (proj2 (J1 j)))|apply (proj2 (proj2 (J1 j)))|apply (proj1 (J2 j))|apply (proj1 (proj2 (J2 j)))|apply (proj2 (proj2 (J2 j)))].
Qed.

(** ** Taylor *)
Lemma taylor1 q0 (h : list R -> R) (g : list R -> list R -> R) : lipl q0 g ->
  (forall q d t, length q = length q0 -> length d = length q0 -> derivable_pt_lim (fun s => h (line q d s)) t (g (line q d t) d)) ->
  exists K, 0 <= K /\ forall q d, length q = length q0 -> length d = length q0 -> d1 q q0 <= / 2 -> s1 d <= / 2 ->
    Rabs (h (line q d 1) - h q - g q d) <= K * (s1 d * s1 d).
Proof.
  intros (L & HL & H) D. exists L. split; [exact HL|]. intros q d Hq Hd Nq Nd.
  destruct (MVT_cor2 (fun s => h (line q d s)) (fun s => g (line q d s) d) 0 1 ltac:(lra)) as (c & E & C).
  { intros t _. apply D; assumption. }
  cbv beta in E. rewrite line_0 in E by lia. rewrite E.
  assert (P : d1 (line q d c) q = c * s1 d) by (rewrite line_d1, Rabs_pos_eq by (lia || lra); reflexivity).
  pose proof (s1_nn d) as Sd.
  destruct (H d Hd) as (_ & H2). specialize (H2 (line q d c) q).
  rewrite P in H2. replace (g (line q d c) d * (1 - 0) - g q d) with (g (line q d c) d - g q d) by ring.
  eapply Rle_trans; [apply H2|].
  - rewrite line_length; lia.
  - exact Hq.
  - pose proof (d1_tri (line q d c) q q0 ltac:(rewrite line_length; lia) Hq) as T. rewrite P in T. nra.
  - lra.
  - assert (c * s1 d <= s1 d) by nra. rewrite Rmult_assoc. apply Rmult_le_compat_l; [exact HL|]. nra.
Qed.

Lemma six K1 K2 K3 : 0 <= K1 -> 0 <= K2 -> 0 <= K3 -> 0 <= K1 + K2 + K3. Proof. lra. Qed.
Lemma taylor_pose segs q0 : Forall segment_ok segs -> length q0 = count_moving segs ->
  let F q := pose_product (assign segs q) in let V q d := jac_mul (jacl segs q) d in
  exists K, 0 <= K /\ forall q d, length q = length q0 -> length d = length q0 -> d1 q q0 <= / 2 -> s1 d <= / 2 ->
    vn (v_sub (v_sub (fp (F (line q d 1))) (fp (F q))) (tvel (V q d))) <= K * (s1 d * s1 d) /\
    rn (r_minus (r_minus (fM (F (line q d 1))) (fM (F q))) (r_mul (skew (trot (V q d))) (fM (F q)))) <= K * (s1 d * s1 d).
Proof.
  intros Hok Hq F V. destruct (lip_chain segs q0 Hq) as ((((L0 & L1 & L2) & (L3 & L4 & L5) & (L6 & L7 & L8)) & _) & _).
  destruct (lipl_jac segs q0 Hq) as ((Vx & Vy & Vz) & (Wx & Wy & Wz)).
  assert (D : forall q d t, length q = length q0 -> length d = length q0 ->
    v_derive (fun s => fp (F (line q d s))) t (tvel (V (line q d t) d)) /\
    r_derive (fun s => fM (F (line q d s))) t (r_spin (trot (V (line q d t) d)) (fM (F (line q d t))))).
  { intros q d t Hl Hd. apply frame_velocity_entries. apply (tip_velocity segs Hok (length q0)); [lia|]. apply line_motion; lia. }
  destruct (taylor1 q0 (fun q => vx (fp (F q))) (fun q d => vx (tvel (V q d))) Vx) as (K1 & P1 & T1); [intros; apply D; assumption|].
  destruct (taylor1 q0 (fun q => vy (fp (F q))) (fun q d => vy (tvel (V q d))) Vy) as (K2 & P2 & T2); [intros; apply D; assumption|].
  destruct (taylor1 q0 (fun q => vz (fp (F q))) (fun q d => vz (tvel (V q d))) Vz) as (K3 & P3 & T3); [intros; apply D; assumption|].
  change (lip q0 (fun q => r0 (fM (F q)))) in L0. change (lip q0 (fun q => r1 (fM (F q)))) in L1. change (lip q0 (fun q => r2 (fM (F q)))) in L2.
  change (lip q0 (fun q => r3 (fM (F q)))) in L3. change (lip q0 (fun q => r4 (fM (F q)))) in L4. change (lip q0 (fun q => r5 (fM (F q)))) in L5.
  change (lip q0 (fun q => r6 (fM (F q)))) in L6. change (lip q0 (fun q => r7 (fM (F q)))) in L7. change (lip q0 (fun q => r8 (fM (F q)))) in L8.
  change (lipl q0 (fun q d => vx (trot (V q d)))) in Wx. change (lipl q0 (fun q d => vy (trot (V q d)))) in Wy. change (lipl q0 (fun q d => vz (trot (V q d)))) in Wz.
  assert (G : lipl q0 (fun q d => r0 (r_spin (trot (V q d)) (fM (F q)))) /\ lipl q0 (fun q d => r1 (r_spin (trot (V q d)) (fM (F q)))) /\
    lipl q0 (fun q d => r2 (r_spin (trot (V q d)) (fM (F q)))) /\ lipl q0 (fun q d => r3 (r_spin (trot (V q d)) (fM (F q)))) /\
    lipl q0 (fun q d => r4 (r_spin (trot (V q d)) (fM (F q)))) /\ lipl q0 (fun q d => r5 (r_spin (trot (V q d)) (fM (F q)))) /\
    lipl q0 (fun q d => r6 (r_spin (trot (V q d)) (fM (F q)))) /\ lipl q0 (fun q d => r7 (r_spin (trot (V q d)) (fM (F q)))) /\
    lipl q0 (fun q d => r8 (r_spin (trot (V q d)) (fM (F q))))).
  { unfold r_spin, r_cols, v_cross, r_UnitX, r_UnitY, r_UnitZ; cbn [vx vy vz r0 r1 r2 r3 r4 r5 r6 r7 r8].
    repeat split; apply lipl_sub; match goal with |- lipl _ (fun q d => ?a * ?b) => apply (lipl_mul q0 (fun q d => a) (fun q => b)); assumption end. }
  destruct G as (G0 & G1 & G2 & G3 & G4 & G5 & G6 & G7 & G8).
  destruct (taylor1 q0 (fun q => r0 (fM (F q))) _ G0) as (M0 & Q0 & U0); [intros; apply D; assumption|].
  destruct (taylor1 q0 (fun q => r1 (fM (F q))) _ G1) as (M1 & Q1 & U1); [intros; apply D; assumption|].
  destruct (taylor1 q0 (fun q => r2 (fM (F q))) _ G2) as (M2 & Q2 & U2); [intros; apply D; assumption|].
  destruct (taylor1 q0 (fun q => r3 (fM (F q))) _ G3) as (M3 & Q3 & U3); [intros; apply D; assumption|].
  destruct (taylor1 q0 (fun q => r4 (fM (F q))) _ G4) as (M4 & Q4 & U4); [intros; apply D; assumption|].
  destruct (taylor1 q0 (fun q => r5 (fM (F q))) _ G5) as (M5 & Q5 & U5); [intros; apply D; assumption|].
  destruct (taylor1 q0 (fun q => r6 (fM (F q))) _ G6) as (M6 & Q6 & U6); [intros; apply D; assumption|].
  destruct (taylor1 q0 (fun q => r7 (fM (F q))) _ G7) as (M7 & Q7 & U7); [intros; apply D; assumption|].
  destruct (taylor1 q0 (fun q => r8 (fM (F q))) _ G8) as (M8 & Q8 & U8); [intros; apply D; assumption|].
  exists (K1 + K2 + K3 + (M0 + M1 + M2 + M3 + M4 + M5 + M6 + M7 + M8)). split; [lra|]. intros q d Hl Hd Nq Nd.
  specialize (T1 q d Hl Hd Nq Nd). specialize (T2 q d Hl Hd Nq Nd). specialize (T3 q d Hl Hd Nq Nd).
  specialize (U0 q d Hl Hd Nq Nd). specialize (U1 q d Hl Hd Nq Nd). specialize (U2 q d Hl Hd Nq Nd).
  specialize (U3 q d Hl Hd Nq Nd). specialize (U4 q d Hl Hd Nq Nd). specialize (U5 q d Hl Hd Nq Nd).
  specialize (U6 q d Hl Hd Nq Nd). specialize (U7 q d Hl Hd Nq Nd). specialize (U8 q d Hl Hd Nq Nd).
  cbv beta in *. set (z := s1 d * s1 d) in *.
  assert (Z : 0 <= z) by (unfold z; nra).
  replace (r_mul (skew (trot (V q d))) (fM (F q))) with (r_spin (trot (V q d)) (fM (F q))) by (unfold r_spin, skew; clear; geo).
  split.
  - unfold vn, v_sub; cbn [vx vy vz]. nra.
  - unfold rn, r_minus; cbn [r0 r1 r2 r3 r4 r5 r6 r7 r8]. nra.
Qed.
