(** Poses and Jacobians of a chain are locally Lipschitz in the joint values. *)
From Coq Require Import Reals List ZArith Bool Arith Lia Lra Psatz.
From Verif Require Import FramesModel FramesSpec FramesProofs Outcome InertiaModel DualModel KinModel KinSpec DerivProofs KinProofs JacProofs JacDotProofs IkGeoProofs.
Import ListNotations.
Local Open Scope R_scope.

Fixpoint d1 (a b : list R) : R :=
  match a, b with x :: a', y :: b' => Rabs (x - y) + d1 a' b' | _, _ => 0 end.
Lemma d1_nn a : forall b, 0 <= d1 a b.
Proof. induction a as [|x a IH]; intros [|y b]; cbn [d1]; try lra. pose proof (Rabs_pos (x - y)). pose proof (IH b). lra. Qed.
Lemma d1_refl a : d1 a a = 0.
Proof. induction a as [|x a IH]; cbn [d1]; [reflexivity|]. rewrite IH, Rminus_diag_eq, Rabs_R0 by reflexivity. ring. Qed.
Lemma d1_sym a : forall b, d1 a b = d1 b a.
Proof. induction a as [|x a IH]; intros [|y b]; cbn [d1]; try reflexivity. rewrite IH, Rabs_minus_sym. reflexivity. Qed.
Lemma d1_tri a : forall b c, length a = length b -> length b = length c -> d1 a c <= d1 a b + d1 b c.
Proof.
  induction a as [|x a IH]; intros [|y b] [|z c] H1 H2; cbn [d1 length] in *; try discriminate; try lra.
  specialize (IH b c ltac:(lia) ltac:(lia)). replace (x - z) with ((x - y) + (y - z)) by ring. pose proof (Rabs_triang (x - y) (y - z)). lra.
Qed.

Definition lip (q0 : list R) (f : list R -> R) : Prop :=
  exists L, 0 <= L /\ forall a b, length a = length q0 -> length b = length q0 -> d1 a q0 <= 1 -> d1 b q0 <= 1 ->
    Rabs (f a - f b) <= L * d1 a b.

Lemma lip_ext q0 f g : (forall q, length q = length q0 -> f q = g q) -> lip q0 f -> lip q0 g.
Proof. intros E (L & HL & H). exists L. split; [exact HL|]. intros a b Ha Hb Na Nb. rewrite <- !E by assumption. apply H; assumption. Qed.
Lemma lip_const q0 k : lip q0 (fun _ => k).
Proof. exists 0. split; [lra|]. intros a b _ _ _ _. rewrite Rminus_diag_eq, Rabs_R0 by reflexivity. lra. Qed.
Lemma lip_add q0 f g : lip q0 f -> lip q0 g -> lip q0 (fun q => f q + g q).
Proof.
  intros (L & HL & H) (M & HM & G). exists (L + M). split; [lra|]. intros a b Ha Hb Na Nb.
  replace (f a + g a - (f b + g b)) with ((f a - f b) + (g a - g b)) by ring.
  eapply Rle_trans; [apply Rabs_triang|]. specialize (H a b Ha Hb Na Nb). specialize (G a b Ha Hb Na Nb). lra.
Qed.
Lemma lip_opp q0 f : lip q0 f -> lip q0 (fun q => - f q).
Proof.
  intros (L & HL & H). exists L. split; [exact HL|]. intros a b Ha Hb Na Nb.
  replace (- f a - - f b) with (- (f a - f b)) by ring. rewrite Rabs_Ropp. auto.
Qed.
Lemma lip_sub q0 f g : lip q0 f -> lip q0 g -> lip q0 (fun q => f q - g q).
Proof. intros F G. unfold Rminus. apply lip_add; [exact F|apply lip_opp; exact G]. Qed.
Lemma lip_mul q0 f g : lip q0 f -> lip q0 g -> lip q0 (fun q => f q * g q).
Proof.
  intros (L & HL & H) (M & HM & G). exists ((Rabs (f q0) + L) * M + (Rabs (g q0) + M) * L).
  pose proof (Rabs_pos (f q0)) as P1. pose proof (Rabs_pos (g q0)) as P2. split; [nra|]. intros a b Ha Hb Na Nb.
  assert (Z : d1 q0 q0 <= 1) by (rewrite d1_refl; lra).
  assert (B1 : Rabs (f a) <= Rabs (f q0) + L).
  { replace (f a) with (f q0 + (f a - f q0)) by ring. eapply Rle_trans; [apply Rabs_triang|].
    specialize (H a q0 Ha eq_refl Na Z). nra. }
  assert (B2 : Rabs (g b) <= Rabs (g q0) + M).
  { replace (g b) with (g q0 + (g b - g q0)) by ring. eapply Rle_trans; [apply Rabs_triang|].
    specialize (G b q0 Hb eq_refl Nb Z). nra. }
  replace (f a * g a - f b * g b) with (f a * (g a - g b) + g b * (f a - f b)) by ring.
  eapply Rle_trans; [apply Rabs_triang|]. rewrite !Rabs_mult.
  specialize (H a b Ha Hb Na Nb). specialize (G a b Ha Hb Na Nb).
  pose proof (d1_nn a b). pose proof (Rabs_pos (f a)). pose proof (Rabs_pos (g b)).
  pose proof (Rabs_pos (g a - g b)). pose proof (Rabs_pos (f a - f b)).
  assert (Rabs (f a) * Rabs (g a - g b) <= (Rabs (f q0) + L) * (M * d1 a b)) by (apply Rmult_le_compat; lra).
  assert (Rabs (g b) * Rabs (f a - f b) <= (Rabs (g q0) + M) * (L * d1 a b)) by (apply Rmult_le_compat; lra).
  lra.
Qed.
Lemma lip_comp q0 K (g : R -> R) f : 0 <= K -> (forall x y, Rabs (g x - g y) <= K * Rabs (x - y)) -> lip q0 f -> lip q0 (fun q => g (f q)).
Proof.
  intros HK Hg (L & HL & H). exists (K * L). split; [nra|]. intros a b Ha Hb Na Nb.
  specialize (H a b Ha Hb Na Nb). specialize (Hg (f a) (f b)). nra.
Qed.
Lemma cos_lip x y : Rabs (cos x - cos y) <= 1 * Rabs (x - y).
Proof.
  assert (W : forall u v, u < v -> Rabs (cos u - cos v) <= 1 * Rabs (u - v)).
  { intros u v L. destruct (MVT_cor2 cos (fun t => - sin t) u v L) as (c & E & _); [intros; apply derivable_pt_lim_cos|].
    rewrite (Rabs_minus_sym (cos u)), (Rabs_minus_sym u), E, Rabs_mult. apply Rmult_le_compat_r; [apply Rabs_pos|].
    rewrite Rabs_Ropp. apply Rabs_le. apply SIN_bound. }
  destruct (Rtotal_order x y) as [L|[->|L]]; [apply W; exact L| |].
  - rewrite !Rminus_diag_eq, Rabs_R0 by reflexivity. lra.
  - rewrite (Rabs_minus_sym (cos x)), (Rabs_minus_sym x). apply W. exact L.
Qed.
Lemma sin_lip x y : Rabs (sin x - sin y) <= 1 * Rabs (x - y).
Proof.
  assert (W : forall u v, u < v -> Rabs (sin u - sin v) <= 1 * Rabs (u - v)).
  { intros u v L. destruct (MVT_cor2 sin cos u v L) as (c & E & _); [intros; apply derivable_pt_lim_sin|].
    rewrite (Rabs_minus_sym (sin u)), (Rabs_minus_sym u), E, Rabs_mult. apply Rmult_le_compat_r; [apply Rabs_pos|].
    apply Rabs_le. apply COS_bound. }
  destruct (Rtotal_order x y) as [L|[->|L]]; [apply W; exact L| |].
  - rewrite !Rminus_diag_eq, Rabs_R0 by reflexivity. lra.
  - rewrite (Rabs_minus_sym (sin x)), (Rabs_minus_sym x). apply W. exact L.
Qed.
Lemma lip_cos q0 f : lip q0 f -> lip q0 (fun q => cos (f q)).
Proof. apply lip_comp with (K := 1); [lra|]. intros; apply cos_lip. Qed.
Lemma lip_sin q0 f : lip q0 f -> lip q0 (fun q => sin (f q)).
Proof. apply lip_comp with (K := 1); [lra|]. intros; apply sin_lip. Qed.
Lemma lip_hd x0 q0 : lip (x0 :: q0) (hd 0).
Proof.
  exists 1. split; [lra|]. intros [|x a] [|y b] Ha Hb _ _; cbn [length] in *; try discriminate. cbn [hd d1]. pose proof (d1_nn a b). lra.
Qed.
Lemma lip_tl x0 q0 f : lip q0 f -> lip (x0 :: q0) (fun q => f (tl q)).
Proof.
  intros (L & HL & H). exists L. split; [exact HL|]. intros [|x a] [|y b] Ha Hb Na Nb; cbn [length] in *; try discriminate.
  cbn [tl d1] in *. pose proof (Rabs_pos (x - x0)). pose proof (Rabs_pos (y - x0)). pose proof (Rabs_pos (x - y)).
  eapply Rle_trans; [apply H; lia || lra|]. nra.
Qed.

(** Vectors, matrices, frames, twists. *)
Definition lipv q0 (f : list R -> Vector) : Prop := lip q0 (fun q => vx (f q)) /\ lip q0 (fun q => vy (f q)) /\ lip q0 (fun q => vz (f q)).
Definition lipr q0 (f : list R -> Rotation) : Prop :=
  (lip q0 (fun q => r0 (f q)) /\ lip q0 (fun q => r1 (f q)) /\ lip q0 (fun q => r2 (f q))) /\
  (lip q0 (fun q => r3 (f q)) /\ lip q0 (fun q => r4 (f q)) /\ lip q0 (fun q => r5 (f q))) /\
  (lip q0 (fun q => r6 (f q)) /\ lip q0 (fun q => r7 (f q)) /\ lip q0 (fun q => r8 (f q))).
Definition lipf q0 (f : list R -> Frame) : Prop := lipr q0 (fun q => fM (f q)) /\ lipv q0 (fun q => fp (f q)).
Definition lipt q0 (f : list R -> Twist) : Prop := lipv q0 (fun q => tvel (f q)) /\ lipv q0 (fun q => trot (f q)).

Ltac lips := repeat first [assumption | apply lip_const | apply lip_add | apply lip_sub | apply lip_mul | apply lip_opp | apply lip_cos | apply lip_sin].

Lemma lipv_ext q0 f g : (forall q, length q = length q0 -> f q = g q) -> lipv q0 f -> lipv q0 g.
Proof. intros E (A & B & C). repeat split; [revert A|revert B|revert C]; apply lip_ext; intros q Hq; rewrite E by exact Hq; reflexivity. Qed.
Lemma lipr_ext q0 f g : (forall q, length q = length q0 -> f q = g q) -> lipr q0 f -> lipr q0 g.
Proof.
  intros E ((A & B & C) & (D & F & G) & (I & J & K)).
  repeat split; [revert A|revert B|revert C|revert D|revert F|revert G|revert I|revert J|revert K]; apply lip_ext; intros q Hq; rewrite E by exact Hq; reflexivity.
Qed.
Lemma lipf_ext q0 f g : (forall q, length q = length q0 -> f q = g q) -> lipf q0 f -> lipf q0 g.
Proof. intros E (A & B). split; [revert A; apply lipr_ext|revert B; apply lipv_ext]; intros q Hq; rewrite E by exact Hq; reflexivity. Qed.
Lemma lipt_ext q0 f g : (forall q, length q = length q0 -> f q = g q) -> lipt q0 f -> lipt q0 g.
Proof. intros E (A & B). split; [revert A|revert B]; apply lipv_ext; intros q Hq; rewrite E by exact Hq; reflexivity. Qed.
Lemma lipv_const q0 v : lipv q0 (fun _ => v). Proof. repeat split; apply lip_const. Qed.
Lemma lipr_const q0 r : lipr q0 (fun _ => r). Proof. repeat split; apply lip_const. Qed.
Lemma lipf_const q0 f : lipf q0 (fun _ => f). Proof. split; [apply lipr_const|apply lipv_const]. Qed.
Lemma lipt_const q0 t : lipt q0 (fun _ => t). Proof. split; apply lipv_const. Qed.
Lemma lipv_add q0 f g : lipv q0 f -> lipv q0 g -> lipv q0 (fun q => v_add (f q) (g q)).
Proof. intros (A & B & C) (D & E & F). unfold lipv, v_add; cbn [vx vy vz]. repeat split; lips. Qed.
Lemma lipv_cross q0 f g : lipv q0 f -> lipv q0 g -> lipv q0 (fun q => v_cross (f q) (g q)).
Proof. intros (A & B & C) (D & E & F). unfold lipv, v_cross; cbn [vx vy vz]. repeat split; lips. Qed.
Lemma lipr_app q0 f g : lipr q0 f -> lipv q0 g -> lipv q0 (fun q => r_app (f q) (g q)).
Proof. intros ((A & B & C) & (D & E & F) & (G & H & I)) (X & Y & Z). unfold lipv, r_app; cbn [vx vy vz]. repeat split; lips. Qed.
Lemma lipr_mul q0 f g : lipr q0 f -> lipr q0 g -> lipr q0 (fun q => r_mul (f q) (g q)).
Proof.
  intros ((A & B & C) & (D & E & F) & (G & H & I)) ((A' & B' & C') & (D' & E' & F') & (G' & H' & I')).
  unfold lipr, r_mul; cbn [r0 r1 r2 r3 r4 r5 r6 r7 r8]. repeat split; lips.
Qed.
Lemma lipf_mul q0 f g : lipf q0 f -> lipf q0 g -> lipf q0 (fun q => f_mul (f q) (g q)).
Proof.
  intros (A & B) (C & D). split.
  - apply (lipr_mul q0 (fun q => fM (f q)) (fun q => fM (g q))); assumption.
  - apply (lipv_add q0 (fun q => r_app (fM (f q)) (fp (g q))) (fun q => fp (f q))); [apply lipr_app|]; assumption.
Qed.
Lemma lipt_app q0 f g : lipr q0 f -> lipt q0 g -> lipt q0 (fun q => r_app_t (f q) (g q)).
Proof. intros A (B & C). split; [apply (lipr_app q0 f (fun q => tvel (g q)))|apply (lipr_app q0 f (fun q => trot (g q)))]; assumption. Qed.
Lemma lipt_RefPoint q0 f g : lipt q0 f -> lipv q0 g -> lipt q0 (fun q => t_RefPoint (f q) (g q)).
Proof.
  intros (A & B) C. split; [|exact B]. apply (lipv_add q0 (fun q => tvel (f q)) (fun q => v_cross (trot (f q)) (g q))); [exact A|].
  apply (lipv_cross q0 (fun q => trot (f q)) g); assumption.
Qed.
Lemma lipv_tl x0 q0 f : lipv q0 f -> lipv (x0 :: q0) (fun q => f (tl q)).
Proof. intros (A & B & C). repeat split; [apply (lip_tl _ _ _ A)|apply (lip_tl _ _ _ B)|apply (lip_tl _ _ _ C)]. Qed.
Lemma lipr_tl x0 q0 f : lipr q0 f -> lipr (x0 :: q0) (fun q => f (tl q)).
Proof.
  intros ((A & B & C) & (D & F & G) & (I & J & K)). repeat split;
    [apply (lip_tl _ _ _ A)|apply (lip_tl _ _ _ B)|apply (lip_tl _ _ _ C)|apply (lip_tl _ _ _ D)|apply (lip_tl _ _ _ F)|apply (lip_tl _ _ _ G)
    |apply (lip_tl _ _ _ I)|apply (lip_tl _ _ _ J)|apply (lip_tl _ _ _ K)].
Qed.
Lemma lipf_tl x0 q0 f : lipf q0 f -> lipf (x0 :: q0) (fun q => f (tl q)).
Proof. intros (A & B). split; [apply (lipr_tl _ _ _ A)|apply (lipv_tl _ _ _ B)]. Qed.
Lemma lipt_tl x0 q0 f : lipt q0 f -> lipt (x0 :: q0) (fun q => f (tl q)).
Proof. intros (A & B). split; [apply (lipv_tl _ _ _ A)|apply (lipv_tl _ _ _ B)]. Qed.

(** Segments. *)
Lemma lipf_joint q0 j g : lip q0 g -> lipf q0 (fun q => joint_pose j (g q)).
Proof.
  intros G. assert (A : lip q0 (fun q => jscale j * g q + joffset j)) by lips.
  unfold joint_pose. destruct (jtype j); unfold lipf, lipr, lipv, f_of_rot, f_of_vec, r_Rot2, r_RotX, r_RotY, r_RotZ, f_id, r_id, v_zero, v_add, v_scale;
    cbv zeta; cbn [fM fp r0 r1 r2 r3 r4 r5 r6 r7 r8 vx vy vz]; repeat split; lips.
Qed.
Lemma lipf_segment q0 s g : lip q0 g -> lipf q0 (fun q => segment_pose s (g q)).
Proof. intros G. apply (lipf_mul q0 (fun q => joint_pose (sjoint s) (g q)) (fun _ => sf_tip s)); [apply lipf_joint; exact G|apply lipf_const]. Qed.
Lemma lipt_segment q0 s g x : lip q0 g -> lipt q0 (fun q => segment_twist s (g q) x).
Proof.
  intros G. apply (lipt_RefPoint q0 (fun _ => joint_twist (sjoint s) x)); [apply lipt_const|].
  apply (lipr_app q0 (fun q => fM (joint_pose (sjoint s) (g q))) (fun _ => fp (sf_tip s))); [apply lipf_joint; exact G|apply lipv_const].
Qed.

Lemma r_app_t_zero r : r_app_t r t_zero = t_zero. Proof. apply r_app_t_linear. Qed.
Lemma lip_chain segs : forall q0, length q0 = count_moving segs ->
  lipf q0 (fun q => pose_product (assign segs q)) /\ forall j, lipt q0 (fun q => nth j (jacl segs q) t_zero).
Proof.
  induction segs as [|s segs IH]; intros q0 Hq.
  - split; [apply (lipf_ext q0 (fun _ => f_id)); [reflexivity|apply lipf_const]|]. intros j. apply (lipt_ext q0 (fun _ => t_zero)); [|apply lipt_const]. intros q _. destruct j; reflexivity.
  - unfold count_moving in Hq. cbn [filter] in Hq. destruct (moving s) eqn:Em.
    + destruct q0 as [|x0 q0]; cbn [length] in Hq; [discriminate|]. injection Hq as Hq.
      destruct (IH q0 Hq) as (P & J). split.
      * apply (lipf_ext (x0 :: q0) (fun q => f_mul (segment_pose s (hd 0 q)) (pose_product (assign segs (tl q))))).
        -- intros [|x q] Hl; [discriminate|]. cbn [assign hd tl]. rewrite Em. reflexivity.
        -- apply (lipf_mul (x0 :: q0) (fun q => segment_pose s (hd 0 q)) (fun q => pose_product (assign segs (tl q)))); [apply lipf_segment, lip_hd|apply (lipf_tl x0 q0 _ P)].
      * intros [|j].
        -- apply (lipt_ext (x0 :: q0) (fun q => t_RefPoint (segment_twist s (hd 0 q) 1)
              (r_app (fM (segment_pose s (hd 0 q))) (fp (pose_product (assign segs (tl q))))))).
           ++ intros [|x q] Hl; [discriminate|]. cbn [jacl hd tl]. rewrite Em. reflexivity.
           ++ apply (lipt_RefPoint (x0 :: q0) (fun q => segment_twist s (hd 0 q) 1)); [apply lipt_segment, lip_hd|].
              apply (lipr_app (x0 :: q0) (fun q => fM (segment_pose s (hd 0 q))) (fun q => fp (pose_product (assign segs (tl q))))).
              ** apply (lipf_segment (x0 :: q0) s (hd 0)), lip_hd.
              ** apply (lipv_tl x0 q0 (fun q => fp (pose_product (assign segs q)))), P.
        -- apply (lipt_ext (x0 :: q0) (fun q => r_app_t (fM (segment_pose s (hd 0 q))) (nth j (jacl segs (tl q)) t_zero))).
           ++ intros [|x q] Hl; [discriminate|]. cbn [jacl hd tl]. rewrite Em. cbn [nth].
              rewrite <- (map_nth (r_app_t (fM (segment_pose s x)))), r_app_t_zero. reflexivity.
           ++ apply (lipt_app (x0 :: q0) (fun q => fM (segment_pose s (hd 0 q))) (fun q => nth j (jacl segs (tl q)) t_zero)).
              ** apply (lipf_segment (x0 :: q0) s (hd 0)), lip_hd.
              ** apply (lipt_tl x0 q0 (fun q => nth j (jacl segs q) t_zero)), J.
    + destruct (IH q0 Hq) as (P & J). split.
      * apply (lipf_ext q0 (fun q => f_mul (segment_pose s 0) (pose_product (assign segs q)))).
        -- intros q Hl. cbn [assign]. rewrite Em. reflexivity.
        -- apply (lipf_mul q0 (fun _ => segment_pose s 0) (fun q => pose_product (assign segs q))); [apply lipf_const|exact P].
      * intros j. apply (lipt_ext q0 (fun q => r_app_t (fM (segment_pose s 0)) (nth j (jacl segs q) t_zero))).
        -- intros q Hl. cbn [jacl]. rewrite Em, <- (map_nth (r_app_t (fM (segment_pose s 0)))), r_app_t_zero. reflexivity.
        -- apply (lipt_app q0 (fun _ => fM (segment_pose s 0)) (fun q => nth j (jacl segs q) t_zero)); [apply lipr_const|apply J].
Qed.
