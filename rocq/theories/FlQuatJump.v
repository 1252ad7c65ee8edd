(** The exact conversion jumps from a quaternion to its opposite. *)
From Coq Require Import Reals Bool Lia Lra Psatz.
From Verif Require Import FramesModel FramesSpec FramesProofs RotationProofs RotationProofs2 LipProofs FlSpec FlRotSpec FlRotProofs FlQuatSpec.
Local Open Scope R_scope.

Lemma quat_jump e : 0 < e -> exists a b x1 y1 z1 w1 x2 y2 z2 w2, r_near e (r_RotX a) (r_RotX b) /\
  r_GetQuaternion (r_RotX a) = (x1, y1, z1, w1) /\ r_GetQuaternion (r_RotX b) = (x2, y2, z2, w2) /\ x1 <= 0 /\ 1/2 <= x2.
Proof.
  intros He. set (c := (1 / 10 ^ 12 - 1) / 2). assert (Hc : -1 <= c <= 1) by (unfold c; lra). set (t := acos c). pose proof (acos_bound c) as Bt. fold t in Bt.
  assert (Ct : cos t = c) by (apply cos_acos; exact Hc).
  assert (T0 : 0 < t). { destruct (Rle_lt_or_eq_dec 0 t ltac:(lra)) as [L|L]; [exact L|]. rewrite <- L, cos_0 in Ct. unfold c in Ct. lra. }
  set (h := Rmin e t). assert (Hh : 0 < h) by (apply Rmin_glb_lt; assumption). assert (h <= e) by apply Rmin_l. assert (h <= t) by apply Rmin_r.
  exists (- (t - h)), (- t).
  assert (Cb : cos (- t) = c) by (rewrite cos_neg; exact Ct).
  assert (Ca : c < cos (- (t - h))) by (rewrite cos_neg, <- Ct; apply cos_decreasing_1; lra).
  assert (Sa : sin (- (t - h)) <= 0) by (rewrite sin_neg; pose proof (sin_ge_0 (t - h)); lra).
  unfold r_GetQuaternion, r_RotX; cbn [r0 r1 r2 r3 r4 r5 r6 r7 r8]. unfold rpy_epsilon.
  destruct (Rlt_dec _ (1 + cos (- (t - h)) + cos (- (t - h)))) as [L1|L1]; [|exfalso; unfold c in *; lra].
  destruct (Rlt_dec _ (1 + cos (- t) + cos (- t))) as [L2|L2]; [exfalso; rewrite Cb in L2; unfold c in *; lra|].
  destruct (Rlt_dec (cos (- t)) 1) as [L3|L3]; [|exfalso; rewrite Cb in L3; unfold c in *; lra]. cbn [andb].
  do 8 eexists. split; [|split; [reflexivity|split; [reflexivity|]]].
  - assert (A : Rabs (cos (- (t - h)) - cos (- t)) <= e) by (eapply Rle_trans; [apply cos_lip|replace (- (t - h) - - t) with h by ring; rewrite Rabs_right; lra]).
    assert (B : Rabs (sin (- (t - h)) - sin (- t)) <= e) by (eapply Rle_trans; [apply sin_lip|replace (- (t - h) - - t) with h by ring; rewrite Rabs_right; lra]).
    unfold r_near; cbn [r0 r1 r2 r3 r4 r5 r6 r7 r8]. replace (- sin (- (t - h)) - - sin (- t)) with (- (sin (- (t - h)) - sin (- t))) by ring. rewrite Rabs_Ropp.
    repeat split; try assumption; rewrite Rminus_diag_eq, Rabs_R0; lra || reflexivity.
  - split.
    + assert (0 < 1/2 / sqrt (1 + cos (- (t - h)) + cos (- (t - h)) + 1)) by (apply Rdiv_lt_0_compat; [lra|apply sqrt_lt_R0; lra]). nra.
    + assert (1 <= sqrt (1 + 1 - cos (- t) - cos (- t))) by (rewrite <- sqrt_1 at 1; apply sqrt_le_1_alt; rewrite Cb; unfold c; lra). lra.
Qed.
