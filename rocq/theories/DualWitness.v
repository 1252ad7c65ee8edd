(** Concrete motions meeting the hypotheses of the theorems in DualProps.v. *)
From Coq Require Import Reals Lra.
From Verif Require Import FramesModel FramesSpec FramesProofs RotationProofs FrameOpsProofs
  DualModel InertiaModel KinModel KinSpec DerivProofs DualSpec DualProofs DualGeoProofs.
Local Open Scope R_scope.

(** the identity function at t *)
Lemma w_time1 t : carries1 (fun s => s) t (mkD1 t 1).
Proof. apply c1_id. Qed.
Lemma w_time2 t : carries2 (fun s => s) t (mkD2 t 1 0).
Proof.
  split; [reflexivity|]. exists (fun _ => 1). split; [|split; [reflexivity|apply derivable_pt_lim_const]].
  apply near_all. intros s. apply derivable_pt_lim_id.
Qed.
Lemma w_square2 : carries2 (fun s => s * s) 3 (mkD2 9 6 2).
Proof. eapply c2_eq; [apply (c2_mul _ _ _ _ _ (w_time2 3) (w_time2 3))|]. apply d2_ext; simpl; ring. Qed.

(** a point moving on a parabola *)
Definition w_point (s : R) : Vector := mkV s (s * s) 1.
Lemma w_point1 : vv_carries w_point 3 (mkVV (mkV 3 9 1) (mkV 1 6 0)).
Proof.
  split; [unfold w_point; cbn [vvp]; f_equal; ring|]. unfold w_point. split; [|split]; cbn [vvv vx vy vz]; dl.
Qed.
Lemma w_point2 : va_carries w_point 3 (mkVA (mkV 3 9 1) (mkV 1 6 0) (mkV 0 2 0)).
Proof. split; [apply w_time2|split; [apply w_square2|apply c2_const]]. Qed.

(** a body spinning about z with angle s^2 (accelerating) *)
Definition w_spin (s : R) : Rotation := r_RotZ (s * s).
Lemma w_spin1 : rv_carries w_spin 3 (mkRV (r_RotZ 9) (mkV 0 0 6)).
Proof.
  assert (H : carries1 (fun s => s * s) 3 (mkD1 9 6)).
  { eapply c1_eq; [apply (c1_mul _ _ _ _ _ (w_time1 3) (w_time1 3))|]. apply d1_ext; simpl; ring. }
  exact (rvc_RotZ _ _ _ H).
Qed.
Lemma spin_z w a b c d e f g h i : spin (mkV 0 0 w) (mkR a b c d e f g h i) =
  mkR (- w * d) (- w * e) (- w * f) (w * a) (w * b) (w * c) 0 0 0.
Proof. unfold spin, r_cols, r_UnitX, r_UnitY, r_UnitZ, v_cross. psimp. f_equal; ring. Qed.
Lemma w_spin2 : ra_carries w_spin 3 (mkRA (r_RotZ 9) (mkV 0 0 6) (mkV 0 0 2)).
Proof.
  pose proof (c2_cos _ _ _ w_square2) as C. pose proof (c2_sin _ _ _ w_square2) as S.
  pose proof (c2_neg _ _ _ S) as N.
  unfold ra_carries, w_spin, r_RotZ; cbn [raR raw radw]. rewrite !spin_z. unfold mat_add.
  cbn [r0 r1 r2 r3 r4 r5 r6 r7 r8]. cbv zeta.
  cbn [d2_cos d2_sin d2_neg d2t d2d d2dd] in C, S, N.
  assert (K : forall c, carries2 (fun _ => c) 3 (mkD2 c 0 0)) by (intros c; apply c2_const).
  pose proof (K 0) as K0. pose proof (K 1) as K1. clear K.
  repeat (split; [(eapply c2_eq; [first [exact C|exact S|exact N|exact K0|exact K1]|]); apply d2_ext; simpl; ring|]).
  (eapply c2_eq; [first [exact C|exact S|exact N|exact K0|exact K1]|]); apply d2_ext; simpl; ring.
Qed.
Definition w_frame (s : R) : Frame := mkF (w_spin s) (w_point s).
Lemma w_frame_rigid s : rigid (w_frame s).
Proof. apply is_rotation_RotZ. Qed.
Lemma w_frame1 : fv_carries w_frame 3 (mkFV (mkRV (r_RotZ 9) (mkV 0 0 6)) (mkVV (mkV 3 9 1) (mkV 1 6 0))).
Proof. split; [exact w_spin1|exact w_point1]. Qed.
Lemma w_frame2 : fa_carries w_frame 3
  (mkFA (mkRA (r_RotZ 9) (mkV 0 0 6) (mkV 0 0 2)) (mkVA (mkV 3 9 1) (mkV 1 6 0) (mkV 0 2 0))).
Proof. split; [exact w_spin2|exact w_point2]. Qed.
Lemma w_frame_velocity : frame_velocity w_frame 3 (mkT (mkV 1 6 0) (mkV 0 0 6)).
Proof. exact (proj1 (fvc_velocity _ _ _ w_frame1)). Qed.
Lemma w_norm_guard : kdl_epsilon <= max_abs (w_point 3).
Proof.
  unfold kdl_epsilon, max_abs, w_point. psimp. apply Rle_trans with (Rabs 3); [|apply Rmax_l].
  rewrite Rabs_right; lra.
Qed.
