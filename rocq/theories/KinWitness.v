(** Concrete objects meeting the hypotheses of the theorems in KinProps.v. *)
From Coq Require Import String Reals List ZArith Bool Arith Lia Lra.
From Verif Require Import FramesModel FramesSpec FramesProofs RotationProofs FrameOpsProofs
  Outcome LoopProofs InertiaModel DualModel KinModel KinSpec DerivProofs KinProofs JacProofs JacDotProofs KinProtocol.
Import ListNotations.
Local Open Scope R_scope.

(** * Joint geometry *)
Lemma r_RotX_axis a : r_RotX a = r_Rot2 (mkV 1 0 0) a.
Proof. apply RotX_Rot2. Qed.

Lemma joint_geometry_cardinal name ty sc off i d st j : joint_make name ty sc off i d st = Made j ->
  forall q x, f_app (joint_pose j q) x =
    match ty with
    | RotAxis | TransAxis => x
    | RotX | RotY | RotZ => r_app (r_Rot2 (joint_JointAxis j) (sc * q + off)) x
    | TransX | TransY | TransZ => v_add x (v_scale (joint_JointAxis j) (sc * q + off))
    | Fixed => x
    end.
Proof.
  intros E q x. unfold joint_make in E.
  destruct ty; try discriminate; injection E as <-; unfold joint_pose, joint_JointAxis; cbn [jtype jscale joffset].
  - rewrite RotX_Rot2. generalize (r_Rot2 (mkV 1 0 0) (sc * q + off)). intros r. geo.
  - rewrite RotY_Rot2. generalize (r_Rot2 (mkV 0 1 0) (sc * q + off)). intros r. geo.
  - rewrite RotZ_Rot2. generalize (r_Rot2 (mkV 0 0 1) (sc * q + off)). intros r. geo.
  - generalize (sc * q + off). intros a. geo.
  - generalize (sc * q + off). intros a. geo.
  - generalize (sc * q + off). intros a. geo.
  - geo.
Qed.

Lemma joint_geometry_axis name o a ty sc off i d st j : kdl_epsilon <= max_abs a ->
  joint_make_axis name o a ty sc off i d st = Made j ->
  joint_JointOrigin j = o /\ unit_vector (joint_JointAxis j) /\
  (exists n, 0 < n /\ a = v_scale (joint_JointAxis j) n) /\
  forall q x, f_app (joint_pose j q) x =
    match ty with
    | RotAxis => v_add o (r_app (r_Rot2 (joint_JointAxis j) (sc * q + off)) x)
    | TransAxis => v_add o (v_add x (v_scale (joint_JointAxis j) (sc * q + off)))
    | _ => x
    end.
Proof.
  intros Ha E. pose proof (v_div_norm_unit a Ha) as Hu.
  assert (Hn : 0 < v_norm a).
  { unfold v_norm. rewrite v_norm_eps_exact by (auto using kdl_epsilon_pos).
    eapply Rlt_le_trans; [apply kdl_epsilon_pos|]. eapply Rle_trans; [exact Ha|apply max_abs_le_norm]. }
  assert (Ea : a = v_scale (v_div a (v_norm a)) (v_norm a)).
  { revert Hn. generalize (v_norm a). intros n Hn. destruct a as [ax ay az].
    unfold v_scale, v_div; cbn [vx vy vz]. f_equal; field; lra. }
  unfold joint_make_axis in E.
  destruct ty; try discriminate; injection E as <-; unfold joint_pose, joint_JointAxis, joint_JointOrigin;
    cbn [jtype jscale joffset jaxis jorigin]; (split; [reflexivity|]); (split; [exact Hu|]);
    (split; [exists (v_norm a); auto|]); intros q x.
  - generalize (r_Rot2 (v_div a (v_norm a)) (sc * q + off)). intros r. geo.
  - generalize (sc * q + off), (v_div a (v_norm a)). intros t v. geo.
Qed.

(** * A three segment chain: oblique revolute joint with scale and offset, fixed, prismatic *)
Definition w_joint1 : Joint := mkJ "j1" RotAxis 2 1 0 0 0 (mkV 0 (3/5) (4/5)) (mkV 1 0 0).
Definition w_joint2 : Joint := mkJ "j2" Fixed 1 0 0 0 0 v_zero v_zero.
Definition w_joint3 : Joint := mkJ "j3" TransX (-3) 0 0 0 0 v_zero v_zero.
Definition w_tip : Frame := mkF (r_RotX 1) (mkV 1 2 3).
Definition w_seg (n : string) (j : Joint) : Segment := segment_make n j w_tip rb_zero.
Definition w_segs : list Segment := [w_seg "a" w_joint1; w_seg "b" w_joint2; w_seg "c" w_joint3].
Definition w_chain : Chain := chain_addSegment (chain_addSegment (chain_addSegment chain_empty
  (w_seg "a" w_joint1)) (w_seg "b" w_joint2)) (w_seg "c" w_joint3).
Definition w_q (s : R) : list R := [s; s * s].
Definition w_mask : list bool := [true; false].

Lemma w_joint1_ok : joint_ok w_joint1.
Proof. intros _. unfold unit_vector, w_joint1; cbn [jaxis vx vy vz]. field. Qed.
Lemma w_tip_rigid : rigid w_tip.
Proof. unfold rigid, w_tip; cbn [fM]. apply is_rotation_RotX. Qed.
Lemma w_seg_ok n j : joint_ok j -> segment_ok (w_seg n j).
Proof. intros H. apply segment_make_ok; auto. apply w_tip_rigid. Qed.

Lemma w_fixed_ok : joint_ok w_joint2. Proof. intros H; discriminate H. Qed.
Lemma w_prism_ok : joint_ok w_joint3. Proof. intros H; discriminate H. Qed.
Example w_chain_ok : chain_ok w_chain /\ ch_nj w_chain = 2%nat /\ length (ch_segs w_chain) = 3%nat.
Proof.
  split; [|split; reflexivity]. unfold w_chain. repeat apply chain_ok_add.
  - split; [split; reflexivity|constructor].
  - apply w_seg_ok, w_joint1_ok.
  - apply w_seg_ok, w_fixed_ok.
  - apply w_seg_ok, w_prism_ok.
Qed.
Example w_denotes : denotes w_chain (-1) 3 /\ denotes w_chain 2 2.
Proof. split; [left; split; [lia|reflexivity]|right; split; [lia|reflexivity]]. Qed.
Example w_motion : joint_motion (ch_nj w_chain) w_q 1 [1; 2].
Proof.
  repeat split. intros i Hi. change (ch_nj w_chain) with 2%nat in Hi.
  destruct i as [|[|i]]; [| |lia]; cbn [nth w_q].
  - apply derivable_pt_lim_id.
  - replace 2 with (1 * 1 + 1 * 1) by ring.
    apply (derivable_pt_lim_mult (fun s => s) (fun s => s)); apply derivable_pt_lim_id.
Qed.
Example w_axis_guard : kdl_epsilon <= max_abs (mkV 0 3 4).
Proof.
  unfold max_abs, kdl_epsilon; cbn [vx vy vz].
  eapply Rle_trans; [|apply Rmax_r]. eapply Rle_trans; [|apply Rmax_r]. rewrite Rabs_pos_eq; lra.
Qed.
Example w_axis_made : exists j, joint_make_axis "j" (mkV 1 2 3) (mkV 0 3 4) RotAxis 2 1 0 0 0 = Made j.
Proof. eexists; reflexivity. Qed.
Example w_built : built w_chain w_segs.
Proof.
  change w_segs with ((([] ++ [w_seg "a" w_joint1]) ++ [w_seg "b" w_joint2]) ++ [w_seg "c" w_joint3]).
  repeat apply built_addSegment. apply built_empty.
Qed.
(** A history that edits, updates, changes representation and calls. *)
Example w_jd_history : exists st, jd_history w_chain st /\ length (jd_locked st) = ch_nj w_chain /\
  jd_rep st = BODYFIXED.
Proof.
  set (c1 := chain_addSegment (chain_addSegment chain_empty (w_seg "a" w_joint1)) (w_seg "b" w_joint2)).
  assert (Hc1 : chain_ok c1).
  { repeat apply chain_ok_add; try (split; [split; reflexivity|constructor]);
      apply w_seg_ok; [apply w_joint1_ok|intros H; discriminate H]. }
  assert (H1 : jd_history w_chain (jdsolver_make c1)).
  { change w_chain with (chain_addSegment c1 (w_seg "c" w_joint3)).
    apply jdh_add; [apply jdh_make; exact Hc1|]. apply w_seg_ok. intros H; discriminate H. }
  exists (jdsolver_setRepresentation (jdsolver_update w_chain (jdsolver_make c1)) BODYFIXED).
  split; [apply jdh_rep, jdh_update; exact H1|]. split; reflexivity.
Qed.
Example w_stale : stale false [EvAddSegment (w_seg "c" w_joint3); EvCall [] [] 0; EvAddSegment (w_seg "b" w_joint2)] = true
  /\ stale false [EvAddSegment (w_seg "c" w_joint3); EvUpdate; EvSetLocked w_mask] = false
  /\ Forall (fun e => match e with EvAddSegment s => segment_ok s | _ => True end)
       [EvAddSegment (w_seg "c" w_joint3); EvUpdate; EvSetLocked w_mask].
Proof.
  split; [reflexivity|]. split; [reflexivity|].
  constructor; [apply w_seg_ok, w_prism_ok|]. constructor; [exact I|]. constructor; [exact I|]. constructor.
Qed.
Example w_mask_hyps : length w_mask = ch_nj w_chain /\ In true w_mask /\ length (filter negb w_mask) = 1%nat.
Proof. repeat split. left; reflexivity. Qed.

(** The self operations on a non-empty chain. *)
Example w_self_assign : chain_assign_self w_chain = Ret chain_empty /\ w_chain <> chain_empty.
Proof. split; [reflexivity|discriminate]. Qed.
