(** C80: the Puma 560 and the Kuka LWR of the models directory. *)
From Coq Require Import String Reals List Arith Lia Lra Psatz ZArith Bool.
From Verif Require Import FramesModel FramesSpec FramesProofs FrameOpsProofs RotationProofs Outcome LoopProofs InertiaModel InertiaSpec
  InertiaProofs DualModel KinModel KinSpec KinProofs JacProofs LinModel LinSpec SumProofs DynModel DynSpec PosDefSpec PosDefProofs RobotModel RobotSpec.
Import ListNotations.
Local Open Scope R_scope.

Definition mkseg (x : JointType * Frame * RigidBodyInertia) : Segment :=
  let '(t, f, b) := x in segment_make "NoName" (mkJ "NoName" t 1 0 0 0 0 v_zero v_zero) f b.
Definition plain_type (t : JointType) : Prop := t = RotZ \/ t = Fixed.
Lemma add_segments_made l : forall c, Forall (fun x => plain_type (fst (fst x))) l ->
  add_segments l c = Made (fold_left chain_addSegment (map mkseg l) c).
Proof.
  induction l as [|[[t f] b] r IH]; intros c H; [reflexivity|]. inversion H as [|? ? [E|E] H']; subst; cbn in E; subst t; cbn [add_segments joint_make];
    rewrite IH by assumption; reflexivity.
Qed.
Lemma fold_add l : forall c, fold_left chain_addSegment l c =
  mkCh (ch_nj c + count_moving l) (ch_ns c + length l) (ch_segs c ++ l).
Proof.
  induction l as [|s l IH]; intros c; cbn [fold_left].
  - destruct c as [a b d]. cbn. rewrite app_nil_r, !Nat.add_0_r. reflexivity.
  - rewrite IH. unfold chain_addSegment, count_moving, moving. cbn [filter]. destruct (isFixed (jtype (sjoint s))); cbn [negb ch_nj ch_ns ch_segs length];
      rewrite <- app_assoc; cbn [app]; f_equal; lia.
Qed.
Definition robot (l : list (JointType * Frame * RigidBodyInertia)) : Chain := mkCh (count_moving (map mkseg l)) (length (map mkseg l)) (map mkseg l).
Lemma robot_made l : Forall (fun x => plain_type (fst (fst x))) l -> add_segments l chain_empty = Made (robot l).
Proof. intros H. rewrite add_segments_made by exact H. rewrite fold_add. reflexivity. Qed.
Lemma robot_wf l : chain_wf (robot l). Proof. split; reflexivity. Qed.
Lemma mkseg_ok x : plain_type (fst (fst x)) -> rigid (snd (fst x)) -> segment_ok (mkseg x).
Proof.
  destruct x as [[t f] b]. cbn [fst snd]. intros Ht Hf. split.
  - unfold joint_ok. cbn. destruct Ht as [-> | ->]; discriminate.
  - cbn [mkseg segment_make sf_tip]. apply rigid_mul; [|exact Hf]. apply rigid_inv.
    apply joint_pose_rigid. unfold joint_ok. cbn. destruct Ht as [-> | ->]; discriminate.
Qed.
Lemma robot_ok l : Forall (fun x => plain_type (fst (fst x)) /\ rigid (snd (fst x))) l -> chain_ok (robot l).
Proof.
  intros H. split; [apply robot_wf|]. cbn [robot ch_segs]. rewrite Forall_forall in *. intros s Hs. apply in_map_iff in Hs as (x & <- & Hx).
  apply mkseg_ok; apply H; exact Hx.
Qed.
(** * Puma *)
Lemma RotZ_0 : r_RotZ 0 = r_id. Proof. unfold r_RotZ. rewrite cos_0, sin_0. geo. Qed.
Lemma tip_rot f b : sf_tip (mkseg (RotZ, f, b)) = f.
Proof.
  cbn [mkseg segment_make sf_tip joint_pose jtype jscale joffset]. replace (1 * 0 + 0) with 0 by ring. rewrite RotZ_0. clear. geo.
Qed.
Lemma pose_rot f b x : segment_pose (mkseg (RotZ, f, b)) x = f_mul (f_of_rot (r_RotZ x)) f.
Proof.
  unfold segment_pose. rewrite tip_rot. cbn [mkseg segment_make sjoint joint_pose jtype jscale joffset]. replace (1 * x + 0) with x by ring. reflexivity.
Qed.
Lemma pose_fix f b x : segment_pose (mkseg (Fixed, f, b)) x = f.
Proof. unfold segment_pose. cbn [mkseg segment_make sjoint sf_tip joint_pose jtype jscale joffset]. clear. geo. Qed.
Lemma moving_rot f b : moving (mkseg (RotZ, f, b)) = true. Proof. reflexivity. Qed.
Lemma moving_fix f b : moving (mkseg (Fixed, f, b)) = false. Proof. reflexivity. Qed.
Definition ez : Vector := mkV 0 0 1.
Lemma twist_rot f b x : segment_twist (mkseg (RotZ, f, b)) x 1 = mkT (v_cross ez (r_app (r_RotZ x) (fp f))) ez.
Proof.
  unfold segment_twist. rewrite tip_rot. cbn [mkseg segment_make sjoint joint_pose joint_twist jtype jscale joffset]. replace (1 * x + 0) with x by ring.
  unfold ez. clear. geo.
Qed.
Lemma RotX_q : r_RotX PI_2 = mkR 1 0 0 0 0 (-1) 0 1 0.
Proof. unfold r_RotX, PI_2. rewrite cos_PI2, sin_PI2. f_equal; ring. Qed.
Lemma RotX_nq : r_RotX (- PI_2) = mkR 1 0 0 0 0 1 0 (-1) 0.
Proof. unfold r_RotX, PI_2. rewrite cos_neg, sin_neg, cos_PI2, sin_PI2. f_equal; ring. Qed.
Lemma DH0 a alpha d : f_DH a alpha d 0 = mkF (r_RotX alpha) (mkV a 0 d).
Proof. unfold f_DH, r_RotX. rewrite cos_0, sin_0. clear. geo. Qed.
Lemma RotX_0 : r_RotX 0 = r_id. Proof. unfold r_RotX. rewrite cos_0, sin_0. geo. Qed.
Lemma RotZ_plus a b : r_mul (r_RotZ a) (r_RotZ b) = r_RotZ (a + b).
Proof. unfold r_RotZ. rewrite cos_plus, sin_plus. clear. geo. Qed.

Definition puma : Chain := robot puma560_segments.
Lemma puma_made : Puma560 = Made puma.
Proof. apply robot_made. unfold puma560_segments, no_segment, plain_type. repeat (apply Forall_cons; [cbn; auto|]). apply Forall_nil. Qed.
Lemma DH_is_rigid a alpha d theta : rigid (f_DH a alpha d theta). Proof. apply (DH_rigid a alpha d theta). Qed.
Lemma puma_ok : chain_ok puma.
Proof.
  apply robot_ok. unfold puma560_segments, no_segment, plain_type.
  repeat (apply Forall_cons; [cbn [fst snd]; split; [auto|apply rigid_id || apply DH_is_rigid]|]). apply Forall_nil.
Qed.
Lemma puma_counts : ch_nj puma = 6%nat /\ ch_ns puma = 11%nat. Proof. split; reflexivity. Qed.
Lemma len6 (q : list R) : length q = 6%nat -> exists q1 q2 q3 q4 q5 q6, q = [q1; q2; q3; q4; q5; q6].
Proof. do 7 (destruct q as [|? q]; try discriminate). intros _. do 6 eexists. reflexivity. Qed.

Ltac poses := rewrite ?pose_rot, ?pose_fix, ?DH0.
Lemma puma_tip q1 q2 q3 q4 q5 q6 : tip_frame puma [q1; q2; q3; q4; q5; q6] 11 = mkF (puma_hand q1 q2 q3 q4 q5 q6) (puma_wrist q1 q2 q3).
Proof.
  unfold tip_frame. cbn [puma robot ch_segs puma560_segments map firstn no_segment assign moving mkseg segment_make sjoint jtype isFixed negb pose_product].
  change (segment_make "NoName" (mkJ "NoName" Fixed 1 0 0 0 0 v_zero v_zero) f_id rb_zero) with (mkseg no_segment).
  repeat match goal with |- context [segment_make "NoName" (mkJ "NoName" RotZ 1 0 0 0 0 v_zero v_zero) ?f ?b] =>
    change (segment_make "NoName" (mkJ "NoName" RotZ 1 0 0 0 0 v_zero v_zero) f b) with (mkseg (RotZ, f, b)) end.
  unfold no_segment. rewrite !pose_rot, !pose_fix, !DH0, !f_mul_id_l, !f_mul_id_r, RotX_0.
  apply f_ext.
  - unfold puma_hand. fold PI_2. cbn [f_mul f_of_rot fM]. rewrite !r_mul_id_r, !r_mul_assoc. rewrite <- (RotZ_plus q2 q3), !r_mul_assoc. rewrite ?r_mul_id_r, ?r_mul_id_l. reflexivity.
  - rewrite RotX_q, RotX_nq. unfold puma_wrist, puma_reach, puma_height. rewrite cos_plus, sin_plus.
    replace 0.4318 with (4318/10000) by lra. replace 0.0203 with (203/10000) by lra. replace 0.15005 with (15005/100000) by lra.
    unfold r_RotZ. cbn [f_mul f_of_rot fM fp]. unfold v_zero. geo_unfold. f_equal; field.
Qed.
