(** Where the KukaLWR_DHnew chain puts its tip. *)
From Coq Require Import String Reals List Arith Lia Lra Psatz ZArith Bool.
From Verif Require Import FramesModel FramesSpec FramesProofs FrameOpsProofs RotationProofs Outcome LoopProofs InertiaModel InertiaSpec
  InertiaProofs DualModel KinModel KinSpec KinProofs JacProofs LinModel LinSpec SumProofs DynModel DynSpec PosDefSpec PosDefProofs RobotModel RobotSpec RobotProofs RobotJac RobotSing RobotDyn.
Import ListNotations.
Local Open Scope R_scope.

Lemma DHC_turn alpha d : f_DH_Craig1989 0 alpha d 0 = mkF (r_RotX alpha) (r_app (r_RotX alpha) (mkV 0 0 d)).
Proof. unfold f_DH_Craig1989, r_RotX, r_app. cbn. rewrite sin_0, cos_0. f_equal; [f_equal; ring|f_equal; ring]. Qed.
Lemma link_mul x a d F : f_mul (f_mul (f_of_rot (r_RotZ x)) (f_DH_Craig1989 0 a d 0)) F =
  mkF (r_mul (r_mul (r_RotZ x) (r_RotX a)) (fM F)) (v_add (r_app (r_mul (r_RotZ x) (r_RotX a)) (mkV 0 0 d)) (r_app (r_mul (r_RotZ x) (r_RotX a)) (fp F))).
Proof.
  rewrite DHC_turn. destruct F as [M p]. generalize (r_RotX a) (r_RotZ x). intros X Z. unfold f_of_rot. geo.
Qed.
Lemma v_assoc a b c : v_add (v_add a b) c = v_add a (v_add b c). Proof. geo. Qed.
Lemma v_zero_l v : v_add (mkV 0 0 0) v = v. Proof. geo. Qed.
Lemma r_app_0 r : r_app r (mkV 0 0 0) = mkV 0 0 0. Proof. geo. Qed.
Lemma r_app_sum r a b : r_app r (v_add a b) = v_add (r_app r a) (r_app r b). Proof. geo. Qed.
Lemma kuka_tip q1 q2 q3 q4 q5 q6 q7 : tip_frame kuka [q1; q2; q3; q4; q5; q6; q7] 8 =
  mkF (kuka_hand quarter q1 q2 q3 q4 q5 q6 q7) (kuka_wrist_at quarter q1 q2 q3 q4).
Proof.
  unfold tip_frame. set (sg k := mkseg (nth k kuka_segments no_segment)).
  change (firstn 8 (ch_segs kuka)) with [sg 0%nat; sg 1%nat; sg 2%nat; sg 3%nat; sg 4%nat; sg 5%nat; sg 6%nat; sg 7%nat].
  unfold sg. cbn [nth kuka_segments]. unfold kuka_link. rewrite assign_fix, !assign_rot.
  assert (E : f_mul (f_mul (f_of_rot (r_RotZ q7)) f_id) (pose_product (assign [] [])) = mkF (r_RotZ q7) (mkV 0 0 0)).
  { cbn [assign pose_product]. unfold f_of_rot, f_id. generalize (r_RotZ q7). intro Z. geo. }
  rewrite E, !link_mul. cbn [fM fp]. rewrite !r_app_0, !v_zero_l, !r_app_0.
  rewrite DHC_turn. unfold kuka_hand, kuka_wrist_at, kuka_arm, kuka_upper.
  assert (X : r_RotX 0 = r_id) by (unfold r_RotX, r_id; rewrite sin_0, cos_0; f_equal; ring). rewrite X.
  replace (39 / 100) with 0.39 by lra. replace (4 / 10) with 0.4 by lra. replace (31 / 100) with 0.31 by lra.
  generalize (r_RotX quarter) (r_RotX (- quarter)) (r_RotZ q1) (r_RotZ q2) (r_RotZ q3) (r_RotZ q4) (r_RotZ q5) (r_RotZ q6) (r_RotZ q7).
  intros P N Z1 Z2 Z3 Z4 Z5 Z6 Z7.
  assert (G : forall M v, f_mul (mkF r_id (r_app r_id (mkV 0 0 0.31))) (mkF M v) = mkF M (v_add (mkV 0 0 0.31) v)) by (intros; geo).
  rewrite G. f_equal.
  - rewrite !r_mul_assoc. reflexivity.
  - f_equal. assert (Y : forall v, v_add v (mkV 0 0 0) = v) by (intros; geo).
    repeat first [rewrite r_mul_app | rewrite r_app_0 | rewrite v_zero_l | rewrite Y | rewrite r_app_sum]. reflexivity.
Qed.
Lemma kuka_pose q1 q2 q3 q4 q5 q6 q7 : tip_at kuka (-1) [q1; q2; q3; q4; q5; q6; q7] =
  mkF (kuka_hand quarter q1 q2 q3 q4 q5 q6 q7) (kuka_wrist_at quarter q1 q2 q3 q4).
Proof. rewrite kuka_fk by reflexivity. apply kuka_tip. Qed.
(** the distance from the shoulder depends on the elbow only *)
Lemma kuka_reach q1 q2 q3 q4 q5 q6 q7 :
  let r := v_sub (fp (tip_at kuka (-1) [q1; q2; q3; q4; q5; q6; q7])) (mkV 0 0 0.31) in
  v_dot r r = 0.4 * 0.4 + 0.39 * 0.39 + 2 * 0.4 * 0.39 * (sin quarter * sin quarter * cos q4 + cos quarter * cos quarter).
Proof.
  cbv zeta. rewrite kuka_pose. cbn [fp]. unfold kuka_wrist_at, kuka_arm, kuka_upper. rewrite !r_mul_app.
  set (u := mkV 0 0 0.4).
  assert (U : forall Z1 P Z2 N w, v_sub (v_add (mkV 0 0 0.31) (v_add (r_app Z1 (r_app P (r_app Z2 (r_app N u)))) (r_app Z1 (r_app P (r_app Z2 (r_app N w)))))) (mkV 0 0 0.31)
     = r_app Z1 (r_app P (r_app Z2 (r_app N (v_add u w))))).
  { intros. rewrite <- !r_app_sum. set (v := r_app Z1 _). clearbody v. destruct v. unfold v_sub, v_add. cbn. f_equal; ring. }
  rewrite U. rewrite !r_app_dot by (apply is_rotation_RotX || apply is_rotation_RotZ). unfold u.
  set (w := r_app (r_RotX (- quarter)) (r_app (r_RotZ q4) (r_app (r_RotX quarter) (mkV 0 0 0.39)))).
  assert (W : r_app (r_RotZ q3) w = mkV (vx (r_app (r_RotZ q3) w)) (vy (r_app (r_RotZ q3) w)) (vz w)).
  { destruct w. unfold r_app, r_RotZ. cbn. f_equal. ring. }
  assert (N : v_dot (r_app (r_RotZ q3) w) (r_app (r_RotZ q3) w) = 0.39 * 0.39).
  { rewrite r_app_dot by apply is_rotation_RotZ. unfold w. rewrite !r_app_dot by (apply is_rotation_RotX || apply is_rotation_RotZ). unfold v_dot. cbn. ring. }
  assert (V : vz w = 0.39 * (sin quarter * sin quarter * cos q4 + cos quarter * cos quarter)).
  { unfold w, r_RotX, r_RotZ, r_app. cbn. rewrite sin_neg, cos_neg. ring. }
  rewrite W in N |- *. revert N. generalize (vx (r_app (r_RotZ q3) w)) (vy (r_app (r_RotZ q3) w)). rewrite V. intros a b N.
  unfold v_dot, v_add in *. cbn [vx vy vz] in *. nra.
Qed.
(** seven links of two kilograms *)
Lemma kuka_masses k : (1 <= k <= 7)%nat -> rb_m (link_inertia kuka k) = 2.
Proof.
  intro H. assert (K : k = 1%nat \/ k = 2%nat \/ k = 3%nat \/ k = 4%nat \/ k = 5%nat \/ k = 6%nat \/ k = 7%nat) by lia. unfold link_inertia.
  destruct K as [ -> | [ -> | [ -> | [ -> | [ -> | [ -> | -> ]]]]]]; reflexivity.
Qed.
