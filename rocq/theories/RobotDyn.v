(** C80: dynamics of the Puma; the Kuka LWR. *)
From Coq Require Import String Reals List Arith Lia Lra Psatz ZArith Bool.
From Verif Require Import FramesModel FramesSpec FramesProofs FrameOpsProofs RotationProofs Outcome LoopProofs InertiaModel InertiaSpec
  InertiaProofs DualModel KinModel KinSpec KinProofs JacProofs LinModel LinSpec SumProofs DynModel DynSpec PosDefSpec PosDefProofs RobotModel RobotSpec RobotProofs RobotJac RobotSing.
Import ListNotations.
Local Open Scope R_scope.

Lemma diag_app a b c w : ri_app (ri_make a b c 0 0 0) w = mkV (a * vx w) (b * vy w) (c * vz w).
Proof. destruct w. unfold ri_app, ri_make, m3_app, eig. cbn. f_equal; ring. Qed.
Lemma diag_valid a b c : 0 <= a -> 0 <= b -> 0 <= c -> ri_valid (ri_make a b c 0 0 0).
Proof.
  intros Ha Hb Hc. split; [repeat split|]. intros w. rewrite diag_app. destruct w as [x y z]. unfold v_dot. cbn.
  pose proof (Rle_0_sqr x) as X. pose proof (Rle_0_sqr y) as Y. pose proof (Rle_0_sqr z) as Z. unfold Rsqr in *.
  assert (0 <= a * (x * x)) by (apply Rmult_le_pos; auto). assert (0 <= b * (y * y)) by (apply Rmult_le_pos; auto). assert (0 <= c * (z * z)) by (apply Rmult_le_pos; auto). lra.
Qed.
Lemma own_DH a alpha d m cg b x : 0 <= m -> v_dot (mkV 0 (sin alpha) (cos alpha)) (ri_app b (mkV 0 (sin alpha) (cos alpha))) <=
  own_energy (mkseg (RotZ, f_DH a alpha d 0, rb_make m cg b)) x.
Proof.
  intros Hm. unfold own_energy. rewrite pose_rot, twist_rot. cbn [mkseg segment_make sI sjoint jinertia]. rewrite rb_make_energy.
  match goal with |- _ <= ?m * v_dot ?p ?p + _ + 0 => pose proof (Rmult_le_pos _ _ Hm (v_dot_self_nonneg p)) as P; set (Q := v_dot p p) in *; clearbody Q end.
  match goal with |- _ <= _ + v_dot (trot ?t) _ + _ => assert (E : trot t = mkV 0 (sin alpha) (cos alpha)) end.
  { cbn [r_invapp_t trot tvel]. rewrite DH0. cbn [f_mul f_of_rot fM]. unfold r_RotX, r_RotZ, ez. pose proof (sin2_cos2 x) as S. unfold Rsqr in S. geo_unfold.
    f_equal; [ring| |]; ring. }
  rewrite E. lra.
Qed.
Ltac each tac := repeat (apply Forall_cons; [tac|]); try apply Forall_nil.
Lemma rb_zero_psd : rb_psd rb_zero.
Proof. unfold rb_zero. apply rb_make_psd; [lra|]. apply diag_valid; lra. Qed.
Lemma puma_psd : inertias_psd puma.
Proof.
  unfold inertias_psd. cbn [puma robot ch_segs puma560_segments map]. unfold no_segment.
  each ltac:(cbn [mkseg segment_make sI]; first [exact rb_zero_psd | apply rb_make_psd; [lra|apply diag_valid; lra]]).
Qed.
Lemma make_symmetric m c a b d e f g : rb_symmetric (rb_make m c (ri_make a b d e f g)).
Proof. exact (rb_eval_symmetric (RMake m c a b d e f g)). Qed.
Lemma puma_symmetric : inertias_symmetric puma.
Proof.
  unfold inertias_symmetric. cbn [puma robot ch_segs puma560_segments map]. unfold no_segment.
  each ltac:(cbn [mkseg segment_make sI]; apply make_symmetric).
Qed.
Lemma puma_carry : joints_carry puma.
Proof.
  unfold joints_carry. cbn [puma robot ch_segs puma560_segments map]. unfold no_segment.
  assert (S1 : sin PI_2 = 1 /\ cos PI_2 = 0) by (unfold PI_2; rewrite sin_PI2, cos_PI2; auto). destruct S1 as [S1 C1].
  assert (S0 : sin 0 = 0 /\ cos 0 = 1) by (rewrite sin_0, cos_0; auto). destruct S0 as [S0 C0].
  each ltac:(intros Hm; first [discriminate Hm | split; [cbn; lra|]; intros x;
    match goal with |- 0 < own_energy (mkseg (RotZ, f_DH ?a ?al ?d 0, rb_make ?m ?cg ?b)) x =>
      eapply Rlt_le_trans; [|apply (own_DH a al d m cg b x); lra]; rewrite diag_app, ?sin_neg, ?cos_neg, ?S1, ?C1, ?S0, ?C0; unfold v_dot; cbn [vx vy vz]; lra end]).
Qed.

(** * Kuka *)
Definition kuka : Chain := robot kuka_segments.
Lemma kuka_made : KukaLWR_DHnew = Made kuka.
Proof. apply robot_made. unfold kuka_segments, kuka_link, plain_type. each ltac:(cbn; auto). Qed.
Lemma DHC_is_rigid a alpha d theta : rigid (f_DH_Craig1989 a alpha d theta). Proof. apply (DH_rigid a alpha d theta). Qed.
Lemma kuka_ok : chain_ok kuka.
Proof.
  apply robot_ok. unfold kuka_segments, kuka_link, plain_type.
  each ltac:(cbn [fst snd]; split; [auto|apply rigid_id || apply DHC_is_rigid]).
Qed.
Lemma kuka_counts : ch_nj kuka = 7%nat /\ ch_ns kuka = 8%nat. Proof. split; reflexivity. Qed.
Lemma kuka_symmetric : inertias_symmetric kuka.
Proof.
  unfold inertias_symmetric. cbn [kuka robot ch_segs kuka_segments map]. unfold kuka_link.
  each ltac:(cbn [mkseg segment_make sI]; first [apply make_symmetric |
    match goal with |- rb_symmetric (f_app_rb ?F (rb_make ?m ?c (ri_make ?a ?b ?d ?e ?f ?g))) => exact (rb_eval_symmetric (RFrame F (RMake m c a b d e f g))) end]).
Qed.
(** a spin about the centre of gravity *)
Definition spin_at (c w : Vector) : Twist := mkT (v_cross c w) w.
Lemma spin_energy m c b w : tw_dot (spin_at c w) (rb_app (rb_make m c b) (spin_at c w)) = v_dot w (ri_app b w).
Proof.
  rewrite rb_make_energy. assert (E : point_velocity (spin_at c w) c = v_zero) by (unfold point_velocity, spin_at; clear; geo).
  rewrite E. unfold spin_at. cbn [trot]. unfold v_dot at 1. cbn. ring.
Qed.
Lemma ri_app_gen a b c d e f w : ri_app (ri_make a b c d e f) w = mkV (a * vx w + d * vy w + e * vz w) (d * vx w + b * vy w + f * vz w) (e * vx w + f * vy w + c * vz w).
Proof. destruct w. unfold ri_app, ri_make, m3_app, eig. cbn. f_equal; ring. Qed.
Lemma negative F m c b w : rigid F -> v_dot w (ri_app b w) < 0 -> exists t, tw_dot t (rb_app (f_app_rb (f_inv F) (rb_make m c b)) t) < 0.
Proof.
  intros HF H. exists (f_app_t (f_inv F) (spin_at c w)). rewrite rb_frame_energy by (apply rigid_inv; exact HF). rewrite spin_energy. exact H.
Qed.
Lemma kuka_negative k : (2 <= k <= 6)%nat -> exists t, tw_dot t (rb_app (link_inertia kuka k) t) < 0.
Proof.
  intros Hk. assert (K : k = 2%nat \/ k = 3%nat \/ k = 4%nat \/ k = 5%nat \/ k = 6%nat) by lia. unfold link_inertia.
  destruct K as [ -> | [ -> | [ -> | [ -> | -> ]]]]; cbn [kuka robot ch_segs kuka_segments kuka_link map nth mkseg segment_make sI].
  - apply (negative _ _ _ _ (mkV 1 0 0)); [apply DHC_is_rigid|]. rewrite ri_app_gen. unfold v_dot. cbn [vx vy vz]. lra.
  - apply (negative _ _ _ _ (mkV 0 100 1)); [apply DHC_is_rigid|]. rewrite ri_app_gen. unfold v_dot. cbn [vx vy vz]. lra.
  - apply (negative _ _ _ _ (mkV 1 0 0)); [apply DHC_is_rigid|]. rewrite ri_app_gen. unfold v_dot. cbn [vx vy vz]. lra.
  - apply (negative _ _ _ _ (mkV 0 (-100) 1)); [apply DHC_is_rigid|]. rewrite ri_app_gen. unfold v_dot. cbn [vx vy vz]. lra.
  - apply (negative _ _ _ _ (mkV 0 (-1000) 1)); [apply DHC_is_rigid|]. rewrite ri_app_gen. unfold v_dot. cbn [vx vy vz]. lra.
Qed.
(** the wrist is spherical: the last three joints do not move the tip *)
Lemma DHC_centre alpha : fp (f_DH_Craig1989 0 alpha 0 0) = v_zero.
Proof. unfold f_DH_Craig1989, v_zero. cbn. f_equal; ring. Qed.
Lemma centre f b rest x q : fp f = v_zero -> fp (pose_product (assign rest q)) = v_zero -> fp (pose_product (assign (mkseg (RotZ, f, b) :: rest) (x :: q))) = v_zero.
Proof.
  intros Hf H. rewrite assign_rot, fp_mul, H. destruct f as [M v]. cbn in Hf. subst v. unfold r_RotZ. clear. geo.
Qed.
Definition kuka_wrist : list Segment := map mkseg (skipn 5 kuka_segments).
Lemma kuka_wrist_centre x y z : fp (pose_product (assign kuka_wrist [x; y; z])) = v_zero.
Proof.
  unfold kuka_wrist. cbn [skipn kuka_segments map kuka_link]. apply centre; [apply DHC_centre|]. apply centre; [apply DHC_centre|]. apply centre; reflexivity.
Qed.
Lemma kuka_fk q : length q = 7%nat -> tip_at kuka (-1) q = tip_frame kuka q 8.
Proof.
  intros L. unfold tip_at. assert (D : denotes kuka (-1) 8) by (left; split; [lia|reflexivity]).
  rewrite (fk_result kuka q (-1) 8 (robot_wf _) D). rewrite L. reflexivity.
Qed.
Lemma kuka_spherical q q' : length q = 7%nat -> length q' = 7%nat -> firstn 4 q = firstn 4 q' -> fp (tip_at kuka (-1) q) = fp (tip_at kuka (-1) q').
Proof.
  intros L L' E. rewrite !kuka_fk by assumption.
  do 8 (destruct q as [|? q]; try discriminate L). do 8 (destruct q' as [|? q']; try discriminate L'). cbn [firstn] in E. injection E as -> -> -> ->.
  assert (G : forall a b c d x y z, fp (tip_frame kuka [a; b; c; d; x; y; z] 8) = fp (pose_product (assign (firstn 5 (ch_segs kuka)) [a; b; c; d]))).
  { intros. unfold tip_frame. set (sg k := mkseg (nth k kuka_segments no_segment)).
    change (firstn 8 (ch_segs kuka)) with (sg 0%nat :: sg 1%nat :: sg 2%nat :: sg 3%nat :: sg 4%nat :: kuka_wrist).
    change (firstn 5 (ch_segs kuka)) with [sg 0%nat; sg 1%nat; sg 2%nat; sg 3%nat; sg 4%nat].
    pose proof (kuka_wrist_centre x y z) as W. revert W. generalize kuka_wrist. intros w W. unfold sg. cbn [nth kuka_segments]. unfold kuka_link.
    rewrite !assign_fix, !assign_rot, !fp_mul, W. reflexivity. }
  rewrite !G. reflexivity.
Qed.
Lemma puma_spherical q q' : length q = 6%nat -> length q' = 6%nat -> firstn 3 q = firstn 3 q' -> fp (tip_at puma (-1) q) = fp (tip_at puma (-1) q').
Proof.
  intros L L' E. destruct (len6 q L) as (a & b & c & x & y & z & ->). destruct (len6 q' L') as (a' & b' & c' & x' & y' & z' & ->).
  cbn [firstn] in E. injection E as -> -> ->. unfold tip_at. rewrite !puma_fk. reflexivity.
Qed.

(** * Mass matrix and forward dynamics of the Puma *)
Lemma puma_mass g q H : length q = 6%nat -> mrows H = 6%nat -> mcols H = 6%nat ->
  exists M, dyn_JntToMass puma (dyn_make puma g) q H = Ret (E_NOERROR, M) /\ symmetric 6 (mentry M) /\ positive_definite 6 (mentry M).
Proof.
  intros Hq H1 H2. exact (pd_mass g puma (dyn_make puma g) q H puma_ok puma_symmetric puma_psd puma_carry (dyn_r_make g puma) (conj eq_refl eq_refl) Hq H1 H2).
Qed.
Lemma puma_forward g q qd tau fext qdd tau0 : length q = 6%nat -> length qd = 6%nat -> length tau = 6%nat -> length qdd = 6%nat ->
  length fext = 11%nat -> length tau0 = 6%nat ->
  exists out st', fd_CartToJnt puma (fd_make puma g) q qd tau fext qdd = Ret (E_NOERROR, out, st') /\ length out = 6%nat /\
    rne_CartToJnt puma (rne_make puma g) q qd out fext tau0 = Ret (E_NOERROR, tau).
Proof.
  intros Hq Hqd Ht Ha Hf Ht0.
  destruct (pd_forward g puma (fd_make puma g) (rne_make puma g) q qd tau fext qdd tau0 puma_ok puma_symmetric puma_psd puma_carry (fd_r_make g puma) (conj eq_refl eq_refl)
    (rne_r_make g puma) (conj eq_refl eq_refl) Hq Hqd Ht Ha Hf Ht0) as (out & st' & E & L & R & _).
  exists out, st'. split; [exact E|]. split; [exact L|exact R].
Qed.

Lemma puma_examples : singular_at puma [0; 0; 0; 0; 0; 0] /\ ~ singular_at puma [0; 0; 0; 0; PI / 2; 0].
Proof.
  split.
  - apply puma_singularities. left. exact sin_0.
  - intros H. apply puma_singularities in H. unfold puma_singular, puma_reach in H. rewrite !Rplus_0_r, sin_PI2, cos_0, sin_0 in H. lra.
Qed.
