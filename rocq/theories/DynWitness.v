(** A concrete arm meeting the hypotheses of the dynamics theorems. *)
From Coq Require Import String Reals List Arith Lia Lra ZArith Bool.
From Verif Require Import FramesModel FramesSpec FramesProofs FrameOpsProofs Outcome InertiaModel InertiaSpec
  InertiaProofs DualModel KinModel KinSpec DerivProofs KinProofs JacProofs LinModel LinSpec SumProofs DynModel DynSpec RneProofs DynProofs FdProofs.
Import ListNotations.
Local Open Scope R_scope.

(** mass 2, centre of mass (1,0,0) from the link frame, spinning inertia 1 about the centre *)
Definition wI : RigidBodyInertia := mkRB 2 (mkV 2 0 0) (mkRI (mkR 1 0 0 0 3 0 0 0 3)).
Definition ws (n : string) (t : JointType) (rot : R) : Segment :=
  mkS n (mkJ n t 1 0 rot 0 0 v_zero v_zero) wI (f_of_vec (mkV 1 0 0)).
(** revolute shoulder, fixed spacer, prismatic elbow *)
Definition wchain : Chain :=
  chain_addSegment (chain_addSegment (chain_addSegment chain_empty (ws "a" RotZ (1/2))) (ws "b" Fixed 0)) (ws "c" TransX (1/4)).
Definition wgrav : Vector := mkV 0 (-10) 0.

Lemma wI_symmetric : rb_symmetric wI.
Proof. apply rb_symmetric_data. repeat split; reflexivity. Qed.
Lemma wI_psd : rb_psd wI.
Proof.
  intros [v w]. destruct v as [a b c], w as [x y z].
  assert (E : tw_dot (mkT (mkV a b c) (mkV x y z)) (rb_app wI (mkT (mkV a b c) (mkV x y z))) =
    2 * (a * a) + 2 * ((b + z) * (b + z)) + 2 * ((c - y) * (c - y)) + x * x + y * y + z * z).
  { unfold wI. ine. }
  rewrite E. pose proof (Rle_0_sqr a). pose proof (Rle_0_sqr (b + z)). pose proof (Rle_0_sqr (c - y)).
  pose proof (Rle_0_sqr x). pose proof (Rle_0_sqr y). pose proof (Rle_0_sqr z). unfold Rsqr in *. lra.
Qed.
Lemma ws_ok n t rot : t = Fixed \/ t = RotZ \/ t = TransX -> segment_ok (ws n t rot).
Proof.
  intros H. split.
  - intros E. cbn [ws sjoint jtype] in E. destruct H as [-> | [-> | ->]]; discriminate.
  - cbn [ws sf_tip f_of_vec]. apply is_rotation_id.
Qed.
Lemma wchain_ok : chain_ok wchain.
Proof.
  split; [split; reflexivity|]. unfold wchain, chain_addSegment. cbn [ch_segs chain_empty app].
  repeat (constructor; [apply ws_ok; auto|]). constructor.
Qed.
Lemma wchain_inertias : inertias_symmetric wchain /\ inertias_psd wchain.
Proof.
  split; unfold inertias_symmetric, inertias_psd, wchain, chain_addSegment; cbn [ch_segs chain_empty app];
    repeat (constructor; [first [apply wI_symmetric | apply wI_psd]|]); constructor.
Qed.
Lemma wchain_rotors : forall j, (j < ch_nj wchain)%nat -> 0 < rotor wchain j.
Proof.
  intros j Hj. change (ch_nj wchain) with 2%nat in Hj. destruct j as [|[|j]]; [| |lia]; unfold rotor, wchain; cbn; lra.
Qed.
(** a motion of both joints: q(s) = (s, s^2), with its velocity and acceleration *)
Definition wq (s : R) : list R := [s; s * s].
Definition wqd (s : R) : list R := [1; 2 * s].
Lemma wmotion t : joint_motion (ch_nj wchain) wq t (wqd t) /\ joint_motion (ch_nj wchain) wqd t [0; 2].
Proof.
  change (ch_nj wchain) with 2%nat.
  split; (split; [intros s; reflexivity|]; split; [reflexivity|]; intros [|[|i]] Hi; [| |lia]); cbn [wq wqd nth].
  - apply derivable_pt_lim_id.
  - eapply dl_eq; [apply (derivable_pt_lim_mult id id); apply derivable_pt_lim_id|]. unfold id. ring.
  - apply derivable_pt_lim_const.
  - eapply dl_eq; [apply (derivable_pt_lim_scal id); apply derivable_pt_lim_id|]. ring.
Qed.
(** an edited chain with different counters *)
Definition wchain' : Chain := chain_addSegment wchain (ws "d" RotZ 1).
Lemma wchain'_ok : chain_ok wchain'.
Proof.
  split; [split; reflexivity|]. unfold wchain', wchain, chain_addSegment. cbn [ch_segs chain_empty app].
  repeat (constructor; [apply ws_ok; auto|]). constructor.
Qed.

Lemma dyn_nonvacuous : chain_ok wchain /\ inertias_symmetric wchain /\ inertias_psd wchain /\
  ch_nj wchain = 2%nat /\ ch_ns wchain = 3%nat /\ (forall j, (j < ch_nj wchain)%nat -> 0 < rotor wchain j) /\
  (exists st, rne_reach wgrav wchain st /\ rne_current wchain st) /\
  (exists st, dyn_reach wgrav wchain st /\ dyn_current wchain st) /\
  (exists st, fd_reach wgrav wchain wchain st /\ fd_current wchain st) /\
  (exists st, fd_reach wgrav wchain wchain' st /\ fd_current wchain' st /\ ~ same_counts wchain wchain') /\
  (forall t, joint_motion (ch_nj wchain) wq t (wqd t) /\ joint_motion (ch_nj wchain) wqd t [0; 2]) /\
  (forall q H, length q = 2%nat -> mrows H = 2%nat -> mcols H = 2%nat ->
     exists M, dyn_JntToMass wchain (dyn_make wchain wgrav) q H = Ret (E_NOERROR, M) /\ pivots_ok 2 (mentry M)).
Proof.
  destruct wchain_inertias as [Sy Ps].
  split; [apply wchain_ok|]. split; [exact Sy|]. split; [exact Ps|]. split; [reflexivity|]. split; [reflexivity|]. split; [apply wchain_rotors|].
  split; [exists (rne_make wchain wgrav); split; [apply rne_r_make|split; reflexivity]|].
  split; [exists (dyn_make wchain wgrav); split; [apply dyn_r_make|split; reflexivity]|].
  split; [exists (fd_make wchain wgrav); split; [apply fd_r_make|split; reflexivity]|].
  split.
  { exists (fd_update wchain' (fd_make wchain wgrav)). split; [|split; [split; reflexivity|]].
    - apply fd_r_update. apply (fd_r_edit _ _ wchain); [apply fd_r_make|apply wchain'_ok].
    - intros [E _]. discriminate. }
  split; [apply wmotion|]. intros q H Lq R1 R2.
  assert (Rn : forall j, (j < ch_nj wchain)%nat -> 0 <= rotor wchain j) by (intros j Hj; pose proof (wchain_rotors j Hj); lra).
  destruct (psd_symmetric_mass wgrav wchain (dyn_make wchain wgrav) q H wchain_ok Sy Ps Rn (dyn_r_make _ _) (conj eq_refl eq_refl) Lq R1 R2)
    as (M & E & SM & _ & PD). exists M. split; [exact E|]. apply pd_pivots; [exact SM|]. apply PD, wchain_rotors.
Qed.
