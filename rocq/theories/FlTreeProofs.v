(** Error of tree forward kinematics in rounded arithmetic, and its equality with chain forward kinematics. *)
From Coq Require Import Reals String List ZArith Bool Arith Lia Lra.
From Verif Require Import FramesModel FramesSpec FramesProofs FrameOpsProofs Outcome LoopProofs InertiaModel DualModel KinModel KinSpec DerivProofs KinProofs
  TreeModel TreeSpec TreeProofs TreeCopyProofs TreeNumProofs TreeChainProofs TreeSolverProofs RotNear LipProofs FlModel FlSpec FlProofs FlJoint FlChain FlTreeModel FlTreeSpec.
Import ListNotations.
Local Open Scope R_scope.

Lemma fl_pose_fixed rnd fsin fcos s x y : moving s = false -> fl_segment_pose rnd fsin fcos s x = fl_segment_pose rnd fsin fcos s y.
Proof. unfold moving, fl_segment_pose, fl_joint_pose. destruct (jtype (sjoint s)); cbn; congruence. Qed.
Lemma fl_value rnd fsin fcos t q n e : tinv t -> length q = tr_nj t -> (0 < tr_nj t)%nat -> tfind t n = Some e ->
  exists x, aget q (te_qnr e) = Ret x /\ forall s', moving s' = moving (te_seg e) -> fl_segment_pose rnd fsin fcos s' x = fl_segment_pose rnd fsin fcos s' (joint_value q e).
Proof.
  intros H L P E. destruct (aget_value t q n e H L P E) as (x & E1 & _ & E2). exists x. split; [exact E1|]. intros s' M.
  destruct (moving (te_seg e)) eqn:Me; [rewrite (E2 eq_refl); reflexivity|apply fl_pose_fixed; exact M].
Qed.
Lemma walk_root t n l : tinv t -> walk_up t n (tr_root t) l -> n = tr_root t -> l = [].
Proof.
  intros H W ->. inversion W as [|n e p a l' E P U]; subst; [reflexivity|]. destruct (tinv_root _ H) as [cs Er]. rewrite Er in E. injection E as <-. discriminate.
Qed.

Section Error.
Variables (eps A D : R) (rnd fsin fcos : R -> R).
Hypothesis HA : 1 <= A.
Hypothesis HD : 1 <= D.
Hypothesis He : 0 <= eps.
Hypothesis Hrnd : rounds eps rnd.
Hypothesis Hsin : computes eps fsin sin.
Hypothesis Hcos : computes eps fcos cos.

Lemma first_step n s' s q : (1 <= n)%nat -> 2500 * INR n * (eps * A) <= 1 -> segment_ok s -> stored eps s' s -> moves_within A D (s, q) ->
  run_ok eps A D n 1 (fl_segment_pose rnd fsin fcos s' q) (segment_pose s q).
Proof.
  intros Hn Hs Ok St Mv. assert (K0 : 0 <= eps * A) by nra. assert (N1 : 1 <= INR n) by (apply (le_INR 1); lia).
  assert (KD : 0 <= eps * A * D) by nra.
  destruct (segment_err eps A D rnd fsin fcos HA HD He Hrnd Hsin Hcos s' s q) as (H1 & H2 & H3); auto; [nra|].
  split; [apply segment_pose_rigid; exact Ok|]. cbn [INR]. split; [eapply opb_weaken; [exact H1|nra]|].
  split; [eapply Rle_trans; [exact H2|]|lra].
  assert (1 * (eps * A * D) <= INR n * (eps * A * D)) by (apply Rmult_le_compat_r; lra). nra.
Qed.

Lemma tree_run t' t q N : tinv t -> tree_ok t -> tree_stored eps t' t -> length q = tr_nj t -> (0 < tr_nj t)%nat -> 2500 * INR N * (eps * A) <= 1 ->
  forall rank, (forall n e p, tfind t n = Some e -> te_parent e = Some p -> (rank p < rank n)%nat) ->
  forall n r l, walk_up t n r l -> r = tr_root t -> Forall (fun e => moves_within A D (te_seg e, joint_value q e)) l -> (length l < N)%nat ->
  forall f e, tfind t n = Some e -> (rank n < f)%nat ->
  exists p F, fl_treefk_rec rnd fsin fcos f t' q n = Ret p /\ tree_at t q n F /\ run_ok eps A D N (S (length l)) p F.
Proof.
  intros H Ok (Er & Ej & En & St) L P Hs rank R1. pose proof H as [W _]. destruct (tinv_root _ H) as [cs Ert].
  induction 1 as [a|n e0 p a l E0 Ep0 U IH]; intros Ea Fm HN f e E Hf; (destruct f as [|f]; [lia|]); cbn [fl_treefk_rec].
  - subst a. rewrite Ert in E. injection E as <-. pose proof (St (tr_root t)) as S0. rewrite Ert in S0.
    destruct (tfind t' (tr_root t)) as [x|] eqn:Ex; [|contradiction]. destruct S0 as (S1 & S2 & S3). cbn [te_seg te_qnr te_parent] in *.
    destruct (fl_value rnd fsin fcos t q _ _ H L P Ert) as (y & Ey & Hy). cbn [te_seg te_qnr] in *. rewrite S2, Ey. cbn [obind]. rewrite Er, String.eqb_refl.
    rewrite Hy by (apply (stored_moving eps _ _ S1)). do 2 eexists. split; [reflexivity|]. split; [constructor|].
    replace f_id with (segment_pose (root_segment (tr_root t)) (joint_value q (mkTE (root_segment (tr_root t)) 0 None cs))) by apply root_pose.
    apply first_step; [lia|exact Hs|split; [apply (constructed_ok _ (proj1 (Ok _ _ Ert)))|apply (proj2 (Ok _ _ Ert))]|exact S1|].
    unfold moves_within, root_segment, segment_make. cbn [fst snd sjoint sf_tip te_seg]. rewrite joint_pose_fixed by reflexivity. cbn.
    unfold v_near, v_zero; cbn. rewrite ?Rmult_0_r, ?Rminus_0_r, ?Rabs_R0. repeat split; try lra.
    all: match goal with |- Rabs ?x <= _ => replace x with 0 by ring; rewrite Rabs_R0; lra end.
  - rewrite E0 in E. injection E as <-. pose proof (St n) as S0. rewrite E0 in S0. destruct (tfind t' n) as [x|] eqn:Ex; [|contradiction]. destruct S0 as (S1 & S2 & S3).
    destruct (fl_value rnd fsin fcos t q _ _ H L P E0) as (y & Ey & Hy). rewrite S2, Ey. cbn [obind]. rewrite Er.
    destruct (String.eqb_spec n (tr_root t)) as [->|Nn]. { rewrite Ert in E0. injection E0 as <-. discriminate. }
    rewrite S3, Ep0. destruct (wf_parent _ W _ _ E0 Nn) as (p1 & pe & Q1 & Q2 & _). rewrite Ep0 in Q1. injection Q1 as <-.
    inversion Fm as [|? ? M1 M2]; subst. cbn [length] in HN.
    destruct (IH eq_refl M2 ltac:(lia) f pe Q2) as (p' & F & -> & HF & HR). { specialize (R1 _ _ _ E0 Ep0). lia. }
    cbn [obind]. rewrite Hy by (apply (stored_moving eps _ _ S1)). do 2 eexists. split; [reflexivity|]. split; [econstructor; eauto|].
    cbn [length]. apply run_step; auto. split; [apply (constructed_ok _ (proj1 (Ok _ _ E0)))|apply (proj2 (Ok _ _ E0))].
Qed.

Lemma fl_tree_error t' t q p0 name l : tinv t -> tree_ok t -> tree_stored eps t' t -> length q = tr_nj t -> (0 < tr_nj t)%nat ->
  walk_up t name (tr_root t) l -> Forall (fun e => moves_within A D (te_seg e, joint_value q e)) l ->
  let n := S (length l) in 2500 * INR n * (eps * A) <= 1 -> tfind t name <> None ->
  exists p F, fl_treefk_JntToCart rnd fsin fcos t' q p0 name = Ret (0%Z, p) /\ tree_at t q name F /\
    r_near (220 * INR n * (eps * A)) (fM p) (fM F) /\ v_near (1850 * INR n * INR n * (eps * A * D)) (fp p) (fp F).
Proof.
  intros H Ok St L P W Fm. cbv zeta. intros Hs Nn. pose proof H as [_ (rank & R1 & R2)].
  destruct (tfind t name) as [e|] eqn:E; [|contradiction].
  destruct (tree_run t' t q (S (length l)) H Ok St L P Hs rank R1 name _ l W eq_refl Fm ltac:(lia) (length (tr_segs t)) e E ltac:(eapply R2; eauto)) as (p & F & H1 & H2 & H3).
  exists p, F. unfold fl_treefk_JntToCart. destruct St as (Er & Ej & En & St). rewrite Ej, L, Nat.eqb_refl. cbn [negb].
  specialize (St name). rewrite E in St. destruct (tfind t' name); [|contradiction].
  assert (EL : length (tr_segs t') = length (tr_segs t)) by (unfold names in En; apply (f_equal (@length _)) in En; rewrite !map_length in En; exact En).
  rewrite EL, H1. cbn [obind]. split; [reflexivity|]. split; [exact H2|]. destruct H3 as (_ & Op & Ep & _). split; [apply near_opb; exact Op|apply near_en; exact Ep].
Qed.
End Error.
