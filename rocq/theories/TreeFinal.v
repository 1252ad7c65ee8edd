(** Final forms of the tree theorems, stated over reachable trees. *)
From Coq Require Import String Reals List ZArith Bool Permutation Arith Lia Lra.
From Verif Require Import FramesModel FramesSpec FramesProofs FrameOpsProofs Outcome LoopProofs InertiaModel DualModel KinModel KinSpec DerivProofs KinProofs JacProofs
  TreeModel TreeSpec TreeProofs TreeCopyProofs TreeNumProofs TreeChainProofs TreeSolverProofs TreeWitness.
Import ListNotations.
Local Open Scope R_scope.

Lemma f_wellformed t : reachable t -> tree_wf t.
Proof. intros H. apply reachable_inv in H. apply H. Qed.
Lemma f_total t src name hook : reachable t -> reachable src ->
  (exists r, tree_addTree t src hook = Ret r) /\ (exists r, tree_addTree_self t hook = Ret r) /\
  (exists r, tree_copy src = Ret r) /\ (exists r, tree_assign t src = Ret r) /\ (exists r, tree_assign_self t = Ret r) /\
  (exists r, tree_getSubTree src name t = Ret r).
Proof.
  intros Ht Hs. apply reachable_inv in Ht, Hs. repeat split.
  - apply addTree_total; auto.
  - apply addTree_self_total; auto.
  - apply copy_total; auto.
  - apply copy_total; auto.
  - apply assign_self_total.
  - apply getSubTree_total; auto.
Qed.

Lemma f_addSegment t s hook b t' : tree_addSegment t s hook = (b, t') ->
  (b = false <-> tfind t hook = None \/ tfind t (sname s) <> None) /\
  (b = false -> t' = t) /\
  (b = true ->
     tfind t' (sname s) = Some (mkTE s (if moving s then tr_nj t else 0%nat) (Some hook) []) /\
     (exists he, tfind t hook = Some he /\
        tfind t' hook = Some (mkTE (te_seg he) (te_qnr he) (te_parent he) (te_children he ++ [sname s]))) /\
     (forall n, n <> sname s -> n <> hook -> tfind t' n = tfind t n) /\
     tr_root t' = tr_root t /\ tr_ns t' = S (tr_ns t) /\ tr_nj t' = (tr_nj t + if moving s then 1 else 0)%nat).
Proof.
  intros E. destruct (addSegment_cases t s hook) as [[E1 H]|(he & t1 & Eh & Es & E1 & N & Hr & Hns & Hnj & Hf & Hsegs)]; rewrite E1 in E; injection E as <- <-.
  - split; [tauto|]. split; [reflexivity|discriminate].
  - split; [split; [discriminate|intros [H|H]; congruence]|]. split; [discriminate|]. intros _.
    split; [rewrite Hf, String.eqb_refl; reflexivity|]. split; [|split; [|split; [exact Hr|split; [exact Hns|rewrite Hnj; destruct (moving s); lia]]]].
    + exists he. split; [exact Eh|]. rewrite Hf. destruct (String.eqb_spec (sname s) hook); [contradiction|]. rewrite String.eqb_refl. reflexivity.
    + intros n N1 N2. rewrite Hf. destruct (String.eqb_spec (sname s) n); [congruence|]. destruct (String.eqb_spec hook n); [congruence|reflexivity].
Qed.
Lemma f_addChain t c hook b t' : chain_wf c -> tree_addChain t c hook = (b, t') ->
  (b = true <-> (ch_segs c = [] \/ tfind t hook <> None) /\ NoDup (map sname (ch_segs c)) /\
                forall s, In s (ch_segs c) -> tfind t (sname s) = None) /\
  tr_root t' = tr_root t /\
  (forall n e, tfind t n = Some e -> exists e' new, tfind t' n = Some e' /\ te_seg e' = te_seg e /\ te_qnr e' = te_qnr e /\
     te_parent e' = te_parent e /\ te_children e' = te_children e ++ new).
Proof.
  intros [Hn _] E. unfold tree_addChain in E. rewrite Hn, firstn_all in E. pose proof (addSegments_iff (ch_segs c) t hook) as I.
  rewrite E in I. split; [exact I|]. destruct (addSegments_extends _ _ _ _ _ E) as [X Y]. split; auto.
Qed.
Lemma f_addTree t src hook b t' : reachable src -> tree_addTree t src hook = Ret (b, t') ->
  (b = true <-> (tr_ns src = 0%nat \/ tfind t hook <> None) /\
                (forall n, n <> tr_root src -> tfind src n <> None -> tfind t n = None)) /\
  (forall n e, tfind t n = Some e -> exists e' new, tfind t' n = Some e' /\ te_seg e' = te_seg e /\ te_qnr e' = te_qnr e /\
     te_parent e' = te_parent e /\ te_children e' = te_children e ++ new) /\
  (b = true -> tr_nj t' = (tr_nj t + tr_nj src)%nat /\ tr_ns t' = (tr_ns t + tr_ns src)%nat /\
     (forall n, tfind t n = None -> (tfind src n = None \/ n = tr_root src) -> tfind t' n = None) /\
     exists dfs, tree_copy src = Ret dfs /\
     forall n e d, n <> tr_root src -> tfind src n = Some e -> tfind dfs n = Some d -> exists x,
       tfind t' n = Some x /\ te_seg x = te_seg e /\ te_children x = te_children e /\
       te_parent x = rehook (tr_root src) hook (te_parent e) /\
       te_qnr x = if moving (te_seg e) then (tr_nj t + te_qnr d)%nat else 0%nat).
Proof.
  intros H E. apply reachable_inv in H. destruct (addTree_spec _ _ _ _ _ H E) as [A B]. split; [exact A|]. split.
  - unfold tree_addTree in E. apply (addRec_extends _ _ _ _ _ _ _ E).
  - intros Hb. destruct (B Hb) as (B1 & B2 & _ & B4 & B5). auto.
Qed.
Lemma f_getSubTree src name old b t : reachable src -> tree_getSubTree src name old = Ret (b, t) ->
  (b = true <-> tfind src name <> None) /\ (b = false -> t = old) /\
  (b = true -> tr_root t = name /\
     (forall n, tfind t n <> None <-> (tfind src n <> None /\ descends src name n)) /\
     (forall n e, n <> name -> tfind src n = Some e -> descends src name n -> exists x,
        tfind t n = Some x /\ te_seg x = te_seg e /\ te_parent x = te_parent e /\ te_children x = te_children e) /\
     (forall e, tfind src name = Some e -> tfind t name = Some (mkTE (root_segment name) 0 None (te_children e))) /\
     depth_first_numbered t).
Proof. intros H. apply getSubTree_spec. apply reachable_inv. exact H. Qed.

Lemma f_copy t t' : reachable t -> tree_copy t = Ret t' ->
  same_structure t' t /\ depth_first_numbered t' /\ (same_tree t' t <-> depth_first_numbered t) /\ tree_copy t' = Ret t'.
Proof.
  intros H E. apply reachable_inv in H. split; [apply copy_structure; auto|]. split; [eapply copy_numbered; eauto|].
  split; [apply copy_same_iff; auto|eapply copy_copy; eauto].
Qed.
Lemma f_assign old t t' : reachable t -> tree_assign old t = Ret t' -> tree_copy t = Ret t'.
Proof. intros _ E. rewrite <- E. reflexivity. Qed.
Lemma f_assign_self t : tree_assign_self t = Ret (tree_make (tr_root t)).
Proof. unfold tree_assign_self, tree_addTree_self, tfind. simpl. rewrite String.eqb_refl. reflexivity. Qed.

Lemma f_getChain_fail t r tip : reachable t -> tree_ok t -> (tfind t r = None \/ tfind t tip = None) ->
  tree_getChain t r tip = Ret (false, chain_empty).
Proof. intros H Ok. apply reachable_inv in H. apply (getChain_spec t r tip H Ok). Qed.
Lemma f_getChain_scaled t r tip : reachable t -> tree_ok t -> tfind t r <> None -> tfind t tip <> None ->
  exists a lu ld c, walk_up t r a lu /\ walk_up t tip a ld /\ (forall e, In e lu -> ~ In e ld) /\
    tree_getChain t r tip = Ret (true, c) /\ chain_wf c /\
    map (fun s => jname (sjoint s)) (ch_segs c) = map (fun e => jname (sjoint (te_seg e))) (lu ++ rev ld) /\
    map moving (ch_segs c) = map (fun e => moving (te_seg e)) (lu ++ rev ld) /\
    map (fun s => Some (sname s)) (ch_segs c) = map te_parent lu ++ map (fun e => Some (sname (te_seg e))) (rev ld) /\
    forall q Fr Ft, tree_at t q r Fr -> tree_at t q tip Ft ->
      fk_JntToCart c (scaled_values q lu ++ path_values q (rev ld)) (-1) = Ret (E_NOERROR, f_mul (f_inv Fr) Ft).
Proof. intros H. apply getChain_pose. apply reachable_inv. exact H. Qed.
Lemma f_getChain t r tip : reachable t -> tree_ok t -> unit_scales t -> tfind t r <> None -> tfind t tip <> None ->
  exists a lu ld c, walk_up t r a lu /\ walk_up t tip a ld /\ (forall e, In e lu -> ~ In e ld) /\
    tree_getChain t r tip = Ret (true, c) /\ chain_wf c /\
    map (fun s => jname (sjoint s)) (ch_segs c) = map (fun e => jname (sjoint (te_seg e))) (lu ++ rev ld) /\
    forall q Fr Ft, tree_at t q r Fr -> tree_at t q tip Ft ->
      fk_JntToCart c (path_values q (lu ++ rev ld)) (-1) = Ret (E_NOERROR, f_mul (f_inv Fr) Ft).
Proof.
  intros H Ok U Hr Ht. destruct (f_getChain_scaled t r tip H Ok Hr Ht) as (a & lu & ld & c & H1 & H2 & H3 & H4 & H5 & H6 & _ & _ & H9).
  exists a, lu, ld, c. do 6 (split; [assumption|]). intros q Fr Ft A1 A2. rewrite <- (H9 q Fr Ft A1 A2).
  assert (E : scaled_values q lu = path_values q lu).
  { unfold scaled_values, path_values. apply map_ext_in. intros e He. apply filter_In in He as [He Me].
    rewrite (U (nm e) e (walk_up_found t r a lu e (f_wellformed t H) H1 He) Me). ring. }
  rewrite E. unfold path_values. rewrite filter_app, map_app. reflexivity.
Qed.
Lemma f_tree_at t q n : reachable t -> tfind t n <> None -> exists F, tree_at t q n F /\ forall G, tree_at t q n G -> G = F.
Proof.
  intros H N. apply reachable_inv in H. destruct (tfind t n) as [e|] eqn:E; [|contradiction]. destruct (tree_at_total t q n e H E) as [F HF].
  exists F. split; auto. intros G HG. eapply tree_at_fun; eauto.
Qed.

Lemma f_fk t st q p name : reachable t -> treefk_make t = Ret st ->
  (length q <> tr_nj t -> treefk_JntToCart st q p name = Ret ((-1)%Z, p)) /\
  (length q = tr_nj t -> tfind t name = None -> treefk_JntToCart st q p name = Ret ((-2)%Z, p)) /\
  (length q = tr_nj t -> (0 < tr_nj t)%nat -> tfind t name <> None ->
   exists F, treefk_JntToCart st q p name = Ret (0%Z, F) /\ tree_at st q name F /\
     (depth_first_numbered t -> tree_at t q name F)).
Proof.
  intros H E. apply reachable_inv in H. pose proof (copy_tinv _ _ H E) as I. pose proof (copy_structure _ _ H E) as (R & NJ & NS & S).
  destruct (treefk_spec st q p name I) as (A & B & C). rewrite NJ in *. split; [exact A|].
  assert (Nn : tfind t name = None <-> tfind st name = None).
  { specialize (S name). destruct (tfind st name), (tfind t name); try contradiction; split; congruence. }
  split; [intros L Hn; apply B; auto; apply Nn; exact Hn|]. intros L P Hn. destruct (C L P) as (F & HF & HA); [rewrite <- Nn; exact Hn|].
  exists F. split; [exact HF|]. split; [exact HA|]. intros D. eapply tree_at_same; [|exact HA]. apply (copy_same_iff _ _ H E). exact D.
Qed.
Lemma f_fk_no_joints t st p name : reachable t -> treefk_make t = Ret st -> tr_nj t = 0%nat -> tfind t name <> None ->
  treefk_JntToCart st [] p name = Undef.
Proof.
  intros H E Z N. apply reachable_inv in H. pose proof (copy_tinv _ _ H E) as I. pose proof (copy_structure _ _ H E) as (R & NJ & NS & S).
  apply treefk_no_joints; auto; [congruence|]. specialize (S name). destruct (tfind st name), (tfind t name); try contradiction; congruence.
Qed.
Lemma f_jac t st q jac name : reachable t -> tree_ok t -> treejac_make t = Ret st ->
  (length q <> tr_nj t \/ length jac <> tr_nj t -> treejac_JntToJac st q jac name = Ret ((-1)%Z, jac)) /\
  (length q = tr_nj t -> length jac = tr_nj t -> tfind t name = None -> treejac_JntToJac st q jac name = Ret ((-2)%Z, jac)) /\
  (length q = tr_nj t -> length jac = tr_nj t -> (0 < tr_nj t)%nat -> tfind t name <> None ->
   exists J, treejac_JntToJac st q jac name = Ret (0%Z, J) /\ length J = tr_nj t /\
     (forall qs t0 qd F, joint_motion (tr_nj t) qs t0 qd -> qs t0 = q -> (forall s, tree_at st (qs s) name (F s)) ->
        exists V, MultiplyJacobian J qd = Ret V /\ frame_velocity F t0 V) /\
     (forall l k, walk_up st name (tr_root st) l -> (k < tr_nj t)%nat ->
        (forall e, In e l -> moving (te_seg e) = true -> te_qnr e <> k) -> nth_error J k = Some t_zero)).
Proof.
  intros H Ok E. apply reachable_inv in H. pose proof (copy_tinv _ _ H E) as I. pose proof (copy_structure _ _ H E) as (R & NJ & NS & S).
  destruct (treejac_spec st q jac name I) as (A & B & C). { eapply tree_ok_same; [|exact Ok]. split; [exact R|auto]. }
  rewrite NJ in *. split; [exact A|].
  assert (Nn : tfind t name = None <-> tfind st name = None).
  { specialize (S name). destruct (tfind st name), (tfind t name); try contradiction; split; congruence. }
  split; [intros L L2 Hn; apply B; auto; apply Nn; exact Hn|]. intros L L2 P Hn. apply C; auto. rewrite <- Nn. exact Hn.
Qed.
(** the same in the user's own numbering, when it is depth-first *)
Lemma f_jac_user t st q jac name : reachable t -> tree_ok t -> treejac_make t = Ret st -> depth_first_numbered t ->
  length q = tr_nj t -> length jac = tr_nj t -> (0 < tr_nj t)%nat -> tfind t name <> None ->
   exists J, treejac_JntToJac st q jac name = Ret (0%Z, J) /\ length J = tr_nj t /\
     forall qs t0 qd F, joint_motion (tr_nj t) qs t0 qd -> qs t0 = q -> (forall s, tree_at t (qs s) name (F s)) ->
        exists V, MultiplyJacobian J qd = Ret V /\ frame_velocity F t0 V.
Proof.
  intros H Ok E D L L2 P Hn. destruct (f_jac t st q jac name H Ok E) as (_ & _ & C). destruct (C L L2 P Hn) as (J & H1 & H2 & H3 & _).
  exists J. split; [exact H1|]. split; [exact H2|]. intros qs t0 qd F Hm Hq HF. apply (H3 qs t0 qd F Hm Hq).
  intros s. apply reachable_inv in H. eapply tree_at_same; [|apply HF].
  pose proof (proj2 (copy_same_iff _ _ H E) D) as (X1 & X2 & X3 & X4). split; [auto|]. split; auto.
Qed.
Lemma f_jac_no_joints t st name : reachable t -> treejac_make t = Ret st -> tr_nj t = 0%nat -> tfind t name <> None -> name <> tr_root t ->
  treejac_JntToJac st [] [] name = Undef.
Proof.
  intros H E Z N Nr. apply reachable_inv in H. pose proof (copy_tinv _ _ H E) as I. pose proof (copy_structure _ _ H E) as (R & NJ & NS & S).
  unfold treejac_JntToJac. rewrite NJ, Z. simpl. specialize (S name). destruct (tfind st name) as [e|] eqn:Es, (tfind t name); try contradiction.
  destruct I as [W _]. rewrite (wf_segments _ W). cbn [treejac_loop]. rewrite R. destruct (String.eqb_spec name (tr_root t)); [contradiction|].
  rewrite Es. unfold aget. destruct (te_qnr e); reflexivity.
Qed.
Lemma f_nonvacuous : reachable w_tree /\ tree_ok w_tree /\ unit_scales w_tree /\ tr_nj w_tree = 3%nat /\
  tfind w_tree "b"%string <> None /\ tfind w_tree "c"%string <> None.
Proof. split; [exact w_reachable|]. split; [exact w_ok|]. split; [exact w_unit|]. split; [reflexivity|]. split; discriminate. Qed.
(** a depth-first numbered tree: the copy of the witness *)
Lemma f_dfs_nonvacuous : exists t, reachable t /\ tree_ok t /\ depth_first_numbered t /\ tr_nj t = 3%nat.
Proof.
  pose proof (reachable_inv _ w_reachable) as I. destruct (copy_total _ I) as [t E]. exists t.
  pose proof (copy_structure _ _ I E) as S. split; [eapply reach_copy; [exact w_reachable|exact E]|].
  split; [eapply tree_ok_same; [exact S|exact w_ok]|]. split; [eapply copy_numbered; eauto|]. destruct S as (_ & -> & _). reflexivity.
Qed.
(** names along the path between b and c *)
Lemma f_getChain_example : exists c, tree_getChain w_tree "b" "c" = Ret (true, c) /\ map (fun s => jname (sjoint s)) (ch_segs c) = ["jb"; "ja"; "jc"]%string.
Proof. eexists. split; reflexivity. Qed.
