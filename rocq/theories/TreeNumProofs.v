(** Joint numbers of copies; what addChain, addTree and getSubTree build (C28, C29, C57). *)
From Coq Require Import String Reals List ZArith Bool Permutation Arith Lia.
From Verif Require Import FramesModel FramesSpec Outcome InertiaModel DualModel KinModel KinSpec TreeModel TreeSpec TreeProofs TreeCopyProofs.
Import ListNotations.
Local Open Scope nat_scope.

Lemma forest_preorder t cs fo : forest_of t cs fo -> preorder t cs (fnames fo).
Proof. induction 1; simpl; [constructor|]. rewrite H0. econstructor; eauto. Qed.
Lemma preorder_fun t cs l : preorder t cs l -> forall l', preorder t cs l' -> l = l'.
Proof.
  induction 1 as [|c e cs l1 l2 E H1 IH1 H2 IH2]; intros l' H; inversion H as [|c' e' cs' l1' l2' E' H1' H2']; auto.
  assert (e' = e) by congruence. subst. f_equal. f_equal; auto.
Qed.
Lemma preorder_root t cs l : tinv t -> tfind t (tr_root t) = Some (mkTE (root_segment (tr_root t)) 0 None cs) ->
  preorder t cs l -> preorder t [tr_root t] (tr_root t :: l).
Proof. intros H E P. rewrite <- (app_nil_r l). econstructor; [exact E|exact P|constructor]. Qed.
Lemma numbers_along_app t a b : numbers_along t (a ++ b) = numbers_along t a ++ numbers_along t b.
Proof. unfold numbers_along. apply flat_map_app. Qed.
Lemma numbers_root t l : tinv t -> numbers_along t (tr_root t :: l) = numbers_along t l.
Proof. intros H. destruct (tinv_root _ H) as [cs E]. unfold numbers_along. simpl. rewrite E. reflexivity. Qed.

Lemma flat_numbers t fo : forall k hook, (forall n x, In (n, x) (flat k hook fo) -> tfind t n = Some x) ->
  numbers_along t (fnames fo) = seq k (fjoints fo).
Proof.
  induction fo as [|s fc IH1 fs IH2]; intros k hook H; [reflexivity|].
  change (fnames (FNode s fc fs)) with ([sname s] ++ fnames fc ++ fnames fs). rewrite !numbers_along_app.
  rewrite (IH1 (k + mv s) (sname s)), (IH2 (k + mv s + fjoints fc) hook).
  - unfold numbers_along at 1. simpl. rewrite (H (sname s) _ (or_introl eq_refl)). simpl.
    unfold mv. destruct (moving s); simpl.
    + rewrite seq_app. simpl. rewrite Nat.add_1_r. reflexivity.
    + rewrite seq_app, Nat.add_0_r. reflexivity.
  - intros n x Hn. apply H. simpl. right. apply in_or_app. auto.
  - intros n x Hn. apply H. simpl. right. apply in_or_app. auto.
Qed.
Lemma copy_is_form t t' : tinv t -> tree_copy t = Ret t' -> exists cs fo,
  tfind t (tr_root t) = Some (mkTE (root_segment (tr_root t)) 0 None cs) /\
  forest_of t cs fo /\ NoDup (fnames fo) /\ ~ In (tr_root t) (fnames fo) /\ t' = copy_of (tr_root t) fo.
Proof.
  intros H E. destruct (copy_form _ H) as (cs & fo & Er & Fo & ND & NR & EA).
  unfold tree_copy in E. rewrite EA in E. cbn [obind snd] in E. injection E as <-. exists cs, fo. auto.
Qed.
Theorem copy_numbered t t' : tinv t -> tree_copy t = Ret t' -> depth_first_numbered t'.
Proof.
  intros H E. pose proof (copy_tinv _ _ H E) as H'. pose proof (copy_structure _ _ H E) as (R & NJ & NS & S).
  destruct (copy_is_form _ _ H E) as (cs & fo & Er & Fo & ND & NR & ->).
  set (t' := copy_of (tr_root t) fo) in *.
  assert (Fo' : forest_of t' cs fo).
  { eapply forest_of_same; [|exact Fo]. intros n. specialize (S n). destruct (tfind t' n), (tfind t n); try tauto.
    destruct S as (? & ? & ?). auto. }
  assert (Er' : tfind t' (tr_root t') = Some (mkTE (root_segment (tr_root t')) 0 None cs)).
  { unfold tfind, t', copy_of. simpl. rewrite String.eqb_refl, (forest_of_roots _ _ _ Fo). reflexivity. }
  exists (tr_root t' :: fnames fo). split.
  - eapply preorder_root; eauto. apply forest_preorder. exact Fo'.
  - rewrite numbers_root by exact H'. rewrite (flat_numbers t' fo 0 (tr_root t)); [reflexivity|].
    intros n x Hn. unfold tfind, t', copy_of. cbn [tr_segs].
    apply smap_In_find; [|simpl; auto]. simpl. rewrite flat_names. constructor; auto.
Qed.
Lemma numbers_pointwise a b l : (forall n, match tfind a n, tfind b n with Some x, Some y => te_seg x = te_seg y | None, None => True | _, _ => False end) ->
  numbers_along a l = numbers_along b l -> forall n x y, In n l -> tfind a n = Some x -> tfind b n = Some y -> moving (te_seg x) = true -> te_qnr x = te_qnr y.
Proof.
  intros S. unfold numbers_along. induction l as [|m l IH]; intros E n x y Hn Ex Ey M; [destruct Hn|].
  simpl in E. pose proof (S m) as Sm. destruct (tfind a m) as [xm|] eqn:Am, (tfind b m) as [ym|] eqn:Bm; try contradiction.
  - rewrite Sm in E. destruct (moving (te_seg ym)) eqn:Mm; simpl in E.
    + injection E as E1 E2. destruct Hn as [->|Hn]; [congruence|eauto].
    + destruct Hn as [->|Hn]; [|eauto]. congruence.
  - simpl in E. destruct Hn as [->|Hn]; [congruence|eauto].
Qed.
Theorem copy_same_iff t t' : tinv t -> tree_copy t = Ret t' -> (same_tree t' t <-> depth_first_numbered t).
Proof.
  intros H E. pose proof (copy_tinv _ _ H E) as H'. pose proof (copy_structure _ _ H E) as (R & NJ & NS & S).
  pose proof (copy_numbered _ _ H E) as (l & P & N). split.
  - intros (_ & _ & _ & F). exists l. split.
    + rewrite <- R. clear N. induction P; [constructor|]. econstructor; eauto. rewrite <- F. assumption.
    + rewrite <- NJ, <- N. unfold numbers_along. apply flat_map_ext. intros n. rewrite F. reflexivity.
  - intros (l' & P' & N'). 
    assert (l' = l).
    { eapply preorder_fun; [exact P'|]. clear -P S R. rewrite <- R. induction P as [|c e cs l1 l2 Ec P1 IH1 P2 IH2]; [constructor|].
      specialize (S c). rewrite Ec in S. destruct (tfind t c) as [y|] eqn:Ey; [|contradiction]. destruct S as (_ & _ & S).
      rewrite S in IH1. econstructor; eauto. }
    subst l'. split; [exact R|]. split; [exact NJ|]. split; [exact NS|]. intros n. pose proof (S n) as Sn.
    destruct (tfind t' n) as [x|] eqn:Ex, (tfind t n) as [y|] eqn:Ey; try contradiction; auto.
    destruct Sn as (S1 & S2 & S3). f_equal. destruct x as [sx qx px cx], y as [sy qy py cy]. simpl in *. subst. f_equal.
    destruct (moving sy) eqn:M.
    + assert (L : In n l).
      { destruct (tinv_root _ H) as [cs Er].
        destruct (copy_is_form _ _ H E) as (cs' & fo & Er' & Fo & _). rewrite Er in Er'. injection Er' as <-.
        rewrite (preorder_fun _ _ _ P' _ (preorder_root _ _ _ H Er (forest_preorder _ _ _ Fo))).
        apply smap_find_Some_In in Ey. apply (forest_names_all _ _ _ H Er Fo) in Ey. simpl. intuition. }
      eapply (numbers_pointwise t' t l) with (n := n) (x := mkTE sy qx py cy) (y := mkTE sy qy py cy); eauto.
      * intros m. specialize (S m). destruct (tfind t' m), (tfind t m); tauto.
      * congruence.
    + pose proof (wf_fixed _ (proj1 H') _ _ Ex M). pose proof (wf_fixed _ (proj1 H) _ _ Ey M). simpl in *. congruence.
Qed.

(** * addSegment, addChain, addTree *)
Lemma addSegment_iff t s hook : fst (tree_addSegment t s hook) = true <-> tfind t hook <> None /\ tfind t (sname s) = None.
Proof.
  unfold tree_addSegment. destruct (tfind t hook) eqn:E1; [|simpl; split; [discriminate|intros [H _]; contradiction]].
  destruct (tfind t (sname s)) eqn:E2; simpl; split; try tauto; try discriminate.
  - intros [_ H]. discriminate.
  - split; auto; discriminate.
Qed.
Lemma addSegments_iff l : forall t hook, fst (tree_addSegments t l hook) = true <->
  (l = [] \/ tfind t hook <> None) /\ NoDup (map sname l) /\ forall s, In s l -> tfind t (sname s) = None.
Proof.
  induction l as [|s l IH]; intros t hook; simpl.
  - split; auto. intros _. split; auto. split; [constructor|]. intros s [].
  - destruct (addSegment_cases t s hook) as [[E [H|H]]|(he & t1 & Eh & Es & E1 & N & Hr & Hns & Hnj & Hf & Hsegs)].
    + rewrite E. simpl. split; [discriminate|]. intros [[H1|H1] _]; [discriminate|contradiction].
    + rewrite E. simpl. split; [discriminate|]. intros (_ & _ & H1). exfalso. apply H. apply H1. auto.
    + rewrite E1. rewrite IH. assert (X : tfind t1 (sname s) <> None) by (rewrite Hf, String.eqb_refl; discriminate).
      split.
      * intros (_ & ND & F). split; [right; congruence|]. split.
        { constructor; auto. intros H. apply in_map_iff in H as (s' & H1 & H2). specialize (F s' H2). rewrite H1 in F. contradiction. }
        intros s' [<-|H']; auto. specialize (F _ H'). rewrite Hf in F. destruct (String.eqb_spec (sname s) (sname s')); [discriminate|].
        destruct (String.eqb hook (sname s')); [discriminate|exact F].
      * intros (_ & ND & F). inversion ND; subst. split; auto. split; auto. intros s' H'. rewrite Hf.
        destruct (String.eqb_spec (sname s) (sname s')) as [e|]; [exfalso; apply H1; rewrite e; apply in_map; exact H'|].
        assert (F' : tfind t (sname s') = None) by auto.
        destruct (String.eqb_spec hook (sname s')) as [e|]; [congruence|exact F'].
Qed.
Lemma extends_present a b n : extends a b -> tfind a n <> None -> tfind b n <> None.
Proof. intros [_ H] N. destruct (tfind a n) as [e|] eqn:E; [|contradiction]. destruct (H _ _ E) as (e' & l & -> & _). discriminate. Qed.
Lemma add_forest_extends f : forall d hook b d', add_forest d hook f = (b, d') -> extends d d'.
Proof.
  induction f as [|s fc IH1 fs IH2]; intros d hook b d' E; simpl in E.
  - injection E as _ <-. apply extends_refl.
  - destruct (tree_addSegment d s hook) as [[] d1] eqn:E1; pose proof (addSegment_extends _ _ _ _ _ E1).
    + destruct (add_forest d1 (sname s) fc) as [[] d2] eqn:E2; pose proof (IH1 _ _ _ _ E2).
      * eapply extends_trans; [exact H|]. eapply extends_trans; eauto.
      * injection E as _ <-. eapply extends_trans; eauto.
    + injection E as _ <-. assumption.
Qed.
Lemma add_forest_new f : forall d hook d', add_forest d hook f = (true, d') ->
  (f = FNil \/ tfind d hook <> None) /\ (forall n, In n (fnames f) -> tfind d n = None).
Proof.
  induction f as [|s fc IH1 fs IH2]; intros d hook d' E; simpl in E.
  - split; auto. intros n [].
  - destruct (addSegment_cases d s hook) as [[E1 _]|(he & t1 & Eh & Es & E1 & N & Hr & Hns & Hnj & Hf & Hsegs)]; rewrite E1 in E; [discriminate|].
    split; [right; congruence|]. destruct (add_forest t1 (sname s) fc) as [[] d2] eqn:E2; [|discriminate].
    pose proof (addSegment_extends _ _ _ _ _ E1) as X1. pose proof (add_forest_extends _ _ _ _ _ E2) as X2.
    destruct (IH1 _ _ _ E2) as [_ F1]. destruct (IH2 _ _ _ E) as [_ F2].
    intros n [<-|Hn]; auto. destruct (tfind d n) eqn:Dn; auto. exfalso.
    assert (A : tfind t1 n <> None) by (eapply extends_present; [exact X1|congruence]).
    apply in_app_or in Hn as [Hn|Hn]; [apply A; auto|]. specialize (F2 _ Hn). eapply extends_present; [exact X2|exact A|exact F2].
Qed.
Lemma flat_parents t cs fo : tree_wf t -> forest_of t cs fo -> forall k hook n x, In (n, x) (flat k hook fo) ->
  exists e, tfind t n = Some e /\ te_seg x = te_seg e /\ te_children x = te_children e /\
   (In n cs /\ te_parent x = Some hook \/ te_parent x = te_parent e /\ exists c, te_parent e = Some c /\ In c (fnames fo)).
Proof.
  intros W. induction 1 as [|c e cs fc fs E Nm Hc IHc Hs IHs]; intros k hook n x Hn; [destruct Hn|].
  simpl in Hn. rewrite Nm in Hn. destruct Hn as [Hn|Hn].
  - injection Hn as <- <-. exists e. simpl. rewrite (forest_of_roots _ _ _ Hc). auto 10.
  - apply in_app_or in Hn as [Hn|Hn].
    + destruct (IHc _ _ _ _ Hn) as (e' & F & S & C & D). exists e'. repeat (split; [assumption|]). right.
      simpl. rewrite Nm. destruct D as [[D1 D2]|[D1 (c' & D2 & D3)]].
      * destruct (wf_children _ W _ _ _ E D1) as (ce & F' & P). assert (ce = e') by congruence. subst. split; [congruence|]. eauto.
      * split; auto. exists c'. split; auto. right. apply in_or_app; auto.
    + destruct (IHs _ _ _ _ Hn) as (e' & F & S & C & D). exists e'. repeat (split; [assumption|]).
      destruct D as [[D1 D2]|[D1 (c' & D2 & D3)]]; [left; simpl; auto|right]. split; auto. exists c'. split; auto. simpl. right. apply in_or_app; auto.
Qed.
(** numbering of a flattened forest relative to the one starting at 0 *)
Lemma flat_shift fo : forall k j hook hook' n x, NoDup (fnames fo) -> In (n, x) (flat k hook fo) -> exists y, In (n, y) (flat j hook' fo) /\
  te_seg x = te_seg y /\ (moving (te_seg x) = true -> te_qnr x + j = te_qnr y + k) /\ (moving (te_seg x) = false -> te_qnr x = 0).
Proof.
  induction fo as [|s fc IH1 fs IH2]; intros k j hook hook' n x ND Hn; [destruct Hn|].
  simpl in ND. inversion ND as [|a b NI ND']; subst a b.
  simpl in Hn. destruct Hn as [Hn|Hn].
  - injection Hn as <- <-. eexists. split; [left; reflexivity|]. simpl. split; auto. destruct (moving s); split; intros; try discriminate; lia.
  - apply in_app_or in Hn as [Hn|Hn].
    + destruct (IH1 _ (j + mv s) _ (sname s) _ _ (NoDup_app_l _ _ ND') Hn) as (y & H1 & H2 & H3 & H4). exists y.
      split; [right; apply in_or_app; auto|]. split; auto. split; auto. intros M. specialize (H3 M). lia.
    + destruct (IH2 _ (j + mv s + fjoints fc) _ hook' _ _ (NoDup_app_r _ _ ND') Hn) as (y & H1 & H2 & H3 & H4). exists y.
      split; [right; apply in_or_app; auto|]. split; auto. split; auto. intros M. specialize (H3 M). lia.
Qed.
Lemma tree_forest t n e : tinv t -> tfind t n = Some e -> exists fo,
  forest_of t (te_children e) fo /\ NoDup (fnames fo) /\ ~ In n (fnames fo) /\
  (forall d hook, tree_addRec (length (tr_segs t)) t n d hook = Ret (add_forest d hook fo)) /\
  (forall m, In m (fnames fo) <-> descends t n m /\ m <> n).
Proof.
  intros H E. destruct (addRec_ret _ _ _ H E) as (fo & F1 & F2). destruct H as [W (rank & R1 & R2)].
  assert (HP : forall c, In c (te_children e) -> exists ce, tfind t c = Some ce /\ te_parent ce = Some n) by (intros c Hc; eapply wf_children; eauto).
  assert (NI : ~ In n (fnames fo)).
  { intros Hn. destruct (forest_of_sound _ _ _ W F1 _ Hn) as (c & H1 & H2).
    destruct (HP _ H1) as (ce & F & P). pose proof (R1 _ _ _ F P). pose proof (anc_rank _ _ _ _ R1 H2). lia. }
  exists fo. split; [exact F1|]. split; [|split; [exact NI|]]. { eapply forest_of_NoDup; eauto. apply (wf_children_NoDup _ _ _ W E). }
  split; [exact F2|]. intros m. split.
  - intros Hm. split; [|intros ->; contradiction]. destruct (forest_of_sound _ _ _ W F1 _ Hm) as (c & H1 & H2).
    destruct (HP _ H1) as (ce & F & P). clear -H2 F P. induction H2; [eapply descends_child; eauto; constructor|eapply descends_child; eauto].
  - intros [D Nm]. induction D as [|m em p Em Ep D IH]; [contradiction|].
    assert (Hc : exists pe, tfind t p = Some pe /\ In m (te_children pe)).
    { destruct (string_dec m (tr_root t)) as [->|Nr].
      - destruct (wf_root _ W) as [cs Er]. rewrite Er in Em. injection Em as <-. discriminate.
      - destruct (wf_parent _ W _ _ Em Nr) as (p' & pe & H1 & H2 & H3). assert (p' = p) by congruence. subst. exists pe. split; auto.
        apply (count_occ_In string_dec). lia. }
    destruct Hc as (pe & Hp & Hc). destruct (string_dec p n) as [->|Np].
    + rewrite E in Hp. injection Hp as <-. rewrite <- (forest_of_roots _ _ _ F1) in Hc. apply froots_names. exact Hc.
    + eapply forest_of_closed; eauto.
Qed.
Lemma root_descends t n e : tinv t -> tfind t n = Some e -> descends t (tr_root t) n.
Proof.
  intros [W _] E. pose proof (wf_below _ W _ _ E) as B. clear E e. induction B as [|p e c B IH Ep Hc]; [constructor|].
  destruct (wf_children _ W _ _ _ Ep Hc) as (ce & F & P). eapply descends_child; eauto.
Qed.

Theorem addTree_spec t src hook b t' : tinv src -> tree_addTree t src hook = Ret (b, t') ->
  (b = true <-> (tr_ns src = 0 \/ tfind t hook <> None) /\
                (forall n, n <> tr_root src -> tfind src n <> None -> tfind t n = None)) /\
  (b = true -> tr_nj t' = tr_nj t + tr_nj src /\ tr_ns t' = tr_ns t + tr_ns src /\ extends t t' /\
     (forall n, tfind t n = None -> (tfind src n = None \/ n = tr_root src) -> tfind t' n = None) /\
     exists dfs, tree_copy src = Ret dfs /\
     forall n e d, n <> tr_root src -> tfind src n = Some e -> tfind dfs n = Some d -> exists x,
       tfind t' n = Some x /\ te_seg x = te_seg e /\ te_children x = te_children e /\
       te_parent x = rehook (tr_root src) hook (te_parent e) /\
       te_qnr x = if moving (te_seg e) then tr_nj t + te_qnr d else 0).
Proof.
  intros H E. destruct (tinv_root _ H) as [cs Er]. destruct (tree_forest _ _ _ H Er) as (fo & F1 & ND & NI & F2 & F3).
  simpl in F1. unfold tree_addTree in E. rewrite F2 in E. injection E as E.
  destruct (copy_total _ H) as [dfs Hd]. pose proof (copy_is_form _ _ H Hd) as (cs' & fo' & Er' & Fo' & _ & _ & Ed).
  rewrite Er in Er'. injection Er' as <-. pose proof (forest_of_fun _ _ _ _ F1 Fo') as <-. clear Fo'.
  pose proof (copy_structure _ _ H Hd) as (_ & NJ & NS & _).
  assert (Hnil : tr_ns src = 0 <-> fo = FNil).
  { rewrite <- NS, Ed. simpl. destruct fo; simpl; split; auto; discriminate. }
  assert (Hnames : forall n, n <> tr_root src -> tfind src n <> None -> In n (fnames fo)).
  { intros n N Hn. apply F3. split; auto. destruct (tfind src n) as [e|] eqn:En; [|contradiction]. eapply root_descends; eauto. }
  assert (Hnames' : forall n, In n (fnames fo) -> n <> tr_root src /\ tfind src n <> None).
  { intros n Hn. split; [intros ->; contradiction|].
    assert (In n (names src)) by (apply (forest_names_all _ _ _ H Er F1); auto).
    intros X. apply smap_find_None in X. contradiction. }
  split.
  - split.
    + intros ->. destruct (add_forest_new _ _ _ _ E) as [A B]. split; [rewrite Hnil; exact A|]. intros n N Hn. apply B. auto.
    + intros [A B]. rewrite add_forest_ok in E.
      * injection E as <- _. reflexivity.
      * rewrite <- Hnil. exact A.
      * exact ND.
      * intros n Hn. apply Hnames' in Hn as [? ?]. auto.
  - intros ->. pose proof (add_forest_new _ _ _ _ E) as [A B]. pose proof (add_forest_extends _ _ _ _ _ E) as X.
    rewrite add_forest_ok in E by auto. injection E as E.
    assert (J : fjoints fo = tr_nj src) by (rewrite <- NJ, Ed; reflexivity).
    assert (L : length (fnames fo) = tr_ns src) by (rewrite <- NS, Ed; reflexivity).
    split; [rewrite <- E; simpl; lia|]. split; [rewrite <- E; simpl; lia|]. split; [exact X|].
    assert (Fnd : forall n, tfind t' n = match (if String.eqb hook n then option_map (push_all (froots fo)) (tfind t n) else tfind t n) with
                                         | Some e => Some e | None => smap_find (flat (tr_nj t) hook fo) n end).
    { intros n. rewrite <- E. unfold tfind at 1. cbn [tr_segs]. rewrite smap_find_app, smap_find_update. reflexivity. }
    split.
    + intros n Hn Hs. rewrite Fnd, Hn. simpl. replace (if String.eqb hook n then None else None) with (@None TreeElement) by (destruct (String.eqb hook n); auto).
      apply smap_find_None. rewrite flat_names. intros Hi. apply Hnames' in Hi as [I1 I2]. tauto.
    + exists dfs. split; [exact Hd|]. intros n e d Nn En Dn. assert (Hi : In n (fnames fo)) by (apply Hnames; auto; congruence).
      assert (Hx : exists x, smap_find (flat (tr_nj t) hook fo) n = Some x).
      { destruct (smap_find (flat (tr_nj t) hook fo) n) eqn:Q; eauto. apply smap_find_None in Q. rewrite flat_names in Q. contradiction. }
      destruct Hx as [x Hx]. exists x. rewrite Fnd, (B _ Hi). split; [destruct (String.eqb hook n); simpl; exact Hx|].
      apply smap_find_In in Hx. destruct H as [W Rk].
      destruct (flat_parents _ _ _ W F1 _ _ _ _ Hx) as (e' & E1 & S1 & C1 & P1). assert (e' = e) by congruence. subst e'.
      split; [exact S1|]. split; [exact C1|]. split.
      * destruct P1 as [[P1 P2]|[P1 (c & P2 & P3)]].
        -- destruct (wf_children _ W _ _ n Er P1) as (ce & Fc & Pc). assert (ce = e) by congruence. subst. rewrite Pc. simpl.
           rewrite String.eqb_refl. exact P2.
        -- rewrite P2 in *. simpl. destruct (String.eqb_spec c (tr_root src)) as [->|]; [contradiction|exact P1].
      * destruct (flat_shift fo _ 0 _ (tr_root src) _ _ ND Hx) as (y & Y1 & Y2 & Y3 & Y4).
        assert (Dy : d = y).
        { assert (tfind dfs n = Some y); [|congruence]. rewrite Ed. unfold tfind, copy_of. cbn [tr_segs].
          apply smap_In_find; [|simpl; auto]. simpl. rewrite flat_names. constructor; auto. }
        subst y. rewrite <- S1. destruct (moving (te_seg x)); [specialize (Y3 eq_refl); lia|auto].
Qed.

Theorem getSubTree_spec src name old b t : tinv src -> tree_getSubTree src name old = Ret (b, t) ->
  (b = true <-> tfind src name <> None) /\ (b = false -> t = old) /\
  (b = true -> tr_root t = name /\
     (forall n, tfind t n <> None <-> (tfind src n <> None /\ descends src name n)) /\
     (forall n e, n <> name -> tfind src n = Some e -> descends src name n -> exists x,
        tfind t n = Some x /\ te_seg x = te_seg e /\ te_parent x = te_parent e /\ te_children x = te_children e) /\
     (forall e, tfind src name = Some e -> tfind t name = Some (mkTE (root_segment name) 0 None (te_children e))) /\
     depth_first_numbered t).
Proof.
  intros H E. unfold tree_getSubTree in E. destruct (tfind src name) as [e|] eqn:En.
  2:{ injection E as <- <-. split; [split; [discriminate|congruence]|]. split; [reflexivity|discriminate]. }
  rewrite assign_make in E. cbn [obind] in E. destruct (tree_forest _ _ _ H En) as (fo & F1 & ND & NI & F2 & F3).
  rewrite F2 in E. injection E as E.
  assert (EF : add_forest (tree_make name) name fo = (true, copy_of name fo)).
  { rewrite add_forest_ok; auto.
    - unfold tree_make, copy_of. simpl. rewrite String.eqb_refl. reflexivity.
    - right. unfold tfind. simpl. rewrite String.eqb_refl. discriminate.
    - intros n Hn. unfold tfind. simpl. destruct (String.eqb_spec name n) as [<-|]; [contradiction|reflexivity]. }
  rewrite EF in E. injection E as <- Et. split; [split; [congruence|reflexivity]|]. split; [discriminate|]. intros _.
  assert (I : tinv t).
  { rewrite <- Et. assert (EA : tree_addRec (length (tr_segs src)) src name (tree_make name) name = Ret (true, copy_of name fo)) by (rewrite F2, EF; reflexivity).
    eapply tinv_addRec; [apply tinv_make|exact EA]. }
  assert (Froot : tfind t name = Some (mkTE (root_segment name) 0 None (te_children e))).
  { rewrite <- Et. unfold tfind, copy_of. simpl. rewrite String.eqb_refl, (forest_of_roots _ _ _ F1). reflexivity. }
  assert (Fin : forall n x, In (n, x) (flat 0 name fo) -> tfind t n = Some x).
  { intros n x Hn. rewrite <- Et. unfold tfind, copy_of. cbn [tr_segs]. apply smap_In_find; [|simpl; auto]. simpl. rewrite flat_names. constructor; auto. }
  assert (HP : forall c, In c (te_children e) -> exists ce, tfind src c = Some ce /\ te_parent ce = Some name).
  { intros c Hc. destruct H as [W _]. eapply wf_children; eauto. }
  assert (Hst : forall n e', n <> name -> tfind src n = Some e' -> descends src name n -> exists x,
        tfind t n = Some x /\ te_seg x = te_seg e' /\ te_parent x = te_parent e' /\ te_children x = te_children e').
  { intros n e' N E' D. assert (Hi : In n (map fst (flat 0 name fo))) by (rewrite flat_names; apply F3; auto).
    apply in_map_iff in Hi as ((n' & x) & Q & Hi). simpl in Q. subst n'. exists x. split; [auto|].
    destruct (flat_structure _ _ _ (proj1 H) F1 _ _ HP _ _ Hi) as (e2 & G & ?). assert (e2 = e') by congruence. subst. assumption. }
  split; [rewrite <- Et; reflexivity|]. split; [|split; [exact Hst|split]].
  - intros n. split.
    + intros Hn. destruct (tfind t n) as [x|] eqn:Ex; [|contradiction]. rewrite <- Et in Ex. apply copy_find in Ex as [[-> ->]|[N I']]; auto.
      * split; [congruence|constructor].
      * destruct (flat_structure _ _ _ (proj1 H) F1 _ _ HP _ _ I') as (e2 & G & _). split; [congruence|]. apply F3.
        rewrite <- (flat_names 0 name). apply (in_map fst) in I'. exact I'.
    + intros [Hs D]. destruct (string_dec n name) as [->|N]; [congruence|]. destruct (tfind src n) as [e'|] eqn:E'; [|contradiction].
      destruct (Hst _ _ N E' D) as (x & -> & _). discriminate.
  - intros e0 Q. injection Q as <-. exact Froot.
  - assert (Fo' : forest_of t (te_children e) fo).
    { assert (Q : forall n x, In (n, x) (flat 0 name fo) -> exists y, tfind src n = Some y /\ te_seg x = te_seg y /\ te_children x = te_children y).
      { intros n x Hi. destruct (flat_structure _ _ _ (proj1 H) F1 _ _ HP _ _ Hi) as (e2 & G & ? & ? & ?). eauto. }
      revert Q Fin. generalize 0 as k, name as h. clear -F1. induction F1 as [|c e0 cs fc fs E Nm Hc IHc Hs IHs]; intros k h Q Fin; [constructor|].
      simpl in Q, Fin. rewrite Nm in *. pose proof (Fin _ _ (or_introl eq_refl)) as Fc. 
      assert (S : te_seg e0 = te_seg (mkTE (te_seg e0) (if moving (te_seg e0) then k else 0) (Some h) (froots fc))) by reflexivity.
      rewrite S. econstructor; eauto.
      - simpl. rewrite (forest_of_roots _ _ _ Hc). eapply IHc; [|]; intros n x Hn; [apply Q|apply Fin]; right; apply in_or_app; left; exact Hn.
      - eapply IHs; intros n x Hn; [apply Q|apply Fin]; right; apply in_or_app; right; exact Hn. }
    assert (Rt : tr_root t = name) by (rewrite <- Et; reflexivity).
    exists (tr_root t :: fnames fo). split.
    + eapply preorder_root; eauto. { rewrite Rt. exact Froot. } apply forest_preorder. exact Fo'.
    + rewrite numbers_root by exact I. rewrite (flat_numbers t fo 0 name Fin). rewrite <- Et. reflexivity.
Qed.
