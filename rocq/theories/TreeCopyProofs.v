(** What addTree, copy and getSubTree build (C27-C29). *)
From Coq Require Import String Reals List ZArith Bool Permutation Arith Lia.
From Verif Require Import FramesModel FramesSpec Outcome InertiaModel DualModel KinModel KinSpec TreeModel TreeSpec TreeProofs.
Import ListNotations.
Local Open Scope nat_scope.

Lemma NoDup_app_l {A} (a b : list A) : NoDup (a ++ b) -> NoDup a.
Proof. induction a as [|x a IH]; simpl; [constructor|]. intros H; inversion H; subst. constructor; auto. rewrite in_app_iff in *; tauto. Qed.
Lemma NoDup_app_r {A} (a b : list A) : NoDup (a ++ b) -> NoDup b.
Proof. induction a as [|x a IH]; simpl; auto. intros H; inversion H; subst; auto. Qed.

(** A list of sibling subtrees: first subtree's segment, its children, the rest. *)
Inductive forest := FNil | FNode (s : Segment) (fc fs : forest).
Inductive forest_of (t : Tree) : list string -> forest -> Prop :=
| fo_nil : forest_of t [] FNil
| fo_cons c e cs fc fs : tfind t c = Some e -> sname (te_seg e) = c ->
    forest_of t (te_children e) fc -> forest_of t cs fs -> forest_of t (c :: cs) (FNode (te_seg e) fc fs).

Fixpoint add_forest (d : Tree) (hook : string) (f : forest) : bool * Tree :=
  match f with
  | FNil => (true, d)
  | FNode s fc fs =>
      match tree_addSegment d s hook with
      | (false, d') => (false, d')
      | (true, d') => match add_forest d' (sname s) fc with
                      | (true, d'') => add_forest d'' hook fs
                      | r => r
                      end
      end
  end.

Lemma addRec_forest src : tree_wf src -> forall rank,
  (forall n e p, tfind src n = Some e -> te_parent e = Some p -> rank p < rank n) ->
  (forall n e, tfind src n = Some e -> rank n < length (tr_segs src)) ->
  forall f n e, tfind src n = Some e -> length (tr_segs src) <= rank n + f ->
  exists fo, forest_of src (te_children e) fo /\ forall d hook, tree_addRec f src n d hook = Ret (add_forest d hook fo).
Proof.
  intros W rank R1 R2. induction f as [|f IH]; intros n e E L.
  { specialize (R2 _ _ E). lia. }
  assert (Hc : forall c, In c (te_children e) -> exists ce, tfind src c = Some ce /\ te_parent ce = Some n).
  { intros c H. eapply wf_children; eauto. }
  assert (Hl : exists fo, forest_of src (te_children e) fo /\ forall d hook, addRec_loop f src hook (te_children e) d = Ret (add_forest d hook fo)).
  { revert Hc. generalize (te_children e) as cs. induction cs as [|c cs IHc]; intros Hc.
    - exists FNil. split; [constructor|reflexivity].
    - destruct (Hc c (or_introl eq_refl)) as (ce & Hce & Hp).
      destruct IHc as (fs & Hfs & Hs); [intros c' H'; apply Hc; right; exact H'|].
      destruct (IH c ce Hce) as (fc & Hfc & Hcc). { specialize (R1 _ _ _ Hce Hp). lia. }
      exists (FNode (te_seg ce) fc fs). split.
      + constructor; auto. eapply wf_named; eauto.
      + intros d hook. simpl. rewrite Hce. destruct (tree_addSegment d (te_seg ce) hook) as [[] d1]; auto.
        rewrite Hcc. cbn [obind]. rewrite (wf_named _ W _ _ Hce). destruct (add_forest d1 c fc) as [[] d2]; cbn [fst snd]; auto. }
  destruct Hl as (fo & H1 & H2). exists fo. split; [exact H1|]. intros d hook. rewrite addRec_S, E. apply H2.
Qed.
Lemma tinv_root t : tinv t -> exists cs, tfind t (tr_root t) = Some (mkTE (root_segment (tr_root t)) 0 None cs).
Proof. intros [W _]. apply W. Qed.
Lemma addRec_ret src n e : tinv src -> tfind src n = Some e ->
  exists fo, forest_of src (te_children e) fo /\ forall d hook, tree_addRec (length (tr_segs src)) src n d hook = Ret (add_forest d hook fo).
Proof. intros [W (rank & R1 & R2)] E. eapply addRec_forest; eauto. lia. Qed.

(** every operation is defined *)
Lemma addTree_total t src hook : tinv src -> exists r, tree_addTree t src hook = Ret r.
Proof. intros H. destruct (tinv_root _ H) as [cs E]. destruct (addRec_ret _ _ _ H E) as (fo & _ & Hf). eexists. apply Hf. Qed.
Lemma addTree_self_total t hook : tinv t -> exists r, tree_addTree_self t hook = Ret r.
Proof.
  intros H. destruct (tinv_root _ H) as [cs E]. unfold tree_addTree_self. rewrite E. simpl. destruct cs as [|c cs]; [eauto|].
  destruct H as [W _]. destruct (wf_children _ W _ _ c E) as (ce & Hc & _); [simpl; auto|]. rewrite Hc.
  destruct (addSegment_cases t (te_seg ce) hook) as [[-> _]|(he & t1 & _ & En & _)]; [eauto|].
  rewrite (wf_named _ W _ _ Hc) in En. congruence.
Qed.
Lemma copy_total t : tinv t -> exists t', tree_copy t = Ret t'.
Proof. intros H. unfold tree_copy. destruct (addTree_total (tree_make (tr_root t)) t (tr_root t) H) as [r ->]. cbn [obind]. eauto. Qed.
Lemma assign_eq_copy old t : tree_assign old t = tree_copy t.
Proof. reflexivity. Qed.
Lemma assign_self_total t : exists t', tree_assign_self t = Ret t'.
Proof.
  unfold tree_assign_self. destruct (addTree_self_total (tree_make (tr_root t)) (tr_root t) (tinv_make _)) as [r Hr].
  unfold tree_make in Hr. rewrite Hr. cbn [obind]. eauto.
Qed.
Lemma assign_make old n : tree_assign old (tree_make n) = Ret (tree_make n).
Proof. unfold tree_assign, tree_addTree, tree_make. simpl. unfold tfind. simpl. rewrite String.eqb_refl. reflexivity. Qed.
Lemma getSubTree_total src name old : tinv src -> exists r, tree_getSubTree src name old = Ret r.
Proof.
  intros H. unfold tree_getSubTree. destruct (tfind src name) as [e|] eqn:E; [|eauto]. rewrite assign_make. cbn [obind].
  destruct (addRec_ret _ _ _ H E) as (fo & _ & Hf). eexists. apply Hf.
Qed.

(** * Closed form of adding a forest *)
Fixpoint fnames (f : forest) : list string :=
  match f with FNil => [] | FNode s fc fs => sname s :: fnames fc ++ fnames fs end.
Fixpoint froots (f : forest) : list string :=
  match f with FNil => [] | FNode s fc fs => sname s :: froots fs end.
Definition mv (s : Segment) : nat := if moving s then 1 else 0.
Fixpoint fjoints (f : forest) : nat :=
  match f with FNil => 0 | FNode s fc fs => mv s + fjoints fc + fjoints fs end.
Definition push_all (l : list string) (e : TreeElement) : TreeElement :=
  mkTE (te_seg e) (te_qnr e) (te_parent e) (te_children e ++ l).
Fixpoint flat (k : nat) (hook : string) (f : forest) : SegmentMap :=
  match f with
  | FNil => []
  | FNode s fc fs =>
      (sname s, mkTE s (if moving s then k else 0) (Some hook) (froots fc)) ::
      flat (k + mv s) (sname s) fc ++ flat (k + mv s + fjoints fc) hook fs
  end.
Lemma flat_names k hook f : map fst (flat k hook f) = fnames f.
Proof. revert k hook; induction f as [|s fc IH1 fs IH2]; intros; simpl; auto. rewrite map_app, IH1, IH2. reflexivity. Qed.
Lemma push_all_nil m k : smap_update m k (push_all []) = m.
Proof. rewrite <- (smap_update_id m k) at 2. apply smap_update_ext. intros [s q p c]. unfold push_all; simpl. rewrite app_nil_r. reflexivity. Qed.

Lemma add_forest_ok f : forall d hook,
  (f = FNil \/ tfind d hook <> None) -> NoDup (fnames f) -> (forall n, In n (fnames f) -> tfind d n = None) ->
  add_forest d hook f = (true, mkTree (smap_update (tr_segs d) hook (push_all (froots f)) ++ flat (tr_nj d) hook f)
                                      (tr_nj d + fjoints f) (tr_ns d + length (fnames f)) (tr_root d)).
Proof.
  induction f as [|s fc IH1 fs IH2]; intros d hook Hh ND Hf.
  - simpl. rewrite push_all_nil, app_nil_r, !Nat.add_0_r. destruct d; reflexivity.
  - destruct Hh as [Hh|Hh]; [discriminate|].
    simpl in ND. inversion ND as [|x l Hx ND1]; subst x l.
    pose proof (NoDup_app_r _ _ ND1) as NDs. pose proof (NoDup_app_l _ _ ND1) as NDc.
    assert (Disj : forall n, In n (fnames fc) -> In n (fnames fs) -> False).
    { intros n H1 H2. clear -ND1 H1 H2. induction (fnames fc) as [|y l IH]; [destruct H1|].
      simpl in ND1. inversion ND1; subst. destruct H1 as [->|H1]; [apply H3, in_or_app; auto|auto]. }
    assert (Hs : tfind d (sname s) = None) by (apply Hf; simpl; auto).
    simpl. destruct (addSegment_cases d s hook) as [[_ [H|H]]|(he & t1 & Eh & _ & E1 & N & Hr & Hns & Hnj & Hfind & Hsegs)]; try contradiction.
    rewrite E1. rewrite (IH1 t1 (sname s)).
    + rewrite IH2.
      * cbn [tr_segs tr_nj tr_ns tr_root]. f_equal. rewrite Hsegs, Hnj, Hns, Hr.
        assert (F1 : smap_find (smap_update (tr_segs d) hook (te_push (sname s))) (sname s) = None).
        { rewrite smap_find_update. destruct (String.eqb_spec hook (sname s)); [congruence|]. exact Hs. }
        assert (F2 : exists e, smap_find (smap_update (tr_segs d) hook (te_push (sname s))) hook = Some e).
        { rewrite smap_find_update, String.eqb_refl. unfold tfind in Hh. destruct (smap_find (tr_segs d) hook); [simpl; eauto|contradiction]. }
        destruct F2 as [e2 F2].
        set (U := smap_update (tr_segs d) hook (te_push (sname s))) in *.
        set (X := mkTE s (if moving s then tr_nj d else 0) (Some hook) []).
        assert (E2 : smap_update (U ++ [(sname s, X)]) (sname s) (push_all (froots fc)) = U ++ [(sname s, push_all (froots fc) X)]).
        { rewrite smap_update_app, F1. simpl. rewrite String.eqb_refl. reflexivity. }
        rewrite E2, <- !app_assoc, smap_update_app, F2.
        unfold U. rewrite smap_update_compose, <- !app_assoc. f_equal.
        -- f_equal.
           ++ apply smap_update_ext. intros [sg qn pr ch]. unfold push_all, te_push; simpl. rewrite <- app_assoc. reflexivity.
           ++ simpl. unfold push_all, X, mv. simpl. destruct (moving s); rewrite ?Nat.add_0_r, ?Nat.add_1_r; reflexivity.
        -- unfold mv. destruct (moving s); lia.
        -- rewrite app_length. lia.
      * right. intros H. unfold tfind in H. cbn [tr_segs] in H. rewrite smap_find_app, smap_find_update in H.
        destruct (String.eqb_spec (sname s) hook); [contradiction|]. specialize (Hfind hook). unfold tfind in Hfind. rewrite Hfind in H.
        destruct (String.eqb_spec (sname s) hook); [contradiction|]. rewrite String.eqb_refl in H. discriminate.
      * exact NDs.
      * intros n Hn. unfold tfind. cbn [tr_segs]. rewrite smap_find_app, smap_find_update.
        specialize (Hfind n). unfold tfind in Hfind.
        assert (n <> sname s) by (intros ->; apply Hx, in_or_app; auto).
        assert (n <> hook). { intros ->. apply Hh. apply Hf. simpl. right. apply in_or_app; auto. }
        destruct (String.eqb_spec (sname s) n); [congruence|]. destruct (String.eqb_spec hook n); [congruence|].
        assert (Hnn : tfind d n = None) by (apply Hf; simpl; right; apply in_or_app; auto).
        unfold tfind in Hnn. rewrite Hfind, Hnn. apply smap_find_None. rewrite flat_names. intros Hc. eapply Disj; eauto.
    + right. rewrite Hfind, String.eqb_refl. discriminate.
    + exact NDc.
    + intros n Hn. rewrite Hfind. assert (n <> sname s) by (intros ->; apply Hx, in_or_app; auto).
      assert (n <> hook). { intros ->. apply Hh. apply Hf. simpl. right. apply in_or_app; auto. }
      destruct (String.eqb_spec (sname s) n); [congruence|]. destruct (String.eqb_spec hook n); [congruence|].
      apply Hf. simpl. right. apply in_or_app; auto.
Qed.

(** adding a forest only ever adds: what was there keeps its segment, number and
    parent, and the children lists only grow *)
Definition extends (a b : Tree) : Prop :=
  tr_root b = tr_root a /\
  forall n e, tfind a n = Some e -> exists e' l, tfind b n = Some e' /\ te_seg e' = te_seg e /\ te_qnr e' = te_qnr e /\
    te_parent e' = te_parent e /\ te_children e' = te_children e ++ l.
Lemma extends_refl a : extends a a.
Proof. split; auto. intros n e H. exists e, []. rewrite app_nil_r. auto. Qed.
Lemma extends_trans a b c : extends a b -> extends b c -> extends a c.
Proof.
  intros [R1 H1] [R2 H2]. split; [congruence|]. intros n e H.
  destruct (H1 _ _ H) as (e1 & l1 & F1 & S1 & Q1 & P1 & C1). destruct (H2 _ _ F1) as (e2 & l2 & F2 & S2 & Q2 & P2 & C2).
  exists e2, (l1 ++ l2). rewrite app_assoc. repeat split; congruence.
Qed.
Lemma addSegment_extends t s hook b t' : tree_addSegment t s hook = (b, t') -> extends t t'.
Proof.
  intros E. destruct (addSegment_cases t s hook) as [[E1 _]|(he & t1 & Eh & Es & E1 & N & Hr & Hns & Hnj & Hf & Hsegs)];
    rewrite E1 in E; injection E as _ <-; [apply extends_refl|].
  split; auto. intros n e H. rewrite Hf. destruct (String.eqb_spec (sname s) n) as [<-|]; [congruence|].
  destruct (String.eqb_spec hook n) as [<-|].
  - rewrite Eh in H. injection H as <-. eexists _, [sname s]. split; [reflexivity|]. simpl. auto.
  - exists e, []. rewrite app_nil_r. auto.
Qed.
Lemma addSegments_extends l : forall t p b t', tree_addSegments t l p = (b, t') -> extends t t'.
Proof.
  induction l as [|s l IH]; intros t p b t' E; simpl in E.
  - injection E as _ <-. apply extends_refl.
  - destruct (tree_addSegment t s p) as [[] t1] eqn:E1; pose proof (addSegment_extends _ _ _ _ _ E1).
    + eapply extends_trans; eauto.
    + injection E as _ <-. assumption.
Qed.
Lemma addRec_extends f src n d hook b d' : tree_addRec f src n d hook = Ret (b, d') -> extends d d'.
Proof.
  intros E. revert E. eapply (addRec_preserves (extends d)).
  - intros t s h b1 t1 H1 E1. eapply extends_trans; eauto. eapply addSegment_extends; eauto.
  - apply extends_refl.
Qed.

(** * Names of the subtrees of a tree are distinct *)
Inductive anc (t : Tree) (a : string) : string -> Prop :=
| anc_refl : anc t a a
| anc_step n e p : tfind t n = Some e -> te_parent e = Some p -> anc t a p -> anc t a n.
Lemma anc_linear t a b n : anc t a n -> anc t b n -> anc t a b \/ anc t b a.
Proof.
  induction 1 as [|n e p En Ep H IH]; intros Hb; [right; exact Hb|].
  inversion Hb as [|n' e' p' En' Ep' H']; subst.
  - left. econstructor; eauto.
  - apply IH. congruence.
Qed.
Lemma anc_trans t a b c : anc t a b -> anc t b c -> anc t a c.
Proof. intros H. induction 1; auto. econstructor; eauto. Qed.
Lemma anc_rank t rank a n : (forall n e p, tfind t n = Some e -> te_parent e = Some p -> rank p < rank n) ->
  anc t a n -> rank a <= rank n.
Proof. intros R. induction 1; auto. specialize (R _ _ _ H H0). lia. Qed.

Lemma forest_of_sound t cs fo : tree_wf t -> forest_of t cs fo ->
  forall n, In n (fnames fo) -> exists c, In c cs /\ anc t c n.
Proof.
  intros W. induction 1 as [|c e cs fc fs E Nm Hc IHc Hs IHs]; intros n Hn; [destruct Hn|].
  simpl in Hn. rewrite Nm in Hn. destruct Hn as [->|Hn]; [exists n; split; [left; auto|constructor]|].
  apply in_app_or in Hn as [Hn|Hn].
  - destruct (IHc _ Hn) as (c' & H1 & H2). exists c. split; [left; auto|].
    destruct (wf_children _ W _ _ _ E H1) as (ce & H3 & H4). eapply anc_trans; [|exact H2]. econstructor; eauto. constructor.
  - destruct (IHs _ Hn) as (c' & H1 & H2). exists c'. split; [right; auto|auto].
Qed.
Lemma NoDup_app_intro {A} (a b : list A) : NoDup a -> NoDup b -> (forall x, In x a -> In x b -> False) -> NoDup (a ++ b).
Proof.
  induction a as [|x a IH]; simpl; auto. intros H1 H2 H3. inversion H1; subst. constructor.
  - rewrite in_app_iff. intros [H|H]; [contradiction|]. eapply H3; eauto.
  - apply IH; auto. intros y Hy Hy'. eapply H3; eauto.
Qed.
Lemma wf_children_NoDup t p pe : tree_wf t -> tfind t p = Some pe -> NoDup (te_children pe).
Proof.
  intros W E. apply (NoDup_count_occ string_dec). intros c. destruct (in_dec string_dec c (te_children pe)) as [H|H].
  - destruct (wf_children _ W _ _ _ E H) as (ce & H1 & H2).
    destruct (string_dec c (tr_root t)) as [->|N].
    { destruct (wf_root _ W) as [cs H3]. rewrite H3 in H1. injection H1 as <-. discriminate. }
    destruct (wf_parent _ W _ _ H1 N) as (p' & pe' & H3 & H4 & H5). assert (p' = p) by congruence. subst p'.
    rewrite E in H4. injection H4 as <-. rewrite H5. lia.
  - rewrite (proj1 (count_occ_not_In _ _ _) H). lia.
Qed.
Lemma forest_of_NoDup t rank cs fo p : tree_wf t ->
  (forall n e p, tfind t n = Some e -> te_parent e = Some p -> rank p < rank n) ->
  forest_of t cs fo -> NoDup cs -> (forall c, In c cs -> exists ce, tfind t c = Some ce /\ te_parent ce = Some p) ->
  NoDup (fnames fo).
Proof.
  intros W R H. revert p. induction H as [|c e cs fc fs E Nm Hc IHc Hs IHs]; intros p ND HP; simpl; [constructor|].
  rewrite Nm. inversion ND as [|x l Hx ND']; subst x l.
  assert (Below : forall n, In n (fnames fc) -> anc t c n /\ rank c < rank n).
  { intros n Hn. destruct (forest_of_sound _ _ _ W Hc _ Hn) as (c' & H1 & H2).
    destruct (wf_children _ W _ _ _ E H1) as (ce & H3 & H4). split.
    - eapply anc_trans; [|exact H2]. econstructor; eauto. constructor.
    - pose proof (R _ _ _ H3 H4). pose proof (anc_rank _ _ _ _ R H2). lia. }
  assert (Sib : forall c' n, In c' cs -> anc t c n -> anc t c' n -> False).
  { intros c' n H1 H2 H3. assert (c <> c') by (intros ->; contradiction).
    destruct (HP c (or_introl eq_refl)) as (ce & F1 & P1). destruct (HP c' (or_intror H1)) as (ce' & F2 & P2).
    pose proof (R _ _ _ F1 P1) as K1. pose proof (R _ _ _ F2 P2) as K2.
    destruct (anc_linear _ _ _ _ H2 H3) as [A|A]; inversion A as [|n' e' p' F P A']; subst; try contradiction.
    - assert (p' = p) by congruence. subst. pose proof (anc_rank _ _ _ _ R A'). lia.
    - assert (p' = p) by congruence. subst. pose proof (anc_rank _ _ _ _ R A'). lia. }
  constructor.
  - rewrite in_app_iff. intros [H|H].
    + apply Below in H. lia.
    + destruct (forest_of_sound _ _ _ W Hs _ H) as (c' & H1 & H2). eapply Sib; eauto. constructor.
  - apply NoDup_app_intro.
    + apply (IHc c); [eapply wf_children_NoDup; eauto|]. intros c' H. eapply wf_children; eauto.
    + apply (IHs p); auto. intros c' H. apply HP. right. exact H.
    + intros n H1 H2. destruct (forest_of_sound _ _ _ W Hs _ H2) as (c' & H3 & H4). eapply Sib; eauto. apply Below. exact H1.
Qed.
Lemma forest_of_roots t cs fo : forest_of t cs fo -> froots fo = cs.
Proof. induction 1; simpl; congruence. Qed.
Lemma forest_of_closed t cs fo : forest_of t cs fo -> forall n e c, In n (fnames fo) -> tfind t n = Some e -> In c (te_children e) -> In c (fnames fo).
Proof.
  induction 1 as [|c0 e0 cs fc fs E Nm Hc IHc Hs IHs]; intros n e c Hn En Hi; [destruct Hn|].
  simpl in *. rewrite Nm in *. destruct Hn as [->|Hn].
  - right. apply in_or_app. left. rewrite E in En. injection En as <-.
    rewrite <- (forest_of_roots _ _ _ Hc) in Hi. clear -Hi. induction fc; simpl in *; auto. destruct Hi as [->|H]; auto. right. apply in_or_app; auto.
  - right. apply in_app_or in Hn as [Hn|Hn]; apply in_or_app; eauto.
Qed.
Lemma froots_names fo n : In n (froots fo) -> In n (fnames fo).
Proof. induction fo; simpl; auto. intros [->|H]; auto. right. apply in_or_app; auto. Qed.
(** the flattened forest has the structure of the tree it was read from *)
Lemma flat_structure t cs fo : tree_wf t -> forest_of t cs fo -> forall k hook,
  (forall c, In c cs -> exists ce, tfind t c = Some ce /\ te_parent ce = Some hook) ->
  forall n x, In (n, x) (flat k hook fo) ->
  exists e, tfind t n = Some e /\ te_seg x = te_seg e /\ te_parent x = te_parent e /\ te_children x = te_children e.
Proof.
  intros W. induction 1 as [|c e cs fc fs E Nm Hc IHc Hs IHs]; intros k hook HP n x Hn; [destruct Hn|].
  simpl in Hn. rewrite Nm in Hn. destruct Hn as [Hn|Hn].
  - injection Hn as <- <-. exists e. simpl. destruct (HP c (or_introl eq_refl)) as (ce & F & P).
    rewrite F in E. injection E as <-. rewrite (forest_of_roots _ _ _ Hc). auto.
  - apply in_app_or in Hn as [Hn|Hn].
    + eapply IHc; [|exact Hn]. intros c' H. eapply wf_children; eauto.
    + eapply IHs; [|exact Hn]. intros c' H. apply HP. right; exact H.
Qed.

(** * Copies *)
Definition copy_of (root : string) (fo : forest) : Tree :=
  mkTree ((root, mkTE (root_segment root) 0 None (froots fo)) :: flat 0 root fo) (fjoints fo) (length (fnames fo)) root.
Lemma root_not_below t cs fo : tinv t -> (forall c, In c cs -> exists ce, tfind t c = Some ce /\ te_parent ce = Some (tr_root t)) ->
  forest_of t cs fo -> ~ In (tr_root t) (fnames fo).
Proof.
  intros [W (rank & R1 & R2)] HP H Hn. destruct (forest_of_sound _ _ _ W H _ Hn) as (c & H1 & H2).
  destruct (HP _ H1) as (ce & F & P). pose proof (R1 _ _ _ F P). pose proof (anc_rank _ _ _ _ R1 H2). lia.
Qed.
Lemma copy_form t : tinv t -> exists cs fo,
  tfind t (tr_root t) = Some (mkTE (root_segment (tr_root t)) 0 None cs) /\
  forest_of t cs fo /\ NoDup (fnames fo) /\ ~ In (tr_root t) (fnames fo) /\
  tree_addTree (tree_make (tr_root t)) t (tr_root t) = Ret (true, copy_of (tr_root t) fo).
Proof.
  intros H. destruct (tinv_root _ H) as [cs E]. destruct (addRec_ret _ _ _ H E) as (fo & F1 & F2). simpl in F1.
  assert (HP : forall c, In c cs -> exists ce, tfind t c = Some ce /\ te_parent ce = Some (tr_root t)).
  { intros c Hc. destruct H as [W _]. eapply wf_children; eauto. }
  assert (ND : NoDup (fnames fo)).
  { destruct H as [W (rank & R1 & R2)]. eapply forest_of_NoDup; eauto. apply (wf_children_NoDup _ _ _ W E). }
  assert (NR : ~ In (tr_root t) (fnames fo)) by (eapply root_not_below; eauto).
  exists cs, fo. repeat (split; [assumption|]). unfold tree_addTree. rewrite F2. f_equal.
  rewrite add_forest_ok; auto.
  - unfold tree_make, copy_of. simpl. rewrite String.eqb_refl. reflexivity.
  - right. unfold tfind. simpl. rewrite String.eqb_refl. discriminate.
  - intros n Hn. unfold tfind. simpl. destruct (String.eqb_spec (tr_root t) n) as [<-|]; [contradiction|reflexivity].
Qed.
Lemma forest_names_all t cs fo : tinv t -> tfind t (tr_root t) = Some (mkTE (root_segment (tr_root t)) 0 None cs) ->
  forest_of t cs fo -> forall n, In n (names t) <-> n = tr_root t \/ In n (fnames fo).
Proof.
  intros [W _] E F n. split.
  - intros Hn. destruct (tfind t n) as [e|] eqn:En; [|apply smap_find_None in En; contradiction].
    pose proof (wf_below _ W _ _ En) as B. clear Hn En e. induction B as [|p e c B IH Ep Hc]; auto.
    right. destruct IH as [->|IH].
    + rewrite E in Ep. injection Ep as <-. simpl in Hc. rewrite <- (forest_of_roots _ _ _ F) in Hc. apply froots_names; auto.
    + eapply forest_of_closed; eauto.
  - intros [->|Hn]; [eapply smap_find_Some_In; exact E|].
    clear -F Hn. induction F; simpl in *; [destruct Hn|]. destruct Hn as [<-|Hn]; [rewrite H0; eapply smap_find_Some_In; eauto|].
    apply in_app_or in Hn as [|]; auto.
Qed.
Definition name_moving (t : Tree) (n : string) : bool :=
  match tfind t n with Some e => moving (te_seg e) | None => false end.
Lemma joints_by_name t : NoDup (names t) ->
  length (filter (fun e => moving (te_seg e)) (elements t)) = length (filter (name_moving t) (names t)).
Proof.
  intros ND. unfold elements, names in *. assert (H : forall n e, In (n, e) (tr_segs t) -> name_moving t n = moving (te_seg e)).
  { intros n e H. unfold name_moving, tfind. rewrite (smap_In_find _ _ _ ND H). reflexivity. }
  revert H. generalize (tr_segs t) as m. induction m as [|[n e] m IH]; intros H; simpl; auto.
  rewrite (H n e) by (simpl; auto). destruct (moving (te_seg e)); simpl; rewrite IH; auto; intros; apply H; simpl; auto.
Qed.
Lemma wf_nj t : tree_wf t -> tr_nj t = length (filter (name_moving t) (names t)).
Proof.
  intros W. rewrite <- joints_by_name by apply W. pose proof (Permutation_length (wf_numbers _ W)) as H.
  unfold joint_numbers in H. rewrite map_length, seq_length in H. auto.
Qed.
Lemma filter_length_perm {A} (f : A -> bool) l l' : Permutation l l' -> length (filter f l) = length (filter f l').
Proof. induction 1; simpl; auto; try congruence; repeat (destruct (f _); simpl; auto). Qed.
Lemma same_structure_counts a b : tree_wf a -> tree_wf b ->
  (forall n, match tfind a n, tfind b n with Some x, Some y => te_seg x = te_seg y | None, None => True | _, _ => False end) ->
  tr_nj a = tr_nj b /\ tr_ns a = tr_ns b.
Proof.
  intros Wa Wb H.
  assert (P : Permutation (names a) (names b)).
  { apply NoDup_Permutation; [apply Wa|apply Wb|]. intros n. specialize (H n). unfold names.
    destruct (in_dec string_dec n (map fst (tr_segs a))) as [I|I], (in_dec string_dec n (map fst (tr_segs b))) as [J|J]; try tauto.
    - apply smap_find_None in J. unfold tfind in H. rewrite J in H. destruct (smap_find (tr_segs a) n) eqn:E; [contradiction|].
      apply smap_find_None in E. contradiction.
    - apply smap_find_None in I. unfold tfind in H. rewrite I in H. destruct (smap_find (tr_segs b) n) eqn:E; [contradiction|].
      apply smap_find_None in E. contradiction. }
  split.
  - rewrite (wf_nj _ Wa), (wf_nj _ Wb), (filter_length_perm _ _ _ P). f_equal. apply filter_ext. intros n.
    unfold name_moving. specialize (H n). destruct (tfind a n), (tfind b n); try contradiction; congruence.
  - pose proof (Permutation_length P) as L. unfold names in L. rewrite !map_length, (wf_segments _ Wa), (wf_segments _ Wb) in L. lia.
Qed.
Lemma copy_find root fo n : NoDup (fnames fo) -> ~ In root (fnames fo) -> forall e, tfind (copy_of root fo) n = Some e ->
  (n = root /\ e = mkTE (root_segment root) 0 None (froots fo)) \/ (n <> root /\ In (n, e) (flat 0 root fo)).
Proof.
  intros ND NR e. unfold tfind, copy_of. simpl. destruct (String.eqb_spec root n) as [<-|N].
  - intros H; injection H as <-; auto.
  - intros H. right. split; [congruence|]. apply smap_find_In. exact H.
Qed.
Theorem copy_structure t t' : tinv t -> tree_copy t = Ret t' -> same_structure t' t.
Proof.
  intros H E. destruct (copy_form _ H) as (cs & fo & Er & Fo & ND & NR & EA).
  unfold tree_copy in E. rewrite EA in E. cbn [obind snd] in E. injection E as E.
  assert (H' : tinv t').
  { rewrite <- E. eapply tinv_addRec; [apply (tinv_make (tr_root t))|exact EA]. }
  assert (HP : forall c, In c cs -> exists ce, tfind t c = Some ce /\ te_parent ce = Some (tr_root t)).
  { intros c Hc. destruct H as [W _]. eapply wf_children; eauto. }
  assert (S : forall n, match tfind t' n, tfind t n with
            | Some x, Some y => te_seg x = te_seg y /\ te_parent x = te_parent y /\ te_children x = te_children y
            | None, None => True | _, _ => False end).
  { intros n. destruct (tfind t' n) as [x|] eqn:Ex.
    - rewrite <- E in Ex. apply copy_find in Ex as [[-> ->]|[N I]]; auto.
      + rewrite Er. simpl. rewrite (forest_of_roots _ _ _ Fo). auto.
      + destruct (flat_structure _ _ _ (proj1 H) Fo _ _ HP _ _ I) as (e & -> & ?). assumption.
    - destruct (tfind t n) as [y|] eqn:Ey; auto. apply smap_find_Some_In in Ey.
      apply (forest_names_all _ _ _ H Er Fo) in Ey. apply smap_find_None in Ex. apply Ex. rewrite <- E. simpl. rewrite flat_names.
      destruct Ey as [->|]; auto. }
  split; [rewrite <- E; reflexivity|]. destruct (same_structure_counts t' t) as [A B]; [apply H'|apply H| |].
  - intros n. specialize (S n). destruct (tfind t' n), (tfind t n); tauto.
  - auto.
Qed.
Lemma copy_result t b t' : tinv t -> tree_addTree (tree_make (tr_root t)) t (tr_root t) = Ret (b, t') -> b = true.
Proof. intros H E. destruct (copy_form _ H) as (cs & fo & _ & _ & _ & _ & EA). congruence. Qed.

Lemma forest_of_same a b cs fo : (forall n, match tfind a n, tfind b n with
            | Some x, Some y => te_seg x = te_seg y /\ te_parent x = te_parent y /\ te_children x = te_children y
            | None, None => True | _, _ => False end) -> forest_of a cs fo -> forest_of b cs fo.
Proof.
  intros S. induction 1 as [|c e cs fc fs E Nm Hc IHc Hs IHs]; [constructor|].
  specialize (S c). rewrite E in S. destruct (tfind b c) as [e'|] eqn:E'; [|contradiction]. destruct S as (S1 & S2 & S3).
  rewrite S1 in *. rewrite S3 in *. constructor; auto.
Qed.
Lemma forest_of_fun t cs fo fo' : forest_of t cs fo -> forest_of t cs fo' -> fo = fo'.
Proof.
  intros H. revert fo'. induction H as [|c e cs fc fs E Nm Hc IHc Hs IHs]; intros fo' H'; inversion H' as [|c' e' cs' fc' fs' E' N' Hc' Hs']; auto.
  assert (e' = e) by congruence. subst e' c' cs'. f_equal; auto.
Qed.
(** a copy is determined by the structure of the original *)
Theorem copy_determined a b : tinv a -> tinv b -> same_structure a b -> tree_copy a = tree_copy b.
Proof.
  intros Ha Hb (R & _ & _ & S). destruct (copy_form _ Ha) as (cs & fo & Er & Fo & ND & NR & EA).
  destruct (copy_form _ Hb) as (cs' & fo' & Er' & Fo' & ND' & NR' & EA').
  unfold tree_copy. rewrite EA, EA'. cbn [obind snd].
  assert (cs' = cs). { specialize (S (tr_root a)). rewrite Er in S. rewrite <- R in Er'. rewrite Er' in S. simpl in S. destruct S as (_ & _ & S). auto. }
  subst cs'. pose proof (forest_of_same _ _ _ _ S Fo) as F2. rewrite (forest_of_fun _ _ _ _ F2 Fo'). rewrite R. reflexivity.
Qed.
Lemma copy_tinv t t' : tinv t -> tree_copy t = Ret t' -> tinv t'.
Proof.
  intros H E. unfold tree_copy in E. destruct (copy_form _ H) as (cs & fo & _ & _ & _ & _ & EA). rewrite EA in E. injection E as <-.
  eapply tinv_addRec; [apply (tinv_make (tr_root t))|exact EA].
Qed.
Theorem copy_copy t t' : tinv t -> tree_copy t = Ret t' -> tree_copy t' = Ret t'.
Proof. intros H E. rewrite <- E. apply copy_determined; auto. - eapply copy_tinv; eauto. - apply copy_structure; auto. Qed.
