(** Structural proofs about trees (C27-C29). *)
From Coq Require Import String Reals List ZArith Bool Permutation Arith Lia.
From Verif Require Import FramesModel FramesSpec Outcome InertiaModel DualModel KinModel KinSpec TreeModel TreeSpec.
Import ListNotations.
Local Open Scope nat_scope.

(** * The map *)
Lemma smap_find_app a b n : smap_find (a ++ b) n = match smap_find a n with Some e => Some e | None => smap_find b n end.
Proof. induction a as [|[k e] a IH]; simpl; auto. destruct (String.eqb k n); auto. Qed.
Lemma smap_find_update m k g n :
  smap_find (smap_update m k g) n = if String.eqb k n then option_map g (smap_find m n) else smap_find m n.
Proof.
  induction m as [|[k' e] m IH]; simpl.
  - destruct (String.eqb k n); reflexivity.
  - destruct (String.eqb_spec k' k) as [->|N]; simpl.
    + destruct (String.eqb_spec k n); reflexivity.
    + rewrite IH. destruct (String.eqb_spec k' n) as [->|]; auto.
      destruct (String.eqb_spec k n) as [->|]; [contradiction|reflexivity].
Qed.
Lemma smap_update_names m k g : map fst (smap_update m k g) = map fst m.
Proof. induction m as [|[k' e] m IH]; simpl; auto. destruct (String.eqb k' k); simpl; congruence. Qed.
Lemma smap_update_length m k g : length (smap_update m k g) = length m.
Proof. rewrite <- (map_length fst), smap_update_names, map_length. reflexivity. Qed.
Lemma smap_find_None m n : smap_find m n = None <-> ~ In n (map fst m).
Proof.
  induction m as [|[k e] m IH]; simpl; [tauto|].
  destruct (String.eqb_spec k n) as [->|N]; [split; [discriminate|tauto]|]. rewrite IH. tauto.
Qed.
Lemma smap_find_Some_In m n e : smap_find m n = Some e -> In n (map fst m).
Proof. intros H. destruct (in_dec string_dec n (map fst m)) as [|N]; auto. apply smap_find_None in N. congruence. Qed.
Lemma smap_find_In m n e : smap_find m n = Some e -> In (n, e) m.
Proof.
  induction m as [|[k e'] m IH]; simpl; [discriminate|].
  destruct (String.eqb_spec k n) as [->|N]; [intros H; injection H as ->; auto|auto].
Qed.
Lemma smap_In_find m n e : NoDup (map fst m) -> In (n, e) m -> smap_find m n = Some e.
Proof.
  induction m as [|[k e'] m IH]; simpl; [tauto|]. intros ND [H|H]; inversion ND; subst.
  - injection H as -> ->. rewrite String.eqb_refl. reflexivity.
  - destruct (String.eqb_spec k n) as [->|]; auto.
    exfalso. apply H2. apply (in_map fst) in H. exact H.
Qed.
Lemma smap_update_absent m k g : smap_find m k = None -> smap_update m k g = m.
Proof.
  induction m as [|[k' e] m IH]; simpl; auto. destruct (String.eqb k' k) eqn:E; [discriminate|].
  intros H. rewrite IH; auto.
Qed.
Lemma smap_update_app a b k g : smap_update (a ++ b) k g =
  match smap_find a k with Some _ => smap_update a k g ++ b | None => a ++ smap_update b k g end.
Proof.
  induction a as [|[k' e] a IH]; simpl; auto. destruct (String.eqb k' k) eqn:E; simpl; auto.
  rewrite IH. destruct (smap_find a k); auto.
Qed.
Lemma smap_update_compose m k f g : smap_update (smap_update m k f) k g = smap_update m k (fun e => g (f e)).
Proof.
  induction m as [|[k' e] m IH]; simpl; auto. destruct (String.eqb k' k) eqn:E; simpl; rewrite E; auto. rewrite IH; auto.
Qed.
Lemma smap_update_ext m k f g : (forall e, f e = g e) -> smap_update m k f = smap_update m k g.
Proof. intros H. induction m as [|[k' e] m IH]; simpl; auto. rewrite IH, H. reflexivity. Qed.
Lemma smap_update_id m k : smap_update m k (fun e => e) = m.
Proof. induction m as [|[k' e] m IH]; simpl; auto. destruct (String.eqb k' k); congruence. Qed.

(** * addSegment *)
Lemma addSegment_cases t s hook :
  (tree_addSegment t s hook = (false, t) /\ (tfind t hook = None \/ tfind t (sname s) <> None)) \/
  (exists he t', tfind t hook = Some he /\ tfind t (sname s) = None /\ tree_addSegment t s hook = (true, t') /\
     sname s <> hook /\ tr_root t' = tr_root t /\ tr_ns t' = S (tr_ns t) /\
     tr_nj t' = (if moving s then S (tr_nj t) else tr_nj t) /\
     (forall n, tfind t' n =
        if String.eqb (sname s) n then Some (mkTE s (if moving s then tr_nj t else 0) (Some hook) [])
        else if String.eqb hook n then Some (te_push (sname s) he) else tfind t n) /\
     tr_segs t' = smap_update (tr_segs t) hook (te_push (sname s)) ++
        [(sname s, mkTE s (if moving s then tr_nj t else 0) (Some hook) [])]).
Proof.
  unfold tree_addSegment. destruct (tfind t hook) as [he|] eqn:Eh; [|left; auto].
  destruct (tfind t (sname s)) as [e|] eqn:Es; [left; split; auto; right; congruence|].
  right. exists he. eexists. split; [reflexivity|]. split; [reflexivity|]. split; [reflexivity|].
  assert (N : sname s <> hook) by congruence.
  split; [exact N|]. repeat (split; [reflexivity|]). cbn [tr_segs]. unfold tfind in *. split.
  - intros n. cbn [tr_segs]. rewrite smap_find_update, smap_find_app. simpl.
    destruct (String.eqb_spec hook n) as [<-|H1].
    + rewrite Eh. destruct (String.eqb_spec (sname s) hook); [contradiction|reflexivity].
    + destruct (String.eqb_spec (sname s) n) as [<-|H2]; [rewrite Es; reflexivity|].
      destruct (smap_find (tr_segs t) n); reflexivity.
  - rewrite smap_update_app, Eh. reflexivity.
Qed.

(** * The invariant *)
Definition ranked (t : Tree) : Prop := exists rank : string -> nat,
  (forall n e p, tfind t n = Some e -> te_parent e = Some p -> rank p < rank n) /\
  (forall n e, tfind t n = Some e -> rank n < length (tr_segs t)).
Definition tinv (t : Tree) : Prop := tree_wf t /\ ranked t.

Lemma tinv_make r : tinv (tree_make r).
Proof.
  assert (F : forall n e, tfind (tree_make r) n = Some e -> n = r /\ e = te_Root r).
  { unfold tfind, tree_make; simpl. intros n e. destruct (String.eqb_spec r n); [|discriminate]. intros H; injection H as <-; auto. }
  split.
  - constructor.
    + repeat constructor. intros [].
    + intros n e H. apply F in H as [-> ->]. reflexivity.
    + exists []. unfold tfind; simpl. rewrite String.eqb_refl. reflexivity.
    + intros n e H N. apply F in H as [-> _]. contradiction.
    + intros p pe c H HI. apply F in H as [-> ->]. destruct HI.
    + intros n e H. apply F in H as [-> _]. apply (below_root_root (tree_make r)).
    + unfold joint_numbers. simpl. constructor.
    + intros n e H _. apply F in H as [_ ->]. reflexivity.
    + reflexivity.
  - exists (fun _ => 0). split.
    + intros n e p H HP. apply F in H as [_ ->]. discriminate.
    + intros n e H. simpl. lia.
Qed.

Lemma joint_numbers_app a b nj ns r :
  joint_numbers (mkTree (a ++ b) nj ns r) = joint_numbers (mkTree a nj ns r) ++ joint_numbers (mkTree b nj ns r).
Proof. unfold joint_numbers, elements. cbn [tr_segs]. rewrite map_app, filter_app, map_app. reflexivity. Qed.
Lemma joint_numbers_update m k g nj ns r : (forall e, te_seg (g e) = te_seg e) -> (forall e, te_qnr (g e) = te_qnr e) ->
  joint_numbers (mkTree (smap_update m k g) nj ns r) = joint_numbers (mkTree m nj ns r).
Proof.
  intros H1 H2. unfold joint_numbers, elements. cbn [tr_segs].
  induction m as [|[k' e] m IH]; simpl; auto. destruct (String.eqb k' k); simpl.
  - rewrite H1. destruct (moving (te_seg e)); simpl; rewrite ?H2; reflexivity.
  - destruct (moving (te_seg e)); simpl; rewrite IH; reflexivity.
Qed.
Lemma joint_numbers_segs t t' : tr_segs t = tr_segs t' -> joint_numbers t = joint_numbers t'.
Proof. unfold joint_numbers, elements. intros ->. reflexivity. Qed.

Lemma count_occ_app {A} (d : forall x y : A, {x = y} + {x <> y}) a b x :
  count_occ d (a ++ b) x = count_occ d a x + count_occ d b x.
Proof. apply count_occ_app. Qed.

Lemma tinv_addSegment t s hook b t' : tinv t -> tree_addSegment t s hook = (b, t') -> tinv t'.
Proof.
  intros [W Rk] E. destruct (addSegment_cases t s hook) as [[E1 _]|(he & t1 & Eh & Es & E1 & N & Hr & Hns & Hnj & Hf & Hsegs)].
  { rewrite E1 in E. injection E as _ <-. split; assumption. }
  rewrite E1 in E. injection E as _ <-.
  destruct W as [W1 W2 W3 W4 W5 W6 W7 W8 W9].
  assert (Hin : forall n, In n (names t1) <-> In n (names t) \/ n = sname s).
  { intros n. unfold names. rewrite Hsegs, map_app, smap_update_names, in_app_iff. simpl. intuition congruence. }
  assert (Hroot : tr_root t <> sname s) by (destruct W3 as [cs W3]; congruence).
  assert (Fold : forall n e, tfind t n = Some e -> exists e', tfind t1 n = Some e' /\ te_seg e' = te_seg e /\ te_qnr e' = te_qnr e /\
            te_parent e' = te_parent e /\ (te_children e' = te_children e \/ n = hook /\ te_children e' = te_children e ++ [sname s])).
  { intros n e H. rewrite Hf. destruct (String.eqb_spec (sname s) n) as [<-|]; [congruence|].
    destruct (String.eqb_spec hook n) as [<-|].
    - rewrite Eh in H. injection H as <-. eexists; split; [reflexivity|]. simpl. auto 10.
    - exists e. auto 10. }
  assert (Finv : forall n e', tfind t1 n = Some e' ->
     (n = sname s /\ e' = mkTE s (if moving s then tr_nj t else 0) (Some hook) []) \/
     (n <> sname s /\ exists e, tfind t n = Some e /\ te_seg e' = te_seg e /\ te_qnr e' = te_qnr e /\ te_parent e' = te_parent e /\
        (te_children e' = te_children e \/ n = hook /\ te_children e' = te_children e ++ [sname s]))).
  { intros n e' H. rewrite Hf in H. destruct (String.eqb_spec (sname s) n) as [<-|].
    - injection H as <-. auto.
    - right. split; [congruence|]. destruct (String.eqb_spec hook n) as [<-|].
      + injection H as <-. exists he. simpl. auto 10.
      + exists e'. auto 10. }
  assert (Nochild : forall p pe, tfind t p = Some pe -> ~ In (sname s) (te_children pe)).
  { intros p pe Hp HI. destruct (W5 _ _ _ Hp HI) as (ce & Hc & _). congruence. }
  assert (Hbelow : forall n, below_root t n -> below_root t1 n).
  { induction 1 as [|p e c Hp IH Hpe HI].
    - rewrite <- Hr. constructor.
    - destruct (Fold _ _ Hpe) as (e' & Hf' & _ & _ & _ & Hc). apply below_root_child with (p := p) (e := e'); auto.
      destruct Hc as [->|[_ ->]]; auto. apply in_or_app; auto. }
  split.
  - constructor.
    + unfold names. rewrite Hsegs, map_app, smap_update_names. simpl.
      apply NoDup_Add with (a := sname s) (l := map fst (tr_segs t)).
      * replace (map fst (tr_segs t) ++ [sname s]) with (map fst (tr_segs t) ++ sname s :: []) by reflexivity.
        rewrite <- (app_nil_r (map fst (tr_segs t))) at 1. apply Add_app.
      * split; [exact W1|]. apply smap_find_None. exact Es.
    + intros n e' H. destruct (Finv _ _ H) as [[-> ->]|(_ & e & He & Hs & _)]; [reflexivity|]. rewrite Hs. eauto.
    + destruct W3 as [cs W3]. rewrite Hr. destruct (Fold _ _ W3) as (e' & H1 & H2 & H3 & H4 & _).
      exists (te_children e'). rewrite H1. destruct e'; simpl in *; subst. reflexivity.
    + intros n e' H Hn. destruct (Finv _ _ H) as [[-> ->]|(Hne & e & He & _ & _ & Hp & _)].
      * destruct (Fold _ _ Eh) as (e1 & H1 & _ & _ & _ & H2). exists hook, e1. split; [reflexivity|]. split; [exact H1|].
        rewrite Hf in H1. destruct (String.eqb_spec (sname s) hook); [contradiction|]. rewrite String.eqb_refl in H1.
        injection H1 as <-. simpl. rewrite count_occ_app. rewrite (proj1 (count_occ_not_In _ _ _) (Nochild _ _ Eh)). simpl.
        destruct (string_dec (sname s) (sname s)); [reflexivity|contradiction].
      * rewrite Hr in Hn. destruct (W4 _ _ He Hn) as (p & pe & H1 & H2 & H3).
        destruct (Fold _ _ H2) as (pe' & H4 & _ & _ & _ & H5). exists p, pe'. rewrite Hp. split; [exact H1|]. split; [exact H4|].
        destruct H5 as [->|[_ ->]]; [exact H3|]. rewrite count_occ_app, H3. simpl.
        destruct (string_dec (sname s) n); [congruence|reflexivity].
    + intros p pe' c H HI. destruct (Finv _ _ H) as [[-> ->]|(Hne & e & He & _ & _ & _ & Hc)]; [destruct HI|].
      assert (HI' : In c (te_children e) \/ (p = hook /\ c = sname s)).
      { destruct Hc as [Hc|[-> Hc]]; rewrite Hc in HI; auto. apply in_app_or in HI as [|[<-|[]]]; auto. }
      destruct HI' as [HI'|[-> ->]].
      * destruct (W5 _ _ _ He HI') as (ce & H1 & H2). destruct (Fold _ _ H1) as (ce' & H3 & _ & _ & H4 & _).
        exists ce'. split; auto. congruence.
      * eexists. split; [rewrite Hf, String.eqb_refl; reflexivity|reflexivity].
    + intros n e' H. destruct (Finv _ _ H) as [[-> ->]|(_ & e & He & _)]; [|apply Hbelow; eauto].
      assert (H1 : tfind t1 hook = Some (te_push (sname s) he)).
      { rewrite Hf. destruct (String.eqb_spec (sname s) hook); [contradiction|]. rewrite String.eqb_refl. reflexivity. }
      apply below_root_child with (p := hook) (e := te_push (sname s) he).
      * apply Hbelow; eauto.
      * exact H1.
      * simpl. apply in_or_app; right; simpl; auto.
    + rewrite (joint_numbers_segs t1 (mkTree (smap_update (tr_segs t) hook (te_push (sname s)) ++
          [(sname s, mkTE s (if moving s then tr_nj t else 0) (Some hook) [])]) 0 0 EmptyString)) by exact Hsegs.
      rewrite joint_numbers_app, joint_numbers_update by reflexivity.
      rewrite (joint_numbers_segs _ t) by reflexivity. rewrite Hnj.
      unfold joint_numbers at 2, elements. simpl. destruct (moving s); simpl.
      * change (0 :: seq 1 (tr_nj t)) with (seq 0 (S (tr_nj t))). rewrite seq_S. simpl. apply Permutation_app_tail. exact W7.
      * rewrite app_nil_r. exact W7.
    + intros n e' H Hm. destruct (Finv _ _ H) as [[-> ->]|(_ & e & He & Hs & Hq & _)].
      * simpl in *. rewrite Hm. reflexivity.
      * rewrite Hq. rewrite Hs in Hm. eauto.
    + rewrite Hsegs, app_length, smap_update_length, Hns. simpl. lia.
  - destruct Rk as (rank & R1 & R2).
    assert (L : length (tr_segs t1) = S (length (tr_segs t))) by (rewrite Hsegs, app_length, smap_update_length; simpl; lia).
    exists (fun n => if String.eqb (sname s) n then length (tr_segs t) else rank n). split.
    + intros n e' p H HP. destruct (Finv _ _ H) as [[-> ->]|(Hne & e & He & _ & _ & Hp & _)].
      * simpl in HP. injection HP as <-. rewrite String.eqb_refl.
        destruct (String.eqb_spec (sname s) hook); [contradiction|]. eauto.
      * rewrite Hp in HP.
        destruct (String.eqb_spec (sname s) n); [congruence|]. destruct (String.eqb_spec (sname s) p) as [<-|]; [|eauto].
        (* the parent of an old element is an old element *)
        exfalso. destruct (string_dec n (tr_root t)) as [->|Hn0].
        { destruct W3 as [cs W3]. rewrite W3 in He. injection He as <-. discriminate. }
        destruct (W4 _ _ He Hn0) as (p' & pe & H1 & H2 & _). congruence.
    + intros n e' H. rewrite L. destruct (String.eqb_spec (sname s) n); [lia|].
      destruct (Finv _ _ H) as [[-> _]|(_ & e & He & _)]; [congruence|]. specialize (R2 _ _ He). lia.
Qed.

Lemma tinv_addSegments l : forall t parent b t', tinv t -> tree_addSegments t l parent = (b, t') -> tinv t'.
Proof.
  induction l as [|s l IH]; intros t parent b t' H E; simpl in E.
  - injection E as _ <-. exact H.
  - destruct (tree_addSegment t s parent) as [b1 t1] eqn:E1. pose proof (tinv_addSegment _ _ _ _ _ H E1) as H1.
    destruct b1; [eapply IH; eauto|]. injection E as _ <-. exact H1.
Qed.
Lemma tinv_addChain t c hook b t' : tinv t -> tree_addChain t c hook = (b, t') -> tinv t'.
Proof. apply tinv_addSegments. Qed.

(** the loop of addTreeRecursive as a function of its own *)
Fixpoint addRec_loop (f : nat) (src : Tree) (hook : string) (cs : list string) (d : Tree) : outcome (bool * Tree) :=
  match cs with
  | [] => Ret (true, d)
  | c :: cs' =>
      match tfind src c with
      | None => Undef
      | Some ce =>
          match tree_addSegment d (te_seg ce) hook with
          | (false, d') => Ret (false, d')
          | (true, d') =>
              let! r := tree_addRec f src c d' c in
              if fst r then addRec_loop f src hook cs' (snd r) else Ret r
          end
      end
  end.
Lemma addRec_S f src n d hook : tree_addRec (S f) src n d hook =
  match tfind src n with None => Undef | Some e => addRec_loop f src hook (te_children e) d end.
Proof.
  simpl. destruct (tfind src n) as [e|]; auto. generalize (te_children e) as cs. intros cs. revert d.
  induction cs as [|c cs IH]; intros d; simpl; auto.
  destruct (tfind src c) as [ce|]; auto. destruct (tree_addSegment d (te_seg ce) hook) as [[] d']; auto.
  destruct (tree_addRec f src c d' c) as [[b d'']|]; simpl; auto. destruct b; auto.
Qed.
(** any invariant of addSegment is one of addTreeRecursive *)
Lemma addRec_preserves (P : Tree -> Prop) src :
  (forall t s hook b t', P t -> tree_addSegment t s hook = (b, t') -> P t') ->
  forall f n d hook b d', P d -> tree_addRec f src n d hook = Ret (b, d') -> P d'.
Proof.
  intros HP. induction f as [|f IH]; intros n d hook b d' H E; [discriminate|].
  rewrite addRec_S in E. destruct (tfind src n) as [e|]; [|discriminate].
  revert d H E. generalize (te_children e) as cs. induction cs as [|c cs IHc]; intros d H E; simpl in E.
  - injection E as _ <-. exact H.
  - destruct (tfind src c) as [ce|]; [|discriminate].
    destruct (tree_addSegment d (te_seg ce) hook) as [b1 d1] eqn:E1. pose proof (HP _ _ _ _ _ H E1) as H1.
    destruct b1; [|injection E as _ <-; exact H1].
    destruct (tree_addRec f src c d1 c) as [[b2 d2]|] eqn:E2; [|discriminate]. cbn [obind fst snd] in E.
    pose proof (IH _ _ _ _ _ H1 E2) as H2. destruct b2; [eauto|]. injection E as _ <-. exact H2.
Qed.
Lemma tinv_addRec src f n d hook b d' : tinv d -> tree_addRec f src n d hook = Ret (b, d') -> tinv d'.
Proof. apply addRec_preserves. intros. eapply tinv_addSegment; eauto. Qed.

Lemma addTree_self_same t hook b t' : tinv t -> tree_addTree_self t hook = Ret (b, t') -> t' = t.
Proof.
  intros [W _] E. unfold tree_addTree_self in E. destruct (tfind t (tr_root t)) as [e|] eqn:Er; [|discriminate].
  destruct (te_children e) as [|c cs] eqn:Ec; [injection E as _ <-; auto|].
  destruct (tfind t c) as [ce|] eqn:Ecc; [|discriminate].
  destruct (addSegment_cases t (te_seg ce) hook) as [[E1 _]|(he & t1 & _ & En & _)].
  - rewrite E1 in E. injection E as _ <-. reflexivity.
  - rewrite (wf_named _ W _ _ Ecc) in En. congruence.
Qed.

Theorem reachable_inv t : reachable t -> tinv t.
Proof.
  induction 1.
  - apply tinv_make.
  - eapply tinv_addSegment; eauto.
  - eapply tinv_addChain; eauto.
  - unfold tree_addTree in H1. eapply tinv_addRec; [|exact H1]. assumption.
  - rewrite (addTree_self_same _ _ _ _ IHreachable H0). exact IHreachable.
  - unfold tree_copy, tree_addTree in H0. destruct (tree_addRec _ _ _ _ _) as [[b d]|] eqn:E; [|discriminate].
    injection H0 as <-. eapply tinv_addRec; [|exact E]. apply tinv_make.
  - unfold tree_assign, tree_addTree in H1. destruct (tree_addRec _ _ _ _ _) as [[b d]|] eqn:E; [|discriminate].
    injection H1 as <-. eapply tinv_addRec; [|exact E]. apply (tinv_make (tr_root src)).
  - unfold tree_assign_self in H0. destruct (tree_addTree_self _ _) as [[b d]|] eqn:E; [|discriminate].
    injection H0 as <-. rewrite (addTree_self_same _ _ _ _ (tinv_make (tr_root t)) E). apply tinv_make.
  - unfold tree_getSubTree in H1. destruct (tfind src name) as [e|]; [|injection H1 as _ <-; assumption].
    destruct (tree_assign old (tree_make name)) as [f|] eqn:E; [|discriminate]. cbn [obind] in H1.
    eapply tinv_addRec; [|exact H1]. unfold tree_assign, tree_addTree in E.
    destruct (tree_addRec _ _ _ _ _) as [[b' d]|] eqn:E'; [|discriminate]. injection E as <-.
    eapply tinv_addRec; [|exact E']. apply (tinv_make name).
Qed.
