(** Tree inverse dynamics over every history of the solver object (C38). *)
From Coq Require Import Reals String List ZArith Bool Arith Lia Lra Permutation Sorted.
From Verif Require Import FramesModel FramesSpec FramesProofs RotationProofs FrameOpsProofs Outcome LoopProofs InertiaModel InertiaProofs DualModel KinModel KinSpec KinProofs JacProofs
  TreeModel TreeSpec TreeProofs TreeCopyProofs TreeNumProofs TreeChainProofs TreeSolverProofs TreeFinal IkModel IkTreeProofs
  DynModel DynSpec SpatialProofs RneProofs TreeDynModel TreeDynSpec TreeDynProofs TreeDynChain.
Import ListNotations.
Local Open Scope list_scope.
Local Open Scope R_scope.

(** * Joint numbers grow from the root to the leaves *)
Lemma reach_preserves (P : Tree -> Prop) : (forall r, P (tree_make r)) ->
  (forall t s hook b t', P t -> tree_addSegment t s hook = (b, t') -> P t') -> (forall t, P t -> tinv t) ->
  forall t, reachable t -> P t.
Proof.
  intros H0 HS HI. assert (HR : forall src f n d hook b d', P d -> tree_addRec f src n d hook = Ret (b, d') -> P d').
  { intros src. apply addRec_preserves. exact HS. }
  assert (HC : forall l t parent b t', P t -> tree_addSegments t l parent = (b, t') -> P t').
  { induction l as [|s l IH]; intros t parent b t' H E; simpl in E.
    - injection E as _ <-. exact H.
    - destruct (tree_addSegment t s parent) as [b1 t1] eqn:E1. pose proof (HS _ _ _ _ _ H E1) as H1.
      destruct b1; [eapply IH; eauto|]. injection E as _ <-. exact H1. }
  induction 1.
  - apply H0.
  - eapply HS; eauto.
  - eapply HC; eauto.
  - unfold tree_addTree in H2. eapply HR; [|exact H2]. assumption.
  - rewrite (addTree_self_same _ _ _ _ (HI _ IHreachable) H1). exact IHreachable.
  - unfold tree_copy, tree_addTree in H1. destruct (tree_addRec _ _ _ _ _) as [[b d]|] eqn:E; [|discriminate].
    injection H1 as <-. eapply HR; [|exact E]. apply H0.
  - unfold tree_assign, tree_addTree in H2. destruct (tree_addRec _ _ _ _ _) as [[b d]|] eqn:E; [|discriminate].
    injection H2 as <-. eapply HR; [|exact E]. apply (H0 (tr_root src)).
  - unfold tree_assign_self in H1. destruct (tree_addTree_self _ _) as [[b d]|] eqn:E; [|discriminate].
    injection H1 as <-. rewrite (addTree_self_same _ _ _ _ (tinv_make (tr_root t)) E). apply H0.
  - unfold tree_getSubTree in H2. destruct (tfind src name) as [e|]; [|injection H2 as _ <-; assumption].
    destruct (tree_assign old (tree_make name)) as [f|] eqn:E; [|discriminate]. cbn [obind] in H2.
    eapply HR; [|exact H2]. unfold tree_assign, tree_addTree in E.
    destruct (tree_addRec _ _ _ _ _) as [[b' d]|] eqn:E'; [|discriminate]. injection E as <-.
    eapply HR; [|exact E']. apply (H0 name).
Qed.
Definition ordered (t : Tree) : Prop := forall n e m em, tfind t n = Some e -> tfind t m = Some em -> anc t m n -> m <> n ->
  moving (te_seg e) = true -> moving (te_seg em) = true -> (te_qnr em < te_qnr e)%nat.
Lemma reach_ordered t : reachable t -> ordered t.
Proof.
  intros H. cut (tinv t /\ ordered t); [tauto|]. revert t H. apply reach_preserves; [| |tauto].
  - intros r. split; [apply tinv_make|]. intros n e m em En Em A N. exfalso. apply N. unfold tfind in En, Em. simpl in En, Em.
    destruct (String.eqb_spec r n); [|discriminate]. destruct (String.eqb_spec r m); [|discriminate]. congruence.
  - intros t s hook b t' [HT HO] E. split; [eapply tinv_addSegment; eauto|].
    destruct (addSegment_cases t s hook) as [[E1 _]|(he & t1 & Eh & En & E1 & Ns & Er & _ & Ej & Hf & _)]; rewrite E1 in E; injection E as <- <-; [exact HO|].
    assert (Old : forall n e, tfind t n = Some e -> exists e', tfind t1 n = Some e' /\ te_parent e' = te_parent e /\ te_seg e' = te_seg e /\ te_qnr e' = te_qnr e).
    { intros n e E. rewrite Hf. destruct (String.eqb_spec (sname s) n) as [Z|]; [congruence|].
      destruct (String.eqb_spec hook n) as [Z|]; [subst n|eauto]. rewrite Eh in E. injection E as <-. eexists. split; [reflexivity|]. auto. }
    assert (Anc : forall m n, anc t1 m n -> tfind t n <> None -> anc t m n /\ tfind t m <> None).
    { intros m n A. induction A as [|n e p E P A IH]; intros F; [split; [constructor|exact F]|].
      destruct (tfind t n) as [e0|] eqn:E0; [|contradiction]. destruct (Old _ _ E0) as (e' & E' & P' & _). rewrite E in E'. injection E' as <-.
      rewrite P in P'. symmetry in P'. pose proof HT as [W _].
      assert (Nr : n <> tr_root t). { intros ->. destruct (wf_root _ W) as [cs Erx]. rewrite Erx in E0. injection E0 as <-. discriminate P'. }
      destruct (wf_parent _ W _ _ E0 Nr) as (p' & pe & P1 & P2 & _). rewrite P' in P1. injection P1 as <-.
      destruct IH as [I1 I2]; [congruence|]. split; [|exact I2]. econstructor; eauto. }
    intros n e m em E1' Em A N M1 M2. destruct (tfind t n) as [e0|] eqn:E0.
    + destruct (Anc _ _ A) as [A' F']; [congruence|]. destruct (tfind t m) as [em0|] eqn:Em0; [|contradiction].
      destruct (Old _ _ E0) as (x & X1 & _ & X3 & X4). rewrite E1' in X1. injection X1 as <-.
      destruct (Old _ _ Em0) as (y & Y1 & _ & Y3 & Y4). rewrite Em in Y1. injection Y1 as <-.
      rewrite X3 in M1. rewrite Y3 in M2. rewrite X4, Y4. eapply HO; eauto.
    + (* n is the new segment *)
      assert (Nn : sname s = n).
      { rewrite Hf in E1'. destruct (String.eqb_spec (sname s) n); auto. destruct (String.eqb_spec hook n) as [Z|]; congruence. }
      subst n. rewrite Hf, String.eqb_refl in E1'. injection E1' as <-. cbn [te_seg te_qnr] in *. rewrite M1.
      assert (Fm : tfind t m <> None).
      { rewrite Hf in Em. destruct (String.eqb_spec (sname s) m); [congruence|]. destruct (String.eqb_spec hook m) as [Z|]; congruence. }
      destruct (tfind t m) as [em0|] eqn:Em0; [|contradiction]. destruct (Old _ _ Em0) as (y & Y1 & _ & Y3 & Y4). rewrite Em in Y1. injection Y1 as <-.
      rewrite Y3 in M2. rewrite Y4. eapply qnr_moving; eauto.
Qed.

(** * The maps of the solver *)
Lemma find_assign {A} (m : dict A) k a n : dict_find (dict_assign m k a) n = None <-> dict_find m n = None /\ k <> n.
Proof.
  induction m as [|[k' b] m IH]; simpl.
  - destruct (String.eqb_spec k n); intuition congruence.
  - destruct (String.eqb_spec k' k) as [->|N]; simpl.
    + destruct (String.eqb_spec k n); intuition congruence.
    + destruct (String.eqb_spec k' n) as [->|]; [split; [discriminate|intros [H _]; discriminate]|exact IH].
Qed.
Lemma init_keys t aux n : dict_find (trne_init t aux) n = None <-> dict_find aux n = None /\ tfind t n = None.
Proof.
  unfold trne_init, tfind. generalize (tr_segs t) as l. intros l. revert aux. induction l as [|[k e] l IH]; intros aux; simpl; [tauto|].
  rewrite IH, find_assign. destruct (String.eqb_spec k n) as [->|]; intuition congruence.
Qed.
Lemma dict_dec {A} (m : dict A) n : {dict_find m n = None} + {dict_find m n <> None}.
Proof. destruct (dict_find m n); [right; discriminate|left; reflexivity]. Qed.

(** * Ending without all the names *)
Section Total.
Variables (t : Tree) (ag : Twist) (q qd qdd : list R) (fext : dict Wrench).
Hypothesis HT : tinv t.
Hypothesis Lq : length q = tr_nj t.
Hypothesis Lqd : length qd = tr_nj t.
Hypothesis Lqdd : length qdd = tr_nj t.
Variable rank : string -> nat.
Hypothesis R1 : forall n e p, tfind t n = Some e -> te_parent e = Some p -> (rank p < rank n)%nat.
Hypothesis R2 : forall n e, tfind t n = Some e -> (rank n < length (tr_segs t))%nat.

Definition kept (aux aux' : dict Aux) (tau' : list R) : Prop := (forall m, dict_find aux' m = None <-> dict_find aux m = None) /\ length tau' = tr_nj t.
Definition total_ok (f : nat) : Prop := forall n e aux tau, tfind t n = Some e -> (length (tr_segs t) <= f + rank n)%nat -> length tau = tr_nj t ->
  (exists aux' tau', rne_step f t ag q qd qdd fext n aux tau = Done aux' tau' /\ kept aux aux' tau' /\
     (forall m, anc t n m -> tfind t m <> None -> dict_find aux m <> None)) \/
  (exists aux' tau', rne_step f t ag q qd qdd fext n aux tau = Threw aux' tau' /\ kept aux aux' tau').
Lemma kids_total f : total_ok f -> forall cs aux tau, (forall c, In c cs -> exists ce, tfind t c = Some ce /\ (length (tr_segs t) <= f + rank c)%nat) ->
  length tau = tr_nj t ->
  (exists aux' tau', rne_kids f t ag q qd qdd fext cs aux tau = Done aux' tau' /\ kept aux aux' tau' /\
     (forall m, below t cs m -> tfind t m <> None -> dict_find aux m <> None)) \/
  (exists aux' tau', rne_kids f t ag q qd qdd fext cs aux tau = Threw aux' tau' /\ kept aux aux' tau').
Proof.
  intros Hn. induction cs as [|c cs IH]; intros aux tau Hc Lt.
  - left. exists aux, tau. split; [reflexivity|]. split; [split; [tauto|exact Lt]|]. intros m (c & [] & _).
  - destruct (Hc c (or_introl eq_refl)) as (ce & Ec & Lc). rewrite rne_kids_cons.
    destruct (Hn c ce aux tau Ec Lc Lt) as [(a1 & t1 & -> & [K1 K2] & D1)|(a1 & t1 & -> & K)]; [|right; eauto].
    destruct (IH a1 t1) as [(a2 & t2 & -> & [K3 K4] & D2)|(a2 & t2 & -> & [K3 K4])]; auto.
    { intros d Hd. apply Hc. right. exact Hd. }
    + left. exists a2, t2. split; [reflexivity|]. split; [split; [intros m; rewrite K3; apply K1|exact K4]|].
      intros m (d & [<-|Hd] & A) F; [apply D1; auto|]. intros Z. apply (D2 m); auto; [exists d; auto|]. apply K1. exact Z.
    + right. exists a2, t2. split; [reflexivity|]. split; [intros m; rewrite K3; apply K1|exact K4].
Qed.
Lemma put_tau_total n e tau x : tfind t n = Some e -> length tau = tr_nj t -> exists tau', put_tau (te_seg e) (te_qnr e) qdd tau x = Ret tau' /\ length tau' = tr_nj t.
Proof.
  intros E Lt. unfold put_tau. destruct (moving (te_seg e)) eqn:M; [|eauto]. pose proof (qnr_moving t _ _ HT E M) as Q.
  rewrite aset_ret by lia. cbn [obind]. rewrite (aget_nth _ _ 0) by (rewrite upd_length; lia). cbn [obind].
  rewrite (aget_nth qdd _ 0) by lia. cbn [obind]. rewrite aset_ret by (rewrite upd_length; lia). eexists. split; [reflexivity|]. rewrite !upd_length. exact Lt.
Qed.
Lemma go_total f : total_ok f -> forall n e X Sx v a aux tau, tfind t n = Some e -> (length (tr_segs t) <= f + S (rank n))%nat -> length tau = tr_nj t ->
  dict_find aux n <> None -> (n = tr_root t \/ te_parent e <> None) ->
  (exists aux' tau', rne_go f t ag q qd qdd fext n e X Sx v a aux tau = Done aux' tau' /\ kept aux aux' tau' /\
     (forall m, anc t n m -> tfind t m <> None -> dict_find aux m <> None)) \/
  (exists aux' tau', rne_go f t ag q qd qdd fext n e X Sx v a aux tau = Threw aux' tau' /\ kept aux aux' tau').
Proof.
  intros Hn n e X Sx v a aux tau E Lf Lt Kn Pn. pose proof HT as [W _]. unfold rne_go.
  destruct (kids_total f Hn (te_children e) (dict_put aux n (mkAux X Sx v a (own fext n (sI (te_seg e)) v a))) tau)
    as [(a1 & t1 & -> & [K1 K2] & D1)|(a1 & t1 & -> & [K1 K2])]; auto.
  { intros c Hc. destruct (wf_children _ W _ _ c E Hc) as (ce & Ec & Pc). exists ce. split; [exact Ec|]. specialize (R1 _ _ _ Ec Pc). lia. }
  - assert (K1' : forall m, dict_find a1 m = None <-> dict_find aux m = None) by (intros m; rewrite K1; apply find_put_none).
    destruct (dict_find a1 n) as [me|] eqn:En; [|exfalso; apply Kn, K1', En].
    destruct (put_tau_total n e t1 (tw_dot (au_S me) (au_f me)) E K2) as (t2 & -> & L2). cbn [reading].
    assert (Cov : forall m, anc t n m -> tfind t m <> None -> dict_find aux m <> None).
    { intros m Hm Fm. assert (G : m = n \/ (exists c ce, tfind t c = Some ce /\ te_parent ce = Some n /\ anc t c m)).
      { clear -Hm. induction Hm as [|m e p Em Pm H IH]; auto. destruct IH as [->|(c & ce & Ec & Pc & A)].
        - right. exists m, e. split; [exact Em|]. split; [exact Pm|constructor].
        - right. exists c, ce. split; [exact Ec|]. split; [exact Pc|]. econstructor; eauto. }
      destruct G as [->|(c & ce & Ec & Pc & A)]; [exact Kn|].
      assert (Nr : c <> tr_root t). { intros ->. destruct (tinv_root _ HT) as [cs Er]. rewrite Er in Ec. injection Ec as <-. discriminate Pc. }
      destruct (wf_parent _ W _ _ Ec Nr) as (p' & pe & Pc' & Ep & Cn). rewrite Pc in Pc'. injection Pc' as <-. rewrite E in Ep. injection Ep as <-.
      assert (Bm : below t (te_children e) m). { exists c. split; [|exact A]. apply (count_occ_In String.string_dec). rewrite Cn. lia. }
      intros Z. apply (D1 m Bm Fm). apply find_put_none. exact Z. }
    destruct (String.eqb_spec n (tr_root t)) as [|Nr].
    + left. exists a1, t2. split; [reflexivity|]. split; [split; auto|exact Cov].
    + destruct (te_parent e) as [p|]; [|destruct Pn; contradiction]. destruct (dict_find a1 p) as [pa|] eqn:Ep.
      * left. do 2 eexists. split; [reflexivity|]. split; [|exact Cov]. split; [|exact L2]. intros m. rewrite find_put_none. apply K1'.
      * right. do 2 eexists. split; [reflexivity|]. split; auto.
  - right. exists a1, t1. split; [reflexivity|]. split; [|exact K2]. intros m. rewrite K1. apply find_put_none.
Qed.
Lemma all_total f : total_ok f.
Proof.
  induction f as [|f IH]; intros n e aux tau E Lf Lt.
  { specialize (R2 _ _ E). lia. }
  assert (T : kept aux aux tau) by (split; [tauto|exact Lt]).
  destruct (string_dec n (tr_root t)) as [->|Nr].
  - rewrite (rne_step_root t ag q qd qdd fext HT Lq Lqd Lqdd f aux tau e E).
    destruct (dict_find aux (tr_root t)) as [old|] eqn:En; [|right; eauto].
    apply go_total; auto; [lia|congruence].
  - pose proof HT as [W _]. destruct (wf_parent _ W _ _ E Nr) as (p & pe & P & _).
    rewrite (rne_step_child t ag q qd qdd fext HT Lq Lqd Lqdd f aux tau n e p E P).
    destruct (dict_find aux n) as [old|] eqn:En; [|right; eauto].
    destruct (dict_find aux p) as [pa|] eqn:Ep; [|right; eauto].
    apply go_total; auto; [lia|congruence|right; congruence].
Qed.
End Total.

(** * Histories *)
Lemma reach_facts g seen t s : trne_reach g seen t s -> reachable t /\ ti_ag s = t_neg (mkT g v_zero) /\
  (exists last earlier, seen = last :: earlier /\ ti_nj s = tr_nj last /\ ti_ns s = tr_ns last) /\
  forall n, dict_find (ti_aux s) n <> None <-> name_seen seen n.
Proof.
  induction 1 as [t R|seen t t' s H IH R|seen t s H IH|seen t s q qd qdd fext tau code tau' s' H IH E].
  - split; [exact R|]. split; [reflexivity|]. split; [exists t, []; auto|]. intros n. cbn [trne_make ti_aux]. rewrite init_keys. simpl. split.
    + intros G. exists t. split; [left; reflexivity|]. intros Z. apply G. auto.
    + intros (t0 & [<-|[]] & G) [_ Z]. auto.
  - destruct IH as (_ & A & B & C). auto.
  - destruct IH as (R & A & B & C). split; [exact R|]. split; [exact A|]. split; [exists t, seen; auto|].
    intros n. cbn [trne_update ti_aux]. rewrite init_keys. split.
    + intros G. destruct (dict_dec (ti_aux s) n) as [Z|Z].
      * exists t. split; [left; reflexivity|]. intros Z'. apply G. auto.
      * apply C in Z as (t0 & Hi & F). exists t0. split; [right; exact Hi|exact F].
    + intros (t0 & [<-|Hi] & F) [Z1 Z2]; [auto|]. assert (dict_find (ti_aux s) n <> None) by (apply C; exists t0; auto). auto.
  - destruct IH as (R & A & B & C). split; [exact R|]. unfold trne_CartToJnt in E.
    destruct (negb (Nat.eqb (ti_nj s) (tr_nj t)) || negb (Nat.eqb (ti_ns s) (tr_ns t)))%bool eqn:C1; [injection E as _ _ <-; auto|].
    destruct (negb (Nat.eqb (length q) (ti_nj s)) || negb (Nat.eqb (length qd) (ti_nj s)) || negb (Nat.eqb (length qdd) (ti_nj s)) || negb (Nat.eqb (length tau) (ti_nj s)))%bool eqn:C2;
      [injection E as _ _ <-; auto|].
    repeat (apply orb_false_iff in C2 as [C2 ?]). repeat (apply orb_false_iff in C1 as [C1 ?]).
    repeat match goal with H : negb _ = false |- _ => apply negb_false_iff, Nat.eqb_eq in H end.
    pose proof (reachable_inv _ R) as HT. pose proof HT as [W (rank & R1 & R2)]. destruct (tinv_root _ HT) as [cs Er].
    destruct (all_total t (ti_ag s) q qd qdd fext HT ltac:(congruence) ltac:(congruence) ltac:(congruence) rank R1 R2 (length (tr_segs t)) (tr_root t) _ (ti_aux s) tau Er)
      as [(a & t' & Es & [K _] & _)|(a & t' & Es & [K _])]; try lia; try congruence;
      rewrite Es in E; injection E as _ _ <-; cbn [ti_ag ti_nj ti_ns ti_aux]; (split; [exact A|]; split; [exact B|]);
      intros n; rewrite <- (C n); specialize (K n); tauto.
Qed.

Section Calls.
Variables (g : Vector) (seen : list Tree) (t : Tree) (s : trne).
Hypothesis HR : trne_reach g seen t s.
Variables (q qd qdd : list R) (fext : dict Wrench) (tau : list R).

Lemma call_stale : ~ same_size seen t -> trne_CartToJnt t s q qd qdd fext tau = Ret (E_NOT_UP_TO_DATE, tau, s).
Proof.
  destruct (reach_facts _ _ _ _ HR) as (_ & _ & (last & ear & -> & Hj & Hs) & _). cbn [same_size]. intros N. unfold trne_CartToJnt. rewrite Hj, Hs.
  destruct (Nat.eqb_spec (tr_nj last) (tr_nj t)), (Nat.eqb_spec (tr_ns last) (tr_ns t)); cbn [negb orb]; try reflexivity. exfalso. auto.
Qed.
Lemma call_sizes : same_size seen t -> ~ right_sizes t q qd qdd tau -> trne_CartToJnt t s q qd qdd fext tau = Ret (E_SIZE_MISMATCH, tau, s).
Proof.
  destruct (reach_facts _ _ _ _ HR) as (_ & _ & (last & ear & -> & Hj & Hs) & _). cbn [same_size]. intros [E1 E2] N. unfold trne_CartToJnt. rewrite Hj, Hs, E1, E2, !Nat.eqb_refl. cbn [negb orb].
  unfold right_sizes in N.
  destruct (Nat.eqb_spec (length q) (tr_nj t)), (Nat.eqb_spec (length qd) (tr_nj t)), (Nat.eqb_spec (length qdd) (tr_nj t)), (Nat.eqb_spec (length tau) (tr_nj t));
    cbn [negb orb]; try reflexivity. exfalso. auto.
Qed.
Hypothesis Hsz : same_size seen t.
Hypothesis Hln : right_sizes t q qd qdd tau.
Lemma call_body : trne_CartToJnt t s q qd qdd fext tau =
  match rne_step (length (tr_segs t)) t (t_neg (mkT g v_zero)) q qd qdd fext (tr_root t) (ti_aux s) tau with
  | Done aux tau' => Ret (E_NOERROR, tau', mkTR (ti_nj s) (ti_ns s) (ti_ag s) aux)
  | Threw aux tau' => Ret (E_NOT_UP_TO_DATE, tau', mkTR (ti_nj s) (ti_ns s) (ti_ag s) aux)
  | Stuck => Undef
  end.
Proof.
  destruct (reach_facts _ _ _ _ HR) as (_ & A & (last & ear & Es & Hj & Hs) & _). rewrite Es in Hsz. destruct Hsz as [E1 E2], Hln as (L1 & L2 & L3 & L4).
  unfold trne_CartToJnt. rewrite Hj, Hs, E1, E2, L1, L2, L3, L4, !Nat.eqb_refl, A. reflexivity.
Qed.
Lemma call_unseen : ~ all_seen seen t -> exists T s', trne_CartToJnt t s q qd qdd fext tau = Ret (E_NOT_UP_TO_DATE, T, s').
Proof.
  intros N. rewrite call_body. destruct (reach_facts _ _ _ _ HR) as (R & _ & _ & C). destruct Hln as (L1 & L2 & L3 & L4).
  pose proof (reachable_inv _ R) as HT. pose proof HT as [W (rank & R1 & R2)]. destruct (tinv_root _ HT) as [cs Er].
  destruct (all_total t (t_neg (mkT g v_zero)) q qd qdd fext HT L1 L2 L3 rank R1 R2 (length (tr_segs t)) (tr_root t) _ (ti_aux s) tau Er ltac:(lia) L4)
    as [(a & t' & Es & _ & D)|(a & t' & Es & _)].
  - exfalso. apply N. intros n F. apply C. apply D; auto. destruct (tfind t n) as [e|] eqn:En; [|contradiction]. eapply anc_root; eauto.
  - rewrite Es. eauto.
Qed.
Hypothesis Hse : all_seen seen t.
Lemma call_done : exists T s' aux, trne_CartToJnt t s q qd qdd fext tau = Ret (E_NOERROR, T, s') /\ length T = tr_nj t /\
  settled t (t_neg (mkT g v_zero)) q qd qdd fext (fun m => tfind t m <> None) aux T.
Proof.
  rewrite call_body. destruct (reach_facts _ _ _ _ HR) as (R & _ & _ & C). destruct Hln as (L1 & L2 & L3 & L4).
  pose proof (reachable_inv _ R) as HT. pose proof HT as [W (rank & R1 & R2)].
  destruct (run_ok t (t_neg (mkT g v_zero)) q qd qdd fext HT L1 L2 L3 rank R1 R2 (ti_aux s) tau L4) as (aux & T & -> & S & L & _).
  { intros m F. apply C. apply Hse, F. }
  eexists. eexists. exists aux. split; [reflexivity|]. auto.
Qed.
End Calls.

Lemma f_tree_id_codes g seen t s q qd qdd fext tau : trne_reach g seen t s ->
  (~ same_size seen t -> trne_CartToJnt t s q qd qdd fext tau = Ret (E_NOT_UP_TO_DATE, tau, s)) /\
  (same_size seen t -> ~ right_sizes t q qd qdd tau -> trne_CartToJnt t s q qd qdd fext tau = Ret (E_SIZE_MISMATCH, tau, s)) /\
  (same_size seen t -> right_sizes t q qd qdd tau -> ~ all_seen seen t ->
     exists T s', trne_CartToJnt t s q qd qdd fext tau = Ret (E_NOT_UP_TO_DATE, T, s')) /\
  (same_size seen t -> right_sizes t q qd qdd tau -> all_seen seen t ->
     exists T s', trne_CartToJnt t s q qd qdd fext tau = Ret (E_NOERROR, T, s') /\ length T = tr_nj t).
Proof.
  intros H. split; [intros; eapply call_stale; eauto|]. split; [intros; eapply call_sizes; eauto|]. split; [intros; eapply call_unseen; eauto|].
  intros A B C. destruct (call_done g seen t s H q qd qdd fext tau A B C) as (T & s' & aux & E & L & _). eauto.
Qed.
Lemma f_tree_id_update g seen t s q qd qdd fext tau : trne_reach g seen t s -> right_sizes t q qd qdd tau ->
  exists T s', trne_CartToJnt t (trne_update t s) q qd qdd fext tau = Ret (E_NOERROR, T, s') /\ length T = tr_nj t.
Proof.
  intros H R. destruct (f_tree_id_codes g (t :: seen) t (trne_update t s) q qd qdd fext tau (tr_update g seen t s H)) as (_ & _ & _ & K).
  apply K; [split; reflexivity| exact R |]. intros n F. exists t. split; [left; reflexivity|exact F].
Qed.

(** * Newton-Euler equations *)
Lemma forces_kids t ag q qd qdd fext cs w F : tinv t -> forces t ag q qd qdd fext cs w ->
  (forall n, tfind t n <> None -> force t ag q qd qdd fext n (F n)) ->
  w = wsum (map (fun c => match tfind t c with Some ce => f_app_w (elt_pose q ce) (F c) | None => w_zero end) cs).
Proof.
  intros HT H HF. induction H as [|c e cs v a w1 w2 E M H1 IH1 H2 IH2]; [reflexivity|]. simpl. rewrite E, <- IH2. f_equal. f_equal.
  eapply force_fun; [exact HT| |apply HF; congruence]. exists e, v, a, w1. auto.
Qed.
Lemma f_tree_id_newton_euler g seen t s q qd qdd fext tau : trne_reach g seen t s ->
  same_size seen t -> all_seen seen t -> right_sizes t q qd qdd tau ->
  exists T s' V A F, trne_CartToJnt t s q qd qdd fext tau = Ret (E_NOERROR, T, s') /\ length T = tr_nj t /\
    newton_euler t g q qd qdd fext V A F /\
    forall n e, tfind t n = Some e -> moving (te_seg e) = true ->
      nth (te_qnr e) T 0 = tw_dot (elt_axis q e) (F n) + jinertia (sjoint (te_seg e)) * nth (te_qnr e) qdd 0.
Proof.
  intros H Hs Ha Hl. destruct (call_done g seen t s H q qd qdd fext tau Hs Hl Ha) as (T & s' & aux & E & L & S1 & S2).
  destruct (reach_facts _ _ _ _ H) as (R & _). pose proof (reachable_inv _ R) as HT. pose proof HT as [W _].
  set (ent := fun n => match dict_find aux n with Some me => me | None => aux0 end).
  assert (Ent : forall n, tfind t n <> None -> motion t (t_neg (mkT g v_zero)) q qd qdd n (au_v (ent n)) (au_a (ent n)) /\
     force t (t_neg (mkT g v_zero)) q qd qdd fext n (au_f (ent n))).
  { intros n F. destruct (S1 n F F) as (me & E1 & E2 & E3). unfold ent. rewrite E1. auto. }
  exists T, s', (fun n => au_v (ent n)), (fun n => au_a (ent n)), (fun n => au_f (ent n)). split; [exact E|]. split; [exact L|]. split.
  - destruct (tinv_root _ HT) as [cs Er]. assert (Fr : tfind t (tr_root t) <> None) by congruence.
    destruct (Ent _ Fr) as [Mr _]. destruct (motion_fun _ _ _ _ _ HT _ _ _ Mr _ _ (mo_root t _ q qd qdd)) as [V0 A0].
    split; [exact V0|]. split; [exact A0|]. split.
    + intros n e p En P. cbv zeta. assert (Nr : n <> tr_root t). { intros ->. rewrite Er in En. injection En as <-. discriminate P. }
      destruct (wf_parent _ W _ _ En Nr) as (p' & pe & P' & Ep & _). rewrite P in P'. injection P' as <-.
      destruct (Ent p ltac:(congruence)) as [Mp _]. destruct (Ent n ltac:(congruence)) as [Mn _].
      destruct (motion_fun _ _ _ _ _ HT _ _ _ Mn _ _ (mo_child t _ q qd qdd n e p _ _ En P Mp)) as [Vn An].
      rewrite An, Vn. split; reflexivity.
    + intros n e En. cbv zeta. destruct (Ent n ltac:(congruence)) as [Mn (e' & v & a & w1 & E' & M' & F' & Ef)].
      rewrite En in E'. injection E' as <-. destruct (motion_fun _ _ _ _ _ HT _ _ _ Mn _ _ M') as [Ev Ea].
      rewrite Ef, Ev, Ea. unfold own. f_equal. eapply forces_kids; [exact HT|exact F'|]. intros m Fm. apply Ent, Fm.
  - intros n e En Mv. destruct (S2 n e ltac:(congruence) En Mv) as (e' & w & E' & Fw & ->). rewrite En in E'. injection E' as <-.
    destruct (Ent n ltac:(congruence)) as [_ Fn]. rewrite (force_fun _ _ _ _ _ _ HT _ _ _ Fn Fw).
    unfold joint_value. rewrite Mv. reflexivity.
Qed.

(** * One number per joint *)
Lemma number_used t k : tinv t -> (k < tr_nj t)%nat -> exists n e, tfind t n = Some e /\ moving (te_seg e) = true /\ te_qnr e = k.
Proof.
  intros [W _] Hk. assert (I : In k (joint_numbers t)). { apply (Permutation_in _ (Permutation_sym (wf_numbers _ W))). apply in_seq. lia. }
  unfold joint_numbers, elements in I. apply in_map_iff in I as (e & <- & I). apply filter_In in I as [I M]. apply in_map_iff in I as ((n & e') & <- & I).
  exists n, e'. split; [|auto]. apply smap_In_find; [apply W|exact I].
Qed.
Lemma torque_fun t ag q qd qdd fext n x y : tinv t -> torque t ag q qd qdd fext n x -> torque t ag q qd qdd fext n y -> x = y.
Proof.
  intros HT (e & w & E & F & ->) (e' & w' & E' & F' & ->). rewrite E in E'. injection E' as <-. rewrite (force_fun _ _ _ _ _ _ HT _ _ _ F F'). reflexivity.
Qed.
Lemma own_ext f1 f2 n I v a : wrench_on f1 n = wrench_on f2 n -> own f1 n I v a = own f2 n I v a.
Proof. unfold own. intros ->. reflexivity. Qed.
Lemma forces_ext t ag q qd qdd f1 f2 cs w : (forall n, tfind t n <> None -> wrench_on f1 n = wrench_on f2 n) ->
  forces t ag q qd qdd f1 cs w -> forces t ag q qd qdd f2 cs w.
Proof.
  intros Hf H. induction H as [|c e cs v a w1 w2 E M H1 IH1 H2 IH2]; [constructor|].
  rewrite (own_ext f1 f2) by (apply Hf; congruence). econstructor; eauto.
Qed.
Lemma torque_ext t ag q qd qdd f1 f2 n x : (forall n, tfind t n <> None -> wrench_on f1 n = wrench_on f2 n) ->
  torque t ag q qd qdd f1 n x -> torque t ag q qd qdd f2 n x.
Proof.
  intros Hf (e & w & E & (e' & v & a & w1 & E' & M & F & ->) & ->). exists e. eexists. split; [exact E|]. split; [|reflexivity].
  exists e', v, a, w1. split; [exact E'|]. split; [exact M|]. split; [eapply forces_ext; eauto|]. f_equal. apply own_ext, Hf. congruence.
Qed.
Lemma f_tree_id_wrenches g seen1 seen2 t s1 s2 q qd qdd f1 f2 tau1 tau2 :
  trne_reach g seen1 t s1 -> same_size seen1 t -> all_seen seen1 t -> right_sizes t q qd qdd tau1 ->
  trne_reach g seen2 t s2 -> same_size seen2 t -> all_seen seen2 t -> right_sizes t q qd qdd tau2 ->
  (forall n, tfind t n <> None -> wrench_on f1 n = wrench_on f2 n) ->
  exists T s1' s2', trne_CartToJnt t s1 q qd qdd f1 tau1 = Ret (E_NOERROR, T, s1') /\
                    trne_CartToJnt t s2 q qd qdd f2 tau2 = Ret (E_NOERROR, T, s2').
Proof.
  intros H1 S1 A1 L1 H2 S2 A2 L2 Hf.
  destruct (call_done g seen1 t s1 H1 q qd qdd f1 tau1 S1 L1 A1) as (T1 & s1' & aux1 & E1 & Le1 & _ & G1).
  destruct (call_done g seen2 t s2 H2 q qd qdd f2 tau2 S2 L2 A2) as (T2 & s2' & aux2 & E2 & Le2 & _ & G2).
  destruct (reach_facts _ _ _ _ H1) as (R & _). pose proof (reachable_inv _ R) as HT.
  assert (ET : T1 = T2).
  { apply (nth_ext T1 T2 0 0); [congruence|]. intros k Hk. rewrite Le1 in Hk. destruct (number_used t k HT Hk) as (n & e & E & M & <-).
    eapply torque_fun; [exact HT| |apply (G2 n e); auto; congruence]. eapply torque_ext; [exact Hf|]. apply (G1 n e); auto. congruence. }
  subst T2. eauto.
Qed.

(** * Shares of the links *)
Lemma f_tree_id_links g seen t s q qd qdd fext tau : tree_ok t -> trne_reach g seen t s ->
  same_size seen t -> all_seen seen t -> right_sizes t q qd qdd tau ->
  exists T s', trne_CartToJnt t s q qd qdd fext tau = Ret (E_NOERROR, T, s') /\
    forall n e l, tfind t n = Some e -> moving (te_seg e) = true -> preorder t [n] l ->
      exists xs, Forall2 (link_share t g q qd qdd fext n) l xs /\
        nth (te_qnr e) T 0 = jinertia (sjoint (te_seg e)) * nth (te_qnr e) qdd 0 + lsum xs.
Proof.
  intros HO H Hs Ha Hl. destruct (call_done g seen t s H q qd qdd fext tau Hs Hl Ha) as (T & s' & aux & E & L & S1 & S2).
  destruct (reach_facts _ _ _ _ H) as (R & _). pose proof (reachable_inv _ R) as HT.
  exists T, s'. split; [exact E|]. intros n e l En Mv Hpre. destruct (S2 n e ltac:(congruence) En Mv) as (e' & w & E' & Fw & Tn).
  rewrite En in E'. injection E' as <-. destruct (force_sum t g q qd qdd fext HT n w Fw l Hpre) as (ws & Fo & ->).
  assert (Nr : n <> tr_root t). { intros ->. destruct (tinv_root _ HT) as [cs Er]. rewrite Er in En. injection En as <-. discriminate Mv. }
  exists (map (tw_dot (elt_axis q e)) ws). split.
  - clear -Fo HT HO En Nr Mv. induction Fo; simpl; constructor; auto. eapply share_ok; eauto.
  - rewrite Tn, tw_dot_wsum. unfold joint_value. rewrite Mv. ring.
Qed.

(** * A tree that is a single branch *)
Lemma sorted_seq n : forall a L, StronglySorted lt L -> (forall k, In k L <-> (a <= k < a + n)%nat) -> L = seq a n.
Proof.
  induction n as [|n IH]; intros a L S H.
  - destruct L as [|x L]; [reflexivity|]. exfalso. assert (In x (x :: L)) by (left; reflexivity). apply H in H0. lia.
  - destruct L as [|x L]. { exfalso. assert (In a []) as G by (apply H; lia). exact G. }
    apply StronglySorted_inv in S as [S F]. rewrite Forall_forall in F.
    assert (Ex : x = a).
    { assert (A1 : In x (x :: L)) by (left; reflexivity). apply H in A1. assert (A2 : In a (x :: L)) by (apply H; lia).
      destruct A2 as [->|A2]; [reflexivity|]. specialize (F _ A2). lia. }
    subst x. simpl. f_equal. apply IH; [exact S|]. intros k. split.
    + intros G. assert (A1 : In k (a :: L)) by (right; exact G). apply H in A1. specialize (F _ G). lia.
    + intros G. assert (A1 : In k (a :: L)) by (apply H; lia). destruct A1 as [<-|A1]; [lia|exact A1].
Qed.
Lemma walk_next t n a l : walk_up t n a l -> tree_wf t -> forall p, (p = a \/ exists e, In e l /\ nm e = p) -> p <> n -> exists y, In y l /\ te_parent y = Some p.
Proof.
  intros H W. induction H as [a|n e p' a l E P H IH]; intros p Hp N.
  - destruct Hp as [->|(e & [] & _)]. contradiction.
  - destruct (string_dec p p') as [->|Np]; [exists e; split; [left; reflexivity|exact P]|].
    destruct (IH p) as (y & Hy & Py); auto.
    + destruct Hp as [->|(x & [<-|Hx] & En)]; [auto| |right; eauto]. unfold nm in En. rewrite (wf_named _ W _ _ E) in En. congruence.
    + exists y. split; [right; exact Hy|exact Py].
Qed.

Lemma walk_head t m a e l : tree_wf t -> walk_up t m a (e :: l) -> m = nm e /\ exists p, te_parent e = Some p /\ walk_up t p a l.
Proof. intros W H. inversion H as [|n' e' p' a' l' X1 X2 X3]; subst. split; [unfold nm; rewrite (wf_named _ W _ _ X1); reflexivity|eauto]. Qed.
Section Branch.
Variables (t : Tree) (leaf : string) (l : list TreeElement).
Hypothesis HR : reachable t.
Hypothesis HB : one_branch t leaf.
Hypothesis HW : walk_up t leaf (tr_root t) l.
Let P := rev l.

Lemma branch_inv : tinv t. Proof. apply reachable_inv, HR. Qed.
Lemma only_child p pe y : tfind t p = Some pe -> tfind t (nm y) = Some y -> te_parent y = Some p -> te_children pe = [nm y].
Proof.
  pose proof branch_inv as HT. pose proof HT as [W _]. intros Ep Ey Py.
  assert (Nr : nm y <> tr_root t). { intros Z. destruct (tinv_root _ HT) as [cs Er]. rewrite Z, Er in Ey. injection Ey as <-. discriminate Py. }
  destruct (wf_parent _ W _ _ Ey Nr) as (p' & pe' & P' & Ep' & C). rewrite Py in P'. injection P' as <-. rewrite Ep in Ep'. injection Ep' as <-.
  destruct HB as [_ HL]. specialize (HL _ _ Ep). destruct (te_children pe) as [|x [|x' cs]]; simpl in *; [discriminate| |lia].
  destruct (String.string_dec x (nm y)); [congruence|discriminate].
Qed.
Lemma branch_all n e : tfind t n = Some e -> n <> tr_root t -> In e l.
Proof.
  pose proof branch_inv as HT. pose proof HT as [W _]. intros E N.
  assert (G : forall m, below_root t m -> m = tr_root t \/ exists x, In x l /\ nm x = m).
  { induction 1 as [|p pe c B IH Ep Hc]; [auto|]. right.
    assert (Np : p <> leaf). { intros ->. destruct HB as [(le & El & Ec) _]. rewrite Ep in El. injection El as <-. rewrite Ec in Hc. exact Hc. }
    destruct (walk_next t leaf (tr_root t) l HW W p IH Np) as (y & Hy & Py). exists y. split; [exact Hy|].
    pose proof (only_child p pe y Ep (walk_up_found _ _ _ _ _ W HW Hy) Py) as C. rewrite C in Hc. destruct Hc as [<-|[]]. reflexivity. }
  destruct (G n (wf_below _ W _ _ E)) as [->|(x & Hx & <-)]; [contradiction|]. pose proof (walk_up_found _ _ _ _ _ W HW Hx). congruence.
Qed.
Lemma branch_numbers : map te_qnr (filter (fun e => moving (te_seg e)) P) = seq 0 (tr_nj t).
Proof.
  pose proof branch_inv as HT. pose proof HT as [W (rank & R1 & R2)]. apply sorted_seq.
  - unfold P. clear HB. pose proof (reach_ordered t HR) as HO. induction HW as [a|n e p a l E Pa H IH]; [constructor|].
    specialize (IH H). simpl. rewrite filter_app, map_app. simpl. destruct (moving (te_seg e)) eqn:M; [|simpl; rewrite app_nil_r; exact IH].
    assert (S : forall L x, StronglySorted lt L -> (forall y, In y L -> (y < x)%nat) -> StronglySorted lt (L ++ [x])).
    { clear. intros L x S. induction S as [|z L S IH F]; intros G; simpl; [constructor; [constructor|constructor]|].
      constructor; [apply IH; intros y Hy; apply G; right; exact Hy|]. apply Forall_app. split; [exact F|]. constructor; [apply G; left; reflexivity|constructor]. }
    simpl. apply S; [exact IH|]. intros y Hy. apply in_map_iff in Hy as (x & <- & Hx). apply filter_In in Hx as [Hx Mx]. apply in_rev in Hx.
    pose proof (walk_up_found _ _ _ _ _ W H Hx) as Fx. pose proof (anc_walk _ _ _ _ H x Hx W) as A.
    eapply (HO n e (nm x) x); eauto; [econstructor; eauto|]. intros Z. rewrite Z in A. apply (anc_rank _ rank _ _ R1) in A. specialize (R1 _ _ _ E Pa). lia.
  - intros k. split.
    + intros Hk. apply in_map_iff in Hk as (x & <- & Hx). apply filter_In in Hx as [Hx Mx]. unfold P in Hx. apply in_rev in Hx.
      pose proof (qnr_moving t _ _ HT (walk_up_found _ _ _ _ _ W HW Hx) Mx). lia.
    + intros Hk. destruct (number_used t k HT ltac:(lia)) as (n & e & E & M & <-). apply in_map. apply filter_In. split; [|exact M].
      unfold P. apply in_rev. rewrite rev_involutive. eapply branch_all; [exact E|]. intros ->.
      destruct (tinv_root _ HT) as [cs Er]. rewrite Er in E. injection E as <-. discriminate M.
Qed.
Lemma branch_values q : length q = tr_nj t -> path_values q P = q.
Proof.
  intros L. unfold path_values. transitivity (map (fun k => nth k q 0) (map te_qnr (filter (fun e => moving (te_seg e)) P))).
  - rewrite map_map. apply map_ext_in. intros e He. apply filter_In in He as [_ M]. unfold joint_value. rewrite M. reflexivity.
  - rewrite branch_numbers, <- L. clear. induction q as [|x q IH] using rev_ind; [reflexivity|].
    rewrite app_length. simpl. rewrite seq_app, map_app. simpl. f_equal.
    + rewrite <- IH at 2. apply map_ext_in. intros k Hk. apply in_seq in Hk. rewrite app_nth1 by lia. reflexivity.
    + rewrite app_nth2, Nat.sub_diag by lia. reflexivity.
Qed.
End Branch.

Lemma root_walk t r a l : tinv t -> r = tr_root t -> walk_up t r a l -> a = r /\ l = [].
Proof.
  intros HT Er H. destruct H as [|n e p a l E P H]; [auto|]. exfalso. subst n. destruct (tinv_root _ HT) as [cs Ex]. rewrite Ex in E. injection E as <-. discriminate P.
Qed.
Lemma f_tree_id_one_branch g seen t s rs leaf q qd qdd fext tau tau' : tree_ok t -> trne_reach g seen t s ->
  same_size seen t -> all_seen seen t -> right_sizes t q qd qdd tau -> one_branch t leaf ->
  exists c, tree_getChain t (tr_root t) leaf = Ret (true, c) /\ ch_nj c = tr_nj t /\ ch_ns c = tr_ns t /\
    (rne_reach g c rs -> rne_current c rs -> length tau' = ch_nj c ->
     exists T s', trne_CartToJnt t s q qd qdd fext tau = Ret (E_NOERROR, T, s') /\
       rne_CartToJnt c rs q qd qdd (map (fun x => wrench_on fext (sname x)) (ch_segs c)) tau' = Ret (E_NOERROR, T)).
Proof.
  intros HO H Hs Ha Hl HB. destruct (call_done g seen t s H q qd qdd fext tau Hs Hl Ha) as (T & s' & aux & E & L & S1 & S2).
  destruct (reach_facts _ _ _ _ H) as (R & _). pose proof (reachable_inv _ R) as HT. pose proof HT as [W _].
  destruct (tinv_root _ HT) as [cs Er]. pose proof HB as [(le & El & Ecl) _].
  destruct (proj2 (getChain_spec t (tr_root t) leaf HT HO) ltac:(congruence) ltac:(congruence)) as (a & lu & l & segs & W1 & HW & _ & F2 & EC).
  destruct (root_walk t _ _ _ HT eq_refl W1) as [-> ->]. inversion F2; subst segs. simpl app in EC.
  set (P := rev l) in *. set (c := chain_of (map te_seg P)) in *.
  assert (OkP : forall e, In e P -> segment_ok (te_seg e)). { intros e He. eapply (walk_ok t HT HO _ _ _ HW). apply in_rev. exact He. }
  assert (HA : Forall2 alike P (map te_seg P)).
  { clear -OkP. induction P as [|e P IH]; simpl; constructor; [apply alike_same, OkP; left; reflexivity|]. apply IH. intros x Hx. apply OkP. right. exact Hx. }
  destruct Hl as (L1 & L2 & L3 & L4).
  pose proof (branch_values t leaf l R HB HW) as BV. fold P in BV.
  assert (Nj : ch_nj c = tr_nj t).
  { cbn [c chain_of ch_nj]. rewrite <- (path_values_length q P), BV by exact L1. exact L1. }
  assert (Ns : ch_ns c = length P) by apply map_length.
  assert (NsT : ch_ns c = tr_ns t).
  { rewrite Ns. unfold P. rewrite rev_length. pose proof (wf_segments _ W) as Ls.
    assert (Permutation (names t) (tr_root t :: map nm l)).
    { apply NoDup_Permutation; [apply W| |].
      - destruct HT as [_ (rank & R1 & _)]. clear -W HW R1 Er.
        assert (G : forall n a l, walk_up t n a l -> NoDup (map nm l) /\ (a = tr_root t -> ~ In a (map nm l))).
        { clear -W R1 Er. induction 1 as [a|n e p a l E P H [I1 I2]]; [split; [constructor|intros _ []]|]. simpl. unfold nm at 1 3. rewrite (wf_named _ W _ _ E). split.
          - constructor; [|exact I1]. intros G. apply in_map_iff in G as (x & Nx & Hx). pose proof (anc_walk _ _ _ _ H x Hx W) as A. rewrite Nx in A.
            apply (anc_rank _ rank _ _ R1) in A. specialize (R1 _ _ _ E P). lia.
          - intros Ea [Z|Z]; [|apply (I2 Ea Z)]. subst n. rewrite Ea, Er in E. injection E as <-. discriminate P. }
        destruct (G _ _ _ HW) as [G1 G2]. constructor; auto.
      - intros n. split.
        + intros Hn. destruct (tfind t n) as [e|] eqn:En; [|apply smap_find_None in En; contradiction].
          destruct (string_dec n (tr_root t)) as [->|N]; [left; reflexivity|]. right. pose proof (branch_all t leaf l R HB HW n e En N) as I.
          apply (in_map nm) in I. unfold nm in I at 1. rewrite (wf_named _ W _ _ En) in I. exact I.
        + intros [<-|Hn]; [eapply smap_find_Some_In; exact Er|]. apply in_map_iff in Hn as (x & <- & Hx). apply (smap_find_Some_In _ _ x). exact (walk_up_found _ _ _ _ _ W HW Hx). }
    apply Permutation_length in H0. unfold names in H0. rewrite map_length in H0. simpl in H0. rewrite map_length in H0. lia. }
  exists c. split; [exact EC|]. split; [exact Nj|]. split; [exact NsT|]. intros HRs HC Lt'. exists T, s'. split; [exact E|].
  set (fx := map (fun x => wrench_on fext (sname x)) (ch_segs c)).
  assert (Ag : rn_ag rs = t_neg (mkT g v_zero)). { clear -HRs. induction HRs; auto. }
  destruct (rne_result c rs q qd qdd fx tau') as (T' & ET & LT & HT'); auto; try congruence.
  { apply (alike_ok _ _ HA). } { unfold fx. rewrite map_length. reflexivity. }
  rewrite ET. f_equal. f_equal. rewrite Ag in HT'.
  set (ag := t_neg (mkT g v_zero)) in *.
  pose proof (path_mv _ _ HA : forall i, (i < length P)%nat -> RneProofs.mv c i = _) as PM.
  assert (PX : forall i, (i < length P)%nat -> LX c q i = elt_pose q (nth i P elt0)).
  { intros i Hi. rewrite <- (path_LX _ _ HA q i Hi), BV by exact L1. reflexivity. }
  assert (PA : forall i, (i < length P)%nat -> LA c q i = elt_axis q (nth i P elt0)).
  { intros i Hi. rewrite <- (path_LA _ _ HA q i Hi), BV by exact L1. reflexivity. }
  set (F := lforce c ag q qd qdd fx).
  assert (Pre : forall B A e, P = A ++ e :: B -> tfind t (nm e) = Some e /\ length P = (length A + S (length B))%nat /\ nth (length A) P elt0 = e /\
     walk_up t leaf (nm e) (rev B) /\ walk_up t (nm e) (tr_root t) (e :: rev A) /\
     motion t ag q qd qdd (nm e) (lvel c q qd (S (length A))) (lacc c ag q qd qdd (S (length A))) /\
     F (length A) = own fext (nm e) (sI (te_seg e)) (lvel c q qd (S (length A))) (lacc c ag q qd qdd (S (length A)))).
  { intros B A e EP.
    assert (He : In e P) by (rewrite EP; apply in_or_app; right; left; reflexivity).
    assert (Fe : tfind t (nm e) = Some e) by (eapply walk_up_found; [exact W|exact HW|]; apply in_rev; exact He).
    assert (LA' : length P = (length A + S (length B))%nat) by (rewrite EP, app_length; reflexivity).
    assert (Ne : nth (length A) P elt0 = e) by (rewrite EP, app_nth2, Nat.sub_diag by lia; reflexivity).
    assert (El' : l = rev B ++ e :: rev A).
    { transitivity (rev P); [unfold P; symmetry; apply rev_involutive|]. rewrite EP, rev_app_distr. simpl. rewrite <- app_assoc. reflexivity. }
    assert (We : walk_up t leaf (nm e) (rev B) /\ walk_up t (nm e) (tr_root t) (e :: rev A)).
    { pose proof HW as HW'. rewrite El' in HW'. apply walk_up_app in HW' as (m & U1 & U2). destruct (walk_head _ _ _ _ _ W U2) as [-> _]. auto. }
    destruct We as [Wlo We].
    assert (Mo : motion t ag q qd qdd (nm e) (lvel c q qd (S (length A))) (lacc c ag q qd qdd (S (length A)))).
    { pose proof (walk_motion t g q qd qdd P (map te_seg P) HA (nm e) (e :: rev A) B We) as G. simpl length in G. rewrite rev_length in G.
      rewrite !BV in G by assumption. apply G. simpl. rewrite rev_involutive, <- app_assoc. exact EP. }
    do 6 (split; [assumption|]).
    unfold F, lforce, own. cbv zeta. assert (Es : seg c (length A) = te_seg e) by (unfold seg; cbn [c chain_of ch_segs]; change seg0 with (te_seg elt0); rewrite map_nth, Ne; reflexivity).
    rewrite Es. f_equal. unfold fx. cbn [c chain_of ch_segs]. rewrite map_map.
    rewrite (nth_indep _ w_zero (wrench_on fext (sname (te_seg elt0)))) by (rewrite map_length; lia).
    rewrite (map_nth (fun x => wrench_on fext (sname (te_seg x)))), Ne. reflexivity. }
  assert (G : forall B A e, P = A ++ e :: B -> force t ag q qd qdd fext (nm e) (full (length P) (LX c q) F (length A))).
  { induction B as [|b B IH]; intros A e EP; destruct (Pre _ _ _ EP) as (Fe & LA' & Ne & Wlo & We & Mo & Fi).
    - exists e. do 3 eexists. split; [exact Fe|]. split; [exact Mo|]. split.
      + assert (Z : leaf = nm e) by (inversion Wlo; auto). rewrite Z, Fe in El. injection El as <-. rewrite Ecl. constructor.
      + unfold full. simpl length in LA'. rewrite Fi. f_equal. replace (S (length A)) with (length P) by lia. apply gf_end.
    - specialize (IH (A ++ [e]) b). rewrite <- app_assoc in IH. specialize (IH EP). rewrite app_length in IH. simpl length in IH, LA'. rewrite Nat.add_1_r in IH.
      assert (EPb : P = (A ++ [e]) ++ b :: B) by (rewrite EP, <- app_assoc; reflexivity).
      destruct (Pre _ _ _ EPb) as (Fb & _ & Nb & _ & Wb & _ & _). rewrite app_length in Nb. simpl length in Nb. rewrite Nat.add_1_r in Nb.
      assert (Pb : te_parent b = Some (nm e)).
      { rewrite rev_app_distr in Wb. simpl in Wb. destruct (walk_head _ _ _ _ _ W Wb) as (_ & p & -> & Wp). destruct (walk_head _ _ _ _ _ W Wp) as [-> _]. reflexivity. }
      destruct IH as (b' & v & a & w1 & E1 & M1 & F1 & Ef). rewrite Fb in E1. injection E1 as <-.
      exists e. do 3 eexists. split; [exact Fe|]. split; [exact Mo|]. split.
      + rewrite (only_child t leaf R HB (nm e) e b Fe Fb Pb). econstructor; [exact Fb|exact M1|exact F1|constructor].
      + unfold full at 1. rewrite Fi. f_equal. rewrite gf_S by lia. rewrite PX, Nb by lia. rewrite Ef, w_add_0_r. reflexivity. }
  symmetry. apply (nth_ext T T' 0 0); [congruence|]. intros k Hk. rewrite L, <- Nj in Hk.
  destruct (joint_segment c k (proj1 (alike_ok _ _ HA)) Hk) as (i & Hi & Mi & Ki). rewrite <- Ki at 2. rewrite (HT' i Hi Mi). rewrite Ns in Hi.
  destruct (nth_split P elt0 Hi) as (A & B & EP & LA'). set (e := nth i P elt0) in *.
  specialize (G B A e EP). rewrite LA' in G.
  assert (He : In e P) by (rewrite EP; apply in_or_app; right; left; reflexivity).
  assert (Fe : tfind t (nm e) = Some e) by (eapply walk_up_found; [exact W|exact HW|]; apply in_rev; exact He).
  rewrite (PM i Hi) in Mi. fold e in Mi.
  assert (Qe : te_qnr e = k).
  { pose proof (branch_numbers t leaf l R HB HW) as BN. fold P in BN.
    assert (Q : nth k (map te_qnr (filter (fun e => moving (te_seg e)) P)) 0%nat = te_qnr e).
    { rewrite <- Ki. unfold kidx. cbn [c chain_of ch_segs]. rewrite firstn_map. clear -Hi Mi. unfold e in *. clear e. unfold count_moving. revert i Hi Mi.
      induction P as [|x P IH]; intros i Hi Mi; simpl in Hi; [lia|]. destruct i as [|i]; simpl in *.
      - rewrite Mi. reflexivity.
      - specialize (IH i ltac:(lia) Mi). destruct (moving (te_seg x)); simpl; exact IH. }
    rewrite BN in Q. rewrite seq_nth in Q by lia. simpl in Q. symmetry. exact Q. }
  destruct (S2 (nm e) e ltac:(congruence) Fe Mi) as (e' & w & E' & Fw & Tn). rewrite Fe in E'. injection E' as <-.
  rewrite Qe in Tn. rewrite Tn. unfold ltau. rewrite Ns. rewrite (force_fun _ _ _ _ _ _ HT _ _ _ Fw G). rewrite PA by exact Hi. fold e. f_equal.
  assert (Es : seg c i = te_seg e) by (unfold seg; cbn [c chain_of ch_segs]; change seg0 with (te_seg elt0); rewrite map_nth; reflexivity).
  rewrite Es. f_equal. pose proof (path_jv _ _ HA qdd i Hi) as J. rewrite BV in J by exact L3. symmetry. exact J.
Qed.
