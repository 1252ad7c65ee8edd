(** Where every segment of an extracted chain is, and with which inertia (C30). *)
From Coq Require Import String Reals List ZArith Bool Arith Lia Lra.
From Verif Require Import FramesModel FramesSpec FramesProofs RotationProofs FrameOpsProofs Outcome LoopProofs InertiaModel DualModel KinModel KinSpec DerivProofs KinProofs JacProofs
  TreeModel TreeSpec TreeProofs TreeCopyProofs TreeNumProofs TreeChainProofs TreeWitness TreeFinal PyModel TreePyModel.
Import ListNotations.
Local Open Scope R_scope.

Definition from_tree (t : Tree) (s : Segment) : Prop := exists e, tfind t (sname s) = Some e /\ sI s = sI (te_seg e).
Lemma chain_add_in c s s' : In s' (ch_segs (chain_addSegment c s)) -> In s' (ch_segs c) \/ s' = s.
Proof. unfold chain_addSegment. cbn. intros H. apply in_app_iff in H as [H|[H|[]]]; auto. Qed.
Lemma add_reversed_from t names : tree_wf t -> forall c c', (forall s, In s (ch_segs c) -> from_tree t s) ->
  add_reversed t names c = Ret c' -> forall s, In s (ch_segs c') -> from_tree t s.
Proof.
  intros W. induction names as [|a rest IH]; intros c c' H E; [injection E as <-; exact H|].
  cbn [add_reversed] in E. destruct rest as [|b rest]; [injection E as <-; exact H|].
  destruct (tfind t a) as [ea|] eqn:Ea; [|discriminate]. destruct (tfind t b) as [eb|] eqn:Eb; [|discriminate].
  destruct (reverse_segment (te_seg ea) (te_seg eb)) as [s|] eqn:Es; [|discriminate]. cbn [obind] in E.
  eapply IH; [|exact E]. intros s' Hs'. apply chain_add_in in Hs' as [Hs'| ->]; [auto|].
  unfold reverse_segment in Es. destruct (reverse_joint (te_seg ea)); [|discriminate]. injection Es as <-.
  exists eb. cbn. rewrite (wf_named _ W _ _ Eb). auto.
Qed.
Lemma add_forward_from t names : tree_wf t -> forall c c', (forall s, In s (ch_segs c) -> from_tree t s) ->
  add_forward t names c = Ret c' -> forall s, In s (ch_segs c') -> from_tree t s.
Proof.
  intros W. induction names as [|a rest IH]; intros c c' H E; [injection E as <-; exact H|].
  cbn [add_forward] in E. destruct (tfind t a) as [ea|] eqn:Ea; [|discriminate].
  eapply IH; [|exact E]. intros s' Hs'. apply chain_add_in in Hs' as [Hs'| ->]; [auto|].
  exists ea. cbn. rewrite (wf_named _ W _ _ Ea). auto.
Qed.
Lemma getChain_from t r tip b c : tree_wf t -> tree_getChain t r tip = Ret (b, c) -> forall s, In s (ch_segs c) -> from_tree t s.
Proof.
  intros W E. unfold tree_getChain in E.
  destruct (tree_ancestors _ t r) as [pr|]; [|discriminate]. cbn [obind] in E.
  destruct (bad_ancestors t pr); [injection E as <- <-; intros s []|].
  destruct (tree_ancestors _ t tip) as [pt|]; [|discriminate]. cbn [obind] in E.
  destruct (bad_ancestors t pt); [injection E as <- <-; intros s []|].
  destruct (strip_common (tr_root t) (rev pr) (rev pt)) as [[last ra] rb].
  destruct (add_reversed t (rev ra ++ [last]) chain_empty) as [c1|] eqn:E1; [|discriminate]. cbn [obind] in E.
  destruct (add_forward t rb c1) as [c2|] eqn:E2; [|discriminate]. cbn [obind] in E. injection E as <- <-.
  eapply add_forward_from; [exact W| |exact E2]. eapply add_reversed_from; [exact W| |exact E1]. intros s [].
Qed.

(** the product over one part of the way up and one part of the way down *)
Lemma part_pose t q r n a lu ld segs Fr F extra : tinv t -> tree_ok t -> tfind t r <> None ->
  walk_up t r a lu -> walk_up t n a ld -> Forall2 is_reverse lu segs -> tree_at t q r Fr -> tree_at t q n F ->
  pose_product (assign (segs ++ map te_seg (rev ld)) ((scaled_values q lu ++ path_values q (rev ld)) ++ extra)) = f_mul (f_inv Fr) F.
Proof.
  intros H Ok Nr H1 H2 H4 HFr HFt. pose proof H as [W _].
  assert (Fa : exists ea, tfind t a = Some ea).
  { destruct (tfind t a) eqn:E; eauto. exfalso. eapply walk_up_parent_found; eauto. }
  destruct Fa as [ea Fa]. destruct (tree_at_total t q a ea H Fa) as [FA HA].
  pose proof (tree_at_fun _ _ _ _ _ HFr (tree_at_walk _ q _ _ _ W H1 _ HA)) as ->.
  pose proof (tree_at_fun _ _ _ _ _ HFt (tree_at_walk _ q _ _ _ W H2 _ HA)) as ->.
  assert (Oku : forall e, In e lu -> segment_ok (te_seg e)) by (intros e He; exact (tree_ok_seg t _ _ Ok (walk_up_found t r a lu e W H1 He))).
  destruct (reversed_product q lu segs H4 Oku) as [P1 P2]. destruct (forward_product q (rev ld)) as [P3 P4].
  rewrite assign_enough by (rewrite app_length, count_moving_app; lia).
  rewrite assign_app by (rewrite app_length; lia).
  rewrite pose_product_app. rewrite assign_enough by lia. rewrite P2, skipn_app, skipn_all, Nat.sub_diag. simpl skipn. simpl app.
  rewrite P1, P3. assert (RA : rigid FA) by (eapply tree_at_rigid; eauto).
  assert (RU : rigid (path_pose q (rev lu))). { apply path_pose_rigid. intros e He. apply Oku. apply in_rev. exact He. }
  rewrite (f_inv_mul FA _ RA RU). rewrite f_mul_assoc. rewrite <- (f_mul_assoc (f_inv FA)). rewrite (f_inv_l _ RA), f_mul_id_l. reflexivity.
Qed.

Lemma scaled_values_app q a b : scaled_values q (a ++ b) = scaled_values q a ++ scaled_values q b.
Proof. unfold scaled_values. rewrite filter_app, map_app. reflexivity. Qed.
Lemma path_values_app q a b : path_values q (a ++ b) = path_values q a ++ path_values q b.
Proof. unfold path_values. rewrite filter_app, map_app. reflexivity. Qed.
Lemma walk_up_take t n a l k : walk_up t n a l -> exists m, walk_up t n m (firstn k l) /\ walk_up t m a (skipn k l).
Proof. intros H. apply walk_up_app. rewrite firstn_skipn. exact H. Qed.
Lemma walk_up_end t n a l m e : walk_up t n a l -> walk_up t n m (firstn (S (length l - 1)) l) -> nth_error l (length l - 1) = Some e -> te_parent e = Some a.
Proof.
  intros H _ E. induction H as [|n e' p a l En Ep Hw IH]; [destruct (0 - 1)%nat; discriminate|].
  cbn [length] in E. replace (S (length l) - 1)%nat with (length l) in E by lia. destruct l as [|e2 l]; [|].
  - cbn in E. injection E as <-. inversion Hw; subst. exact Ep.
  - apply IH. cbn [length nth_error] in E |- *. replace (S (length l) - 1)%nat with (length l) by lia. exact E.
Qed.
Lemma walk_up_nth t n a l k e p : walk_up t n a l -> nth_error l k = Some e -> te_parent e = Some p -> walk_up t n p (firstn (S k) l).
Proof.
  intros H. revert k. induction H as [|n e' p' a l En Ep Hw IH]; intros k E P; [destruct k; discriminate|].
  destruct k as [|k].
  - injection E as <-. assert (p' = p) by congruence. subst p'. change (firstn 1 (e' :: l)) with [e']. econstructor; [exact En|exact Ep|constructor].
  - change (firstn (S (S k)) (e' :: l)) with (e' :: firstn (S k) l). econstructor; [exact En|exact Ep|]. apply IH; auto.
Qed.
Lemma Forall2_take {A B} (P : A -> B -> Prop) l l' k : Forall2 P l l' -> Forall2 P (firstn k l) (firstn k l').
Proof. intros H. revert k. induction H; intros [|k]; simpl; constructor; auto. Qed.
Lemma Forall2_nth_r {A B} (P : A -> B -> Prop) l l' k y : Forall2 P l l' -> nth_error l' k = Some y -> exists x, nth_error l k = Some x /\ P x y.
Proof. intros H. revert k. induction H; intros [|k] E; try discriminate; simpl in *; [injection E as <-; eauto|auto]. Qed.
(** the k-th element from the top of a walk *)
Lemma walk_up_below t n a l k e : tree_wf t -> walk_up t n a l -> nth_error (rev l) k = Some e ->
  exists l', walk_up t (nm e) a l' /\ rev l' = firstn (S k) (rev l).
Proof.
  intros W H E. assert (K : (k < length l)%nat) by (rewrite <- (rev_length l); apply nth_error_Some; congruence).
  exists (skipn (length l - S k) l). split.
  - destruct (walk_up_take t n a l (length l - S k) H) as (m & _ & H2).
    assert (E' : exists rest, skipn (length l - S k) l = e :: rest).
    { assert (N : nth_error l (length l - S k) = Some e).
      { rewrite <- E. rewrite <- (rev_involutive l) at 1. rewrite rev_involutive.
        destruct (nth_error_split _ _ E) as (x & y & Ex & Lx). rewrite E.
        assert (El : l = rev y ++ e :: rev x) by (rewrite <- (rev_involutive l), Ex, rev_app_distr; simpl; rewrite <- app_assoc; reflexivity).
        rewrite El, nth_error_app2; rewrite !app_length, !rev_length; cbn [length]; rewrite rev_length; [|lia].
        replace (length y + S (length x) - S k - length y)%nat with 0%nat by lia. reflexivity. }
      clear -N. revert N. generalize (length l - S k)%nat. intros i. revert l. induction i; intros [|x l] N; try discriminate; simpl in *.
      - injection N as ->. eauto.
      - apply IHi. exact N. }
    destruct E' as [rest E']. rewrite E' in *. inversion H2; subst. unfold nm.
    match goal with H : tfind t m = Some e |- _ => rewrite (wf_named _ W _ _ H) end. exact H2.
  - assert (El : rev l = rev (skipn (length l - S k) l) ++ rev (firstn (length l - S k) l)) by (rewrite <- rev_app_distr, firstn_skipn; reflexivity). rewrite El.
    rewrite firstn_app, rev_length, skipn_length. replace (S k - (length l - (length l - S k)))%nat with 0%nat by lia.
    rewrite firstn_O, app_nil_r, firstn_all2; [reflexivity|]. rewrite rev_length, skipn_length. lia.
Qed.

Theorem getChain_segments t r tip : tinv t -> tree_ok t -> tfind t r <> None -> tfind t tip <> None ->
  exists a lu ld c, walk_up t r a lu /\ walk_up t tip a ld /\ tree_getChain t r tip = Ret (true, c) /\
    forall k s, nth_error (ch_segs c) k = Some s ->
      (exists e, tfind t (sname s) = Some e /\ sI s = sI (te_seg e)) /\
      forall q Fr F, tree_at t q r Fr -> tree_at t q (sname s) F ->
        fk_JntToCart c (scaled_values q lu ++ path_values q (rev ld)) (Z.of_nat (S k)) = Ret (E_NOERROR, f_mul (f_inv Fr) F).
Proof.
  intros H Ok Nr Nt. pose proof H as [W _]. destruct (proj2 (getChain_spec t r tip H Ok) Nr Nt) as (a & lu & ld & segs & H1 & H2 & H3 & H4 & H5).
  exists a, lu, ld. eexists. split; [exact H1|]. split; [exact H2|]. split; [exact H5|].
  intros k s Ek. split. { exact (getChain_from _ _ _ _ _ W H5 s (nth_error_In _ _ Ek)). }
  intros q Fr F HFr HF. cbn [chain_of ch_segs] in Ek.
  assert (K : (k < length (segs ++ map te_seg (rev ld)))%nat) by (apply nth_error_Some; congruence).
  assert (Oku : forall e, In e lu -> segment_ok (te_seg e)) by (intros e He; exact (tree_ok_seg t _ _ Ok (walk_up_found t r a lu e W H1 He))).
  destruct (reversed_product q lu segs H4 Oku) as [P1 P2]. destruct (forward_product q (rev ld)) as [P3 P4].
  rewrite (fk_result _ _ _ (S k)); [|apply chain_of_wf|right; split; [lia|reflexivity]].
  cbn [chain_of ch_nj ch_segs].
  assert (L : length (scaled_values q lu ++ path_values q (rev ld)) = count_moving (segs ++ map te_seg (rev ld))).
  { rewrite app_length, count_moving_app, P2, P4. reflexivity. }
  rewrite L, Nat.eqb_refl. replace (Nat.leb (S k) _) with true by (symmetry; apply Nat.leb_le; exact K).
  f_equal. f_equal. unfold tip_frame. cbn [chain_of ch_segs].
  assert (Ls : length segs = length lu) by (clear -H4; induction H4; simpl; auto).
  rewrite firstn_app. destruct (Nat.lt_ge_cases k (length segs)) as [Hk|Hk].
  - rewrite nth_error_app1 in Ek by exact Hk. destruct (Forall2_nth_r _ _ _ _ _ H4 Ek) as (e & Ee & (_ & _ & Pe & _)).
    pose proof (walk_up_nth t r a lu k e (sname s) H1 Ee Pe) as Hw.
    replace (S k - length segs)%nat with 0%nat by lia. rewrite firstn_O, app_nil_r.
    rewrite <- (firstn_skipn (S k) lu) at 1. rewrite scaled_values_app, <- app_assoc.
    pose proof (part_pose t q r (sname s) (sname s) (firstn (S k) lu) [] (firstn (S k) segs) Fr F
      (scaled_values q (skipn (S k) lu) ++ path_values q (rev ld)) H Ok Nr Hw (up_here _ _) (Forall2_take _ _ _ _ H4) HFr HF) as P.
    cbn [rev map path_values filter] in P. unfold path_values in P at 1. cbn [filter map] in P. rewrite !app_nil_r in P. exact P.
  - rewrite nth_error_app2 in Ek by exact Hk. rewrite firstn_all2 by lia. rewrite nth_error_map in Ek.
    destruct (nth_error (rev ld) (k - length segs)) as [e|] eqn:Ee; [|discriminate]. injection Ek as <-.
    destruct (walk_up_below t tip a ld _ e W H2 Ee) as (l' & Hl & El).
    replace (S k - length segs)%nat with (S (k - length segs)) by lia. rewrite firstn_map, <- El.
    rewrite <- (firstn_skipn (S (k - length segs)) (rev ld)) at 1. rewrite <- El, path_values_app, app_assoc.
    exact (part_pose t q r (nm e) a lu l' segs Fr F _ H Ok Nr H1 Hl H4 HFr HF).
Qed.

Lemma f_segments t r tip : reachable t -> tree_ok t -> tfind t r <> None -> tfind t tip <> None ->
  exists a lu ld c, walk_up t r a lu /\ walk_up t tip a ld /\ tree_getChain t r tip = Ret (true, c) /\
    forall k s, nth_error (ch_segs c) k = Some s ->
      (exists e, tfind t (sname s) = Some e /\ sI s = sI (te_seg e)) /\
      forall q Fr F, tree_at t q r Fr -> tree_at t q (sname s) F ->
        fk_JntToCart c (scaled_values q lu ++ path_values q (rev ld)) (Z.of_nat (S k)) = Ret (E_NOERROR, f_mul (f_inv Fr) F).
Proof. intros H. apply getChain_segments. apply reachable_inv. exact H. Qed.

(** * Python *)
Lemma walk_rank t rank : (forall n e p, tfind t n = Some e -> te_parent e = Some p -> (rank p < rank n)%nat) ->
  forall n a l, walk_up t n a l -> (rank a + length l <= rank n)%nat.
Proof. intros HR n a l. induction 1 as [|n e p a l En Ep Hw IH]; cbn [length]; [lia|]. specialize (HR _ _ _ En Ep). lia. Qed.
Lemma getChain_self t r : reachable t -> tree_ok t -> tfind t r <> None -> tree_getChain t r r = Ret (true, chain_empty).
Proof.
  intros H Ok N. apply reachable_inv in H. destruct (proj2 (getChain_spec t r r H Ok) N N) as (a & lu & ld & segs & H1 & H2 & H3 & H4 & ->).
  destruct H as [W (rank & R1 & R2)]. pose proof (walk_rank t rank R1 _ _ _ H1) as K1. pose proof (walk_rank t rank R1 _ _ _ H2) as K2.
  assert (E : lu = [] /\ ld = []).
  { destruct lu as [|e lu], ld as [|e' ld]; auto; exfalso.
    - inversion H1; subst. cbn [length] in K2. lia.
    - inversion H2; subst. cbn [length] in K1. lia.
    - inversion H1; subst. inversion H2; subst. assert (e' = e) by congruence. subst. apply (H3 e); left; reflexivity. }
  destruct E as [-> ->]. inversion H4; subst. reflexivity.
Qed.
Lemma f_py_getChain t r tip : reachable t -> tree_ok t ->
  (tfind t r <> None -> tfind t tip <> None -> exists c, tree_getChain t r tip = Ret (true, c) /\ py_getChain t r tip = PyOk c) /\
  (tfind t r = None \/ tfind t tip = None -> py_getChain t r tip = PyOk chain_empty).
Proof.
  intros H Ok. split.
  - intros A B. destruct (f_segments t r tip H Ok A B) as (_ & _ & _ & c & _ & _ & E & _). exists c. split; auto. unfold py_getChain. rewrite E. reflexivity.
  - intros D. unfold py_getChain. rewrite (f_getChain_fail t r tip H Ok D). reflexivity.
Qed.
Lemma f_py_refuted : exists t r tip, reachable t /\ tree_ok t /\ tfind t r <> None /\ tfind t tip = None /\ py_getChain t r tip = py_getChain t r r.
Proof.
  pose proof w_reachable as H. pose proof w_ok as Ok. exists w_tree, "b"%string, "no"%string. split; [exact H|]. split; [exact Ok|].
  split; [vm_compute; discriminate|]. split; [reflexivity|]. rewrite (proj2 (f_py_getChain w_tree "b" "no" H Ok)) by (right; reflexivity).
  unfold py_getChain. rewrite getChain_self; auto. vm_compute. discriminate.
Qed.
Lemma f_segments_example : exists c, reachable w_tree /\ tree_ok w_tree /\ tree_getChain w_tree "b" "c" = Ret (true, c) /\
  map sname (ch_segs c) = ["root"; "a"; "c"]%string.
Proof.
  pose proof w_reachable as H. pose proof w_ok as Ok.
  eexists. split; [exact H|]. split; [exact Ok|]. split; [reflexivity|]. reflexivity.
Qed.
