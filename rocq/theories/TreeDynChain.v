(** The tree inverse dynamics compared with the Newton-Euler equations and with the
    chain solver (C38). *)
From Coq Require Import Reals String List ZArith Bool Arith Lia Lra Permutation.
From Verif Require Import FramesModel FramesSpec FramesProofs RotationProofs FrameOpsProofs Outcome LoopProofs InertiaModel InertiaProofs DualModel KinModel KinSpec KinProofs JacProofs
  TreeModel TreeSpec TreeProofs TreeCopyProofs TreeNumProofs TreeChainProofs TreeSolverProofs TreeFinal IkModel IkTreeProofs
  DynModel DynSpec SpatialProofs RneProofs TreeDynModel TreeDynSpec TreeDynProofs.
Import ListNotations.
Local Open Scope list_scope.
Local Open Scope R_scope.

(** * Chains that move like a list of tree elements *)
Definition alike (e : TreeElement) (s : Segment) : Prop :=
  moving s = moving (te_seg e) /\ (forall x, segment_pose s x = segment_pose (te_seg e) x) /\
  (forall x xd, segment_twist s x xd = segment_twist (te_seg e) x xd) /\ segment_ok s.
Lemma alike_same e : segment_ok (te_seg e) -> alike e (te_seg e). Proof. intros H. repeat split; auto; apply H. Qed.
Lemma alike_inertia e I : segment_ok (te_seg e) -> alike e (with_inertia I (te_seg e)).
Proof. intros [H1 H2]. split; [reflexivity|]. split; [reflexivity|]. split; [reflexivity|]. split; [exact H1|exact H2]. Qed.

Definition elt0 : TreeElement := mkTE seg0 0 None [].
Lemma alike_nth P segs : Forall2 alike P segs -> forall i, (i < length P)%nat -> alike (nth i P elt0) (nth i segs seg0).
Proof. induction 1; intros i Hi; simpl in Hi; [lia|]. destruct i; simpl; auto. apply IHForall2. lia. Qed.
Lemma alike_count P segs : Forall2 alike P segs -> count_moving segs = count_moving (map te_seg P).
Proof. unfold count_moving. induction 1 as [|e s P segs H HF IH]; simpl; auto. destruct H as (-> & _). destruct (moving (te_seg e)); simpl; congruence. Qed.
Lemma alike_len P segs : Forall2 alike P segs -> length segs = length P. Proof. induction 1; simpl; congruence. Qed.
Lemma alike_firstn P segs i : Forall2 alike P segs -> Forall2 alike (firstn i P) (firstn i segs).
Proof. intros H. revert i. induction H; intros [|i]; simpl; auto. Qed.
Lemma alike_ok P segs : Forall2 alike P segs -> chain_ok (serial segs).
Proof. intros H. split; [split; reflexivity|]. cbn [serial ch_segs]. induction H as [|e s P segs A HF IH]; constructor; auto. apply A. Qed.

Lemma path_values_length q P : length (path_values q P) = count_moving (map te_seg P).
Proof. symmetry. apply forward_product. Qed.
Lemma path_values_nth q P : forall i, (i < length P)%nat -> moving (te_seg (nth i P elt0)) = true ->
  nth (count_moving (map te_seg (firstn i P))) (path_values q P) 0 = joint_value q (nth i P elt0).
Proof.
  unfold path_values, count_moving. induction P as [|e P IH]; intros i Hi M; simpl in Hi; [lia|]. destruct i as [|i]; simpl in *.
  - rewrite M. reflexivity.
  - specialize (IH i ltac:(lia) M). destruct (moving (te_seg e)); simpl; exact IH.
Qed.

Section Path.
Variables (P : list TreeElement) (segs : list Segment).
Hypothesis HA : Forall2 alike P segs.
Let c := serial segs.
Let N := length P.
Lemma path_len : length segs = N. Proof. apply (alike_len _ _ HA). Qed.
Lemma path_ns : ch_ns c = N. Proof. apply path_len. Qed.
Lemma path_nj q : length (path_values q P) = ch_nj c.
Proof. rewrite path_values_length. symmetry. apply (alike_count _ _ HA). Qed.
Lemma path_mv i : (i < N)%nat -> RneProofs.mv c i = moving (te_seg (nth i P elt0)).
Proof. intros Hi. apply (alike_nth _ _ HA i Hi). Qed.
Lemma path_jv q i : (i < N)%nat -> jv c (path_values q P) i = joint_value q (nth i P elt0).
Proof.
  intros Hi. unfold jv. rewrite (path_mv i Hi). destruct (moving (te_seg (nth i P elt0))) eqn:M.
  - unfold kidx. cbn [c serial ch_segs]. rewrite (alike_count _ _ (alike_firstn _ _ i HA)). apply path_values_nth; auto.
  - unfold joint_value. rewrite M. reflexivity.
Qed.
Lemma path_LX q i : (i < N)%nat -> LX c (path_values q P) i = elt_pose q (nth i P elt0).
Proof. intros Hi. unfold LX, elt_pose. rewrite path_jv by exact Hi. apply (alike_nth _ _ HA i Hi). Qed.
Lemma path_LA q i : (i < N)%nat -> LA c (path_values q P) i = elt_axis q (nth i P elt0).
Proof.
  intros Hi. unfold LA, elt_axis. rewrite path_LX, path_jv by exact Hi. f_equal. apply (alike_nth _ _ HA i Hi).
Qed.
End Path.

Section Compare.
Variables (t : Tree) (g : Vector) (q qd qdd : list R) (fext : dict Wrench).
Hypothesis HT : tinv t.
Hypothesis HO : tree_ok t.
Let ag := t_neg (mkT g v_zero).
Let X := elt_pose q.

(** motion along a walk *)
Lemma walk_motion P segs : Forall2 alike P segs -> forall n l rest, walk_up t n (tr_root t) l -> P = rev l ++ rest ->
  motion t ag q qd qdd n (lvel (serial segs) (path_values q P) (path_values qd P) (length l))
    (lacc (serial segs) ag (path_values q P) (path_values qd P) (path_values qdd P) (length l)).
Proof.
  intros HA n l rest W. remember (tr_root t) as r eqn:Er. revert rest. induction W as [a|n e p a l E Pa W IH]; intros rest EP.
  - subst a. constructor.
  - simpl in EP. rewrite <- app_assoc in EP. specialize (IH Er _ EP). subst a. cbn [length].
    assert (Hi : (length l < length P)%nat) by (rewrite EP, !app_length, rev_length; simpl; lia).
    assert (Hn : nth (length l) P elt0 = e).
    { rewrite EP, app_nth2 by (rewrite rev_length; lia). rewrite rev_length, Nat.sub_diag. reflexivity. }
    unfold lvel. cbn [bt lacc]. unfold lvel. cbn [bt]. fold (lvel (serial segs) (path_values q P) (path_values qd P) (length l)).
    rewrite !(path_LX P segs HA), !(path_LA P segs HA), !(path_jv P segs HA) by exact Hi. rewrite Hn.
    exact (mo_child t ag q qd qdd n e p _ _ E Pa IH).
Qed.

(** * Contributions of the links *)
Definition carry (path : list TreeElement) (w : Wrench) : Wrench := fold_left (fun w e => f_app_w (X e) w) path w.
Definition contrib (n m : string) (w : Wrench) : Prop := exists path e v a, walk_up t m n path /\ tfind t m = Some e /\
  motion t ag q qd qdd m v a /\ w = carry path (own fext m (sI (te_seg e)) v a).
Lemma wsum_app a b : wsum (a ++ b) = w_add (wsum a) (wsum b).
Proof. induction a as [|x a IH]; simpl; [symmetry; apply w_add_0_l|]. rewrite IH, w_add_assoc. reflexivity. Qed.
Lemma wsum_move F l : wsum (map (f_app_w F) l) = f_app_w F (wsum l).
Proof. induction l as [|x l IH]; simpl; [rewrite f_app_w_zero|rewrite f_app_w_add, IH]; reflexivity. Qed.
Lemma contrib_up c e p m w : tfind t c = Some e -> te_parent e = Some p -> contrib c m w -> contrib p m (f_app_w (X e) w).
Proof.
  intros E Pa (path & em & v & a & W & Em & M & ->). exists (path ++ [e]), em, v, a. split.
  - apply walk_up_app. exists c. split; [exact W|]. econstructor; [exact E|exact Pa|constructor].
  - split; [exact Em|]. split; [exact M|]. unfold carry. rewrite fold_left_app. reflexivity.
Qed.
Lemma contrib_move c e p l ws : tfind t c = Some e -> te_parent e = Some p -> Forall2 (contrib c) l ws ->
  Forall2 (contrib p) l (map (f_app_w (X e)) ws).
Proof. intros E Pa H. induction H; simpl; constructor; auto. eapply contrib_up; eauto. Qed.
Lemma forces_sum cs w : forces t ag q qd qdd fext cs w -> forall p, (forall c, In c cs -> exists e, tfind t c = Some e /\ te_parent e = Some p) ->
  exists l ws, preorder t cs l /\ Forall2 (contrib p) l ws /\ w = wsum ws.
Proof.
  pose proof HT as [W _]. induction 1 as [|c e cs v a w1 w2 E M H1 IH1 H2 IH2]; intros p Hp.
  - exists [], []. split; [constructor|]. split; [constructor|reflexivity].
  - destruct (Hp c (or_introl eq_refl)) as (e' & E' & Pa). rewrite E in E'. injection E' as <-.
    destruct (IH1 c) as (l1 & ws1 & Q1 & F1 & ->). { intros d Hd. apply (wf_children _ W _ _ d E Hd). }
    destruct (IH2 p) as (l2 & ws2 & Q2 & F2 & ->). { intros d Hd. apply Hp. right. exact Hd. }
    set (o := own fext c (sI (te_seg e)) v a).
    exists (c :: l1 ++ l2), (f_app_w (X e) o :: map (f_app_w (X e)) ws1 ++ ws2). split; [econstructor; eauto|]. split.
    + constructor.
      * eapply contrib_up; [exact E|exact Pa|]. exists [], e, v, a. split; [constructor|]. auto.
      * apply Forall2_app; [|exact F2]. eapply contrib_move; eauto.
    + simpl. rewrite wsum_app, wsum_move, f_app_w_add, w_add_assoc. reflexivity.
Qed.
Lemma force_sum n w : force t ag q qd qdd fext n w -> forall l, preorder t [n] l -> exists ws, Forall2 (contrib n) l ws /\ w = wsum ws.
Proof.
  pose proof HT as [W _]. intros (e & v & a & w1 & E & M & H & ->) l Hl.
  destruct (forces_sum _ _ H n) as (l1 & ws & Q & F & ->). { intros d Hd. apply (wf_children _ W _ _ d E Hd). }
  assert (El : l = n :: l1 ++ []). { eapply preorder_fun; [exact Hl|]. econstructor; [exact E|exact Q|constructor]. }
  rewrite app_nil_r in El. subst l. exists (own fext n (sI (te_seg e)) v a :: ws). split; [|reflexivity].
  constructor; [|exact F]. exists [], e, v, a. split; [constructor|]. auto.
Qed.
Lemma tw_dot_wsum s ws : tw_dot s (wsum ws) = lsum (map (tw_dot s) ws).
Proof.
  induction ws as [|w ws IH]; simpl; [apply tw_dot_zero_r|]. rewrite <- IH. generalize (wsum ws). clear. intros w'. revert s w w'. geo.
Qed.

(** * The chain that only has mass at its tip *)
Lemma dead_force v a : w_sub (w_add (rb_app rb_zero a) (tw_cross v (rb_app rb_zero v))) w_zero = w_zero.
Proof. rewrite !rb_app_zero. revert v. clear. geo. Qed.
Lemma walk_ok n a l : walk_up t n a l -> forall e, In e l -> segment_ok (te_seg e).
Proof. pose proof HT as [W _]. intros Hw e He. eapply tree_ok_seg; [exact HO|]. eapply walk_up_found; eauto. Qed.
Lemma loaded_alike P e : (forall x, In x (P ++ [e]) -> segment_ok (te_seg x)) ->
  Forall2 alike (P ++ [e]) (map (fun x => with_inertia rb_zero (te_seg x)) P ++ [with_inertia (sI (te_seg e)) (te_seg e)]).
Proof.
  intros H. apply Forall2_app; [|constructor; [|constructor]].
  - assert (G : forall x, In x P -> segment_ok (te_seg x)) by (intros x Hx; apply H, in_or_app; auto). clear H. induction P; simpl; constructor; auto.
    + apply alike_inertia. apply G. left. reflexivity.
    + apply IHP. intros x Hx. apply G. right. exact Hx.
  - apply alike_inertia, H, in_or_app. right. left. reflexivity.
Qed.
Lemma loaded_tip_eq P e : loaded_tip (P ++ [e]) =
  serial (map (fun x => with_inertia rb_zero (te_seg x)) P ++ [with_inertia (sI (te_seg e)) (te_seg e)]).
Proof. unfold loaded_tip. rewrite removelast_last, rev_app_distr. reflexivity. Qed.
Lemma wf_found_name n e : tfind t n = Some e -> nm e = n. Proof. pose proof HT as [W _]. apply W. Qed.
Lemma moved_count up n e : walk_up t n (tr_root t) (e :: up) -> moving (te_seg e) = true ->
  count_moving (map te_seg (rev up)) = (count_moving (map te_seg (e :: up)) - 1)%nat.
Proof.
  intros _ M. unfold count_moving. simpl. rewrite M. simpl. rewrite Nat.sub_0_r, map_rev.
  generalize (map te_seg up). intros l. induction l as [|s l IH]; simpl; auto. rewrite filter_app, app_length, IH. simpl.
  destruct (moving s); simpl; lia.
Qed.

Lemma share_ok n m e w : tfind t n = Some e -> n <> tr_root t -> moving (te_seg e) = true -> contrib n m w ->
  link_share t g q qd qdd fext n m (tw_dot (elt_axis q e) w).
Proof.
  intros E Nr Mv (down & em & v & a & Wd & Em & M & ->). pose proof HT as [W _].
  destruct (walk_to_root t n e HT E) as (up & Wu). inversion Wu as [|n' e' p a' up' E' Pa Wu']; subst; [contradiction|].
  rewrite E in E'. injection E' as <-.
  exists (e :: up'), down. set (path := rev (down ++ e :: up')).
  assert (Wm : walk_up t m (tr_root t) (down ++ e :: up')) by (apply walk_up_app; eauto).
  (* the last element of the path is the element of m *)
  assert (Last : exists rest, down ++ e :: up' = em :: rest).
  { destruct down as [|d down']; [inversion Wd; subst; exists up'; simpl; congruence|].
    inversion Wd as [|n' e' p' a' l' E' Pa' W']; subst. exists (down' ++ e :: up'). simpl. congruence. }
  destruct Last as (rest & Last).
  assert (Ep : path = rev rest ++ [em]) by (unfold path; rewrite Last; reflexivity).
  assert (HA : Forall2 alike path (map (fun x => with_inertia rb_zero (te_seg x)) (rev rest) ++ [with_inertia (sI (te_seg em)) (te_seg em)])).
  { rewrite Ep. apply loaded_alike. intros x Hx. rewrite <- Ep in Hx. eapply walk_ok; [exact Wm|]. apply in_rev. exact Hx. }
  cbv zeta. fold path. assert (EL : loaded_tip path = serial (map (fun x => with_inertia rb_zero (te_seg x)) (rev rest) ++ [with_inertia (sI (te_seg em)) (te_seg em)])) by (rewrite Ep; apply loaded_tip_eq).
  rewrite EL. clear EL.
  set (segs := map (fun x => with_inertia rb_zero (te_seg x)) (rev rest) ++ [with_inertia (sI (te_seg em)) (te_seg em)]) in *.
  set (c := serial segs). set (fx := repeat w_zero (length path - 1) ++ [wrench_on fext m]).
  pose proof (path_ns _ _ HA : ch_ns c = length path) as Ns.
  pose proof (path_mv _ _ HA : forall i, (i < length path)%nat -> RneProofs.mv c i = _) as PM.
  pose proof (path_LX _ _ HA q : forall i, (i < length path)%nat -> LX c (path_values q path) i = _) as PX.
  pose proof (path_LA _ _ HA q : forall i, (i < length path)%nat -> LA c (path_values q path) i = _) as PA.
  assert (Ln : length path = S (length rest)) by (rewrite Ep, app_length, rev_length; simpl; lia).
  assert (Lf : length fx = ch_ns c). { rewrite Ns. unfold fx. rewrite app_length, repeat_length. simpl. lia. }
  destruct (rne_result c (rne_make c g) (path_values q path) (path_values qd path) (path_values qdd path) fx (repeat 0 (ch_nj c)))
    as (tau & R & Lt & HR); auto.
  { eapply alike_ok; eauto. } { split; reflexivity. } { apply (path_nj _ _ HA). } { apply (path_nj _ _ HA). } { apply (path_nj _ _ HA). } { apply repeat_length. }
  exists tau. split; [exact Wu|]. split; [exact Wd|]. split; [exact R|].
  set (k := length up').
  assert (Pe : path = (rev up' ++ [e]) ++ rev down). { unfold path. rewrite rev_app_distr. reflexivity. }
  assert (Hk : (k < length path)%nat). { rewrite Pe, !app_length, !rev_length. simpl. unfold k. lia. }
  assert (Nk : nth k path elt0 = e).
  { rewrite Pe, <- app_assoc, app_nth2 by (rewrite rev_length; unfold k; lia). rewrite rev_length. unfold k. rewrite Nat.sub_diag. reflexivity. }
  specialize (HR k). rewrite Ns in HR. specialize (HR Hk).
  rewrite (PM k Hk), Nk in HR. specialize (HR Mv).
  assert (Kk : kidx c k = (count_moving (map te_seg (e :: up')) - 1)%nat).
  { unfold kidx. cbn [c serial ch_segs]. rewrite (alike_count _ _ (alike_firstn _ _ k HA)). rewrite <- (moved_count up' n e Wu Mv). do 2 f_equal.
    rewrite Pe, <- app_assoc. rewrite firstn_app, rev_length. unfold k. rewrite Nat.sub_diag. simpl. rewrite app_nil_r.
    rewrite <- (rev_length up'). apply firstn_all. }
  rewrite <- Kk, HR. unfold ltau.
  assert (Rot : jinertia (sjoint (seg c k)) = 0).
  { unfold seg. cbn [c serial ch_segs]. assert (G : forall s, In s segs -> jinertia (sjoint s) = 0).
    { intros s Hs. unfold segs in Hs. apply in_app_or in Hs as [Hs|[<-|[]]]; [|reflexivity]. apply in_map_iff in Hs as (x & <- & _). reflexivity. }
    apply G, nth_In. rewrite (path_len _ _ HA). exact Hk. }
  rewrite Rot, Rmult_0_l, Rplus_0_r. rewrite PA by exact Hk. rewrite Nk. f_equal.
  (* the force *)
  set (F := lforce c (rn_ag (rne_make c g)) (path_values q path) (path_values qd path) (path_values qdd path) fx).
  assert (F0 : forall i, (i < length rest)%nat -> F i = w_zero).
  { intros i Hi. unfold F, lforce. cbv zeta. assert (Es : sI (seg c i) = rb_zero).
    { unfold seg. cbn [c serial ch_segs]. unfold segs. rewrite app_nth1 by (rewrite map_length, rev_length; exact Hi).
      change seg0 with ((fun x => with_inertia rb_zero (te_seg x)) elt0). rewrite map_nth. reflexivity. }
    rewrite Es. replace (nth i fx w_zero) with w_zero; [apply dead_force|]. unfold fx.
    rewrite app_nth1 by (rewrite repeat_length; lia). symmetry. apply nth_repeat. }
  assert (F1 : F (length rest) = own fext m (sI (te_seg em)) v a).
  { unfold F, lforce. cbv zeta. unfold own. assert (Es : sI (seg c (length rest)) = sI (te_seg em)).
    { unfold seg. cbn [c serial ch_segs]. unfold segs. rewrite app_nth2 by (rewrite map_length, rev_length; lia).
      rewrite map_length, rev_length, Nat.sub_diag. reflexivity. }
    rewrite Es. assert (Ef : nth (length rest) fx w_zero = wrench_on fext m).
    { unfold fx. rewrite app_nth2; rewrite repeat_length; [|lia]. replace (length rest - (length path - 1))%nat with 0%nat by lia. reflexivity. }
    rewrite Ef. rewrite Last in Wm.
    pose proof (walk_motion path segs HA m (em :: rest) [] Wm) as G. simpl length in G.
    specialize (G ltac:(rewrite app_nil_r; exact Ep)).
    destruct (motion_fun t ag q qd qdd HT m _ _ G _ _ M) as [<- <-]. reflexivity. }
  (* from the tip down to k *)
  assert (G : forall B A, A <> [] -> path = A ++ B -> full (length path) (LX c (path_values q path)) F (length A - 1) =
                carry (rev B) (own fext m (sI (te_seg em)) v a)).
  { induction B as [|b B IHB]; intros A Na EA.
    - rewrite app_nil_r in EA. rewrite <- EA. unfold full. replace (S (length path - 1)) with (length path) by lia.
      rewrite gf_end, w_add_0_r. replace (length path - 1)%nat with (length rest) by lia. exact F1.
    - assert (LA' : length path = (length A + S (length B))%nat) by (rewrite EA, app_length; reflexivity).
      assert (Lp : (0 < length A)%nat) by (destruct A; [contradiction|simpl; lia]).
      unfold full at 1. rewrite F0 by lia. rewrite w_add_0_l. replace (S (length A - 1)) with (length A) by lia.
      rewrite gf_S by lia. simpl rev. unfold carry. rewrite fold_left_app. simpl.
      specialize (IHB (A ++ [b])). rewrite app_length in IHB. simpl length in IHB. replace (length A + 1 - 1)%nat with (length A) in IHB by lia.
      rewrite IHB; [|destruct A; discriminate|rewrite EA, <- app_assoc; reflexivity].
      rewrite PX by lia. f_equal. unfold X. f_equal. rewrite EA, app_nth2, Nat.sub_diag by lia. reflexivity. }
  assert (Nn : rev up' ++ [e] <> []) by (destruct (rev up'); discriminate).
  specialize (G (rev down) (rev up' ++ [e]) Nn Pe). rewrite rev_involutive, app_length, rev_length in G.
  simpl length in G. replace (length up' + 1 - 1)%nat with k in G by (unfold k; lia).
  rewrite Ns. symmetry. exact G.
Qed.
End Compare.
