(** What one run of TreeIdSolver_RNE computes (C38). *)
From Coq Require Import Reals String List ZArith Bool Arith Lia Lra Permutation.
From Verif Require Import FramesModel FramesSpec FramesProofs RotationProofs FrameOpsProofs Outcome LoopProofs InertiaModel DualModel KinModel KinSpec KinProofs JacProofs
  SpatialProofs JntProofs TreeModel TreeSpec TreeProofs TreeCopyProofs TreeNumProofs TreeChainProofs TreeSolverProofs TreeFinal IkModel IkTreeProofs DynModel TreeDynModel TreeDynSpec.
Import ListNotations.
Local Open Scope list_scope.
Local Open Scope R_scope.

Lemma w_sub_zero w : w_sub w w_zero = w. Proof. geo. Qed.
Lemma r_invapp_t_zero M : r_invapp_t M t_zero = t_zero. Proof. geo. Qed.
Lemma root_acc ag x : t_add (t_add (f_invapp_t f_id ag) (t_scale t_zero x)) (t_cross t_zero t_zero) = ag. Proof. geo. Qed.
Lemma twist_in_link s x xd : r_invapp_t (fM (segment_pose s x)) (segment_twist s x xd) =
  t_scale (r_invapp_t (fM (segment_pose s x)) (segment_twist s x 1)) xd.
Proof. rewrite segment_twist_scale. generalize (fM (segment_pose s x)), (segment_twist s x 1). clear. geo. Qed.

(** * The recursion, as equations *)
Definition rne_kids (f : nat) (t : Tree) (ag : Twist) (q qd qdd : list R) (fext : dict Wrench) : list string -> dict Aux -> list R -> ending :=
  fix loop (cs : list string) (aux : dict Aux) (tau : list R) : ending :=
  match cs with
  | [] => Done aux tau
  | c :: cs' =>
      match rne_step f t ag q qd qdd fext c aux tau with
      | Done aux tau => loop cs' aux tau
      | other => other
      end
  end.
Lemma rne_kids_cons f t ag q qd qdd fext c cs aux tau : rne_kids f t ag q qd qdd fext (c :: cs) aux tau =
  match rne_step f t ag q qd qdd fext c aux tau with
  | Done aux tau => rne_kids f t ag q qd qdd fext cs aux tau
  | other => other
  end.
Proof. reflexivity. Qed.
Definition own (fext : dict Wrench) (n : string) (I : RigidBodyInertia) (v a : Twist) : Wrench :=
  w_sub (w_add (rb_app I a) (tw_cross v (rb_app I v))) (wrench_on fext n).
Definition put_tau (s : Segment) (j : nat) (qdd tau : list R) (x : R) : outcome (list R) :=
  if moving s then
    let! tau := aset tau j x in
    let! y := aget tau j in
    let! z := aget qdd j in
    aset tau j (y + jinertia (sjoint s) * z)
  else Ret tau.
Definition rne_go (f : nat) (t : Tree) (ag : Twist) (q qd qdd : list R) (fext : dict Wrench) (n : string) (e : TreeElement)
    (X : Frame) (Si : Twist) (v a : Twist) (aux : dict Aux) (tau : list R) : ending :=
  match rne_kids f t ag q qd qdd fext (te_children e) (dict_put aux n (mkAux X Si v a (own fext n (sI (te_seg e)) v a))) tau with
  | Done aux tau =>
      match dict_find aux n with
      | None => Threw aux tau
      | Some me =>
          reading (put_tau (te_seg e) (te_qnr e) qdd tau (tw_dot (au_S me) (au_f me))) (fun tau =>
          if String.eqb n (tr_root t) then Done aux tau
          else match te_parent e with
               | None => Stuck
               | Some p =>
                   match dict_find aux p with
                   | None => Threw aux tau
                   | Some pa =>
                       Done (dict_put aux p (mkAux (au_X pa) (au_S pa) (au_v pa) (au_a pa)
                               (w_add (au_f pa) (f_app_w (au_X me) (au_f me))))) tau
                   end
               end)
      end
  | other => other
  end.

Lemma qnr_moving t n e : tinv t -> tfind t n = Some e -> moving (te_seg e) = true -> (te_qnr e < tr_nj t)%nat.
Proof.
  intros [W _] E M.
  assert (In (te_qnr e) (joint_numbers t)).
  { unfold joint_numbers. apply in_map. apply filter_In. split; [|exact M]. unfold elements. apply smap_find_In in E. apply (in_map snd) in E. exact E. }
  apply (Permutation_in _ (wf_numbers _ W)) in H. apply in_seq in H. lia.
Qed.

Section Run.
Variables (t : Tree) (ag : Twist) (q qd qdd : list R) (fext : dict Wrench).
Hypothesis HT : tinv t.
Hypothesis Lq : length q = tr_nj t.
Hypothesis Lqd : length qd = tr_nj t.
Hypothesis Lqdd : length qdd = tr_nj t.

Let X := elt_pose q.
Let Sx := elt_axis q.

Lemma read_joint n e : tfind t n = Some e ->
  (if moving (te_seg e) then let! x := aget q (te_qnr e) in let! xd := aget qd (te_qnr e) in let! xdd := aget qdd (te_qnr e) in Ret (x, xd, xdd)
   else Ret (0, 0, 0)) = Ret (joint_value q e, joint_value qd e, joint_value qdd e).
Proof.
  intros E. unfold joint_value. destruct (moving (te_seg e)) eqn:M; [|reflexivity].
  pose proof (qnr_moving t _ _ HT E M). rewrite !(aget_nth _ _ 0) by lia. reflexivity.
Qed.

Definition next_v (e : TreeElement) (vp : Twist) : Twist := t_add (f_invapp_t (X e) vp) (t_scale (Sx e) (joint_value qd e)).
Definition next_a (e : TreeElement) (vp ap : Twist) : Twist :=
  t_add (t_add (f_invapp_t (X e) ap) (t_scale (Sx e) (joint_value qdd e))) (t_cross (next_v e vp) (t_scale (Sx e) (joint_value qd e))).

Lemma rne_step_root f aux tau e : tfind t (tr_root t) = Some e ->
  rne_step (S f) t ag q qd qdd fext (tr_root t) aux tau =
  match dict_find aux (tr_root t) with
  | None => Threw aux tau
  | Some _ => rne_go f t ag q qd qdd fext (tr_root t) e (X e) (Sx e) t_zero ag aux tau
  end.
Proof.
  intros E. cbn [rne_step]. rewrite E. rewrite (read_joint _ _ E). cbn [reading].
  destruct (dict_find aux (tr_root t)) as [old|]; [|reflexivity]. rewrite String.eqb_refl.
  destruct (tinv_root _ HT) as [cs Er]. rewrite Er in E. injection E as <-.
  unfold rne_go. rewrite String.eqb_refl. cbn [te_seg te_qnr te_parent te_children]. unfold X, Sx, elt_pose, elt_axis. cbn [te_seg te_qnr te_parent te_children].
  unfold elt_pose. cbn [te_seg].
  set (x := joint_value q _). set (xd := joint_value qd _). set (xdd := joint_value qdd _).
  assert (E1 : r_invapp_t (fM (segment_pose (root_segment (tr_root t)) x)) (segment_twist (root_segment (tr_root t)) x xd) = t_zero).
  { rewrite segment_twist_fixed by reflexivity. apply r_invapp_t_zero. }
  assert (E2 : r_invapp_t (fM (segment_pose (root_segment (tr_root t)) x)) (segment_twist (root_segment (tr_root t)) x 1) = t_zero).
  { rewrite segment_twist_fixed by reflexivity. apply r_invapp_t_zero. }
  rewrite E1, E2.
  assert (E3 : t_add (t_add (f_invapp_t (segment_pose (root_segment (tr_root t)) x) ag) (t_scale t_zero xdd)) (t_cross t_zero t_zero) = ag).
  { rewrite root_pose. apply root_acc. }
  rewrite E3. unfold own, wrench_on, put_tau.
  destruct (dict_find fext (tr_root t)); [|rewrite w_sub_zero]; reflexivity.
Qed.
Lemma rne_step_child f aux tau n e p : tfind t n = Some e -> te_parent e = Some p ->
  rne_step (S f) t ag q qd qdd fext n aux tau =
  match dict_find aux n with
  | None => Threw aux tau
  | Some _ =>
      match dict_find aux p with
      | None => Threw aux tau
      | Some pa => rne_go f t ag q qd qdd fext n e (X e) (Sx e) (next_v e (au_v pa)) (next_a e (au_v pa) (au_a pa)) aux tau
      end
  end.
Proof.
  intros E P. cbn [rne_step]. rewrite E. rewrite (read_joint _ _ E). cbn [reading].
  destruct (dict_find aux n) as [old|]; [|reflexivity].
  assert (N : n <> tr_root t).
  { intros ->. destruct (tinv_root _ HT) as [cs Er]. rewrite Er in E. injection E as <-. discriminate P. }
  apply String.eqb_neq in N. rewrite N. rewrite P. destruct (dict_find aux p) as [pa|]; [|reflexivity].
  unfold rne_go. rewrite N, P. rewrite !(twist_in_link _ _ (joint_value qd e)). fold (elt_pose q e). fold (elt_axis q e). fold (X e). fold (Sx e).
  change (t_add (f_invapp_t (X e) (au_v pa)) (t_scale (Sx e) (joint_value qd e))) with (next_v e (au_v pa)).
  change (t_add (t_add (f_invapp_t (X e) (au_a pa)) (t_scale (Sx e) (joint_value qdd e))) (t_cross (next_v e (au_v pa)) (t_scale (Sx e) (joint_value qd e))))
    with (next_a e (au_v pa) (au_a pa)).
  unfold own, wrench_on, put_tau.
  destruct (dict_find fext n); [|rewrite w_sub_zero]; reflexivity.
Qed.

(** * Motion and forces *)
Inductive motion : string -> Twist -> Twist -> Prop :=
| mo_root : motion (tr_root t) t_zero ag
| mo_child n e p v a : tfind t n = Some e -> te_parent e = Some p -> motion p v a -> motion n (next_v e v) (next_a e v a).
Inductive forces : list string -> Wrench -> Prop :=
| fo_nil : forces [] w_zero
| fo_cons c e cs v a w1 w2 : tfind t c = Some e -> motion c v a -> forces (te_children e) w1 -> forces cs w2 ->
    forces (c :: cs) (w_add (f_app_w (X e) (w_add (own fext c (sI (te_seg e)) v a) w1)) w2).
Definition force (n : string) (w : Wrench) : Prop := exists e v a w1, tfind t n = Some e /\ motion n v a /\ forces (te_children e) w1 /\
  w = w_add (own fext n (sI (te_seg e)) v a) w1.
Lemma motion_fun n v a : motion n v a -> forall v' a', motion n v' a' -> v = v' /\ a = a'.
Proof.
  assert (N : forall e p, tfind t (tr_root t) = Some e -> te_parent e = Some p -> False).
  { intros e p E P. destruct (tinv_root _ HT) as [cs Er]. rewrite Er in E. injection E as <-. discriminate P. }
  induction 1 as [|n e p v a E P M IH]; intros v' a' M'.
  - inversion M'; subst; [auto|]. exfalso. eauto.
  - inversion M' as [|n' e' p' v1 a1 E' P' M1]; subst; [exfalso; eauto|].
    rewrite E in E'. injection E' as <-. rewrite P in P'. injection P' as <-. destruct (IH _ _ M1) as [-> ->]. auto.
Qed.
Lemma forces_fun cs w : forces cs w -> forall w', forces cs w' -> w = w'.
Proof.
  induction 1 as [|c e cs v a w1 w2 E M H1 IH1 H2 IH2]; intros w' H'; inversion H' as [|c' e' cs' v' a' w1' w2' E' M' H1' H2']; subst; auto.
  rewrite E in E'. injection E' as <-. destruct (motion_fun _ _ _ M _ _ M') as [<- <-]. rewrite (IH1 _ H1'), (IH2 _ H2'). reflexivity.
Qed.
Lemma force_fun n w w' : force n w -> force n w' -> w = w'.
Proof.
  intros (e & v & a & w1 & E & M & H & ->) (e' & v' & a' & w1' & E' & M' & H' & ->).
  rewrite E in E'. injection E' as <-. destruct (motion_fun _ _ _ M _ _ M') as [<- <-]. rewrite (forces_fun _ _ H _ H'). reflexivity.
Qed.

(** * Auxiliary facts about the maps *)
Lemma anc_child_parent n c e p : anc t n c -> tfind t c = Some e -> te_parent e = Some p -> c = n \/ anc t n p.
Proof. intros H E P. inversion H as [|n' e' p' E' P' H']; subst; auto. right. congruence. Qed.

Variable rank : string -> nat.
Hypothesis R1 : forall n e p, tfind t n = Some e -> te_parent e = Some p -> (rank p < rank n)%nat.
Hypothesis R2 : forall n e, tfind t n = Some e -> (rank n < length (tr_segs t))%nat.

Lemma not_own_anc n e p : tfind t n = Some e -> te_parent e = Some p -> ~ anc t n p.
Proof. intros E P H. apply (anc_rank _ rank _ _ R1) in H. specialize (R1 _ _ _ E P). lia. Qed.
Lemma siblings_apart c d ce de p m : tfind t c = Some ce -> te_parent ce = Some p -> tfind t d = Some de -> te_parent de = Some p ->
  anc t c m -> anc t d m -> c = d.
Proof.
  intros Ec Pc Ed Pd Hc Hd. destruct (anc_linear _ _ _ _ Hc Hd) as [H|H].
  - destruct (anc_child_parent _ _ _ _ H Ed Pd) as [->|H']; auto. exfalso. exact (not_own_anc c ce p Ec Pc H').
  - destruct (anc_child_parent _ _ _ _ H Ec Pc) as [->|H']; auto. exfalso. exact (not_own_anc d de p Ed Pd H').
Qed.

(** torque of a moving joint *)
Definition torque (m : string) (x : R) : Prop := exists e w, tfind t m = Some e /\ force m w /\
  x = tw_dot (Sx e) w + jinertia (sjoint (te_seg e)) * joint_value qdd e.
Definition below (cs : list string) (m : string) : Prop := exists c, In c cs /\ anc t c m.
Definition settled (S : string -> Prop) (aux : dict Aux) (tau : list R) : Prop :=
  (forall m, S m -> tfind t m <> None -> exists me, dict_find aux m = Some me /\ motion m (au_v me) (au_a me) /\ force m (au_f me)) /\
  (forall m e, S m -> tfind t m = Some e -> moving (te_seg e) = true -> torque m (nth (te_qnr e) tau 0)).
(** everything outside S is as before; [p] itself aside *)
Definition untouched (S : string -> Prop) (p : option string) (aux aux' : dict Aux) (tau tau' : list R) : Prop :=
  (forall m, ~ S m -> p <> Some m -> dict_find aux' m = dict_find aux m) /\
  (forall m, dict_find aux' m = None <-> dict_find aux m = None) /\
  length tau' = length tau /\
  (forall k, (forall m e, S m -> tfind t m = Some e -> moving (te_seg e) = true -> te_qnr e <> k) -> nth k tau' 0 = nth k tau 0).
Definition add_f (a : Aux) (w : Wrench) : Aux := mkAux (au_X a) (au_S a) (au_v a) (au_a a) (w_add (au_f a) w).

Definition node_ok (f : nat) : Prop := forall n e p aux tau pa, tfind t n = Some e -> te_parent e = Some p ->
  (length (tr_segs t) <= f + rank n)%nat -> length tau = tr_nj t ->
  (forall m, anc t n m -> tfind t m <> None -> dict_find aux m <> None) -> dict_find aux p = Some pa -> motion p (au_v pa) (au_a pa) ->
  exists aux' tau' w, rne_step f t ag q qd qdd fext n aux tau = Done aux' tau' /\ force n w /\
    dict_find aux' p = Some (add_f pa (f_app_w (X e) w)) /\
    settled (anc t n) aux' tau' /\ untouched (anc t n) (Some p) aux aux' tau tau'.

Lemma kids_ok f : node_ok f -> forall p pe cs aux tau pa, tfind t p = Some pe -> NoDup cs -> (forall c, In c cs -> In c (te_children pe)) ->
  (length (tr_segs t) <= f + S (rank p))%nat -> length tau = tr_nj t ->
  (forall m, below cs m -> tfind t m <> None -> dict_find aux m <> None) -> dict_find aux p = Some pa -> motion p (au_v pa) (au_a pa) ->
  exists aux' tau' w, rne_kids f t ag q qd qdd fext cs aux tau = Done aux' tau' /\ forces cs w /\
    dict_find aux' p = Some (add_f pa w) /\
    settled (below cs) aux' tau' /\ untouched (below cs) (Some p) aux aux' tau tau'.
Proof.
  intros Hn p pe cs. pose proof HT as [W _]. induction cs as [|c cs IH]; intros aux tau pa Ep Nd Hin Hf Lt Hk Hp Mp.
  - exists aux, tau, w_zero. split; [reflexivity|]. split; [constructor|]. split.
    { rewrite Hp. f_equal. unfold add_f. rewrite w_add_0_r. destruct pa; reflexivity. }
    split; [split; intros m; intros; destruct H as (c & [] & _)|]. split; [auto|]. split; [tauto|]. auto.
  - destruct (wf_children _ W _ _ c Ep (Hin c (or_introl eq_refl))) as (ce & Ec & Pc).
    inversion Nd as [|c0 cs0 Nc Nd']; subst c0 cs0.
    destruct (Hn c ce p aux tau pa Ec Pc) as (aux1 & tau1 & w1 & E1 & F1 & P1 & [S1a S1b] & (U1 & U2 & U3 & U4)); auto.
    { specialize (R1 _ _ _ Ec Pc). lia. }
    { intros m Hm. apply Hk. exists c. split; [left; reflexivity|exact Hm]. }
    destruct (IH aux1 tau1 (add_f pa (f_app_w (X ce) w1)) Ep Nd') as (aux2 & tau2 & w2 & E2 & F2 & P2 & [S2a S2b] & (V1 & V2 & V3 & V4)); auto.
    { intros d Hd. apply Hin. right. exact Hd. }
    { lia. }
    { intros m (d & Hd & Hm) Hm' Z. apply (Hk m); auto. { exists d. split; [right; exact Hd|exact Hm]. } apply U2. exact Z. }
    assert (Apart : forall m, anc t c m -> ~ below cs m).
    { intros m Hm (d & Hd & Hm'). destruct (wf_children _ W _ _ d Ep (Hin d (or_intror Hd))) as (de & Ed & Pd).
      apply Nc. rewrite (siblings_apart c d ce de p m Ec Pc Ed Pd Hm Hm'). exact Hd. }
    assert (NotP : forall m, anc t c m -> m <> p).
    { intros m Hm ->. eapply not_own_anc; [exact Ec|exact Pc|exact Hm]. }
    exists aux2, tau2, (w_add (f_app_w (X ce) w1) w2). rewrite rne_kids_cons, E1. split; [exact E2|].
    split. { destruct F1 as (e1 & v & a & w0 & G1 & G2 & G3 & ->). rewrite Ec in G1. injection G1 as <-. econstructor; eauto. }
    split. { rewrite P2. unfold add_f. cbn [au_X au_S au_v au_a au_f]. rewrite w_add_assoc. reflexivity. }
    split; [split|].
    + intros m (d & [<-|Hd] & Hm) Hm'.
      * destruct (S1a m Hm Hm') as (me & G1 & G2). exists me. split; [|exact G2]. rewrite V1; auto. intros Z. injection Z as <-. eapply NotP; eauto.
      * apply S2a; auto. exists d. auto.
    + intros m e (d & [<-|Hd] & Hm) E Mv.
      * rewrite V4; [apply S1b; auto|]. intros m' e' B' E' Mv' Q. pose proof (qnr_inj t m' m e' e HT E' E Mv' Mv Q). subst m'. exact (Apart m Hm B').
      * apply S2b; auto. exists d. auto.
    + split; [|split; [|split]].
      * intros m Hm Np. rewrite V1; auto. { apply U1; auto. intros A. apply Hm. exists c. split; [left; reflexivity|exact A]. }
        intros (d & Hd & A). apply Hm. exists d. split; [right; exact Hd|exact A].
      * intros m. rewrite V2. apply U2.
      * congruence.
      * intros k Hk'. rewrite V4, U4; auto.
        { intros m e A. apply Hk'. exists c. split; [left; reflexivity|exact A]. }
        { intros m e (d & Hd & A). apply Hk'. exists d. split; [right; exact Hd|exact A]. }
Qed.

(** one node, up to the entry of its parent *)
Lemma go_ok f : node_ok f -> forall n e v a aux tau, tfind t n = Some e -> (length (tr_segs t) <= f + S (rank n))%nat -> length tau = tr_nj t ->
  (forall m, anc t n m -> tfind t m <> None -> dict_find aux m <> None) -> motion n v a ->
  exists aux1 tau1 w, rne_go f t ag q qd qdd fext n e (X e) (Sx e) v a aux tau =
      (if String.eqb n (tr_root t) then Done aux1 tau1
       else match te_parent e with
            | None => Stuck
            | Some p => match dict_find aux1 p with
                        | None => Threw aux1 tau1
                        | Some pa => Done (dict_put aux1 p (add_f pa (f_app_w (X e) w))) tau1
                        end
            end) /\ force n w /\ settled (anc t n) aux1 tau1 /\ untouched (anc t n) None aux aux1 tau tau1.
Proof.
  intros Hn n e v a aux tau E Hf Lt Hk Mn. pose proof HT as [W _].
  assert (Kn : dict_find aux n <> None) by (apply Hk; [constructor|congruence]).
  destruct (dict_find aux n) as [old|] eqn:On; [|contradiction].
  set (me := mkAux (X e) (Sx e) v a (own fext n (sI (te_seg e)) v a)).
  assert (Below : forall m, below (te_children e) m -> anc t n m /\ m <> n).
  { intros m (c & Hc & Hm). destruct (wf_children _ W _ _ c E Hc) as (ce & Ec & Pc). split.
    - eapply anc_trans; [|exact Hm]. econstructor; [exact Ec|exact Pc|constructor].
    - intros ->. eapply not_own_anc; [exact Ec|exact Pc|exact Hm]. }
  assert (Cover : forall m, anc t n m -> m = n \/ below (te_children e) m).
  { intros m Hm. assert (G : forall m, anc t n m -> m = n \/ (exists c ce, tfind t c = Some ce /\ te_parent ce = Some n /\ anc t c m)).
    { clear -HT. intros m. induction 1 as [|m e p Em Pm H IH]; auto. destruct IH as [->|(c & ce & Ec & Pc & A)].
      - right. exists m, e. split; [exact Em|]. split; [exact Pm|constructor].
      - right. exists c, ce. split; [exact Ec|]. split; [exact Pc|]. econstructor; eauto. }
    destruct (G m Hm) as [->|(c & ce & Ec & Pc & A)]; auto. right. exists c. split; [|exact A].
    assert (Nr : c <> tr_root t). { intros ->. destruct (tinv_root _ HT) as [cs Er]. rewrite Er in Ec. injection Ec as <-. discriminate Pc. }
    destruct (wf_parent _ W _ _ Ec Nr) as (p' & pe & Pc' & Ep & Cn). rewrite Pc in Pc'. injection Pc' as <-. rewrite E in Ep. injection Ep as <-.
    apply (count_occ_In String.string_dec). rewrite Cn. lia. }
  destruct (kids_ok f Hn n e (te_children e) (dict_put aux n me) tau me E (wf_children_NoDup _ _ _ W E) (fun c H => H) Hf Lt)
    as (aux1 & tau1 & w1 & E1 & F1 & P1 & [S1 S2] & (U1 & U2 & U3 & U4)).
  { intros m Hm Hm' Z. apply find_put_none in Z. apply (Hk m); auto. apply Below, Hm. }
  { eapply find_put_same. exact On. }
  { exact Mn. }
  assert (F : force n (au_f (add_f me w1))). { exists e, v, a, w1. auto. }
  set (w := au_f (add_f me w1)) in *.
  assert (T : exists tau2, put_tau (te_seg e) (te_qnr e) qdd tau1 (tw_dot (Sx e) w) = Ret tau2 /\ length tau2 = length tau1 /\
     (moving (te_seg e) = true -> nth (te_qnr e) tau2 0 = tw_dot (Sx e) w + jinertia (sjoint (te_seg e)) * joint_value qdd e) /\
     (forall k, (moving (te_seg e) = true -> te_qnr e <> k) -> nth k tau2 0 = nth k tau1 0)).
  { unfold put_tau, joint_value. destruct (moving (te_seg e)) eqn:M.
    - pose proof (qnr_moving t _ _ HT E M) as Q. rewrite aset_ret by lia. cbn [obind]. rewrite (aget_nth _ _ 0) by (rewrite upd_length; lia).
      cbn [obind]. rewrite (aget_nth qdd _ 0) by lia. cbn [obind]. rewrite aset_ret by (rewrite upd_length; lia).
      eexists. split; [reflexivity|]. rewrite !upd_length. split; [reflexivity|]. split.
      + intros _. rewrite nth_upd_same by (rewrite upd_length; lia). rewrite nth_upd_same by lia. reflexivity.
      + intros k Hk'. specialize (Hk' eq_refl). rewrite !nth_upd_other by auto. reflexivity.
    - exists tau1. split; [reflexivity|]. split; [reflexivity|]. split; [discriminate|reflexivity]. }
  destruct T as (tau2 & T1 & T2 & T3 & T4).
  exists aux1, tau2, w. split; [|split; [exact F|split; [split|]]].
  - unfold rne_go. fold me. rewrite E1, P1. replace (au_S (add_f me w1)) with (Sx e) by reflexivity. fold w. rewrite T1. cbn [reading].
    destruct (String.eqb n (tr_root t)); [reflexivity|]. destruct (te_parent e) as [p|]; [|reflexivity].
    destruct (dict_find aux1 p) as [pa|]; reflexivity.
  - intros m Hm Fm. destruct (Cover m Hm) as [->|B]; [|apply S1; auto]. exists (add_f me w1). split; [exact P1|]. split; [exact Mn|exact F].
  - intros m em Hm Em Mm. destruct (Cover m Hm) as [->|B].
    + rewrite E in Em. injection Em as <-. exists e, w. split; [exact E|]. split; [exact F|]. apply T3, Mm.
    + rewrite T4; [apply S2; auto|]. intros Me Q. destruct (Below m B) as [_ Nm]. apply Nm. symmetry. eapply (qnr_inj t n m e em HT); eauto.
  - split; [|split; [|split]].
    + intros m Hm _. assert (Nm : n <> m) by (intros ->; apply Hm; constructor). rewrite U1.
      * apply find_put_other, Nm.
      * intros B. apply Hm, Below, B.
      * intros Z. injection Z as Z. auto.
    + intros m. rewrite U2. apply find_put_none.
    + congruence.
    + intros k Hk'. rewrite T4, U4; auto.
      * intros m em B. apply Hk'. apply Below, B.
      * intros Me. apply (Hk' n e); auto. constructor.
Qed.
Lemma all_nodes f : node_ok f.
Proof.
  induction f as [|f IH]; intros n e p aux tau pa E P Hf Lt Hk Hp Mp.
  - specialize (R2 _ _ E). lia.
  - rewrite (rne_step_child f aux tau n e p E P). rewrite Hp.
    destruct (dict_find aux n) as [old|] eqn:On; [|exfalso; apply (Hk n); [constructor|congruence|exact On]].
    destruct (go_ok f IH n e (next_v e (au_v pa)) (next_a e (au_v pa) (au_a pa)) aux tau E) as (aux1 & tau1 & w & -> & F & [S1 S2] & (U1 & U2 & U3 & U4)); auto.
    { lia. } { econstructor; eauto. }
    assert (N : String.eqb n (tr_root t) = false).
    { apply String.eqb_neq. intros ->. destruct (tinv_root _ HT) as [cs Er]. rewrite Er in E. injection E as <-. discriminate P. }
    assert (Np : ~ anc t n p) by (eapply not_own_anc; eauto).
    assert (Hp1 : dict_find aux1 p = Some pa) by (rewrite U1; auto; discriminate).
    rewrite N, P, Hp1. do 2 eexists. exists w. split; [reflexivity|]. split; [exact F|].
    split; [eapply find_put_same; exact Hp1|]. split; [split|split; [|split; [|split]]].
    + intros m Hm Fm. rewrite find_put_other; [apply S1; auto|]. intros <-. auto.
    + exact S2.
    + intros m Hm Z. rewrite find_put_other by (intros ->; auto). apply U1; auto. discriminate.
    + intros m. rewrite find_put_none. apply U2.
    + exact U3.
    + exact U4.
Qed.
Lemma anc_root n e : tfind t n = Some e -> anc t (tr_root t) n.
Proof.
  pose proof HT as [W _]. intros E. pose proof (wf_below _ W _ _ E) as B. clear E. induction B as [|p pe c B IH E Hin]; [constructor|].
  destruct (wf_children _ W _ _ c E Hin) as (ce & Ec & Pc). econstructor; eauto.
Qed.
Lemma run_ok aux tau : length tau = tr_nj t -> (forall m, tfind t m <> None -> dict_find aux m <> None) ->
  exists aux' tau', rne_step (length (tr_segs t)) t ag q qd qdd fext (tr_root t) aux tau = Done aux' tau' /\
    settled (fun m => tfind t m <> None) aux' tau' /\ length tau' = tr_nj t /\ (forall m, dict_find aux' m = None <-> dict_find aux m = None).
Proof.
  intros Lt Hk. destruct (tinv_root _ HT) as [cs Er]. assert (Lf : exists f, length (tr_segs t) = S f).
  { pose proof (R2 _ _ Er) as G. destruct (length (tr_segs t)) as [|f]; [lia|eauto]. }
  destruct Lf as (f & Lf). rewrite Lf.
  rewrite (rne_step_root f aux tau _ Er).
  destruct (dict_find aux (tr_root t)) as [old|] eqn:On; [|exfalso; apply (Hk (tr_root t)); [congruence|exact On]].
  destruct (go_ok f (all_nodes f) (tr_root t) _ t_zero ag aux tau Er) as (aux1 & tau1 & w & -> & F & [S1 S2] & (U1 & U2 & U3 & U4)); auto.
  { lia. } { constructor. }
  rewrite String.eqb_refl. exists aux1, tau1. split; [reflexivity|]. split; [split|split; [congruence|exact U2]].
  - intros m Hm _. destruct (tfind t m) as [em|] eqn:Em; [|contradiction]. apply S1; [eapply anc_root; eauto|congruence].
  - intros m e _ Em. apply S2; auto. eapply anc_root; eauto.
Qed.
End Run.
