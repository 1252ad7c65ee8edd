(** Trajectories: segments, sequences and copies. *)
From Coq Require Import Reals List Lra Lia.
From Verif Require Import FramesModel FramesSpec FramesProofs Outcome KinSpec ProfModel ProfSpec PathModel PathSpec TrajSpec
  PathProofs PathProofs4 PathProofs5.
Import ListNotations.
Local Open Scope R_scope.

Definition variant_all := fix all (vt vu : list Traj) {struct vt} : Prop :=
         match vt, vu with
         | [], [] => True
         | c :: r, c' :: r' => variant c c' /\ all r r'
         | _, _ => False
         end.

Section TrajInd.
  Variable P : Traj -> Prop.
  Hypothesis HS : forall g m, P (TSegment g m).
  Hypothesis HT : forall d F, P (TStationary d F).
  Hypothesis HC : forall vt vd d, Forall P vt -> P (TComposite vt vd d).
  Fixpoint traj_ind' (t : Traj) : P t :=
    match t with
    | TSegment g m => HS g m
    | TStationary d F => HT d F
    | TComposite vt vd d =>
        HC vt vd d ((fix all (vt : list Traj) : Forall P vt :=
          match vt with [] => Forall_nil P | c :: r => Forall_cons c (traj_ind' c) (all r) end) vt)
    end.
End TrajInd.

(** the search inside a composite *)
Definition at_elem {A : Type} (seg : Path -> Prof -> R -> result (A * Path)) (stat : Frame -> A) (local : option R) :=
  fix at_ (vt : list Traj) (i : nat) {struct vt} : result (A * list Traj) :=
           match vt, i with
           | [], _ => Undefd
           | c :: r, O =>
               let? time' := match local with Some u => Val u | None => traj_Duration c end in
               let? (a, c') := traj_eval seg stat c time' in Val (a, c' :: r)
           | c :: r, S i => let? (a, r') := at_ r i in Val (a, c :: r')
           end.
Lemma traj_eval_comp {A} (seg : Path -> Prof -> R -> result (A * Path)) stat vt vd dur time :
  traj_eval seg stat (TComposite vt vd dur) time =
  let? (a, vt') := at_elem seg stat (snd (tc_lookup vd time)) vt (fst (tc_lookup vd time)) in Val (a, TComposite vt' vd dur).
Proof. cbn [traj_eval]. destruct (tc_lookup vd time) as [i lo]. reflexivity. Qed.

(** A family of queries: evaluating a segment asks its path and keeps the profile. *)
Definition good_seg {A : Type} (seg : Path -> Prof -> R -> result (A * Path)) : Prop :=
  (forall g m u a g', seg g m u = Val (a, g') -> exists f s, path_eval (f : Leaf -> R -> A) g s = Val (a, g')) /\
  (forall g m k u, same_answers m k -> seg g m u = seg g k u).

Lemma good_pos : good_seg seg_Pos.
Proof.
  split.
  - intros g m u a g'. unfold seg_Pos. destruct (prof_pos m u); cbn; try discriminate. intros E. eexists _, _; exact E.
  - intros g m k u (_ & H). unfold seg_Pos. destruct (H u) as (-> & _). reflexivity.
Qed.
Lemma good_vel : good_seg seg_Vel.
Proof.
  split.
  - intros g m u a g'. unfold seg_Vel. destruct (prof_pos m u); cbn; try discriminate. destruct (prof_vel m u); cbn; try discriminate.
    intros E. eexists _, _; exact E.
  - intros g m k u (_ & H). unfold seg_Vel. destruct (H u) as (-> & -> & _). reflexivity.
Qed.
Lemma good_acc : good_seg seg_Acc.
Proof.
  split.
  - intros g m u a g'. unfold seg_Acc. destruct (prof_pos m u); cbn; try discriminate. destruct (prof_vel m u); cbn; try discriminate.
    destruct (prof_acc m u); cbn; try discriminate. intros E. eexists _, _; exact E.
  - intros g m k u (_ & H). unfold seg_Acc. destruct (H u) as (-> & -> & ->). reflexivity.
Qed.

Lemma same_answers_refl m : same_answers m m.
Proof. split; [reflexivity|]. intros t. repeat split. Qed.
Lemma same_answers_sym m k : same_answers m k -> same_answers k m.
Proof. intros (A & B). split; [auto|]. intros t. destruct (B t) as (E1 & E2 & E3). auto. Qed.
Lemma same_answers_trans m k l : same_answers m k -> same_answers k l -> same_answers m l.
Proof.
  intros (A & B) (A' & B'). split; [congruence|]. intros t. destruct (B t) as (E1 & E2 & E3). destruct (B' t) as (E4 & E5 & E6).
  repeat split; congruence.
Qed.

Lemma variant_duration t u : variant t u -> traj_Duration u = traj_Duration t.
Proof.
  destruct t, u; cbn; try contradiction.
  - intros (_ & _ & E & _). rewrite E. reflexivity.
  - intros (-> & _). reflexivity.
  - intros (_ & _ & ->). reflexivity.
Qed.

(** a query leaves a variant behind *)
Lemma eval_variant {A} (seg : Path -> Prof -> R -> result (A * Path)) stat : good_seg seg ->
  forall t t1 u a t2, variant t t1 -> traj_eval seg stat t1 u = Val (a, t2) -> variant t t2.
Proof.
  intros (G & _). induction t as [g m|d F|vt vd d IH] using traj_ind'; intros [h k|d' F'|vu ud d'] u a t2; cbn [variant]; try contradiction.
  - intros (S & M & E). cbn [traj_eval]. destruct (seg h k u) as [[b g']| |] eqn:Q; cbn; try discriminate. intros X. injection X as <- <-.
    destruct (G _ _ _ _ _ Q) as (f & s & Pq). split; [|split].
    + eapply same_trans; [exact S|]. exact (proj2 (eval_keep f h (made_inv _ M) _ _ _ Pq)).
    + exact (made_query f _ _ _ _ M Pq).
    + exact E.
  - intros (<- & <-) E. cbn in E. injection E as _ <-. cbn. auto.
  - fold variant_all. intros (V & <- & <-) E. rewrite traj_eval_comp in E. generalize dependent (tc_lookup vd u). intros [i lo]. cbn [fst snd]. intros E.
    destruct (at_elem seg stat lo vu i) as [[b vu']| |] eqn:Q; cbn in E; try discriminate. injection E as _ <-.
    cbn [variant]. fold variant_all. split; [|split; reflexivity].
    clear u a. revert i vu b vu' V Q. induction IH as [|c r Hc Hr IHr]; intros i [|c' r'] b vu'; cbn [variant_all at_elem]; try contradiction; try discriminate.
    intros (V1 & V2). destruct i.
    + destruct (match lo with Some u => Val u | None => traj_Duration c' end) as [u| |]; cbn; try discriminate.
      destruct (traj_eval seg stat c' u) as [[x c'']| |] eqn:Q; cbn; try discriminate. intros X. injection X as _ <-.
      split; [|exact V2]. eapply Hc; [exact V1|exact Q].
    + destruct (at_elem seg stat lo r' i) as [[x r'']| |] eqn:Q; cbn; try discriminate. intros X. injection X as _ <-.
      split; [exact V1|]. eapply IHr; [exact V2|exact Q].
Qed.

Lemma variant_trans_all vt : Forall (fun t => forall u w, variant t u -> variant u w -> variant t w) vt ->
  forall vu vw, variant_all vt vu -> variant_all vu vw -> variant_all vt vw.
Proof. induction 1; intros [|] [|]; cbn; try contradiction; auto. intros (A & B) (C & D). split; eauto. Qed.
Lemma variant_trans t : forall u w, variant t u -> variant u w -> variant t w.
Proof.
  induction t as [g m|d F|vt vd d IH] using traj_ind'; intros [h k|d' F'|vu ud d'] [h' k'|d'' F''|vw wd d'']; cbn [variant]; try contradiction.
  - intros (A & B & C) (A' & B' & C'). split; [eapply same_trans; eassumption|]. split; [exact B'|eapply same_answers_trans; eassumption].
  - intros (<- & <-) (<- & <-). auto.
  - fold variant_all. intros (A & <- & <-) (B & <- & <-). split; [eapply variant_trans_all; eassumption|auto].
Qed.
Lemma variant_refl_r t : forall u, variant t u -> variant u u.
Proof.
  induction t as [g m|d F|vt vd d IH] using traj_ind'; intros [h k|d' F'|vu ud d']; cbn [variant]; try contradiction.
  - intros (A & B & C). split; [apply same_refl|]. split; [exact B|apply same_answers_refl].
  - auto.
  - fold variant_all. intros (A & _). split; [|auto]. revert vu A. induction IH; intros [|]; cbn; try contradiction; auto.
    intros (A & B). split; eauto.
Qed.

(** * Sequences *)
Fixpoint starts (acc : R) (ds : list R) : list R := match ds with [] => [] | d :: r => acc + d :: starts (acc + d) r end.
Definition rsum (ds : list R) : R := fold_right Rplus 0 ds.

Lemma starts_app acc ds d : starts acc (ds ++ [d]) = starts acc ds ++ [acc + rsum ds + d].
Proof.
  revert acc. induction ds as [|x r IH]; intros acc; cbn.
  - f_equal. ring.
  - rewrite IH. do 3 f_equal. unfold rsum. ring.
Qed.
Lemma rsum_app ds d : rsum (ds ++ [d]) = rsum ds + d.
Proof. induction ds; cbn; [unfold rsum; cbn; ring|]. unfold rsum in *; cbn. rewrite IHds. ring. Qed.

Lemma variant_all_app vt vu c c' : variant_all vt vu -> variant c c' -> variant_all (vt ++ [c]) (vu ++ [c']).
Proof. revert vu. induction vt; intros [|]; cbn; try contradiction; auto. intros (A & B) C. split; auto. Qed.

Lemma shape_query {A} (seg : Path -> Prof -> R -> result (A * Path)) stat : good_seg seg -> forall ts vt ds time a t',
  variant_all ts vt -> Forall2 (fun c d => traj_Duration c = Val d) ts ds ->
  traj_eval seg stat (TComposite vt (starts 0 ds) (rsum ds)) time = Val (a, t') ->
  exists vt ds, t' = TComposite vt (starts 0 ds) (rsum ds) /\ variant_all ts vt /\ Forall2 (fun c d => traj_Duration c = Val d) ts ds.
Proof.
  intros G ts vt ds time a t' V F E.
  assert (K : variant (TComposite ts (starts 0 ds) (rsum ds)) t')
    by (refine (eval_variant _ _ G _ _ _ _ _ _ E); cbn; fold variant_all; auto).
  destruct t' as [| |vu ud d']; cbn in K; try contradiction. fold variant_all in K. destruct K as (K & <- & <-). eauto.
Qed.

Lemma composed_shape t ts : composed t ts ->
  exists vt ds, t = TComposite vt (starts 0 ds) (rsum ds) /\ variant_all ts vt /\ Forall2 (fun c d => traj_Duration c = Val d) ts ds.
Proof.
  induction 1 as [|t ts c t' H (vt & ds & -> & V & F) Hc E|t ts time a t' H (vt & ds & -> & V & F) E
                 |t ts time a t' H (vt & ds & -> & V & F) E|t ts time a t' H (vt & ds & -> & V & F) E].
  - exists [], []. repeat split; constructor.
  - cbn in E. destruct (traj_Duration c) as [d| |] eqn:Ed; cbn in E; try discriminate. injection E as <-.
    exists (vt ++ [c]), (ds ++ [d]). rewrite starts_app, rsum_app, Rplus_0_l. split; [reflexivity|].
    split; [apply variant_all_app; assumption|]. apply Forall2_app; [exact F|constructor; [exact Ed|constructor]].
  - exact (shape_query _ _ good_pos _ _ _ _ _ _ V F E).
  - exact (shape_query _ _ good_vel _ _ _ _ _ _ V F E).
  - exact (shape_query _ _ good_acc _ _ _ _ _ _ V F E).
Qed.

Lemma rsum_lasts ts ds : Forall2 (fun c d => traj_Duration c = Val d) ts ds -> lasts ts (rsum ds).
Proof.
  induction 1 as [|c d ts ds E F IH]; cbn; [reflexivity|]. exists d. split; [exact E|].
  replace (d + fold_right Rplus 0 ds - d) with (rsum ds) by (unfold rsum; ring). exact IH.
Qed.
Lemma composed_duration t ts : composed t ts -> exists D, traj_Duration t = Val D /\ lasts ts D.
Proof. intros H. destruct (composed_shape _ _ H) as (vt & ds & -> & _ & F). exists (rsum ds). split; [reflexivity|apply rsum_lasts, F]. Qed.

Lemma scan_playing ts ds : Forall2 (fun c d => traj_Duration c = Val d) ts ds -> ts <> [] -> forall i prev time, prev <= time ->
  exists k c u lo, tc_scan (starts prev ds) i prev time = ((i + k)%nat, lo) /\ nth_error ts k = Some c /\
    playing ts (time - prev) c u /\ (lo = Some u \/ (lo = None /\ traj_Duration c = Val u)).
Proof.
  induction 1 as [|x d ts ds E F IH]; intros N i prev time Hp; [congruence|]. cbn [starts tc_scan].
  destruct (Rlt_dec time (prev + d)) as [L|L].
  - exists 0%nat, x, (time - prev), (Some (time - prev)). split; [f_equal; lia|]. split; [reflexivity|]. split; [|left; reflexivity].
    cbn [playing]. right. split; [lra|]. exists d. split; [exact E|]. left. repeat split; lra.
  - destruct ts as [|y ts].
    + inversion F; subst. cbn [starts tc_scan]. exists 0%nat, x, d, None. split; [f_equal; lia|]. split; [reflexivity|].
      split; [|right; auto]. cbn [playing]. right. split; [lra|]. exists d. split; [exact E|]. right. repeat split; lra.
    + destruct (IH ltac:(discriminate) (S i) (prev + d) time ltac:(lra)) as (k & c & u & lo & E1 & E2 & E3 & E4).
      exists (S k), c, u, lo. split; [rewrite E1; f_equal; lia|]. split; [exact E2|]. split; [|exact E4].
      change (playing (x :: y :: ts) (time - prev) c u) with
        ((time - prev < 0 /\ c = x /\ u = 0) \/
         (0 <= time - prev /\ exists d, traj_Duration x = Val d /\
           ((time - prev < d /\ c = x /\ u = time - prev) \/ (d <= time - prev /\ playing (y :: ts) (time - prev - d) c u)))).
      right. split; [lra|]. exists d. split; [exact E|]. right. split; [lra|].
      replace (time - prev - d) with (time - (prev + d)) by ring. exact E3.
Qed.

Lemma lookup_playing ts ds : Forall2 (fun c d => traj_Duration c = Val d) ts ds -> ts <> [] -> forall time,
  exists k c u lo, tc_lookup (starts 0 ds) time = (k, lo) /\ nth_error ts k = Some c /\
    playing ts time c u /\ (lo = Some u \/ (lo = None /\ traj_Duration c = Val u)).
Proof.
  intros F N time. unfold tc_lookup. destruct (Rlt_dec time 0) as [L|L].
  - destruct ts as [|x ts]; [congruence|]. exists 0%nat, x, 0, (Some 0). split; [reflexivity|]. split; [reflexivity|]. split; [|left; reflexivity].
    cbn [playing]. left. auto.
  - destruct (scan_playing ts ds F N 0%nat 0 time ltac:(lra)) as (k & c & u & lo & E1 & E2 & E3 & E4).
    exists k, c, u, lo. rewrite Rminus_0_r in E3. cbn in E1. auto.
Qed.

Lemma playing_unique ts : forall time c u c' u', playing ts time c u -> playing ts time c' u' -> c = c' /\ u = u'.
Proof.
  induction ts as [|x r IH]; intros time c u c' u'; [intros []|].
  assert (K : forall c u, playing (x :: r) time c u ->
     (time < 0 /\ c = x /\ u = 0) \/
     (0 <= time /\ exists d, traj_Duration x = Val d /\
         ((time < d /\ c = x /\ u = time) \/
          (d <= time /\ ((r = [] /\ c = x /\ u = d) \/ (r <> [] /\ playing r (time - d) c u)))))).
  { intros c0 u0 [H|(A & d & Ed & [H|(B & H)])]; [left; exact H|right; split; [exact A|]; exists d; split; [exact Ed|left; exact H]|].
    right. split; [exact A|]. exists d. split; [exact Ed|]. right. split; [exact B|]. destruct r as [|y r']; [left; auto|right; split; [discriminate|exact H]]. }
  intros H1 H2. apply K in H1. apply K in H2. clear K.
  destruct H1 as [(A & -> & ->)|(A & d & Ed & H1)]; destruct H2 as [(B & -> & ->)|(B & d' & Ed' & H2)]; try lra; [split; reflexivity|].
  rewrite Ed in Ed'. injection Ed' as <-.
  destruct H1 as [(C & -> & ->)|(C & H1)]; destruct H2 as [(C' & -> & ->)|(C' & H2)]; try lra; [split; reflexivity|].
  destruct H1 as [(-> & -> & ->)|(N & H1)]; destruct H2 as [(N' & -> & ->)|(N' & H2)]; try congruence; [split; reflexivity|].
  exact (IH _ _ _ _ _ H1 H2).
Qed.

Lemma at_elem_nth {A} (seg : Path -> Prof -> R -> result (A * Path)) stat lo ts : forall vt k c, variant_all ts vt -> nth_error ts k = Some c ->
  exists c1, variant c c1 /\ forall u, lo = Some u \/ (lo = None /\ traj_Duration c = Val u) ->
    match traj_eval seg stat c1 u with
    | Val (a, _) => exists vt', at_elem seg stat lo vt k = Val (a, vt')
    | Throw e => at_elem seg stat lo vt k = Throw e
    | Undefd => at_elem seg stat lo vt k = Undefd
    end.
Proof.
  induction ts as [|x r IH]; intros [|y r'] k c; cbn [variant_all]; try contradiction; [destruct k; discriminate|].
  intros (V1 & V2) E. destruct k as [|k]; cbn in E.
  - injection E as ->. exists y. split; [exact V1|]. intros u [->|(-> & Ed)]; cbn [at_elem].
    + cbn. destruct (traj_eval seg stat y u) as [[a c2]| |]; cbn; eauto.
    + rewrite (variant_duration _ _ V1), Ed. cbn. destruct (traj_eval seg stat y u) as [[a c2]| |]; cbn; eauto.
  - destruct (IH _ _ _ V2 E) as (c1 & Vc & K). exists c1. split; [exact Vc|]. intros u Hu. specialize (K u Hu). cbn [at_elem].
    destruct (traj_eval seg stat c1 u) as [[a c2]| |].
    + destruct K as (vt' & ->). cbn. eauto.
    + rewrite K. reflexivity.
    + rewrite K. reflexivity.
Qed.

Lemma shape_plays {A} (seg : Path -> Prof -> R -> result (A * Path)) stat vt ds ts time :
  variant_all ts vt -> Forall2 (fun c d => traj_Duration c = Val d) ts ds -> ts <> [] ->
  let t := TComposite vt (starts 0 ds) (rsum ds) in
  exists c u c1, playing ts time c u /\ variant c c1 /\
    match traj_eval seg stat c1 u with
    | Val (a, _) => exists t', traj_eval seg stat t time = Val (a, t')
    | Throw e => traj_eval seg stat t time = Throw e
    | Undefd => traj_eval seg stat t time = Undefd
    end.
Proof.
  intros V F N t. unfold t.
  destruct (lookup_playing ts ds F N time) as (k & c & u & lo & E1 & E2 & E3 & E4).
  destruct (at_elem_nth seg stat lo ts vt k c V E2) as (c1 & Vc & K). specialize (K u E4).
  exists c, u, c1. split; [exact E3|]. split; [exact Vc|]. rewrite traj_eval_comp, E1. cbn [fst snd].
  destruct (traj_eval seg stat c1 u) as [[a c2]| |].
  - destruct K as (vt' & ->). cbn. eauto.
  - rewrite K. reflexivity.
  - rewrite K. reflexivity.
Qed.

Lemma composed_plays {A} (seg : Path -> Prof -> R -> result (A * Path)) stat t ts time : composed t ts -> ts <> [] ->
  exists c u c1, playing ts time c u /\ variant c c1 /\
    match traj_eval seg stat c1 u with
    | Val (a, _) => exists t', traj_eval seg stat t time = Val (a, t')
    | Throw e => traj_eval seg stat t time = Throw e
    | Undefd => traj_eval seg stat t time = Undefd
    end.
Proof.
  intros H N. destruct (composed_shape _ _ H) as (vt & ds & -> & V & F). exact (shape_plays seg stat vt ds ts time V F N).
Qed.

(** The answers of a sequence are answers of the element that is playing. *)
Lemma composed_answers {A} (seg : Path -> Prof -> R -> result (A * Path)) stat t ts time c u :
  composed t ts -> ts <> [] -> playing ts time c u ->
  (forall a t', traj_eval seg stat t time = Val (a, t') -> observed_traj (traj_eval seg stat) c u a) /\
  (always_answers (traj_eval seg stat) c u -> exists a t', traj_eval seg stat t time = Val (a, t')).
Proof.
  intros H N HP. destruct (composed_plays seg stat t ts time H N) as (c' & u' & c1 & HP' & V & K).
  destruct (playing_unique _ _ _ _ _ _ HP HP') as (<- & <-). split.
  - intros a t' E. destruct (traj_eval seg stat c1 u) as [[b c2]| |] eqn:Q.
    + destruct K as (t'' & K). rewrite K in E. injection E as <- <-. exists c1, c2. auto.
    + rewrite K in E; discriminate.
    + rewrite K in E; discriminate.
  - intros AA. destruct (AA _ V) as (a & c2 & Q). rewrite Q in K. destruct K as (t' & K). eauto.
Qed.
Lemma playing_total t ts time : composed t ts -> ts <> [] -> exists c u, playing ts time c u.
Proof.
  intros H N. destruct (composed_shape _ _ H) as (vt & ds & -> & V & F).
  destruct (lookup_playing ts ds F N time) as (k & c & u & lo & E1 & E2 & E3 & E4). eauto.
Qed.
