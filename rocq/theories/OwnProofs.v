(** Proofs for OwnProps.v: heaps as forests of owning objects *)
From Coq Require Import List Bool Arith Lia Permutation.
From Verif Require Import OwnModel OwnSpec.
Import ListNotations.

Inductive tree := T (a : addr) (ts : list tree).
Definition root (t : tree) : addr := match t with T a _ => a end.
Fixpoint addrs (t : tree) : list addr := match t with T a ts => a :: flat_map addrs ts end.
Definition kids (t : tree) : list tree := match t with T _ ts => ts end.
Fixpoint tree_ind' (P : tree -> Prop) (H : forall a ts, Forall P ts -> P (T a ts)) (t : tree) : P t :=
  match t with T a ts => H a ts ((fix go (l : list tree) : Forall P l :=
    match l with [] => Forall_nil P | t :: r => Forall_cons t (tree_ind' P H t) (go r) end) ts) end.

(** every pointer is owned, interpolators and composites are what they should be *)
Definition whole (s : state) (c : cell) : Prop :=
  match c with
  | CLine o a | CCircle o a => a = true /\ is_orient s o
  | CCyclic _ a | CTSeg _ _ a => a = true
  | CComp gv => forallb snd gv = true
  | CRounded comp o a => a = true /\ is_orient s o /\ is_comp s comp
  | _ => True
  end.
Inductive at_ (s : state) : tree -> Prop :=
| at_node : forall a c ts, cell_at s a = Some c -> deleted_by c = map root ts -> whole s c -> Forall (at_ s) ts -> at_ s (T a ts).
Definition fp (F : list tree) : list addr := flat_map addrs F.
Record forest (s : state) (F : list tree) : Prop := {
  fo_at : Forall (at_ s) F;
  fo_nd : NoDup (fp F);
  fo_live : forall a, live s a = true -> In a (fp F) }.
Definition keeps (s s' : state) : Prop := forall a, live s a = true -> cell_at s' a = cell_at s a.

Lemma live_cell s a : live s a = true <-> exists c, cell_at s a = Some c.
Proof.
  unfold live. destruct (cell_at s a); split; intros H; try discriminate; eauto. destruct H; discriminate.
Qed.
Lemma cell_lt s a c : cell_at s a = Some c -> a < length (hp s).
Proof.
  unfold cell_at. destruct (nth_error (hp s) a) eqn:E; [|discriminate]. intros _. apply nth_error_Some. congruence.
Qed.
Lemma cell_alloc h t x a : cell_at (mkSt (h ++ [Some x]) t) a = if a =? length h then Some x else cell_at (mkSt h t) a.
Proof.
  unfold cell_at; cbn. destruct (Nat.eqb_spec a (length h)).
  - subst. rewrite nth_error_app2, Nat.sub_diag by lia. reflexivity.
  - destruct (Nat.lt_ge_cases a (length h)).
    + rewrite nth_error_app1 by assumption. reflexivity.
    + rewrite nth_error_app2 by lia. destruct (a - length h) eqn:E; [lia|]. cbn.
      destruct n0; cbn; rewrite (proj2 (nth_error_None h a)) by lia; reflexivity.
Qed.
Lemma put_len h p x : length (put h p x) = length h.
Proof.
  revert p; induction h; intros [|p]; cbn; auto.
Qed.
Lemma put_nth h p x a : nth_error (put h p x) a = if a =? p then (if p <? length h then Some x else None) else nth_error h a.
Proof.
  revert p a; induction h as [|y h IH]; intros [|p] [|a]; cbn; try reflexivity.
  - destruct (a =? p); reflexivity.
  - rewrite IH. reflexivity.
Qed.
Lemma cell_set s p x a : p < length (hp s) -> cell_at (set_cell s p x) a = if a =? p then x else cell_at s a.
Proof.
  intros L. unfold cell_at, set_cell; cbn. rewrite put_nth. destruct (a =? p); [|reflexivity].
  apply Nat.ltb_lt in L as ->. destruct x; reflexivity.
Qed.
Lemma fp_perm F F' : Permutation F F' -> Permutation (fp F) (fp F').
Proof.
  unfold fp. induction 1; cbn; auto.
  - now apply Permutation_app_head.
  - rewrite !app_assoc. apply Permutation_app_tail, Permutation_app_comm.
  - etransitivity; eassumption.
Qed.
Lemma forest_perm s F F' : Permutation F F' -> forest s F -> forest s F'.
Proof.
  intros P [A N L]. split.
  - rewrite <- P. exact A.
  - eapply Permutation_NoDup; [apply fp_perm, P | exact N].
  - intros a H. eapply Permutation_in; [apply fp_perm, P | auto].
Qed.
Lemma fp_app F G : fp (F ++ G) = fp F ++ fp G.
Proof.
  unfold fp. apply flat_map_app.
Qed.
Lemma at_live s t a : at_ s t -> In a (addrs t) -> live s a = true.
Proof.
  intros H. revert a. induction t as [p ts IH] using tree_ind'. inversion H as [? c ? C D W K]; subst. intros a [<-|I].
  - apply live_cell; eauto.
  - apply in_flat_map in I as (t & It & Ia). rewrite Forall_forall in IH, K. eapply IH; eauto.
Qed.
Lemma at_same s s' t : at_ s t -> (forall a, In a (addrs t) -> cell_at s' a = cell_at s a) -> at_ s' t.
Proof.
  induction t as [p ts IH] using tree_ind'. intros H E. inversion H as [? c ? C D W K]; subst.
  assert (KE : forall t, In t ts -> forall a, In a (addrs t) -> cell_at s' a = cell_at s a).
  { intros t It a Ia. apply E. right. apply in_flat_map; eauto. }
  assert (RE : forall q, In q (deleted_by c) -> cell_at s' q = cell_at s q).
  { rewrite D. intros q Q. apply in_map_iff in Q as (t & <- & It). apply (KE t It). destruct t; left; reflexivity. }
  apply at_node with c; [rewrite E; [exact C | left; reflexivity] | exact D | | ].
  - destruct c; cbn in *; auto; unfold is_orient, is_comp in *.
    + destruct W as [-> W]. split; [reflexivity|]. rewrite RE; [exact W | left; reflexivity].
    + destruct W as [-> W]. split; [reflexivity|]. rewrite RE; [exact W | left; reflexivity].
    + destruct W as (-> & W & V). split; [reflexivity|]. split.
      * rewrite RE; [exact W | left; reflexivity].
      * rewrite RE; [exact V | right; left; reflexivity].
  - rewrite Forall_forall in *. intros t It. apply IH; [exact It | now apply K | now apply KE].
Qed.
Lemma at_keeps s s' t : keeps s s' -> at_ s t -> at_ s' t.
Proof.
  intros K A. apply at_same with s; [exact A|]. intros a I. apply K. eapply at_live; eauto.
Qed.
Lemma forest_lt s F a : forest s F -> In a (fp F) -> live s a = true.
Proof.
  intros [A _ _] I. apply in_flat_map in I as (t & It & Ia). rewrite Forall_forall in A. eapply at_live; eauto.
Qed.
Lemma addrs_le s t : at_ s t -> NoDup (addrs t) -> length (addrs t) <= length (hp s).
Proof.
  intros A N. rewrite <- (seq_length (length (hp s)) 0). apply NoDup_incl_length; [exact N|].
  intros a I. apply in_seq. pose proof (at_live s t a A I) as L. apply live_cell in L as [c C]. apply cell_lt in C. lia.
Qed.

(** allocation of an object that takes over trees *)
Lemma forest_alloc s c ts F : forest s (ts ++ F) -> deleted_by c = map root ts -> whole s c ->
  let s' := mkSt (hp s ++ [Some c]) (tick s) in
  alloc s c = Ok s' (length (hp s)) /\ forest s' (T (length (hp s)) ts :: F) /\ keeps s s' /\
  live s (length (hp s)) = false.
Proof.
  intros [A N L] D W s'. split; [reflexivity|].
  assert (NL : live s (length (hp s)) = false).
  { destruct (live s (length (hp s))) eqn:E; [|reflexivity]. apply live_cell in E as [c' C]. apply cell_lt in C. lia. }
  assert (CE : forall a, cell_at s' a = if a =? length (hp s) then Some c else cell_at s a) by (intros a; apply cell_alloc).
  assert (K : keeps s s').
  { intros a Ha. rewrite CE. destruct (Nat.eqb_spec a (length (hp s))); [congruence|reflexivity]. }
  split; [|split; [exact K|exact NL]].
  apply Forall_app in A as [A1 A2].
  assert (NF : ~ In (length (hp s)) (fp (ts ++ F))).
  { intros I. assert (F0 : forest s (ts ++ F)) by (split; [apply Forall_app|..]; auto). pose proof (forest_lt s _ _ F0 I). congruence. }
  split.
  - constructor.
    + apply at_node with c; [rewrite CE, Nat.eqb_refl; reflexivity | exact D | |].
      * destruct c; cbn in *; auto; unfold is_orient, is_comp in *.
        -- destruct W as [-> W]. split; [reflexivity|]. rewrite K; [exact W|]. apply live_cell; eauto.
        -- destruct W as [-> W]. split; [reflexivity|]. rewrite K; [exact W|]. apply live_cell; eauto.
        -- destruct W as (-> & W & V). split; [reflexivity|]. split.
           ++ rewrite K; [exact W|]. apply live_cell; eauto.
           ++ rewrite K; [exact V|]. destruct V. apply live_cell; eauto.
      * eapply Forall_impl; [|exact A1]. intros t. apply at_keeps, K.
    + eapply Forall_impl; [|exact A2]. intros t. apply at_keeps, K.
  - change (NoDup (length (hp s) :: fp ts ++ fp F)). rewrite <- fp_app. constructor; assumption.
  - intros a Ha. change (In a (length (hp s) :: fp ts ++ fp F)). rewrite <- fp_app.
    apply live_cell in Ha as [c' C]. rewrite CE in C. destruct (Nat.eqb_spec a (length (hp s))); [left; auto|].
    right. apply L. apply live_cell; eauto.
Qed.

(** delete *)
Definition freed (s s' : state) (X : list addr) : Prop :=
  length (hp s') = length (hp s) /\ tick s' = tick s /\
  forall a, (In a X -> cell_at s' a = None) /\ (~ In a X -> cell_at s' a = cell_at s a).
Definition dels n := fix go (l : list addr) (s : state) : res unit :=
               match l with [] => Ok s tt | a :: r => bind (del n a s) (fun s _ => go r s) end.
Lemma del_S n p s : del (S n) p s = match cell_at s p with None => Ub | Some c => bind (dels n (deleted_by c) s) (fun s _ => free s p) end.
Proof.
  reflexivity.
Qed.
Lemma NoDup_app_l {A} (l m : list A) : NoDup (l ++ m) -> NoDup l /\ NoDup m /\ forall x, In x l -> ~ In x m.
Proof.
  induction l as [|x l IH]; cbn; intros H; [repeat split; auto using NoDup_nil; intros ? []|].
  inversion H as [|? ? N R]; subst. destruct (IH R) as (P & Q & D). repeat split; auto.
  - constructor; [|exact P]. intros I. apply N, in_or_app; auto.
  - intros y [<-|I]; [|now apply D]. intros J. apply N, in_or_app; auto.
Qed.
Lemma del_tree t : forall s n, at_ s t -> NoDup (addrs t) -> length (addrs t) <= n ->
  exists s', del n (root t) s = Ok s' tt /\ freed s s' (addrs t).
Proof.
  induction t as [p ts IH] using tree_ind'. intros s n A N L. destruct n as [|n]; [cbn in L; lia|].
  inversion A as [? c ? C D W K]; subst. cbn [root]. rewrite del_S, C, D. cbn [addrs] in *.
  apply NoDup_cons_iff in N as [NP N].
  assert (G : exists s', dels n (map root ts) s = Ok s' tt /\ freed s s' (flat_map addrs ts)).
  { clear A C D W NP. revert s IH K N L. induction ts as [|t ts IHts]; intros s IH K N L.
    - exists s. split; [reflexivity|]. repeat split; intros []; contradiction.
    - cbn [flat_map] in *. inversion IH as [|? ? I1 I2]; subst. inversion K as [|? ? K1 K2]; subst.
      apply NoDup_app_l in N as (N1 & N2 & DJ). cbn [length] in L. rewrite app_length in L.
      destruct (I1 s n K1 N1 ltac:(lia)) as (s1 & E1 & L1 & T1 & F1). cbn [map dels]. rewrite E1. cbn [bind].
      destruct (IHts s1 I2) as (s2 & E2 & L2 & T2 & F2).
      + rewrite Forall_forall in *. intros t' It. apply at_same with s; [now apply K2|]. intros a Ia.
        apply F1. intros J. apply (DJ a J). apply in_flat_map; eauto.
      + exact N2.
      + cbn [length]. lia.
      + exists s2. split; [exact E2|]. repeat split; try congruence.
        * intros I. apply in_app_or in I as [I|I]; [|now apply F2]. destruct (F2 a) as [_ F]. rewrite F by (now apply DJ). now apply F1.
        * intros I. destruct (F2 a) as [_ F]. rewrite F by (intros J; apply I, in_or_app; auto). apply F1. intros J; apply I, in_or_app; auto. }
  destruct G as (s1 & E & L1 & T1 & F1). rewrite E. cbn [bind]. unfold free.
  assert (C1 : cell_at s1 p = Some c) by (destruct (F1 p) as [_ F]; rewrite F; assumption).
  unfold live. rewrite C1. eexists; split; [reflexivity|]. pose proof (cell_lt _ _ _ C1) as LT. repeat split.
  - cbn. rewrite put_len. exact L1.
  - exact T1.
  - intros [<-|I]; rewrite cell_set by exact LT; [now rewrite Nat.eqb_refl|]. destruct (a =? p); [reflexivity|]. now apply F1.
  - intros I. rewrite cell_set by exact LT. destruct (Nat.eqb_spec a p); [exfalso; apply I; left; auto|]. apply F1. intros J; apply I; right; auto.
Qed.
Lemma forest_delete s t F : forest s (t :: F) -> exists s', delete (root t) s = Ok s' tt /\ forest s' F /\ freed s s' (addrs t).
Proof.
  intros [A N L]. inversion A as [|? ? A1 A2]; subst. change (fp (t :: F)) with (addrs t ++ fp F) in *.
  apply NoDup_app_l in N as (N1 & N2 & DJ).
  destruct (del_tree t s (S (length (hp s))) A1 N1) as (s' & E & FR); [pose proof (addrs_le s t A1 N1); lia|].
  exists s'. split; [exact E|]. split; [|exact FR]. destruct FR as (LE & TE & FR). split.
  - rewrite Forall_forall in *. intros t' It. apply at_same with s; [now apply A2|]. intros a Ia. apply FR.
    intros J. apply (DJ a J). apply in_flat_map; eauto.
  - exact N2.
  - intros a Ha. destruct (in_dec Nat.eq_dec a (addrs t)) as [I|I].
    + apply FR in I. unfold live in Ha. rewrite I in Ha. discriminate.
    + destruct (FR a) as [_ E']. specialize (E' I). assert (live s a = true) by (unfold live in *; rewrite E' in Ha; exact Ha).
      apply L in H. apply in_app_or in H as [|]; [contradiction|assumption].
Qed.
Lemma forest_delete_keeps s0 s t F : forest s0 F -> keeps s0 s -> forest s (t :: F) ->
  exists s', delete (root t) s = Ok s' tt /\ forest s' F /\ keeps s0 s'.
Proof.
  intros F0 K FO. destruct (forest_delete s t F FO) as (s' & E & FO' & _ & _ & FR). exists s'. split; [exact E|]. split; [exact FO'|].
  intros a Ha. rewrite <- (K a Ha). apply FR. intros I.
  destruct FO as [_ N _]. change (fp (t :: F)) with (addrs t ++ fp F) in N. apply NoDup_app_l in N as (_ & _ & DJ).
  apply (DJ a I). apply F0, Ha.
Qed.

(** adding a tree to a composite on top, and to the composite of a rounded composite *)
Lemma filter_all gv : forallb snd gv = true -> filter (@snd addr bool) gv = gv.
Proof.
  induction gv as [|[a b] gv IH]; cbn; [reflexivity|]. intros H. apply andb_true_iff in H as [-> H]. now rewrite IH.
Qed.
Lemma set_freed s p x c : cell_at s p = Some c -> forall a, cell_at (set_cell s p x) a = if a =? p then x else cell_at s a.
Proof.
  intros C a. apply cell_set. eapply cell_lt; eauto.
Qed.
Lemma replace_top s p ts ts' c c' F F' : forest s (T p ts :: F) -> cell_at s p = Some c ->
  Permutation (fp ts' ++ fp F') (fp ts ++ fp F) ->
  deleted_by c' = map root ts' -> whole s c' -> Forall (at_ s) ts' -> Forall (at_ s) F' ->
  (match c' with CRounded _ _ _ | CLine _ _ | CCircle _ _ => False | _ => True end) ->
  forest (set_cell s p (Some c')) (T p ts' :: F').
Proof.
  intros [A N L] C P D W A' A2 SH. set (s' := set_cell s p (Some c')).
  pose proof (set_freed s p (Some c') c C) as CE.
  change (NoDup (p :: fp ts ++ fp F)) in N. apply NoDup_cons_iff in N as [NP N].
  assert (NP' : ~ In p (fp ts' ++ fp F')) by (intros I; apply NP; eapply Permutation_in; [exact P|exact I]).
  split.
  - constructor.
    + apply at_node with c'; [unfold s'; rewrite CE, Nat.eqb_refl; reflexivity | exact D | destruct c'; try contradiction; exact W |].
      rewrite Forall_forall in *. intros t It. apply at_same with s; [now apply A'|]. intros a Ia. unfold s'. rewrite CE.
      destruct (Nat.eqb_spec a p); [|reflexivity]. subst. exfalso. apply NP'. apply in_or_app; left. apply in_flat_map; eauto.
    + rewrite Forall_forall in *. intros t It. apply at_same with s; [now apply A2|]. intros a Ia. unfold s'. rewrite CE.
      destruct (Nat.eqb_spec a p); [|reflexivity]. subst. exfalso. apply NP'. apply in_or_app; right. apply in_flat_map; eauto.
  - change (NoDup (p :: fp ts' ++ fp F')). constructor; [exact NP'|].
    eapply Permutation_NoDup; [symmetry; exact P|exact N].
  - intros a Ha. change (In a (p :: fp ts' ++ fp F')). apply live_cell in Ha as [x X]. unfold s' in X. rewrite CE in X.
    destruct (Nat.eqb_spec a p); [left; auto|]. right. assert (H : live s a = true) by (apply live_cell; eauto).
    apply L in H. change (In a (p :: fp ts ++ fp F)) in H. destruct H as [|H]; [congruence|].
    eapply Permutation_in; [symmetry; exact P|exact H].
Qed.

Definition keepx (X : addr -> Prop) (s s' : state) : Prop := forall a, live s a = true -> ~ X a -> cell_at s' a = cell_at s a.
Lemma keeps_keepx X s s' : keeps s s' -> keepx X s s'.
Proof.
  intros K a H _. now apply K.
Qed.
Lemma keepx_keeps s s' : keepx (fun _ => False) s s' -> keeps s s'.
Proof.
  intros K a H. apply K; tauto.
Qed.
Lemma keepx_live X s s' a : keepx X s s' -> live s a = true -> ~ X a -> live s' a = true.
Proof.
  intros K H N. unfold live. rewrite (K a H N). exact H.
Qed.
Lemma keepx_trans X s1 s2 s3 : keepx X s1 s2 -> keepx X s2 s3 -> keepx X s1 s3.
Proof.
  intros A B a H N. rewrite B; [now apply A | eapply keepx_live; eauto | exact N].
Qed.
Lemma keeps_trans s1 s2 s3 : keeps s1 s2 -> keeps s2 s3 -> keeps s1 s3.
Proof.
  intros A B. apply keepx_keeps. eapply keepx_trans; apply keeps_keepx; eauto.
Qed.
Lemma keeps_refl s : keeps s s.
Proof.
  intros a _. reflexivity.
Qed.
Lemma keeps_live s s' a : keeps s s' -> live s a = true -> live s' a = true.
Proof.
  intros K H. unfold live. rewrite (K a H). exact H.
Qed.
Lemma delete_keepx X s0 s t F0 F : forest s0 F0 -> keepx X s0 s -> forest s (t :: F) -> incl (fp F0) (fp F) ->
  exists s', delete (root t) s = Ok s' tt /\ forest s' F /\ keepx X s0 s'.
Proof.
  intros F00 K FO IN. destruct (forest_delete s t F FO) as (s' & E & FO' & _ & _ & FR). exists s'. split; [exact E|]. split; [exact FO'|].
  intros a Ha NX. rewrite <- (K a Ha NX). apply FR. intros I.
  destruct FO as [_ N _]. change (fp (t :: F)) with (addrs t ++ fp F) in N. apply NoDup_app_l in N as (_ & _ & DJ).
  apply (DJ a I). apply IN, F00, Ha.
Qed.
Lemma delete_keeps s0 s t F0 F : forest s0 F0 -> keeps s0 s -> forest s (t :: F) -> incl (fp F0) (fp F) ->
  exists s', delete (root t) s = Ok s' tt /\ forest s' F /\ keeps s0 s'.
Proof.
  intros A B C D. destruct (delete_keepx (fun _ => False) s0 s t F0 F A (keeps_keepx _ _ _ B) C D) as (s' & E & G & K).
  exists s'. split; [exact E|]. split; [exact G|]. now apply keepx_keeps.
Qed.
Lemma delete_all_trees ts : forall s, Forall (at_ s) ts -> NoDup (fp ts) ->
  exists s', delete_all (map root ts) s = Ok s' tt /\ freed s s' (fp ts).
Proof.
  induction ts as [|t ts IHts]; intros s K N.
  - exists s. split; [reflexivity|]. repeat split; intros []; contradiction.
  - change (fp (t :: ts)) with (addrs t ++ fp ts) in *. inversion K as [|? ? K1 K2]; subst. apply NoDup_app_l in N as (N1 & N2 & DJ).
    destruct (del_tree t s (S (length (hp s))) K1 N1) as (s1 & E1 & L1 & T1 & F1); [pose proof (addrs_le s t K1 N1); lia|].
    cbn [map delete_all]. unfold delete. rewrite E1. cbn [bind].
    destruct (IHts s1) as (s2 & E2 & L2 & T2 & F2).
    + rewrite Forall_forall in *. intros t' It. apply at_same with s; [now apply K2|]. intros a Ia.
      apply F1. intros J. apply (DJ a J). apply in_flat_map; eauto.
    + exact N2.
    + exists s2. split; [exact E2|]. repeat split; try congruence.
      * intros I. apply in_app_or in I as [I|I]; [|now apply F2]. destruct (F2 a) as [_ F]. rewrite F by (now apply DJ). now apply F1.
      * intros I. destruct (F2 a) as [_ F]. rewrite F by (intros J; apply I, in_or_app; auto). apply F1. intros J; apply I, in_or_app; auto.
Qed.

(** adding to composites *)
Lemma fp_snoc ts l F : Permutation (fp (ts ++ [l]) ++ fp F) (fp ts ++ fp (l :: F)).
Proof.
  rewrite fp_app. change (fp [l]) with (addrs l ++ []). rewrite app_nil_r, <- app_assoc. reflexivity.
Qed.
Lemma at_inv s p ts c : at_ s (T p ts) -> cell_at s p = Some c -> deleted_by c = map root ts /\ whole s c /\ Forall (at_ s) ts.
Proof.
  intros A C. inversion A as [? c' ? C' D W K]; subst. rewrite C in C'. injection C' as ->. auto.
Qed.
Lemma root_live s t : at_ s t -> live s (root t) = true.
Proof.
  intros A. apply (at_live s t); [exact A|]. destruct t; left; reflexivity.
Qed.
Lemma forest_head s t F : forest s (t :: F) -> at_ s t.
Proof.
  intros [A _ _]. now inversion A.
Qed.
Lemma comp_add_top s p ts l F : forest s (l :: T p ts :: F) -> is_comp s p ->
  exists s', comp_add p (root l) true s = Ok s' tt /\ forest s' (T p (ts ++ [l]) :: F) /\ is_comp s' p /\
             (forall a, a <> p -> cell_at s' a = cell_at s a).
Proof.
  intros FO [gv C]. apply (forest_perm _ _ (T p ts :: l :: F)) in FO; [|apply perm_swap].
  pose proof (fo_at _ _ FO) as A. inversion A as [|? ? A1 A2]; subst. inversion A2 as [|? ? A3 A4]; subst.
  destruct (at_inv _ _ _ _ A1 C) as (D & W & K). cbn in W.
  unfold comp_add. rewrite C, (root_live s l A3). eexists; split; [reflexivity|].
  pose proof (set_freed s p (Some (CComp (gv ++ [(root l, true)]))) _ C) as CE. split; [|split].
  - eapply replace_top; [exact FO | exact C | apply fp_snoc | | | apply Forall_app; auto | exact A4 | exact I].
    + cbn [deleted_by] in *. rewrite filter_app, map_app, map_app, D. reflexivity.
    + cbn. rewrite forallb_app, W. reflexivity.
  - exists (gv ++ [(root l, true)]). rewrite CE, Nat.eqb_refl. reflexivity.
  - intros a N. rewrite CE. apply Nat.eqb_neq in N as ->. reflexivity.
Qed.
Lemma tcomp_add_top s p ts l F vt : forest s (l :: T p ts :: F) -> cell_at s p = Some (CTComp vt) ->
  exists s', tcomp_add p (root l) s = Ok s' tt /\ forest s' (T p (ts ++ [l]) :: F) /\ cell_at s' p = Some (CTComp (vt ++ [root l])) /\
             (forall a, a <> p -> cell_at s' a = cell_at s a).
Proof.
  intros FO C. apply (forest_perm _ _ (T p ts :: l :: F)) in FO; [|apply perm_swap].
  pose proof (fo_at _ _ FO) as A. inversion A as [|? ? A1 A2]; subst. inversion A2 as [|? ? A3 A4]; subst.
  destruct (at_inv _ _ _ _ A1 C) as (D & W & K).
  unfold tcomp_add. rewrite C, (root_live s l A3). eexists; split; [reflexivity|].
  pose proof (set_freed s p (Some (CTComp (vt ++ [root l]))) _ C) as CE. split; [|split].
  - eapply replace_top; [exact FO | exact C | apply fp_snoc | | exact I | apply Forall_app; auto | exact A4 | exact I].
    cbn [deleted_by] in *. rewrite map_app, D. reflexivity.
  - rewrite CE, Nat.eqb_refl. reflexivity.
  - intros a N. rewrite CE. apply Nat.eqb_neq in N as ->. reflexivity.
Qed.
Lemma comp_add_inner s p to comp ts l F o : forest s (l :: T p [to; T comp ts] :: F) -> cell_at s p = Some (CRounded comp o true) ->
  exists s', comp_add comp (root l) true s = Ok s' tt /\ forest s' (T p [to; T comp (ts ++ [l])] :: F) /\
             (forall a, a <> comp -> cell_at s' a = cell_at s a).
Proof.
  intros FO C. apply (forest_perm _ _ (T p [to; T comp ts] :: l :: F)) in FO; [|apply perm_swap].
  pose proof (fo_at _ _ FO) as A. inversion A as [|? ? A1 A2]; subst. inversion A2 as [|? ? A3 A4]; subst.
  destruct (at_inv _ _ _ _ A1 C) as (D & (_ & WO & gv & WC) & K). injection D as DO.
  inversion K as [|? ? KO K']; subst. inversion K' as [|? ? KC _]; subst.
  destruct (at_inv _ _ _ _ KC WC) as (D & W & KT). cbn in W.
  unfold comp_add. rewrite WC, (root_live s l A3).
  pose proof (set_freed s comp (Some (CComp (gv ++ [(root l, true)]))) _ WC) as CE.
  set (s' := set_cell s comp (Some (CComp (gv ++ [(root l, true)])))) in *.
  exists s'. split; [reflexivity|].
  assert (FR : forall a, a <> comp -> cell_at s' a = cell_at s a) by (intros a N; rewrite CE; apply Nat.eqb_neq in N as ->; reflexivity).
  split; [|exact FR].
  assert (PE : Permutation (fp (T p [to; T comp (ts ++ [l])] :: F)) (fp (T p [to; T comp ts] :: l :: F))).
  { unfold fp. cbn [flat_map addrs]. rewrite flat_map_app. cbn [flat_map]. rewrite !app_nil_r. cbn [app].
    apply perm_skip. rewrite <- !app_assoc. apply Permutation_app_head. cbn [app]. apply perm_skip. rewrite <- app_assoc. reflexivity. }
  destruct FO as [_ N L].
  assert (DJ : NoDup (comp :: p :: addrs to ++ fp ts ++ addrs l ++ fp F)).
  { eapply Permutation_NoDup; [|exact N]. unfold fp. cbn [flat_map addrs]. rewrite !app_nil_r. cbn [app].
    rewrite <- !app_assoc. rewrite perm_swap. apply perm_skip. cbn [app]. symmetry. apply Permutation_middle. }
  apply NoDup_cons_iff in DJ as [NC _].
  assert (SAME : forall t, at_ s t -> (forall a, In a (addrs t) -> In a (p :: addrs to ++ fp ts ++ addrs l ++ fp F)) -> at_ s' t).
  { intros t At I. apply at_same with s; [exact At|]. intros a Ia. apply FR. intros ->. apply NC, I, Ia. }
  split.
  - constructor.
    + apply at_node with (CRounded comp (root to) true).
      * rewrite FR; [exact C|]. intros ->. apply NC. left. reflexivity.
      * reflexivity.
      * split; [reflexivity|]. split.
        -- unfold is_orient. rewrite FR; [exact WO|]. intros E. apply NC. right. apply in_or_app. left. rewrite <- E. destruct to; left; reflexivity.
        -- exists (gv ++ [(root l, true)]). rewrite CE, Nat.eqb_refl. reflexivity.
      * repeat constructor.
        -- apply SAME; [exact KO|]. intros a Ia. right. apply in_or_app; auto.
        -- apply at_node with (CComp (gv ++ [(root l, true)])).
           ++ rewrite CE, Nat.eqb_refl. reflexivity.
           ++ cbn [deleted_by] in *. rewrite filter_app, map_app, map_app, D. reflexivity.
           ++ cbn. rewrite forallb_app, W. reflexivity.
           ++ apply Forall_app. split.
              ** rewrite Forall_forall in *. intros t It. apply SAME; [now apply KT|]. intros a Ia. right. apply in_or_app. right.
                 apply in_or_app. left. apply in_flat_map; eauto.
              ** constructor; [|constructor]. apply SAME; [exact A3|]. intros a Ia. right. apply in_or_app. right. apply in_or_app. right.
                 apply in_or_app; auto.
    + rewrite Forall_forall in *. intros t It. apply SAME; [now apply A4|]. intros a Ia. right. apply in_or_app. right. apply in_or_app. right.
      apply in_or_app. right. apply in_flat_map; eauto.
  - eapply Permutation_NoDup; [symmetry; exact PE | exact N].
  - intros a Ha. eapply Permutation_in; [symmetry; exact PE|]. apply L. apply live_cell in Ha as [x X]. rewrite CE in X. apply live_cell.
    destruct (Nat.eqb_spec a comp); [subst; eauto|eauto].
Qed.
