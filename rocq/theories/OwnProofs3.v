(** Proofs for OwnProps.v: corners, reading, histories *)
From Coq Require Import List Bool Arith Lia Permutation.
From Verif Require Import OwnModel OwnSpec OwnProofs OwnProofs2.
Import ListNotations.

Lemma keepx_fresh s s2 s3 c : keeps s s2 -> keepx (eq c) s2 s3 -> live s c = false -> keeps s s3.
Proof.
  intros A B N a H. rewrite B; [now apply A | eapply keeps_live; eauto | congruence].
Qed.
Lemma p_ne_comp s p to comp ts F : forest s (T p [to; T comp ts] :: F) -> p <> comp.
Proof.
  intros [_ N _] ->. unfold fp in N. cbn [flat_map addrs] in N. apply NoDup_cons_iff in N as [N _]. apply N.
  apply in_or_app. left. apply in_or_app. right. left. reflexivity.
Qed.
Lemma rounded_children s p ts F comp o : forest s (T p ts :: F) -> cell_at s p = Some (CRounded comp o true) ->
  exists to tsc, ts = [to; T comp tsc] /\ root to = o /\ is_orient s o.
Proof.
  intros FO C. destruct (at_inv _ _ _ _ (forest_head _ _ _ FO) C) as (D & (_ & O & _) & _). cbn in D.
  destruct ts as [|to [|[q tsc] [|]]]; try discriminate D. injection D as EO EC. cbn in EC. subst. eauto.
Qed.
Lemma fp_inner p to comp ts ts' F : incl (fp ts) (fp ts') -> incl (fp (T p [to; T comp ts] :: F)) (fp (T p [to; T comp ts'] :: F)).
Proof.
  intros I a H. unfold fp in *. cbn [flat_map addrs] in *. rewrite !app_nil_r in *. cbn [app] in *. destruct H as [H|H]; [left; exact H|right].
  rewrite in_app_iff in *. destruct H as [H|H]; [left|right; exact H]. rewrite in_app_iff in *. destruct H as [H|H]; [left; exact H|right].
  destruct H as [H|H]; [left; exact H|right]. now apply I.
Qed.
Lemma incl_skip (t : tree) F : incl (fp F) (fp (t :: F)).
Proof.
  intros a I. change (In a (addrs t ++ fp F)). apply in_or_app; auto.
Qed.
Lemma incl_perm F F' : Permutation F F' -> incl (fp F) (fp F').
Proof.
  intros P a. apply Permutation_in. now apply fp_perm.
Qed.

Section Own.
Variable thr : nat -> bool.
Variable rf : bool.

Lemma Clone_ok s t F : at_ s t -> NoDup (addrs t) -> forest s F -> cl_post s t F (Clone thr rf (root t) s).
Proof.
  intros A N FO. apply clone_ok; [|exact A|exact FO]. pose proof (addrs_le s t A N). lia.
Qed.
Lemma clone_orient s o F : is_orient s o -> forest s F ->
  exists s' t', Clone thr rf o s = Ok s' (root t') /\ forest s' (t' :: F) /\ keeps s s' /\ is_orient s' (root t').
Proof.
  intros O FO. unfold Clone. cbn [clone]. unfold is_orient in O. rewrite O.
  destruct (alloc_leaf s COrient F FO eq_refl I) as (s' & q & E & F' & K & _ & C). exists s', (T q []). auto.
Qed.
Lemma orient_line s o F : is_orient s o -> forest s F ->
  exists s' l, bind (Clone thr rf o s) (fun s o' => new_line o' true s) = Ok s' (root l) /\ forest s' (l :: F) /\ keeps s s'.
Proof.
  intros O FO. destruct (clone_orient s o F O FO) as (s1 & t1 & E1 & F1 & K1 & O1). rewrite E1. cbn [bind].
  destruct (new_line_ok s1 t1 F F1 O1) as (s2 & l & E2 & F2 & K2 & _). rewrite E2. exists s2, (T l [t1]). split; [reflexivity|].
  split; [exact F2|]. eapply keeps_trans; eauto.
Qed.
Lemma bind_bind {A B C} (x : res A) (f : state -> A -> res B) (g : state -> B -> res C) :
  bind x (fun s a => bind (f s a) g) = bind (bind x f) g.
Proof.
  destruct x; reflexivity.
Qed.
Lemma rounded_line_ok s p to comp ts F o : forest s (T p [to; T comp ts] :: F) -> cell_at s p = Some (CRounded comp o true) ->
  exists s' ts', rounded_line thr rf comp o s = Ok s' tt /\ forest s' (T p [to; T comp ts'] :: F) /\ keepx (eq comp) s s' /\
    incl (fp ts) (fp ts') /\ cell_at s' p = Some (CRounded comp o true).
Proof.
  intros FO C. destruct (rounded_children _ _ _ _ _ _ FO C) as (? & ? & _ & _ & O). unfold rounded_line.
  rewrite bind_bind. destruct (orient_line s o _ O FO) as (s1 & l & E1 & F1 & K1). rewrite E1. cbn [bind].
  destruct (comp_add_inner s1 p to comp ts l F o F1 (keeps_cell _ _ _ _ K1 C)) as (s2 & E2 & F2 & K2). rewrite E2.
  exists s2, (ts ++ [l]). split; [reflexivity|]. split; [exact F2|]. split; [|split].
  - intros a Ha N. rewrite K2 by congruence. now apply K1.
  - intros a I. rewrite fp_app. apply in_or_app; auto.
  - rewrite K2 by (eapply p_ne_comp; eauto). eapply keeps_cell; eauto.
Qed.
Definition rpost {A} (s : state) (p : addr) (to : tree) (comp o : addr) (F : list tree) (x : res A) : Prop :=
  match x with
  | Ok s' _ => exists ts', forest s' (T p [to; T comp ts'] :: F) /\ keepx (eq comp) s s' /\ cell_at s' p = Some (CRounded comp o true)
  | Throw s' => exists ts', forest s' (T p [to; T comp ts'] :: F) /\ keepx (eq comp) s s' /\ cell_at s' p = Some (CRounded comp o true)
  | _ => False
  end.
Lemma new_circle_keepx X s0 F0 s t F : forest s0 F0 -> keepx X s0 s -> forest s (t :: F) -> is_orient s (root t) -> incl (fp F0) (fp F) ->
  match new_circle thr (root t) true s with
  | Ok s' c => exists t', root t' = c /\ forest s' (t' :: F) /\ keeps s s'
  | Throw s' => forest s' F /\ keepx X s0 s'
  | _ => False
  end.
Proof.
  intros F00 K FO O IN. pose proof (new_circle_ok thr s t F FO O) as H.
  destruct (new_circle thr (root t) true s) as [s' c|s'| |]; try contradiction.
  { destruct H as (t' & A & B & D & _). eauto. }
  destruct H as [F' K']. split; [exact F'|].
  intros a Ha N. rewrite K'; [now apply K|]. intros ->. pose proof (fo_nd _ _ FO) as ND. change (fp (t :: F)) with (addrs t ++ fp F) in ND.
  apply NoDup_app_l in ND as (_ & _ & DJ). apply (DJ (root t)); [destruct t; left; reflexivity|]. apply IN, F00, Ha.
Qed.
Lemma keepx_refl X s : keepx X s s.
Proof.
  intros a _ _. reflexivity.
Qed.
Lemma rounded_add_ok s p to comp ts F o k : forest s (T p [to; T comp ts] :: F) -> cell_at s p = Some (CRounded comp o true) ->
  rpost s p to comp o F (rounded_add thr rf p k s).
Proof.
  intros FO C. unfold rounded_add. rewrite C. destruct k.
  - exists ts. split; [exact FO|]. split; [apply keepx_refl|exact C].
  - exists ts. split; [exact FO|]. split; [apply keepx_refl|exact C].
  - destruct (rounded_line_ok _ _ _ _ _ _ _ FO C) as (s' & ts' & E & F' & K & _ & C'). rewrite E. exists ts'. auto.
  - pose proof (p_ne_comp _ _ _ _ _ _ FO) as NE.
    destruct (rounded_children _ _ _ _ _ _ FO C) as (? & ? & _ & _ & O).
    rewrite bind_bind. destruct (orient_line s o _ O FO) as (s1 & l1 & E1 & F1 & K1). rewrite E1. cbn [bind].
    assert (O1 : is_orient s1 o) by (eapply keeps_orient; eauto).
    rewrite bind_bind. destruct (orient_line s1 o _ O1 F1) as (s2 & l2 & E2 & F2 & K2). rewrite E2. cbn [bind].
    assert (K02 : keeps s s2) by (eapply keeps_trans; eauto).
    assert (F2' : forest s2 (T p [to; T comp ts] :: l2 :: l1 :: F)).
    { eapply forest_perm; [|exact F2]. rewrite (perm_swap (T p [to; T comp ts]) l1), (perm_swap (T p [to; T comp ts]) l2). reflexivity. }
    destruct (rounded_line_ok _ _ _ _ _ _ _ F2' (keeps_cell _ _ _ _ K02 C)) as (s3 & ts3 & E3 & F3 & K3 & I3 & C3). rewrite E3. cbn [bind].
    assert (K03 : keepx (eq comp) s s3) by (eapply keepx_trans; [apply keeps_keepx; exact K02|exact K3]).
    destruct (rounded_children _ _ _ _ _ _ F3 C3) as (? & ? & _ & _ & O3).
    destruct (clone_orient s3 o _ O3 F3) as (s4 & o4 & E4 & F4 & K4 & O4). rewrite E4. cbn [bind].
    assert (K04 : keepx (eq comp) s s4) by (eapply keepx_trans; [exact K03|apply keeps_keepx; exact K4]).
    assert (IN : forall ts', incl (fp ts3) (fp ts') -> incl (fp (T p [to; T comp ts] :: F)) (fp (T p [to; T comp ts'] :: F))).
    { intros ts' I. apply fp_inner. intros a Ha. apply I, I3, Ha. }
    assert (IN2 : forall ts', incl (fp ts3) (fp ts') -> incl (fp (T p [to; T comp ts] :: F)) (fp (l1 :: T p [to; T comp ts'] :: F))).
    { intros ts' I a Ha. apply incl_skip, (IN ts' I), Ha. }
    assert (IN3 : forall ts', incl (fp ts3) (fp ts') -> incl (fp (T p [to; T comp ts] :: F)) (fp (T p [to; T comp ts'] :: l2 :: l1 :: F))).
    { intros ts' I a Ha. eapply incl_perm; [|apply (incl_skip l2), (IN2 ts' I), Ha].
      rewrite (perm_swap (T p [to; T comp ts']) l1), (perm_swap (T p [to; T comp ts']) l2). reflexivity. }
    pose proof (new_circle_keepx (eq comp) s _ s4 o4 _ FO K04 F4 O4 (IN3 ts3 (incl_refl _))) as N.
    assert (FIN : forall s5 ts5, incl (fp ts3) (fp ts5) -> forest s5 (T p [to; T comp ts5] :: l2 :: l1 :: F) -> keepx (eq comp) s s5 ->
      exists s6, delete (root l2) s5 = Ok s6 tt /\ exists s7, delete (root l1) s6 = Ok s7 tt /\ forest s7 (T p [to; T comp ts5] :: F) /\
        keepx (eq comp) s s7 /\ cell_at s7 p = Some (CRounded comp o true)).
    { intros s5 ts5 I5 F5 K5. apply (forest_perm _ _ (l2 :: l1 :: T p [to; T comp ts5] :: F)) in F5.
      2:{ rewrite (perm_swap (T p [to; T comp ts5]) l1), (perm_swap (T p [to; T comp ts5]) l2). reflexivity. }
      destruct (delete_keepx _ _ _ _ _ _ FO K5 F5 (IN2 ts5 I5)) as (s6 & E6 & F6 & K6). exists s6. split; [exact E6|].
      destruct (delete_keepx _ _ _ _ _ _ FO K6 F6 (IN ts5 I5)) as (s7 & E7 & F7 & K7). exists s7. split; [exact E7|].
      split; [exact F7|]. split; [exact K7|]. rewrite K7; [exact C | apply live_cell; eauto | congruence]. }
    destruct (new_circle thr (root o4) true s4) as [s5 c|s5| |]; try contradiction.
    + destruct N as (t' & <- & F5 & K5). assert (C5 : cell_at s5 p = Some (CRounded comp o true)) by (eapply keeps_cell; [exact K5|]; eapply keeps_cell; eauto).
      destruct (comp_add_inner s5 p to comp ts3 t' _ o F5 C5) as (s6 & E6 & F6 & K6). rewrite E6. cbn [bind].
      destruct (FIN s6 (ts3 ++ [t'])) as (s7 & E7 & s8 & E8 & F8 & K8 & C8).
      * intros a I. rewrite fp_app. apply in_or_app; auto.
      * exact F6.
      * intros a Ha Na. rewrite K6 by congruence. rewrite K5; [now apply K04|]. eapply keepx_live; eauto.
      * rewrite E7. cbn [bind]. rewrite E8. exists (ts3 ++ [t']). auto.
    + destruct N as [F5 K5]. destruct (FIN s5 ts3 (incl_refl _) F5 K5) as (s7 & E7 & s8 & E8 & F8 & K8 & C8). rewrite E7. cbn [bind].
      unfold delete_throw. rewrite E8. exists ts3. auto.
Qed.
Lemma rounded_finish_ok s p to comp ts F o b : forest s (T p [to; T comp ts] :: F) -> cell_at s p = Some (CRounded comp o true) ->
  rpost s p to comp o F (rounded_finish thr rf p b s).
Proof.
  intros FO C. unfold rounded_finish. rewrite C. destruct b.
  - destruct (rounded_line_ok _ _ _ _ _ _ _ FO C) as (s' & ts' & E & F' & K & _ & C'). rewrite E. exists ts'. auto.
  - exists ts. split; [exact FO|]. split; [apply keepx_refl|exact C].
Qed.
Lemma rounded_points_ok p to comp F o l : forall s ts, forest s (T p [to; T comp ts] :: F) -> cell_at s p = Some (CRounded comp o true) ->
  rpost s p to comp o F (rounded_points thr rf p l s).
Proof.
  induction l as [|[b k] l IH]; intros s ts FO C; cbn [rounded_points].
  - exists ts. split; [exact FO|]. split; [apply keepx_refl|exact C].
  - destruct b.
    + pose proof (rounded_add_ok s p to comp ts F o k FO C) as H. destruct (rounded_add thr rf p k s) as [s1 []|s1| |]; cbn [bind]; try contradiction; [|exact H].
      destruct H as (ts1 & F1 & K1 & C1). specialize (IH s1 ts1 F1 C1). unfold rpost in *.
      destruct (rounded_points thr rf p l s1) as [s2 []|s2| |]; try contradiction; destruct IH as (ts2 & F2 & K2 & C2); exists ts2;
        (split; [exact F2|]; split; [eapply keepx_trans; eauto|exact C2]).
    + exists ts. split; [exact FO|]. split; [apply keepx_refl|exact C].
Qed.
Lemma new_rounded_ok s t F e : forest s (t :: F) -> is_orient s (root t) ->
  match new_rounded (root t) true e s with
  | Ok s' p => exists comp, forest s' (T p [t; T comp []] :: F) /\ keeps s s' /\ cell_at s' p = Some (CRounded comp (root t) true) /\
                 live s p = false /\ live s comp = false
  | Throw s' => e = false /\ exists c, forest s' (c :: t :: F) /\ keeps s s'
  | _ => False
  end.
Proof.
  intros FO O. unfold new_rounded. destruct (alloc_leaf s (CComp []) _ FO eq_refl eq_refl) as (s1 & c & E1 & F1 & K1 & N1 & C1). rewrite E1. cbn [bind].
  destruct e.
  - assert (F1' : forest s1 ([t; T c []] ++ F)) by (eapply forest_perm; [apply perm_swap|exact F1]).
    destruct (alloc_own s1 (CRounded c (root t) true) [t; T c []] F F1' eq_refl) as (s2 & p & E2 & F2 & K2 & N2 & C2).
    { split; [reflexivity|]. split; [eapply keeps_orient; eauto|]. exists []; exact C1. }
    rewrite E2. exists c. split; [exact F2|]. split; [eapply keeps_trans; eauto|]. split; [exact C2|]. split; [|exact N1].
    destruct (live s p) eqn:L; [|reflexivity]. rewrite (keeps_live _ _ _ K1 L) in N2. discriminate.
  - split; [reflexivity|]. exists (T c []). auto.
Qed.

Definition rd_post (s : state) (F : list tree) (P : Prop) (x : res addr) : Prop :=
  match x with
  | Ok s' p => exists t', root t' = p /\ forest s' (t' :: F) /\ keeps s s'
  | Throw s' => exists G, forest s' (G ++ F) /\ keeps s s' /\ (P -> G = [])
  | _ => False
  end.
Lemma rd_throw s F P : forest s F -> rd_post s F P (Throw s).
Proof.
  intros FO. exists []. split; [exact FO|]. split; [apply keeps_refl|reflexivity].
Qed.
Lemma rd_delete s0 s t F P : forest s0 F -> keeps s0 s -> forest s (t :: F) -> rd_post s0 F P (delete_throw (root t) s).
Proof.
  intros F0 K FO. destruct (delete_keeps s0 s t F F F0 K FO (incl_refl _)) as (s' & E & F' & K'). unfold delete_throw. rewrite E. cbn [bind].
  exists []. auto.
Qed.
Fixpoint text_ind' (P : text -> Prop) (H0 : P TBad) (H1 : forall b, P (TPoint b)) (H2 : forall a b c, P (TLine a b c))
  (H3 : forall a b c, P (TCircle a b c)) (H4 : forall a b c d e f, P (TRounded a b c d e f))
  (H5 : forall a l b, Forall P l -> P (TComp a l b)) (H6 : forall t b, P t -> P (TCyclic t b)) (t : text) : P t :=
  match t with
  | TBad => H0 | TPoint b => H1 b | TLine a b c => H2 a b c | TCircle a b c => H3 a b c | TRounded a b c d e f => H4 a b c d e f
  | TComp a l b => H5 a l b ((fix go (l : list text) : Forall P l := match l with [] => Forall_nil P
      | t :: r => Forall_cons t (text_ind' P H0 H1 H2 H3 H4 H5 H6 t) (go r) end) l)
  | TCyclic t b => H6 t b (text_ind' P H0 H1 H2 H3 H4 H5 H6 t)
  end.
Lemma read_orient_ok b s F : forest s F ->
  match read_orient b s with
  | Ok s' o => exists t, root t = o /\ forest s' (t :: F) /\ keeps s s' /\ is_orient s' o
  | Throw s' => s' = s
  | _ => False
  end.
Proof.
  intros FO. unfold read_orient. destruct b; [|reflexivity].
  destruct (alloc_leaf s COrient F FO eq_refl I) as (s' & q & E & F' & K & _ & C). rewrite E. exists (T q []). auto.
Qed.
Lemma read_path_ok t : forall s F, forest s F -> rd_post s F (text_ok t) (read_path thr rf t s).
Proof.
  induction t as [ |b|a b c|a b c|a b e pts h c|a l b IH|t b IH] using text_ind'; intros s F FO; cbn [read_path].
  - now apply rd_throw.
  - destruct b; [|now apply rd_throw]. destruct (alloc_leaf s CPoint F FO eq_refl I) as (s' & q & E & F' & K & _). rewrite E. exists (T q []). auto.
  - destruct a; [|now apply rd_throw]. pose proof (read_orient_ok b s F FO) as H.
    destruct (read_orient b s) as [s1 o|s1| |]; cbn [bind]; try contradiction; [|subst; now apply rd_throw].
    destruct H as (to & <- & F1 & K1 & O1). destruct c; [|now apply (rd_delete s s1)].
    destruct (new_line_ok s1 to F F1 O1) as (s2 & q & E & F2 & K2 & _). rewrite E. exists (T q [to]). split; [reflexivity|]. split; [exact F2|]. eapply keeps_trans; eauto.
  - destruct a; [|now apply rd_throw]. pose proof (read_orient_ok b s F FO) as H.
    destruct (read_orient b s) as [s1 o|s1| |]; cbn [bind]; try contradiction; [|subst; now apply rd_throw].
    destruct H as (to & <- & F1 & K1 & O1). destruct c; [|now apply (rd_delete s s1)].
    pose proof (new_circle_keepx (fun _ => False) s F s1 to F FO (keeps_keepx _ _ _ K1) F1 O1 (incl_refl _)) as N.
    destruct (new_circle thr (root to) true s1) as [s2 q|s2| |]; try contradiction.
    + destruct N as (t' & <- & F2 & K2). exists t'. split; [reflexivity|]. split; [exact F2|]. eapply keeps_trans; eauto.
    + destruct N as [F2 K2]. exists []. split; [exact F2|]. split; [now apply keepx_keeps|reflexivity].
  - destruct a; [|now apply rd_throw]. pose proof (read_orient_ok b s F FO) as H.
    destruct (read_orient b s) as [s1 o|s1| |]; cbn [bind]; try contradiction; [|subst; now apply rd_throw].
    destruct H as (to & <- & F1 & K1 & O1). pose proof (new_rounded_ok s1 to F e F1 O1) as N.
    destruct (new_rounded (root to) true e s1) as [s2 p|s2| |]; cbn [bind]; try contradiction.
    + destruct N as (comp & F2 & K2 & C2 & NP & NC).
      assert (K02 : keeps s s2) by (eapply keeps_trans; eauto).
      assert (NC0 : live s comp = false) by (destruct (live s comp) eqn:L; [rewrite (keeps_live _ _ _ K1 L) in NC; discriminate | reflexivity]).
      pose proof (rounded_points_ok p to comp F (root to) pts s2 [] F2 C2) as R. unfold scoped at 1.
      destruct (rounded_points thr rf p pts s2) as [s3 []|s3| |]; try contradiction; destruct R as (ts3 & F3 & K3 & C3);
        (assert (K03 : keeps s s3) by (eapply keepx_fresh; eauto)).
      * pose proof (rounded_finish_ok s3 p to comp ts3 F (root to) h F3 C3) as R. unfold scoped.
        destruct (rounded_finish thr rf p h s3) as [s4 []|s4| |]; try contradiction; destruct R as (ts4 & F4 & K4 & C4);
          (assert (K04 : keeps s s4) by (eapply keepx_fresh; eauto)).
        -- destruct c; [|now apply (rd_delete s s4 _ F _ FO K04 F4)].
           exists (T p [to; T comp ts4]). auto.
        -- now apply (rd_delete s s4 _ F _ FO K04 F4).
      * now apply (rd_delete s s3 _ F _ FO K03 F3).
    + destruct N as (-> & cc & F2 & K2). exists [cc; to]. split; [exact F2|]. split; [eapply keeps_trans; eauto|]. cbn. discriminate.
  - destruct (alloc_leaf s (CComp []) F FO eq_refl eq_refl) as (s1 & p & E1 & F1 & K1 & N1 & C1). rewrite E1. cbn [bind].
    destruct a; [|now apply (rd_delete s s1 _ F _ FO K1 F1)].
    assert (IC : is_comp s1 p) by (exists []; exact C1). clear C1 E1.
    cbn [text_ok]. assert (F1' : exists ts, forest s1 (T p ts :: F)) by eauto. destruct F1' as [ts F1']. clear F1.
    revert s1 ts F1' K1 IC. induction l as [|t l IHl]; intros s1 ts F1 K1 IC.
    + destruct b; [|now apply (rd_delete s s1 _ F _ FO K1 F1)]. exists (T p ts). auto.
    + inversion IH as [|? ? I1 I2]; subst. unfold scoped at 1. specialize (I1 s1 (T p ts :: F) F1). unfold rd_post in I1.
      destruct (read_path thr rf t s1) as [s2 g|s2| |]; try contradiction.
      * destruct I1 as (t' & <- & F2 & K2). destruct (comp_add_top s2 p ts t' F F2 (keeps_comp _ _ _ K2 IC)) as (s3 & E3 & F3 & C3 & K3).
        unfold scoped at 1. rewrite E3.
        assert (K03 : keeps s s3).
        { intros a Ha. rewrite K3 by (eapply live_ne; eauto). rewrite K2; [now apply K1|]. eapply keeps_live; eauto. }
        specialize (IHl I2 s3 _ F3 K03 C3). cbn [fold_right]. unfold rd_post in *.
        match type of IHl with match ?x with _ => _ end => change (match x with
          | Ok s' p => exists t', root t' = p /\ forest s' (t' :: F) /\ keeps s s'
          | Throw s' => exists G, forest s' (G ++ F) /\ keeps s s' /\ (text_ok t /\ fold_right (fun t P => text_ok t /\ P) True l -> G = [])
          | _ => False end); destruct x as [s4 q|s4| |]; try contradiction; [exact IHl|] end.
        destruct IHl as (G & F4 & K4 & G4). exists G. split; [exact F4|]. split; [exact K4|]. tauto.
      * destruct I1 as (G & F2 & K2 & G2). apply (forest_perm _ _ (T p ts :: G ++ F)) in F2; [|symmetry; apply Permutation_middle].
        destruct (delete_keeps s s2 (T p ts) F (G ++ F) FO (keeps_trans _ _ _ K1 K2) F2) as (s3 & E3 & F3 & K3); [apply (incl_mid G F (T p []))|].
        unfold delete_throw. cbn [root] in E3. rewrite E3. cbn [bind]. exists G. split; [exact F3|]. split; [exact K3|]. cbn [fold_right]. tauto.
  - specialize (IH s F FO). unfold rd_post in IH. destruct (read_path thr rf t s) as [s1 g|s1| |]; cbn [bind]; try contradiction; [|exact IH].
    destruct IH as (t' & <- & F1 & K1). destruct b; [|now apply (rd_delete s s1)].
    destruct (alloc_own s1 (CCyclic (root t') true) [t'] F F1 eq_refl eq_refl) as (s2 & q & E & F2 & K2 & _). rewrite E.
    exists (T q [t']). split; [reflexivity|]. split; [exact F2|]. eapply keeps_trans; eauto.
Qed.
Lemma read_traj_ok ok t pok rok s F : forest s F -> rd_post s F (text_ok t) (read_trajectory thr rf ok t pok rok s).
Proof.
  intros FO. unfold read_trajectory. destruct ok; [|now apply rd_throw].
  pose proof (read_path_ok t s F FO) as H. unfold rd_post in H. destruct (read_path thr rf t s) as [s1 g|s1| |]; cbn [bind]; try contradiction; [|exact H].
  destruct H as (t' & <- & F1 & K1). unfold scoped. destruct pok; [|now apply (rd_delete s s1)].
  destruct (alloc_leaf s1 CProf _ F1 eq_refl I) as (s2 & m & E2 & F2 & K2 & _). rewrite E2.
  assert (K02 : keeps s s2) by (eapply keeps_trans; eauto). destruct rok.
  - destruct (alloc_own s2 (CTSeg (root t') m true) [T m []; t'] F F2 eq_refl eq_refl) as (s3 & q & E & F3 & K3 & _). rewrite E.
    exists (T q [T m []; t']). split; [reflexivity|]. split; [exact F3|]. eapply keeps_trans; eauto.
  - destruct (delete_keeps s s2 (T m []) F (t' :: F) FO K02 F2 (incl_skip _ _)) as (s3 & E & F3 & K3). cbn [root] in E. rewrite E. cbn [bind].
    now apply (rd_delete s s3).
Qed.
End Own.
