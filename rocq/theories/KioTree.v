(** Proofs about the text of trees (C75). *)
From Coq Require Import Reals ZArith Ascii String List Bool Permutation Arith Lia.
From Verif Require Import FramesModel Outcome InertiaModel DualModel KinModel KinSpec PathModel IoModel IoSpec IoNum TreeModel TreeSpec
  TreeProofs TreeCopyProofs TreeNumProofs KioModel KioSpec.
Import ListNotations.
Local Open Scope char_scope.
Local Open Scope list_scope.
Local Open Scope nat_scope.

(** *** texts *)
Lemma lit_inj a : forall b, lit a = lit b -> a = b.
Proof.
  intros b H. rewrite <- (string_of_list_ascii_of_string a), <- (string_of_list_ascii_of_string b). unfold lit in H. rewrite H. reflexivity.
Qed.
Lemma split_at (c : ascii) a : forall b x y, ~ In c a -> ~ In c b -> a ++ c :: x = b ++ c :: y -> a = b /\ x = y.
Proof.
  induction a as [|d a IH]; intros [|e b] x y Na Nb E; cbn in *.
  - injection E as E. auto.
  - injection E as E1 _. exfalso. apply Nb. left. auto.
  - injection E as E1 _. exfalso. apply Na. left. auto.
  - injection E as E1 E2. destruct (IH b x y) as [F G]; auto. subst. auto.
Qed.
Lemma no_digit c k : digits_text k -> ~ In c ["0"; "1"; "2"; "3"; "4"; "5"; "6"; "7"; "8"; "9"] -> ~ In c k.
Proof. intros D N I. apply N. apply D. exact I. Qed.
Lemma strip_leading_zero t : forall r, strip_leading t = "0" :: r -> r = [].
Proof.
  induction t as [|c t IH]; intros r; cbn [strip_leading]; [discriminate|]. destruct t as [|d t].
  - intros E. injection E as _ E. auto.
  - destruct (Ascii.eqb_spec c "0") as [E|E]; [apply IH|]. intros F. injection F as F _. contradiction.
Qed.
Lemma decimal_fmt n : decimal n (fmt_nat (Z.of_nat n)).
Proof.
  destruct (fmt_nat_spec (Z.of_nat n)) as (A & B & C); [lia|]. repeat split; auto. intros r. apply strip_leading_zero.
Qed.
(** the head of a line can be taken off the text *)
Lemma head_inj a b ka kb na nb x y : ~ In "(" (lit a) -> ~ In "(" (lit b) -> decimal na ka -> decimal nb kb ->
  lit a ++ lit "(q_nr: " ++ ka ++ lit ")" ++ x = lit b ++ lit "(q_nr: " ++ kb ++ lit ")" ++ y -> a = b /\ na = nb /\ x = y.
Proof.
  intros Na Nb (Da & Va & _) (Db & Vb & _) E. cbn [lit list_ascii_of_string app] in E.
  apply split_at in E; auto. destruct E as [E1 E2]. injection E2 as E2. change (list_ascii_of_string a) with (lit a) in E1.
  apply split_at in E2.
  - destruct E2 as [E2 E3]. split; [apply lit_inj; exact E1|]. split; [|exact E3]. subst. lia.
  - apply no_digit; [exact Da|]. cbn. intuition discriminate.
  - apply no_digit; [exact Db|]. cbn. intuition discriminate.
Qed.

(** *** the recursions, as functions *)
Section One.
Variable t : Tree.
Hypothesis W : tree_wf t.
Variable rank : string -> nat.
Hypothesis R1 : forall n e p, tfind t n = Some e -> te_parent e = Some p -> rank p < rank n.
Hypothesis R2 : forall n e, tfind t n = Some e -> rank n < length (tr_segs t).
Lemma kids n e : tfind t n = Some e -> forall c, In c (te_children e) -> exists ce, tfind t c = Some ce /\ te_parent ce = Some n.
Proof. intros E c H. eapply wf_children; eauto. Qed.

Lemma tree2str_lines sep pre : forall f n e d, tfind t n = Some e -> length (tr_segs t) <= rank n + f ->
  exists l ls, listed t d [n] l /\ Forall2 (line_of sep pre) l ls /\ tree2str_it f t n sep pre d = Ret (concat ls).
Proof.
  induction f as [|f IH]; intros n e d E L. { specialize (R2 _ _ E). lia. }
  pose proof (kids n e E) as Hc.
  set (h := pre ++ concat (repeat sep d) ++ lit n ++ lit "(q_nr: " ++ fmt_nat (Z.of_nat (te_qnr e)) ++ lit ")" ++ [nl]).
  assert (Hl : exists l ls, listed t (S d) (te_children e) l /\ Forall2 (line_of sep pre) l ls /\ forall out,
     (fix loop (cs : list string) (out : text) : outcome text :=
             match cs with
             | [] => Ret out
             | c :: cs' => let! x := tree2str_it f t c sep pre (S d) in loop cs' (out ++ x)
             end) (te_children e) out = Ret (out ++ concat ls)).
  { revert Hc. generalize (te_children e) as cs. induction cs as [|c cs IHc]; intros Hc.
    - exists [], []. split; [constructor|]. split; [constructor|]. intros out. cbn. rewrite app_nil_r. reflexivity.
    - destruct (Hc c (or_introl eq_refl)) as (ce & Hce & Hp).
      destruct IHc as (l2 & ls2 & A2 & B2 & C2); [intros c' H'; apply Hc; right; exact H'|].
      destruct (IH c ce (S d) Hce) as (l1 & ls1 & A1 & B1 & C1). { specialize (R1 _ _ _ Hce Hp). lia. }
      exists (l1 ++ l2), (ls1 ++ ls2). split.
      + inversion A1 as [|d' c' e' cs' a b Fe Fa Fb]; subst. inversion Fb; subst. rewrite app_nil_r. cbn [app]. constructor; auto.
      + split; [apply Forall2_app; auto|]. intros out. rewrite C1. cbn [obind]. rewrite C2, concat_app, app_assoc. reflexivity. }
  destruct Hl as (l & ls & A & B & C). exists (mkEntry d n (te_qnr e) :: l ++ []), (h :: ls). split.
  { constructor; auto. constructor. }
  split.
  { rewrite app_nil_r. constructor; auto. exists (fmt_nat (Z.of_nat (te_qnr e))). split; [apply decimal_fmt|reflexivity]. }
  cbn [tree2str_it]. rewrite E. rewrite C. reflexivity.
Qed.
Lemma write_nested : forall f n e, tfind t n = Some e -> length (tr_segs t) <= rank n + f ->
  exists k a, decimal (te_qnr e) k /\ nested t (te_children e) a /\
    write_SegmentIt f t n = Ret (lit n ++ lit "(q_nr: " ++ k ++ lit ")" ++ [nl] ++ lit " " ++ [tab] ++ a ++ [nl]).
Proof.
  induction f as [|f IH]; intros n e E L. { specialize (R2 _ _ E). lia. }
  pose proof (kids n e E) as Hc.
  set (k := fmt_nat (Z.of_nat (te_qnr e))).
  set (h := lit n ++ lit "(q_nr: " ++ k ++ lit ")" ++ [nl] ++ lit " " ++ [tab]).
  assert (Hl : exists a, nested t (te_children e) a /\ forall out,
     (fix loop (cs : list string) (out : text) : outcome text :=
             match cs with
             | [] => Ret out
             | c :: cs' => let! x := write_SegmentIt f t c in loop cs' (out ++ x ++ [tab])
             end) (te_children e) out = Ret (out ++ a)).
  { revert Hc. generalize (te_children e) as cs. induction cs as [|c cs IHc]; intros Hc.
    - exists []. split; [constructor|]. intros out. rewrite app_nil_r. reflexivity.
    - destruct (Hc c (or_introl eq_refl)) as (ce & Hce & Hp).
      destruct IHc as (b & A2 & C2); [intros c' H'; apply Hc; right; exact H'|].
      destruct (IH c ce Hce) as (kc & a & A1 & B1 & C1). { specialize (R1 _ _ _ Hce Hp). lia. }
      eexists. split; [eapply ne_cons; eauto|]. intros out. rewrite C1. cbn [obind]. rewrite C2. f_equal.
      rewrite <- !app_assoc. reflexivity. }
  destruct Hl as (a & A & C). exists k, a. split; [apply decimal_fmt|]. split; [exact A|].
  cbn [write_SegmentIt]. rewrite E. fold k. fold h. rewrite C. cbn [obind]. unfold h. rewrite <- !app_assoc. reflexivity.
Qed.
End One.

Lemma tree2str_listed t sep pre : reachable t -> exists l ls, listed t 0 [tr_root t] l /\ Forall2 (line_of sep pre) l ls /\
  tree2str t sep pre = Ret (concat ls).
Proof.
  intros H. apply reachable_inv in H. destruct (tinv_root _ H) as [cs E]. destruct H as [W (rank & R1 & R2)].
  eapply tree2str_lines; eauto. lia.
Qed.
Lemma tree_nested t : reachable t -> exists e k a, tfind t (tr_root t) = Some e /\ decimal (te_qnr e) k /\ nested t (te_children e) a /\
  write_Tree t = Ret (lit (tr_root t) ++ lit "(q_nr: " ++ k ++ lit ")" ++ [nl] ++ lit " " ++ [tab] ++ a ++ [nl]).
Proof.
  intros H. apply reachable_inv in H. destruct (tinv_root _ H) as [cs E]. destruct H as [W (rank & R1 & R2)].
  destruct (write_nested t W rank R1 R2 (length (tr_segs t)) (tr_root t) _ E) as (k & a & A & B & C); [lia|]. eauto 10.
Qed.

(** *** every segment once, at its depth *)
Lemma listed_preorder t d cs l : listed t d cs l -> preorder t cs (map en_name l).
Proof. induction 1; cbn; [constructor|]. rewrite map_app. econstructor; eauto. Qed.
Lemma listed_all t l : reachable t -> listed t 0 [tr_root t] l -> Permutation (map en_name l) (names t).
Proof.
  intros H L. apply reachable_inv in H. destruct (copy_form _ H) as (cs & fo & E & Fo & ND & NR & _).
  apply listed_preorder in L. rewrite (preorder_fun _ _ _ L _ (preorder_root _ _ _ H E (forest_preorder _ _ _ Fo))).
  apply NoDup_Permutation.
  - constructor; auto.
  - apply (wf_unique _ (proj1 H)).
  - intros n. rewrite (forest_names_all _ _ _ H E Fo). cbn. intuition.
Qed.
Lemma listed_sound t d cs l : tree_wf t -> listed t d cs l ->
  (forall c, In c cs -> exists up, walk_up t c (tr_root t) up /\ length up = d) ->
  forall x, In x l -> exists e up, tfind t (en_name x) = Some e /\ te_qnr e = en_qnr x /\
    walk_up t (en_name x) (tr_root t) up /\ length up = en_level x.
Proof.
  intros W. induction 1 as [|d c e cs l1 l2 E H1 IH1 H2 IH2]; intros U x I; [destruct I|].
  destruct I as [<-|I].
  - cbn. destruct (U c (or_introl eq_refl)) as (up & A & B). exists e, up. auto.
  - apply in_app_or in I as [I|I].
    + apply IH1; auto. intros c' I'. destruct (wf_children _ W _ _ _ E I') as (ce & F & P).
      destruct (U c (or_introl eq_refl)) as (up & A & B). exists (ce :: up). split; [econstructor; eauto|cbn; lia].
    + apply IH2; auto. intros c' I'. apply U. right. exact I'.
Qed.
Lemma listed_depth t l : reachable t -> listed t 0 [tr_root t] l -> forall x, In x l ->
  exists e up, tfind t (en_name x) = Some e /\ te_qnr e = en_qnr x /\ walk_up t (en_name x) (tr_root t) up /\ length up = en_level x.
Proof.
  intros H L. apply reachable_inv in H. eapply listed_sound; eauto; [apply H|]. intros c [<-|[]]. exists []. split; [constructor|reflexivity].
Qed.
Lemma tree2str_all t sep pre : reachable t -> exists l ls,
  listed t 0 [tr_root t] l /\ Forall2 (line_of sep pre) l ls /\ tree2str t sep pre = Ret (concat ls) /\
  Permutation (map en_name l) (names t) /\
  forall x, In x l -> exists e up, tfind t (en_name x) = Some e /\ te_qnr e = en_qnr x /\
    walk_up t (en_name x) (tr_root t) up /\ length up = en_level x.
Proof.
  intros H. destruct (tree2str_listed t sep pre H) as (l & ls & A & B & C). exists l, ls. repeat (split; [assumption|]).
  split; [apply listed_all; auto|apply listed_depth; auto].
Qed.

(** *** the text determines the tree *)
Definition view (e : TreeElement) := (te_qnr e, te_children e).
Definition low (d : nat) (r : list entry) : Prop := match r with [] => True | x :: _ => en_level x < d end.
Lemma low_app t d cs l r : listed t d cs l -> low d r -> low (S d) (l ++ r).
Proof. intros [] L; cbn; [|lia]. destruct r; cbn in *; lia. Qed.
Lemma listed_inj t1 t2 d cs1 l1 : listed t1 d cs1 l1 -> forall cs2 l2 r1 r2, listed t2 d cs2 l2 -> low d r1 -> low d r2 ->
  l1 ++ r1 = l2 ++ r2 -> l1 = l2 /\ r1 = r2 /\ cs1 = cs2 /\
  forall n, In n (map en_name l1) -> exists e1 e2, tfind t1 n = Some e1 /\ tfind t2 n = Some e2 /\ view e1 = view e2.
Proof.
  induction 1 as [d|d c e cs la lb E H1 IH1 H2 IH2]; intros cs2 l2 r1 r2 L Lo1 Lo2 Eq; inversion L as [d'|d' c' e' cs' la' lb' E' H1' H2']; subst.
  - cbn in Eq. repeat split; auto. intros n [].
  - cbn in Eq. subst r1. cbn in Lo1. lia.
  - cbn in Eq. subst r2. cbn in Lo2. lia.
  - cbn in Eq. rewrite <- !app_assoc in Eq. injection Eq as Ec Eq' Eq. subst c'.
    destruct (IH1 _ _ (lb ++ r1) (lb' ++ r2) H1') as (A1 & A2 & A3 & A4); auto; try (eapply low_app; eauto).
    destruct (IH2 _ _ r1 r2 H2') as (B1 & B2 & B3 & B4); auto. subst la' lb' r2 cs'.
    split; [congruence|]. split; [reflexivity|]. split; [reflexivity|].
    intros n I. cbn in I. destruct I as [<-|I].
    + exists e, e'. repeat split; auto. unfold view. congruence.
    + rewrite map_app in I. apply in_app_or in I as [I|I]; auto.
Qed.
Lemma views_same a b : tree_wf a -> tree_wf b -> tr_root a = tr_root b ->
  (forall n, In n (names a) <-> In n (names b)) ->
  (forall n, In n (names a) -> exists e1 e2, tfind a n = Some e1 /\ tfind b n = Some e2 /\ view e1 = view e2) -> same_shape a b.
Proof.
  intros Wa Wb Rt Nm V. split; [exact Rt|]. intros n. destruct (in_dec string_dec n (names a)) as [I|I].
  - destruct (V n I) as (e1 & e2 & E1 & E2 & E). rewrite E1, E2. cbn. unfold view in E. injection E as Eq Ec. rewrite Eq, Ec.
    f_equal. f_equal. f_equal. destruct (string_dec n (tr_root a)) as [->|Nr].
    + destruct (wf_root _ Wa) as [ca Fa]. destruct (wf_root _ Wb) as [cb Fb]. rewrite <- Rt in Fb. rewrite Fa in E1. rewrite Fb in E2.
      injection E1 as <-. injection E2 as <-. reflexivity.
    + destruct (wf_parent _ Wa _ _ E1 Nr) as (p & pe & P1 & P2 & P3). rewrite P1.
      destruct (V p (smap_find_Some_In _ _ _ P2)) as (pa & pb & F1 & F2 & F). rewrite P2 in F1. injection F1 as <-.
      assert (In n (te_children pb)) as Ip.
      { unfold view in F. injection F as _ F. rewrite <- F. apply (count_occ_In string_dec). rewrite P3. lia. }
      destruct (wf_children _ Wb _ _ _ F2 Ip) as (ce & G1 & G2). rewrite E2 in G1. injection G1 as <-. auto.
  - assert (~ In n (names b)) as Ib by (rewrite <- Nm; exact I). unfold tfind.
    rewrite (proj2 (smap_find_None _ _) I), (proj2 (smap_find_None _ _) Ib). reflexivity.
Qed.
Lemma listed_same a b l : reachable a -> reachable b -> listed a 0 [tr_root a] l -> listed b 0 [tr_root b] l -> same_shape a b.
Proof.
  intros Ra Rb La Lb. pose proof (listed_all _ _ Ra La) as Pa. pose proof (listed_all _ _ Rb Lb) as Pb.
  destruct (listed_inj _ _ _ _ _ La _ _ [] [] Lb I I eq_refl) as (_ & _ & Rt & V). injection Rt as Rt.
  apply reachable_inv in Ra. apply reachable_inv in Rb. apply views_same; auto; [apply Ra|apply Rb| |].
  - intros n. split; intros H; eapply Permutation_in.
    + exact Pb. + eapply Permutation_in; [apply Permutation_sym; exact Pa|exact H].
    + exact Pa. + eapply Permutation_in; [apply Permutation_sym; exact Pb|exact H].
  - intros n H. apply V. eapply Permutation_in; [apply Permutation_sym; exact Pa|exact H].
Qed.

(** lines *)
Lemma starts_app (s n : text) x r : ~ In "(" s -> n ++ "(" :: x = s ++ r -> starts_with s n.
Proof.
  revert n. induction s as [|c s IH]; intros n N E; [exists n; reflexivity|]. destruct n as [|d n].
  - cbn in E. injection E as E _. exfalso. apply N. left. auto.
  - cbn in E. injection E as <- E. destruct (IH n) as [r' Hr]; auto. { intros I. apply N. right. exact I. } exists r'. cbn. congruence.
Qed.
Lemma indent_inj sep d1 : forall d2 n1 n2 x y, ~ In "(" sep -> ~ starts_with sep n1 -> ~ starts_with sep n2 ->
  concat (repeat sep d1) ++ n1 ++ "(" :: x = concat (repeat sep d2) ++ n2 ++ "(" :: y -> d1 = d2 /\ n1 ++ "(" :: x = n2 ++ "(" :: y.
Proof.
  induction d1 as [|d1 IH]; intros [|d2] n1 n2 x y N S1 S2 E; cbn in E; auto.
  - exfalso. apply S1. eapply starts_app; [exact N|]. rewrite <- app_assoc in E. exact E.
  - exfalso. apply S2. symmetry in E. eapply starts_app; [exact N|]. rewrite <- app_assoc in E. exact E.
  - rewrite <- !app_assoc in E. apply app_inv_head in E. destruct (IH d2 n1 n2 x y) as [A B]; auto.
Qed.
Lemma line_inj sep pre a b la lb x y : ~ In "(" sep ->
  ~ In "(" (lit (en_name a)) -> ~ In "(" (lit (en_name b)) -> ~ starts_with sep (lit (en_name a)) -> ~ starts_with sep (lit (en_name b)) ->
  line_of sep pre a la -> line_of sep pre b lb -> la ++ x = lb ++ y -> a = b /\ x = y.
Proof.
  intros Ns Na Nb Sa Sb (ka & Da & ->) (kb & Db & ->) E. rewrite <- !app_assoc in E. apply app_inv_head in E.
  change (lit "(q_nr: ") with ("(" :: lit "q_nr: ") in E. rewrite <- !app_comm_cons in E.
  apply indent_inj in E; auto. destruct E as [E1 E].
  destruct (head_inj (en_name a) (en_name b) ka kb (en_qnr a) (en_qnr b) (nl :: x) (nl :: y)) as (A & B & C); auto.
  injection C as C. split; [destruct a, b; cbn in *; congruence|exact C].
Qed.
Lemma line_nonempty sep pre a la : line_of sep pre a la -> la <> [].
Proof. intros (k & _ & ->) E. apply (f_equal (@rev ascii)) in E. rewrite !rev_app_distr in E. discriminate E. Qed.
Lemma lines_inj sep pre : ~ In "(" sep -> forall l1 t1 l2 t2,
  (forall x, In x l1 \/ In x l2 -> ~ In "(" (lit (en_name x)) /\ ~ starts_with sep (lit (en_name x))) ->
  Forall2 (line_of sep pre) l1 t1 -> Forall2 (line_of sep pre) l2 t2 -> concat t1 = concat t2 -> l1 = l2.
Proof.
  intros Ns. induction l1 as [|a l1 IH]; intros t1 [|b l2] t2 Ok F1 F2 E; inversion F1; inversion F2; subst; auto.
  - cbn in E. symmetry in E. apply app_eq_nil in E. exfalso. eapply line_nonempty; [eassumption|apply E].
  - cbn in E. apply app_eq_nil in E. exfalso. eapply line_nonempty; [eassumption|apply E].
  - cbn [concat] in E. destruct (Ok a) as [A1 A2]; [left; left; auto|]. destruct (Ok b) as [B1 B2]; [right; left; auto|].
    match goal with H : line_of sep pre a ?u, G : line_of sep pre b ?v |- _ => destruct (line_inj sep pre a b u v _ _ Ns A1 B1 A2 B2 H G E) as [-> E'] end.
    f_equal. eapply IH; eauto. intros z [I|I]; apply Ok; cbn; auto.
Qed.
Lemma tree2str_inj a b sep pre s : reachable a -> reachable b ->
  names_without "(" a -> names_without "(" b -> ~ In "(" sep ->
  (forall n, In n (names a) \/ In n (names b) -> ~ starts_with sep (lit n)) ->
  tree2str a sep pre = Ret s -> tree2str b sep pre = Ret s -> same_shape a b.
Proof.
  intros Ra Rb Na Nb Ns St Ea Eb.
  destruct (tree2str_listed a sep pre Ra) as (la & ta & A1 & A2 & A3). destruct (tree2str_listed b sep pre Rb) as (lb & tb & B1 & B2 & B3).
  rewrite Ea in A3. injection A3 as ->. rewrite Eb in B3. injection B3 as B3.
  assert (la = lb).
  { eapply lines_inj; eauto. intros x [I|I].
    - assert (In (en_name x) (names a)). { eapply Permutation_in; [apply listed_all; eauto|]. apply in_map. exact I. } split; auto.
    - assert (In (en_name x) (names b)). { eapply Permutation_in; [apply listed_all; eauto|]. apply in_map. exact I. } split; auto. }
  subst lb. eapply listed_same; eauto.
Qed.

(** nested text *)
Lemma in_tree t n e : tfind t n = Some e -> In n (names t).
Proof. apply smap_find_Some_In. Qed.
(** the entries met in the nested text *)
Inductive met (t : Tree) : list string -> string -> Prop :=
| met_here c cs : met t (c :: cs) c
| met_rest c cs n : met t cs n -> met t (c :: cs) n
| met_below c e cs n : tfind t c = Some e -> met t (te_children e) n -> met t (c :: cs) n.
Lemma head_not_nl n k x : ~ In nl (lit n) -> exists c y, lit n ++ lit "(q_nr: " ++ k ++ x = c :: y /\ c <> nl.
Proof.
  intros N. destruct (lit n) as [|c y]; cbn.
  - eexists _, _. split; [reflexivity|discriminate].
  - eexists _, _. split; [reflexivity|]. intros ->. apply N. left. reflexivity.
Qed.
Lemma nested_inj a b : names_without "(" a -> names_without "(" b -> names_without nl a -> names_without nl b ->
  forall cs1 x1, nested a cs1 x1 -> forall cs2 x2 r1 r2, nested b cs2 x2 -> x1 ++ nl :: r1 = x2 ++ nl :: r2 ->
  x1 = x2 /\ r1 = r2 /\ cs1 = cs2 /\
  forall n, met a cs1 n -> exists e1 e2, tfind a n = Some e1 /\ tfind b n = Some e2 /\ view e1 = view e2.
Proof.
  intros Pa Pb La Lb. induction 1 as [|c e cs k u v E D H1 IH1 H2 IH2]; intros cs2 x2 r1 r2 H Eq; inversion H as [|c' e' cs' k' u' v' E' D' H1' H2']; subst.
  - cbn in Eq. injection Eq as Eq. repeat split; auto. intros n M. inversion M.
  - exfalso. rewrite <- !app_assoc in Eq. destruct (head_not_nl c' k' (lit ")" ++ [nl] ++ lit " " ++ [tab] ++ u' ++ [nl] ++ [tab] ++ v' ++ nl :: r2)
      (Lb _ (in_tree _ _ _ E'))) as (z & y & Hz & N). rewrite Hz in Eq. cbn in Eq. injection Eq as Eq _. auto.
  - exfalso. rewrite <- !app_assoc in Eq. destruct (head_not_nl c k (lit ")" ++ [nl] ++ lit " " ++ [tab] ++ u ++ [nl] ++ [tab] ++ v ++ nl :: r1)
      (La _ (in_tree _ _ _ E))) as (z & y & Hz & N). rewrite Hz in Eq. cbn in Eq. injection Eq as Eq _. auto.
  - rewrite <- !app_assoc in Eq. destruct (head_inj c c' k k' (te_qnr e) (te_qnr e') _ _ (Pa _ (in_tree _ _ _ E)) (Pb _ (in_tree _ _ _ E')) D D' Eq) as (Ec & Eq1 & Er).
    subst c'. cbn in Er. injection Er as Er.
    destruct (IH1 _ _ _ _ H1' Er) as (A1 & A2 & A3 & A4). injection A2 as A2.
    destruct (IH2 _ _ _ _ H2' A2) as (B1 & B2 & B3 & B4). subst u' v' r2 cs'.
    assert (k = k').
    { apply app_inv_head in Eq. cbn in Eq. injection Eq as Eq. apply (split_at ")") in Eq; [apply Eq| |]; apply no_digit; try apply D; try apply D'; cbn; intuition discriminate. }
    subst k'. split; [reflexivity|]. split; [reflexivity|]. split; [reflexivity|].
    intros n M. inversion M as [c1 cs1 Q1|c1 cs1 n1 M1|c1 e1 cs1 n1 E1 M1]; subst.
    + exists e, e'. repeat split; auto. unfold view. congruence.
    + auto.
    + rewrite E in E1. injection E1 as <-. auto.
Qed.
Lemma met_all t e n x : tree_wf t -> tfind t (tr_root t) = Some e -> tfind t n = Some x -> n = tr_root t \/ met t (te_children e) n.
Proof.
  intros W E F. pose proof (wf_below _ W _ _ F) as B. clear F x. induction B as [|p pe c B IH Fp I]; auto. right.
  assert (Mc : forall cs, In c cs -> met t cs c).
  { clear. induction cs as [|d cs IH]; intros []; [subst; constructor|apply met_rest; auto]. }
  destruct IH as [->|M]; [rewrite E in Fp; injection Fp as <-; auto|].
  clear -M Fp I Mc. revert M. generalize (te_children e) as cs. intros cs M.
  induction M as [p cs|d cs p M IH|d de cs p Ed M IH].
  - eapply met_below; eauto.
  - apply met_rest. auto.
  - eapply met_below; eauto.
Qed.
Lemma met_in t cs n x : nested t cs x -> met t cs n -> In n (names t).
Proof.
  induction 1 as [|c e cs k u v E D H1 IH1 H2 IH2]; intros M; inversion M; subst; auto.
  - eapply in_tree; eauto.
  - apply IH1. congruence.
Qed.
Lemma nested_children a b cs x1 x2 : nested a cs x1 -> nested b cs x2 ->
  (forall n, met a cs n -> exists e1 e2, tfind a n = Some e1 /\ tfind b n = Some e2 /\ view e1 = view e2) -> forall n, met b cs n -> met a cs n.
Proof.
  intros Na Nb V n M. clear Nb. revert x1 Na V. induction M as [c cs|c cs n M IH|c e cs n Ec M IH]; intros x1 Na V.
  - constructor.
  - apply met_rest. inversion Na; subst. eapply IH; eauto. intros m Mm. apply V. apply met_rest. exact Mm.
  - inversion Na as [|c' e' cs' k u v E' D' H1 H2]; subst. destruct (V c (met_here _ _ _)) as (ea & eb & F1 & F2 & F). rewrite E' in F1. injection F1 as <-.
    rewrite Ec in F2. injection F2 as <-. unfold view in F. injection F as _ F. eapply met_below; eauto. rewrite F. eapply IH.
    + rewrite <- F. exact H1.
    + rewrite <- F. intros m Mm. apply V. eapply met_below; eauto.
Qed.
Lemma write_Tree_inj a b s : reachable a -> reachable b ->
  names_without "(" a -> names_without "(" b -> names_without nl a -> names_without nl b ->
  write_Tree a = Ret s -> write_Tree b = Ret s -> same_shape a b.
Proof.
  intros Ra Rb Pa Pb La Lb Ea Eb. destruct (tree_nested a Ra) as (ea & ka & ua & A1 & A2 & A3 & A4).
  destruct (tree_nested b Rb) as (eb & kb & ub & B1 & B2 & B3 & B4). rewrite Ea in A4. injection A4 as ->. rewrite Eb in B4. injection B4 as Eq.
  destruct (head_inj _ _ _ _ _ _ _ _ (Pa _ (in_tree _ _ _ A1)) (Pb _ (in_tree _ _ _ B1)) A2 B2 Eq) as (Rt & Q & Er).
  cbn in Er. injection Er as Er. destruct (nested_inj a b Pa Pb La Lb _ _ A3 _ _ [] [] B3) as (_ & _ & Ec & V); [exact Er|].
  apply reachable_inv in Ra. apply reachable_inv in Rb. destruct Ra as [Wa _], Rb as [Wb _].
  assert (V' : forall n, In n (names a) -> exists e1 e2, tfind a n = Some e1 /\ tfind b n = Some e2 /\ view e1 = view e2).
  { intros n I. destruct (tfind a n) as [e|] eqn:F; [|apply smap_find_None in F; contradiction].
    destruct (met_all a ea n e Wa A1 F) as [->|M].
    - exists ea, eb. rewrite A1 in F. injection F as <-. rewrite Rt. repeat split; auto. unfold view. congruence.
    - destruct (V n M) as (e1 & e2 & F1 & F2 & G). rewrite F in F1. injection F1 as <-. eauto. }
  apply views_same; auto. intros n. split; intros I.
  - destruct (V' n I) as (e1 & e2 & F1 & F2 & _). eapply in_tree; eauto.
  - destruct (tfind b n) as [e|] eqn:F; [|apply smap_find_None in F; contradiction].
    destruct (met_all b eb n e Wb B1 F) as [->|M]; [rewrite <- Rt; eapply in_tree; eauto|].
    rewrite <- Ec in *. eapply met_in; [exact A3|]. eapply nested_children; eauto.
Qed.
