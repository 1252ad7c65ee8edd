(** Proofs for C81. *)
From Coq Require Import Reals List Arith Bool Lia.
From Verif Require Import LifeModel LifeSpec.
Import ListNotations.

Local Arguments cell : simpl never.
(** * Lists *)
Lemma put_length {A} n (x : A) l : length (put n x l) = length l.
Proof. revert n; induction l; intros [|n]; cbn; auto. Qed.
Lemma nth_error_put {A} n (x : A) l m :
  nth_error (put n x l) m = if Nat.eqb n m then (if Nat.ltb m (length l) then Some x else None) else nth_error l m.
Proof.
  revert n m; induction l as [|y l IH]; intros [|n] [|m]; cbn; auto.
  - destruct (Nat.eqb n m); reflexivity.
  - rewrite IH. destruct (Nat.eqb n m); auto.
Qed.
Lemma cell_put h a o b : a < length h -> cell (put a o h) b = if Nat.eqb a b then o else cell h b.
Proof.
  unfold cell. revert a b; induction h as [|y h IH]; intros [|a] [|b] L; cbn in *; try lia; auto.
  rewrite IH by lia. reflexivity.
Qed.
Lemma cell_lt h a o : cell h a = Some o -> a < length h.
Proof. unfold cell. intro E. destruct (Nat.lt_ge_cases a (length h)); auto. rewrite nth_overflow in E by lia. discriminate. Qed.
Lemma cell_app h o b : cell (h ++ [o]) b = if Nat.eqb b (length h) then o else cell h b.
Proof.
  unfold cell. destruct (Nat.eqb_spec b (length h)) as [->|n].
  - rewrite app_nth2 by lia. rewrite Nat.sub_diag. reflexivity.
  - destruct (Nat.lt_ge_cases b (length h)).
    + rewrite app_nth1 by lia. reflexivity.
    + rewrite app_nth2 by lia. rewrite (nth_overflow h) by lia. destruct (b - length h) eqn:E; [lia|]. cbn. destruct n0; reflexivity.
Qed.
Lemma assoc_unbind x y l : assoc y (unbind x l) = if Nat.eqb x y then None else assoc y l.
Proof.
  unfold unbind. induction l as [|[z a] l IH]; cbn.
  - destruct (Nat.eqb x y); reflexivity.
  - destruct (Nat.eqb_spec x z) as [->|n]; cbn.
    + rewrite IH. rewrite (Nat.eqb_sym y z). destruct (Nat.eqb_spec z y); auto.
    + rewrite IH. destruct (Nat.eqb_spec y z) as [->|n2]; auto. destruct (Nat.eqb_spec x z); congruence.
Qed.
Lemma assoc_in x l a : assoc x l = Some a -> In a (map snd l).
Proof.
  induction l as [|[z b] l IH]; cbn; [discriminate|]. destruct (Nat.eqb x z); intro E; [injection E; auto|auto].
Qed.
Lemma in_unbind x l a : In a (map snd (unbind x l)) -> In a (map snd l).
Proof.
  unfold unbind. rewrite !in_map_iff. intros [p [E H]]. apply filter_In in H. exists p; tauto.
Qed.
(** no name twice *)
Definition uniq (l : list (nat * nat)) : Prop := NoDup (map fst l).
Lemma uniq_assoc l a : uniq l -> In a (map snd l) -> exists y, assoc y l = Some a.
Proof.
  unfold uniq. induction l as [|[z b] l IH]; cbn; [tauto|]. intros N [E|H].
  - subst. exists z. now rewrite Nat.eqb_refl.
  - inversion N; subst. destruct (IH H3 H) as [y Hy]. exists y.
    destruct (Nat.eqb_spec y z) as [->|]; auto. exfalso. apply H2.
    clear -Hy. induction l as [|[w c] l IH]; cbn in *; [discriminate|].
    destruct (Nat.eqb_spec z w); auto.
Qed.
Lemma uniq_unbind x l : uniq l -> uniq (unbind x l) /\ ~ In x (map fst (unbind x l)).
Proof.
  unfold uniq. induction l as [|[z b] l IH]; cbn; [intros; split; [constructor|tauto]|].
  intro N. inversion N; subst. destruct (IH H2) as [A B]. destruct (Nat.eqb_spec x z) as [->|n]; cbn; auto.
  split.
  - constructor; auto. intro H. apply H1. unfold unbind in H. apply in_map_iff in H. destruct H as [p [E H]].
    apply filter_In in H. apply in_map_iff. exists p; tauto.
  - intros [E|E]; [congruence|auto].
Qed.
Lemma existsb_in a l : existsb (Nat.eqb a) l = true <-> In a l.
Proof.
  rewrite existsb_exists. split.
  - intros [x [H E]]. apply Nat.eqb_eq in E. now subst.
  - intro H. exists a. now rewrite Nat.eqb_refl.
Qed.

Section P.
Variable ka : bool.

(** * The sweep *)
Lemma sweep_length n k h : length (sweep ka n k h) = length h.
Proof.
  revert k h; induction n as [|n IH]; intros; cbn; auto.
  destruct (cell h n); auto. destruct (existsb _ _); auto. rewrite IH. apply put_length.
Qed.
Lemma sweep_above n k h a : n <= a -> cell (sweep ka n k h) a = cell h a.
Proof.
  revert k h; induction n as [|n IH]; intros k h L; cbn; auto.
  destruct (cell h n) eqn:E; [|apply IH; lia]. destruct (existsb _ _); [apply IH; lia|].
  rewrite IH by lia. rewrite cell_put by (eapply cell_lt; eauto). destruct (Nat.eqb_spec n a); [lia|reflexivity].
Qed.
Lemma sweep_sub n k h a o : cell (sweep ka n k h) a = Some o -> cell h a = Some o.
Proof.
  revert k h; induction n as [|n IH]; intros k h; cbn; auto.
  destruct (cell h n) eqn:E; [|apply IH]. destruct (existsb _ _); [apply IH|].
  intro H. apply IH in H. rewrite cell_put in H by (eapply cell_lt; eauto). destruct (Nat.eqb_spec n a); [discriminate|auto].
Qed.
Lemma sweep_kept n k h a : In a k -> cell (sweep ka n k h) a = cell h a.
Proof.
  revert k h; induction n as [|n IH]; intros k h H; cbn; auto.
  destruct (cell h n) eqn:E; [|auto]. destruct (existsb (Nat.eqb n) k) eqn:X.
  - apply IH. apply in_or_app; auto.
  - rewrite IH by auto. rewrite cell_put by (eapply cell_lt; eauto). destruct (Nat.eqb_spec n a) as [->|]; auto.
    apply existsb_in in H. congruence.
Qed.
(** what a survivor keeps survives *)
Lemma sweep_keeps n k h b o a :
  b < n -> cell (sweep ka n k h) b = Some o -> In a (keeps ka o) -> a < b -> cell (sweep ka n k h) a = cell h a.
Proof.
  revert k h; induction n as [|n IH]; intros k h L; [lia|]. cbn.
  destruct (cell h n) eqn:E.
  - destruct (existsb (Nat.eqb n) k) eqn:X.
    + destruct (Nat.eq_dec b n) as [->|n'].
      * intros H Ha La. apply sweep_sub in H. rewrite E in H. injection H as ->. apply sweep_kept. apply in_or_app; auto.
      * intros H Ha La. apply IH; auto. lia.
    + destruct (Nat.eq_dec b n) as [->|n'].
      * intro H. apply sweep_sub in H. rewrite cell_put in H by (eapply cell_lt; eauto). rewrite Nat.eqb_refl in H. discriminate.
      * intros H Ha La. rewrite (IH k (put n None h)); auto; [|lia].
        rewrite cell_put by (eapply cell_lt; eauto). destruct (Nat.eqb_spec n a); [lia|reflexivity].
  - destruct (Nat.eq_dec b n) as [->|n'].
    + intro H. apply sweep_sub in H. congruence.
    + intros; apply IH; auto; lia.
Qed.
(** a survivor is kept *)
Lemma sweep_why n k h a o :
  cell (sweep ka n k h) a = Some o -> a < n -> In a k \/ exists b o', cell (sweep ka n k h) b = Some o' /\ In a (keeps ka o').
Proof.
  revert k h; induction n as [|n IH]; intros k h; [lia|]. cbn.
  destruct (cell h n) eqn:E.
  - destruct (existsb (Nat.eqb n) k) eqn:X.
    + apply existsb_in in X. intros H L. destruct (Nat.eq_dec a n) as [->|n']; [auto|].
      destruct (IH _ _ H ltac:(lia)) as [K|K]; [|auto].
      apply in_app_or in K. destruct K as [K|K]; [|auto]. right. exists n, o0. split; auto. now rewrite sweep_above by lia.
    + intros H L. destruct (Nat.eq_dec a n) as [->|n'].
      * apply sweep_sub in H. rewrite cell_put in H by (eapply cell_lt; eauto). rewrite Nat.eqb_refl in H. discriminate.
      * apply IH; auto; lia.
  - intros H L. destruct (Nat.eq_dec a n) as [->|n']; [apply sweep_sub in H; congruence|]. apply IH; auto; lia.
Qed.

(** * The invariant *)
Definition sub_kind (o : obj) : Prop := match o with Val _ _ | Attr _ _ _ _ => True | _ => False end.
(** an object is of a kind that a constructor accepts *)
Definition fine (h : list (option obj)) (a : nat) (o : obj) : Prop :=
  match o with
  | Val c d => length d = width c
  | Attr c r off p => p < a /\ r <= p /\ (exists cr d, cell h r = Some (Val cr d) /\ off + width c <= width cr)
                     /\ exists cp op, place h p = Some (cp, r, op)
  | Kin _ _ => True
  | Sol _ refs _ => forall b, In b refs -> b < a /\ (match cell h b with None => ka = false | Some (Kin _ _) => True | Some (Sol _ _ _) => True | _ => False end)
  end.
Definition inv (s : state) : Prop :=
  uniq (names s) /\
  (forall a, In a (map snd (names s)) -> cell (heap s) a <> None) /\
  (forall a o, cell (heap s) a = Some o -> fine (heap s) a o) /\
  (forall a o, cell (heap s) a = Some o -> In a (map snd (names s)) \/ exists b o', cell (heap s) b = Some o' /\ In a (keeps ka o')).
(** the first three parts, before the sweep *)
Definition pre (s : state) : Prop :=
  uniq (names s) /\
  (forall a, In a (map snd (names s)) -> cell (heap s) a <> None) /\
  (forall a o, cell (heap s) a = Some o -> fine (heap s) a o).

Lemma keeps_older h a o b : fine h a o -> In b (keeps ka o) -> b < a.
Proof.
  destruct o; cbn; try tauto.
  - intros H [E|[]]; subst; tauto.
  - destruct ka; [|intros _ []]. intros H Hb. now destruct (H b Hb).
Qed.
Lemma root_kept h n k a c r off p :
  (forall a o, cell h a = Some o -> fine h a o) -> a < n ->
  cell (sweep ka n k h) a = Some (Attr c r off p) -> cell (sweep ka n k h) r = cell h r /\ cell (sweep ka n k h) p = cell h p.
Proof.
  intros F. revert c off p. induction a as [a IH] using lt_wf_ind. intros c off p L H.
  assert (H0 := sweep_sub _ _ _ _ _ H). specialize (F _ _ H0) as Fa. cbn in Fa. destruct Fa as [Lp [Lr [_ [cp [op Ep]]]]].
  assert (K : cell (sweep ka n k h) p = cell h p).
  { apply (sweep_keeps n k h a (Attr c r off p)); auto. now left. }
  split; auto. unfold place in Ep. destruct (cell h p) as [[c1 d1|c1 r1 o1 p1| |]|] eqn:Ec; try discriminate; injection Ep as <- <- <-.
  - exact (eq_trans K (eq_sym Ec)).
  - destruct (IH p Lp c1 o1 p1) as [A B]; [lia|exact K|exact A].
Qed.
Lemma collect_inv s : pre s -> inv (collect ka s).
Proof.
  intros [U [N F]]. unfold inv, collect; cbn [heap names].
  set (n := length (heap s)). set (k := map snd (names s)). set (h := heap s). split; [exact U|]. split; [|split].
  - intros a Ha. rewrite sweep_kept by exact Ha. now apply N.
  - intros a o H. assert (H0 := sweep_sub _ _ _ _ _ H). assert (Fa := F _ _ H0).
    assert (L : a < n) by (eapply cell_lt; eauto).
    destruct o as [c d|c r off p|t l|cl refs own]; cbn in *; auto.
    + destruct (root_kept h n k a c r off p F L H) as [R1 R2]. destruct Fa as [A [B [C D]]].
      split; [auto|]. split; [auto|]. split; [now rewrite R1|].
      destruct D as [cp [op D]]. exists cp, op. unfold place in *. now rewrite R2.
    + intros b Hb. destruct (Fa b Hb) as [A B]. split; auto.
      destruct (cell (sweep ka n k h) b) as [o|] eqn:E.
      * apply sweep_sub in E. unfold h in E. rewrite E in B. exact B.
      * destruct (Bool.bool_dec ka true) as [K|K]; [|now destruct ka].
        rewrite (sweep_keeps n k h a (Sol cl refs own) b L H) in E; auto; [|cbn; now rewrite K].
        unfold h in E. now rewrite E in B.
  - intros a o H. apply (sweep_why n k h a o H). apply sweep_sub in H. eapply cell_lt; eauto.
Qed.
Lemma inv_pre s : inv s -> pre s.
Proof. intros [A [B [C _]]]. split; auto. Qed.

Lemma bind_inv x a s : pre s -> cell (heap s) a <> None -> inv (bind ka x a s).
Proof.
  intros [U [N F]] H. apply collect_inv. unfold pre; cbn [heap names]. destruct (uniq_unbind x _ U) as [U1 U2].
  split; [|split]; auto.
  - unfold uniq; cbn. constructor; auto.
  - cbn. intros b [<-|Hb]; auto. apply N. eapply in_unbind; eauto.
Qed.
(** a cell that is added *)
Lemma fine_app h a o x : a < length h -> fine h a o -> fine (h ++ [x]) a o.
Proof.
  intros L. destruct o as [c d|c r off p|t l|cl refs own]; cbn; auto.
  - intros [A [B [[cr [d [C D]]] [cp [op E]]]]]. split; [auto|]. split; [auto|].
    assert (r < length h) by (eapply cell_lt; eauto).
    split.
    + exists cr, d. rewrite cell_app. destruct (Nat.eqb_spec r (length h)); [lia|]. auto.
    + exists cp, op. unfold place in *. rewrite cell_app. destruct (Nat.eqb_spec p (length h)); [lia|]. auto.
  - intros H b Hb. destruct (H b Hb) as [A B]. split; auto. rewrite cell_app. destruct (Nat.eqb_spec b (length h)); [lia|]. auto.
Qed.
Lemma fresh_inv x o s : inv s -> fine (heap s) (length (heap s)) o -> inv (fresh ka x o s).
Proof.
  intros [U [N [F _]]] Fo. apply bind_inv; cbn [heap names].
  - split; [|split]; auto; cbn [heap names].
    + intros a Ha. rewrite cell_app. destruct (Nat.eqb_spec a (length (heap s))); [discriminate|auto].
    + intros a o1 H. rewrite cell_app in H. destruct (Nat.eqb_spec a (length (heap s))) as [->|n].
      * injection H as <-. destruct o as [c d|c r off p|t l|cl refs own]; cbn in *; auto.
        -- destruct Fo as [A [B [[cr [d [C D]]] [cp [op E]]]]]. split; [auto|]. split; [auto|].
           assert (r < length (heap s)) by (eapply cell_lt; eauto). split.
           ++ exists cr, d. rewrite cell_app. destruct (Nat.eqb_spec r (length (heap s))); [lia|]. auto.
           ++ exists cp, op. unfold place in *. rewrite cell_app. destruct (Nat.eqb_spec p (length (heap s))); [lia|]. auto.
        -- intros b Hb. destruct (Fo b Hb) as [A B]. split; auto. rewrite cell_app. destruct (Nat.eqb_spec b (length (heap s))); [lia|]. auto.
      * apply fine_app; auto. eapply cell_lt; eauto.
  - rewrite cell_app, Nat.eqb_refl. discriminate.
Qed.
(** an update that leaves the kind *)
Definition like (o o' : obj) : Prop :=
  match o, o' with
  | Val c d, Val c' d' => c = c' /\ length d = length d'
  | Kin t l, Kin t' l' => t = t' /\ exists m, l' = l ++ m
  | Attr _ _ _ _, Attr _ _ _ _ | Sol _ _ _, Sol _ _ _ => o = o'
  | _, _ => False
  end.
Lemma like_keeps o o' : like o o' -> keeps ka o' = keeps ka o.
Proof. destruct o, o'; cbn; try tauto; intro E; try reflexivity; now injection E as -> -> -> ->|| injection E as -> -> ->. Qed.
Lemma place_put h a o o' b : cell h a = Some o -> like o o' -> place (put a (Some o') h) b = place h b.
Proof.
  intros H K. unfold place. rewrite cell_put by (eapply cell_lt; eauto). destruct (Nat.eqb_spec a b) as [->|]; auto.
  rewrite H. destruct o, o'; cbn in K; try contradiction; try (injection K; intros; subst); destruct K; subst; auto.
Qed.
Lemma put_inv s a o o' : inv s -> cell (heap s) a = Some o -> like o o' -> inv (mkSt (put a (Some o') (heap s)) (names s)).
Proof.
  intros [U [N [F W]]] H K. assert (L : a < length (heap s)) by (eapply cell_lt; eauto).
  split; [exact U|]. split; [|split]; cbn [heap names].
  - intros b Hb. rewrite cell_put by auto. destruct (Nat.eqb a b); [discriminate|auto].
  - intros b ob Hb.
    assert (G : forall x ox, cell (heap s) x = Some ox -> exists ox', cell (put a (Some o') (heap s)) x = Some ox' /\ like ox ox').
    { intros x ox Hx. rewrite cell_put by auto. destruct (Nat.eqb_spec a x) as [->|].
      - rewrite H in Hx. injection Hx as <-. eauto.
      - exists ox. split; auto. destruct ox; cbn; auto. split; auto. exists []. now rewrite app_nil_r. }
    assert (G2 : exists o0, cell (heap s) b = Some o0 /\ like o0 ob).
    { rewrite cell_put in Hb by auto. destruct (Nat.eqb_spec a b) as [->|].
      - injection Hb as <-. eauto.
      - exists ob. split; auto. destruct ob; cbn; auto. split; auto. exists []. now rewrite app_nil_r. }
    destruct G2 as [o0 [H0 K0]]. assert (F0 := F _ _ H0).
    destruct o0 as [c d|c r off p|t l|cl refs own], ob as [c' d'|c' r' off' p'|t' l'|cl' refs' own']; cbn in K0; try contradiction; cbn in F0 |- *; auto.
    + destruct K0 as [-> E]. congruence.
    + injection K0 as -> -> -> ->. destruct F0 as [A [B [[cr [d [C D]]] [cp [op E]]]]].
      split; [auto|]. split; [auto|]. split.
      * destruct (G _ _ C) as [ox [C1 C2]]. destruct ox as [c2 d2| | |]; cbn in C2; try contradiction. destruct C2 as [-> _]. eauto.
      * exists cp, op. now rewrite (place_put _ _ o).
    + injection K0 as -> -> ->. intros x Hx. destruct (F0 x Hx) as [A B]. split; auto.
      destruct (cell (heap s) x) as [ox|] eqn:Ex.
      * destruct (G _ _ Ex) as [ox' [G1 G2]]. rewrite G1. destruct ox, ox'; cbn in G2; try contradiction; auto.
      * rewrite cell_put by auto. destruct (Nat.eqb_spec a x) as [->|]; [congruence|]. now rewrite Ex.
  - intros b ob Hb.
    assert (X : exists ob0, cell (heap s) b = Some ob0).
    { rewrite cell_put in Hb by auto. destruct (Nat.eqb_spec a b) as [->|]; eauto. }
    destruct X as [ob0 X]. destruct (W _ _ X) as [Y|[c [oc [Y1 Y2]]]]; [auto|]. right.
    exists c. destruct (Nat.eq_dec a c) as [<-|n].
    + exists o'. rewrite cell_put by auto. rewrite Nat.eqb_refl. split; auto. rewrite H in Y1. injection Y1 as <-. now rewrite (like_keeps o o').
    + exists oc. rewrite cell_put by auto. destruct (Nat.eqb_spec a c); [congruence|]. auto.
Qed.

(** * Reading and writing *)
Lemma place_root s a c r off : inv s -> place (heap s) a = Some (c, r, off) ->
  exists cr d, cell (heap s) r = Some (Val cr d) /\ length d = width cr /\ off + width c <= length d /\ r <= a.
Proof.
  intros [_ [_ [F _]]]. unfold place. destruct (cell (heap s) a) as [[c1 d1|c1 r1 o1 p1| |]|] eqn:E; try discriminate; intro H; injection H as <- <- <-.
  - exists c1, d1. assert (X := F _ _ E). cbn in X. rewrite X. auto.
  - assert (X := F _ _ E). cbn in X. destruct X as [A [B [[cr [d [C D]]] _]]]. assert (Y := F _ _ C). cbn in Y.
    exists cr, d. split; auto. split; auto. rewrite Y. split; auto. lia.
Qed.
Lemma slice_length off n (l : list R) : off + n <= length l -> length (slice off n l) = n.
Proof. intro H. unfold slice. rewrite firstn_length, skipn_length. lia. Qed.
Lemma paste_length off new (l : list R) : off + length new <= length l -> length (paste off new l) = length l.
Proof. intro H. unfold paste. rewrite !app_length, firstn_length, skipn_length. lia. Qed.
Lemma read_place s a c r off : inv s -> place (heap s) a = Some (c, r, off) ->
  exists cr d, cell (heap s) r = Some (Val cr d) /\ read (heap s) a = Some (Some (slice off (width c) d)) /\ off + width c <= length d /\ length d = width cr.
Proof.
  intros I H. destruct (place_root _ _ _ _ _ I H) as [cr [d [A [B [C _]]]]]. exists cr, d. split; auto.
  unfold read. rewrite H, A. auto.
Qed.
Lemma attribute_width c sec c' k : attribute c sec = Some (c', k) -> k + width c' <= width c.
Proof. destruct c, sec; cbn; intro H; try discriminate; injection H as <- <-; cbn; lia. Qed.
Lemma same_eq a b : same a b = true -> a = b.
Proof. destruct a, b; cbn; intro H; try discriminate; reflexivity. Qed.

(** * Calls *)
Lemma refs_in ps l b : In b (referred ps l) -> In b l.
Proof.
  unfold referred. rewrite in_map_iff. intros [[p x] [E H]]. apply filter_In in H. cbn in E. subst. destruct H as [H _].
  now apply in_combine_r in H.
Qed.
Lemma lookup_all_in l n a b : lookup_all l n = Some a -> In b a -> exists x, In x l /\ assoc x n = Some b.
Proof.
  revert a; induction l as [|x l IH]; cbn; intros a; [intro E; injection E as <-; intros []|].
  destruct (assoc x n) eqn:E1; [|discriminate]. destruct (lookup_all l n) eqn:E2; [|discriminate]. intro E; injection E as <-.
  intros [<-|H]; [eauto|]. destruct (IH _ eq_refl H) as [y [A B]]. eauto.
Qed.
Lemma fits_kind h p a : fits h p a = true -> match cell h a with Some (Kin _ _) | Some (Sol _ _ _) => True | _ => False end.
Proof.
  unfold fits. destruct (fst p), (cell h a) as [[| |[]|[]]|]; try discriminate; auto.
Qed.
Lemma referred_in ps l b : In b (referred ps l) -> exists p, In (p, b) (combine ps l).
Proof.
  unfold referred. rewrite in_map_iff. intros [[p x] [E H]]. apply filter_In in H. cbn in E. subst. exists p; tauto.
Qed.

(** * Steps *)
Definition outcome_inv (s : state) (o : op) (r : result) : Prop :=
  match r with Done s' _ => inv s' | Raises => True | Bad => exists x, o = Call x end.
Lemma named_cell s x a : inv s -> assoc x (names s) = Some a -> exists o, cell (heap s) a = Some o.
Proof.
  intros [_ [N _]] H. apply assoc_in in H. apply N in H. destruct (cell (heap s) a); [eauto|congruence].
Qed.
Lemma step_inv s o : inv s -> outcome_inv s o (step ka s o).
Proof.
  intros I. destruct o as [x c d|x y|x y sec|y sec z|x i v|x|x t|x y|x n|x cl args|x|x y|x]; cbn [step].
  - destruct (Nat.eqb_spec (length d) (width c)); cbn; auto. apply fresh_inv; auto.
  - destruct (assoc y (names s)) as [a|] eqn:E; [|exact Logic.I]. destruct (place (heap s) a) as [[[c r] off]|] eqn:P.
    + destruct (read_place _ _ _ _ _ I P) as [cr [d [A [B [C D]]]]]. rewrite B. cbn. apply fresh_inv; auto. cbn. now apply slice_length.
    + destruct (read (heap s) a); exact Logic.I.
  - destruct (assoc y (names s)) as [a|] eqn:E; [|exact Logic.I]. destruct (place (heap s) a) as [[[c r] off]|] eqn:P; [|exact Logic.I].
    destruct (attribute c sec) as [[c' k]|] eqn:A; [|exact Logic.I]. cbn. apply fresh_inv; auto.
    destruct (place_root _ _ _ _ _ I P) as [cr [d [B [C [D L]]]]]. apply attribute_width in A. cbn.
    destruct (named_cell _ _ _ I E) as [oa Ea]. apply cell_lt in Ea.
    split; auto. split; auto. split; [exists cr, d; split; auto; lia|]. exists c, off. exact P.
  - destruct (assoc y (names s)) as [a|] eqn:E; [|exact Logic.I]. destruct (assoc z (names s)) as [b|] eqn:Ez; [|exact Logic.I].
    destruct (place (heap s) a) as [[[c r] off]|] eqn:P; [|exact Logic.I].
    destruct (place (heap s) b) as [[[cz rz] oz]|] eqn:Pz; [|exact Logic.I].
    destruct (read_place _ _ _ _ _ I Pz) as [crz [dz [Az [Bz [Cz Dz]]]]]. rewrite Bz.
    destruct (attribute c sec) as [[c' k]|] eqn:A; [|exact Logic.I]. destruct (same c' cz) eqn:S; [|exact Logic.I]. apply same_eq in S. subst cz.
    destruct (place_root _ _ _ _ _ I P) as [cr [d [B [C [D L]]]]]. rewrite B. cbn. eapply put_inv; eauto.
    apply attribute_width in A. cbn. split; auto. rewrite paste_length; auto. rewrite slice_length by auto. lia.
  - destruct (assoc x (names s)) as [a|] eqn:E; [|exact Logic.I]. destruct (place (heap s) a) as [[[c r] off]|] eqn:P; [|exact Logic.I].
    destruct (Nat.ltb i (width c)); [|exact Logic.I]. destruct (place_root _ _ _ _ _ I P) as [cr [d [B [C [D L]]]]]. rewrite B. cbn.
    eapply put_inv; eauto. cbn. now rewrite put_length.
  - destruct (assoc x (names s)) as [a|] eqn:E; [|exact Logic.I]. destruct (read (heap s) a) as [[d|]|] eqn:R1; try exact Logic.I; [exact I|].
    exfalso. unfold read in R1. destruct (place (heap s) a) as [[[c r] off]|] eqn:P; [|discriminate].
    destruct (place_root _ _ _ _ _ I P) as [cr [d [B _]]]. rewrite B in R1. discriminate.
  - cbn. apply fresh_inv; auto. exact Logic.I.
  - destruct (assoc y (names s)) as [a|] eqn:E; [|exact Logic.I]. destruct (cell (heap s) a) as [[| |t l|]|] eqn:C; try exact Logic.I.
    cbn. apply fresh_inv; auto. exact Logic.I.
  - destruct (assoc x (names s)) as [a|] eqn:E; [|exact Logic.I]. destruct (cell (heap s) a) as [[| |t l|]|] eqn:C; try exact Logic.I.
    cbn. eapply put_inv; eauto. cbn. split; auto. eauto.
  - destruct (lookup_all args (names s)) as [l|] eqn:E; [|exact Logic.I]. destruct (_ && _) eqn:G; [|exact Logic.I].
    apply andb_prop in G. destruct G as [_ G]. rewrite forallb_forall in G. cbn. apply fresh_inv; auto. cbn. intros b Hb.
    split.
    + apply refs_in in Hb. destruct (lookup_all_in _ _ _ _ E Hb) as [x0 [_ X]]. destruct (named_cell _ _ _ I X) as [o X1]. eapply cell_lt; eauto.
    + destruct (referred_in _ _ _ Hb) as [p Hp]. specialize (G _ Hp). cbn in G. apply fits_kind in G.
      destruct (cell (heap s) b) as [[]|]; tauto.
  - destruct (assoc x (names s)) as [a|] eqn:E; [|exact Logic.I]. destruct (cell (heap s) a) as [[| | |cl refs own]|] eqn:C; try exact Logic.I.
    destruct (observe (S a) (heap s) a); cbn; [exact I|eauto].
  - destruct (assoc y (names s)) as [a|] eqn:E; [|exact Logic.I]. cbn. apply bind_inv; [now apply inv_pre|].
    destruct (named_cell _ _ _ I E) as [o ->]. discriminate.
  - destruct (assoc x (names s)) as [a|] eqn:E; [|exact Logic.I]. cbn. apply collect_inv. destruct I as [U [N [F _]]].
    split; [|split]; cbn [heap names]; auto.
    + now apply uniq_unbind.
    + intros b Hb. apply N. eapply in_unbind; eauto.
Qed.
Lemma start_inv : inv start.
Proof.
  split; [constructor|]. split; [intros a []|]. split; intros a o H; cbn in H; unfold cell in H; cbn in H; destruct a; discriminate.
Qed.
Lemma run_inv p s s' : inv s -> run ka p s = Some s' -> inv s'.
Proof.
  revert s; induction p as [|o p IH]; cbn; intros s I; [intro E; now injection E as <-|].
  assert (X := step_inv s o I). destruct (step ka s o); [apply IH; auto|apply IH; auto|discriminate].
Qed.

(** * What a call uses *)
Lemma used_trans h a b c : used h a b -> used h b c -> used h a c.
Proof. intros H1 H2. induction H2; auto. eapply used_by; eauto. Qed.
Lemma fold_none (f : nat -> option (list (list nat))) refs own :
  fold_right (fun r acc => match f r, acc with Some x, Some y => Some (x ++ y) | _, _ => None end) (Some own) refs = None <-> exists r, In r refs /\ f r = None.
Proof.
  induction refs as [|r refs IH]; cbn.
  - split; [discriminate|intros [? [[] _]]].
  - destruct (f r) eqn:E.
    + destruct (fold_right _ _ refs) eqn:G.
      * split; [discriminate|]. intros [x [[<-|H] H2]]; [congruence|]. enough (Some l0 = None) by discriminate. apply IH. eauto.
      * split; auto. intros _. destruct (proj1 IH eq_refl) as [x [A B]]. eauto.
    + split; auto. eauto.
Qed.
(** reading fails exactly when something used is dead *)
Lemma observe_none s : inv s -> forall f a, a < f -> (match cell (heap s) a with Some (Val _ _) | Some (Attr _ _ _ _) => False | _ => True end) ->
  (observe f (heap s) a = None <-> exists b, used (heap s) a b /\ cell (heap s) b = None).
Proof.
  intros I. destruct I as [_ [_ [F _]]]. induction f as [|f IH]; [lia|]. intros a L K. cbn [observe].
  destruct (cell (heap s) a) as [[| |t l|cl refs own]|] eqn:E; try contradiction.
  - split; [discriminate|]. intros [b [U D]]. exfalso. revert D. induction U; [congruence|]. intros _. clear -U H E.
    assert (b = a). { clear H. induction U; auto. subst. congruence. } subst. congruence.
  - rewrite fold_none. assert (Fa := F _ _ E). cbn in Fa. split.
    + intros [r [Hr Hn]]. destruct (Fa r Hr) as [Lr Kr]. apply IH in Hn; [|lia|].
      * destruct Hn as [b [U D]]. exists b. split; auto. eapply used_trans; [|exact U]. eapply used_by; [apply used_self|exact E|exact Hr].
      * destruct (cell (heap s) r) as [[]|]; tauto.
    + intros [b [U D]].
      assert (X : b = a \/ exists r, In r refs /\ used (heap s) r b).
      { clear D. induction U as [|b c s0 refs0 own0 U IHU Hb Hc]; [auto|]. right. destruct IHU as [->|[r [A B]]].
        - rewrite E in Hb. injection Hb as <- <- <-. exists c. split; auto. apply used_self.
        - exists r. split; auto. eapply used_by; eauto. }
      destruct X as [->|[r [A B]]]; [congruence|]. exists r. split; auto. destruct (Fa r A) as [Lr Kr]. apply IH; [lia| |eauto].
      destruct (cell (heap s) r) as [[]|]; tauto.
  - split; auto. intros _. exists a. split; auto. apply used_self.
Qed.
Lemma used_kind s a b : inv s -> (match cell (heap s) a with Some (Val _ _) | Some (Attr _ _ _ _) => False | _ => True end) ->
  used (heap s) a b -> (match cell (heap s) b with Some (Val _ _) | Some (Attr _ _ _ _) => False | _ => True end).
Proof.
  intros [_ [_ [F _]]] K U. induction U as [|b c s0 refs0 own0 U IHU Hb Hc]; auto.
  assert (X := F _ _ Hb). cbn in X. destruct (X c Hc) as [_ Y]. destruct (cell (heap s) c) as [[]|]; tauto.
Qed.
End P.

(** without keep_alive, chains, trees and solvers live while they have a name *)
Lemma alive_named s a : inv false s -> (match cell (heap s) a with Some (Kin _ _) | Some (Sol _ _ _) => True | _ => False end) -> named s a.
Proof.
  intros [U [N [F W]]] K. destruct (cell (heap s) a) as [o|] eqn:E; [|contradiction].
  destruct (W _ _ E) as [H|[b [ob [H1 H2]]]]; [now apply uniq_assoc|]. exfalso.
  destruct ob as [| c r off p| |]; cbn in H2; try contradiction. destruct H2 as [<-|[]].
  assert (X := F _ _ H1). cbn in X. destruct X as [_ [_ [_ [cp [op X]]]]]. unfold place in X. rewrite E in X. destruct o; try discriminate; contradiction.
Qed.
Lemma undefined_exactly p s x a cl refs own :
  run false p start = Some s -> assoc x (names s) = Some a -> cell (heap s) a = Some (Sol cl refs own) ->
  (step false s (Call x) = Bad <-> exists b, used (heap s) a b /\ ~ named s b).
Proof.
  intros H X C. assert (I := run_inv false p start s (start_inv false) H). cbn [step]. rewrite X, C.
  assert (Y := observe_none false s I (S a) a (Nat.lt_succ_diag_r a)). rewrite C in Y. specialize (Y Logic.I).
  assert (Z : (exists b, used (heap s) a b /\ cell (heap s) b = None) <-> (exists b, used (heap s) a b /\ ~ named s b)).
  { split; intros [b [U D]]; exists b; split; auto.
    - intros [y Hy]. destruct (named_cell false s y b I Hy) as [o Ho]. congruence.
    - assert (K := used_kind false s a b I). rewrite C in K. specialize (K Logic.I U).
      destruct (cell (heap s) b) as [[]|] eqn:E; try contradiction; auto; exfalso; apply D; apply alive_named; auto; now rewrite E. }
  rewrite <- Z, <- Y. destruct (observe (S a) (heap s) a); split; intro; try discriminate; auto.
Qed.
Lemma only_calls ka p s o : run ka p start = Some s -> step ka s o = Bad -> exists x, o = Call x.
Proof. intros H E. assert (X := step_inv ka s o (run_inv ka p _ _ (start_inv ka) H)). now rewrite E in X. Qed.

(** * With keep_alive nothing goes wrong *)
Lemma observe_total s : inv true s -> forall f a, a < f -> (match cell (heap s) a with Some (Kin _ _) | Some (Sol _ _ _) => True | _ => False end) ->
  observe f (heap s) a <> None.
Proof.
  intros [_ [_ [F _]]]. induction f as [|f IH]; [lia|]. intros a L K. cbn [observe].
  destruct (cell (heap s) a) as [[| |t l|cl refs own]|] eqn:E; try contradiction; [discriminate|].
  rewrite fold_none. intros [r [Hr Hn]]. assert (Fa := F _ _ E). cbn in Fa. destruct (Fa r Hr) as [Lr Kr].
  apply (IH r) in Hn; auto; [lia|]. destruct (cell (heap s) r) as [[]|]; try tauto. discriminate.
Qed.
Lemma keep_alive_total s o : inv true s -> step true s o <> Bad.
Proof.
  intros I E. assert (X := step_inv true s o I). rewrite E in X. destruct X as [x ->]. cbn [step] in E.
  destruct (assoc x (names s)) as [a|]; [|discriminate]. destruct (cell (heap s) a) as [[| | |cl refs own]|] eqn:C; try discriminate.
  destruct (observe (S a) (heap s) a) eqn:O; [discriminate|]. revert O. apply observe_total; auto. now rewrite C.
Qed.
Lemma keep_alive_suffices p : run true p start <> None.
Proof.
  assert (G : forall p s, inv true s -> run true p s <> None).
  { induction p0 as [|o p0 IH]; cbn; intros s I; [discriminate|]. assert (X := step_inv true s o I).
    destruct (step true s o) eqn:E; [apply IH; auto|apply IH; auto|]. exfalso. now apply (keep_alive_total s o). }
  apply G. apply start_inv.
Qed.

(** * Names that stay *)
Section Stay.
Variable ka : bool.
Lemma assoc_bind x a s y : x <> y -> assoc y (names (bind ka x a s)) = assoc y (names s).
Proof.
  intro n. unfold bind, collect; cbn [names assoc]. rewrite assoc_unbind.
  destruct (Nat.eqb_spec y x); [congruence|]. destruct (Nat.eqb_spec x y); [congruence|reflexivity].
Qed.
Lemma assoc_bind_same x a s : assoc x (names (bind ka x a s)) = Some a.
Proof. unfold bind, collect; cbn [names assoc]. now rewrite Nat.eqb_refl. Qed.
(** a kept name keeps its object, up to additions and assignments *)
Definition alike (s s' : state) (a : nat) : Prop := forall o, cell (heap s) a = Some o -> exists o', cell (heap s') a = Some o' /\ like o o'.
Lemma like_refl o : like o o.
Proof. destruct o; cbn; auto. split; auto. exists []. now rewrite app_nil_r. Qed.
Lemma like_trans a b c : like a b -> like b c -> like a c.
Proof.
  destruct a, b, c; cbn; try tauto; try congruence.
  - intros [-> A] [-> B]; split; congruence.
  - intros [-> [m ->]] [-> [n ->]]. split; auto. exists (m ++ n). now rewrite app_assoc.
Qed.
Lemma collect_kept s y a : assoc y (names s) = Some a -> cell (heap (collect ka s)) a = cell (heap s) a.
Proof. intro H. unfold collect; cbn [heap]. apply sweep_kept. eapply assoc_in; eauto. Qed.
Lemma bind_kept x b s y a : x <> y -> assoc y (names s) = Some a -> cell (heap (bind ka x b s)) a = cell (heap s) a.
Proof.
  intros n H. unfold bind. rewrite (collect_kept _ y a); [reflexivity|]. cbn [names assoc]. rewrite assoc_unbind.
  destruct (Nat.eqb_spec y x); [congruence|]. destruct (Nat.eqb_spec x y); [congruence|exact H].
Qed.
Lemma fresh_kept x o s y a : inv ka s -> x <> y -> assoc y (names s) = Some a ->
  assoc y (names (fresh ka x o s)) = Some a /\ cell (heap (fresh ka x o s)) a = cell (heap s) a.
Proof.
  intros I n H. unfold fresh. rewrite assoc_bind by auto. split; auto.
  rewrite (bind_kept _ _ _ y a) by auto. cbn [heap]. rewrite cell_app. destruct (named_cell ka s y a I H) as [o' E]. apply cell_lt in E.
  destruct (Nat.eqb_spec a (length (heap s))); [lia|reflexivity].
Qed.
Lemma put_alike s a o o' b : cell (heap s) a = Some o -> like o o' -> alike s (mkSt (put a (Some o') (heap s)) (names s)) b.
Proof.
  intros H K ob Hb. cbn [heap]. rewrite cell_put by (eapply cell_lt; eauto). destruct (Nat.eqb_spec a b) as [->|].
  - rewrite H in Hb. injection Hb as <-. eauto.
  - exists ob. split; auto. apply like_refl.
Qed.
Lemma step_stay s o y a s' v : inv ka s -> ~ In y (rebinds o) -> assoc y (names s) = Some a -> step ka s o = Done s' v ->
  assoc y (names s') = Some a /\ alike s s' a.
Proof.
  intros I.
  assert (FR : forall x ob, x <> y -> assoc y (names s) = Some a -> Done (fresh ka x ob s) Nothing = Done s' v -> assoc y (names s') = Some a /\ alike s s' a).
  { intros x ob n H E. injection E as <- <-. destruct (fresh_kept x ob s y a I n H) as [A B]. split; auto.
    intros oo Hoo. exists oo. split; [congruence|apply like_refl]. }
  assert (SAME : forall w, Done s w = Done s' v -> assoc y (names s) = Some a -> assoc y (names s') = Some a /\ alike s s' a).
  { intros w E H. injection E as <- <-. split; auto. intros oo Hoo. exists oo. split; auto. apply like_refl. }
  destruct o as [x c d|x z|x z sec|z sec w|x i r|x|x t|x z|x n|x cl args|x|x z|x]; cbn [step rebinds]; intros N H.
  - assert (x <> y) by (intro; subst; apply N; now left). destruct (Nat.eqb _ _); [|discriminate]. eauto.
  - assert (x <> y) by (intro; subst; apply N; now left). destruct (assoc z (names s)); [|discriminate].
    destruct (place (heap s) n) as [[[c r] off]|]; [|destruct (read (heap s) n); discriminate]. destruct (read (heap s) n) as [[d|]|]; try discriminate. eauto.
  - assert (x <> y) by (intro; subst; apply N; now left). destruct (assoc z (names s)); [|discriminate].
    destruct (place (heap s) n) as [[[c r] off]|]; [|discriminate]. destruct (attribute c sec) as [[c' k]|]; [|discriminate]. eauto.
  - destruct (assoc z (names s)) as [a1|]; [|discriminate]. destruct (assoc w (names s)) as [b1|]; [|discriminate].
    destruct (place (heap s) a1) as [[[c r] off]|] eqn:P; [|discriminate].
    destruct (place (heap s) b1) as [[[cz rz] oz]|] eqn:Pz; [|discriminate].
    destruct (read_place ka _ _ _ _ _ I Pz) as [crz [dz [Az [Bz [Cz Dz]]]]]. rewrite Bz.
    destruct (attribute c sec) as [[c' k]|] eqn:A; [|discriminate]. destruct (same c' cz) eqn:S; [|discriminate]. apply same_eq in S. subst cz.
    destruct (place_root ka _ _ _ _ _ I P) as [cr [d [B [C [D L]]]]]. rewrite B. intro E. injection E as <- <-. split; auto.
    eapply put_alike; eauto. apply attribute_width in A. cbn. split; auto. rewrite paste_length; auto. rewrite slice_length by auto. lia.
  - destruct (assoc x (names s)) as [a1|]; [|discriminate]. destruct (place (heap s) a1) as [[[c q] off]|] eqn:P; [|discriminate].
    destruct (Nat.ltb i (width c)); [|discriminate]. destruct (place_root ka _ _ _ _ _ I P) as [cr [d [B [C [D L]]]]]. rewrite B.
    intro E. injection E as <- <-. split; auto. eapply put_alike; eauto. cbn. now rewrite put_length.
  - destruct (assoc x (names s)) as [a1|]; [|discriminate]. destruct (read (heap s) a1) as [[d|]|]; try discriminate. eauto.
  - assert (x <> y) by (intro; subst; apply N; now left). eauto.
  - assert (x <> y) by (intro; subst; apply N; now left). destruct (assoc z (names s)); [|discriminate].
    destruct (cell (heap s) n) as [[| |t l|]|]; try discriminate. eauto.
  - destruct (assoc x (names s)) as [a1|]; [|discriminate]. destruct (cell (heap s) a1) as [[| |t l|]|] eqn:C; try discriminate.
    intro E. injection E as <- <-. split; auto. eapply put_alike; eauto. cbn. split; auto. eauto.
  - assert (x <> y) by (intro; subst; apply N; now left). destruct (lookup_all args (names s)); [|discriminate].
    destruct (_ && _); [|discriminate]. eauto.
  - destruct (assoc x (names s)) as [a1|]; [|discriminate]. destruct (cell (heap s) a1) as [[| | |cl refs own]|]; try discriminate.
    destruct (observe (S a1) (heap s) a1); [|discriminate]. eauto.
  - assert (x <> y) by (intro; subst; apply N; now left). destruct (assoc z (names s)) as [b|]; [|discriminate].
    intro E. injection E as <- <-. rewrite assoc_bind by auto. split; auto. intros oo Hoo. exists oo. rewrite (bind_kept _ _ _ y a) by auto. split; auto. apply like_refl.
  - assert (x <> y) by (intro; subst; apply N; now left). destruct (assoc x (names s)) as [b|]; [|discriminate].
    intro E. injection E as <- <-.
    assert (Q : assoc y (unbind x (names s)) = Some a) by (rewrite assoc_unbind; destruct (Nat.eqb_spec x y); [congruence|exact H]).
    split; [exact Q|]. intros oo Hoo. exists oo. rewrite (collect_kept _ y a) by exact Q. split; auto. apply like_refl.
Qed.
Lemma run_stay p s s' y a : inv ka s -> untouched y p -> assoc y (names s) = Some a -> run ka p s = Some s' ->
  assoc y (names s') = Some a /\ alike s s' a.
Proof.
  revert s; induction p as [|o p IH]; cbn; intros s I U H.
  - intro E; injection E as <-. split; auto. intros oo Hoo. exists oo. split; auto. apply like_refl.
  - assert (X := step_inv ka s o I). assert (Uo := U o (or_introl eq_refl)).
    assert (Up : untouched y p) by (intros o1 Ho1; apply U; now right).
    destruct (step ka s o) as [s1 v| |] eqn:E; [| |discriminate].
    + destruct (step_stay s o y a s1 v I Uo H E) as [A B]. intro R1. destruct (IH s1 X Up A R1) as [C D]. split; auto.
      intros oo Hoo. destruct (B oo Hoo) as [o2 [B1 B2]]. destruct (D o2 B1) as [o3 [D1 D2]]. exists o3. split; auto. eapply like_trans; eauto.
    + apply IH; auto.
Qed.
End Stay.

(** * Programs that keep their names *)
Definition all_named (s : state) : Prop := forall a o, cell (heap s) a = Some o -> match o with Sol _ refs _ => forall b, In b refs -> named s b | _ => True end.
Lemma names_kept_run ka p : forall s, inv ka s ->
  NoDup (concat (map rebinds p)) -> (forall x, ~ In (Del x) p) -> (forall x, In x (concat (map rebinds p)) -> assoc x (names s) = None) ->
  all_named s -> run ka p s <> None.
Proof.
  induction p as [|o p IH]; intros s I N D F A; cbn [run]; [discriminate|].
  cbn [map concat] in N, F.
  assert (N2 : NoDup (concat (map rebinds p))). { clear -N. induction (rebinds o); cbn in N; auto. inversion N; auto. }
  assert (D2 : forall x, ~ In (Del x) p) by (intros x Hx; apply (D x); now right).
  assert (DJ : forall x, In x (rebinds o) -> ~ In x (concat (map rebinds p))).
  { clear -N. induction (rebinds o) as [|z l IHl]; cbn in *; [tauto|]. inversion N; subst. intros x [<-|H]; [|auto].
    intro K. apply H1. apply in_or_app; auto. }
  assert (X := step_inv ka s o I). destruct (step ka s o) as [s' v| |] eqn:E.
  - apply IH; auto.
    + intros x Hx. assert (Nx : assoc x (names s) = None) by (apply F; apply in_or_app; auto).
      assert (Ox : ~ In x (rebinds o)) by (intro K; apply (DJ x); auto).
      assert (G : forall z a q, z <> x -> assoc x (names q) = None -> assoc x (names (bind ka z a q)) = None) by (intros; rewrite assoc_bind; auto).
      clear -E Nx Ox G.
      destruct o as [z c d|z w|z w sec|z sec w|z i r|z|z t|z w|z n|z cl args|z|z w|z]; cbn [step rebinds In] in E, Ox.
      all: repeat match type of E with
        | (match ?u with _ => _ end) = Done _ _ => destruct u eqn:?; try discriminate
        end; try (injection E as <- <-); auto.
      all: try (unfold fresh; apply G; [intro; subst; apply Ox; now left|exact Nx]).
      * cbn [collect names]. rewrite assoc_unbind, Nx. now destruct (Nat.eqb z x).
    + (* what solvers refer to keeps a name *)
      assert (ST : forall y a, assoc y (names s) = Some a -> assoc y (names s') = Some a /\ alike s s' a).
      { intros y a Hy. apply (step_stay ka s o y a s' v I); auto.
        intro K. enough (assoc y (names s) = None) by congruence. apply F. apply in_or_app. auto. }
      assert (ND : forall b, named s b -> named s' b) by (intros b [y Hy]; exists y; now apply ST).
      intros a oa Ha. destruct oa as [| | |cl refs own]; auto.
      destruct (cell (heap s) a) as [ob|] eqn:Eb.
      * assert (ob = Sol cl refs own \/ exists x cl args, o = NewSol x cl args) as [->|K].
        { destruct o as [z c d|z w|z w sec|z sec w|z i r|z|z t|z w|z n|z cl0 args|z|z w|z]; try (right; eauto; fail); left; cbn [step] in E.
          all: repeat match type of E with
            | (match ?u with _ => _ end) = Done _ _ => destruct u eqn:?; try discriminate
            end; injection E as <- <-.
          all: try (unfold fresh, bind, collect in Ha; cbn [heap names] in Ha; apply sweep_sub in Ha).
          all: try (rewrite cell_app in Ha; destruct (Nat.eqb_spec a (length (heap s))); [discriminate|congruence]).
          all: try congruence.
          all: cbn [heap] in Ha.
          all: match type of Ha with cell (put ?q _ _) _ = _ =>
                 rewrite cell_put in Ha by (eapply cell_lt; eassumption); destruct (Nat.eqb_spec q a); [discriminate|congruence] end. }
        -- intros b Hb. apply ND. exact (A _ _ Eb b Hb).
        -- destruct K as [x [cl0 [args ->]]]. cbn [step] in E. destruct (lookup_all args (names s)) eqn:Q; [|discriminate]. destruct (_ && _); [|discriminate].
           injection E as <- <-. unfold fresh, bind, collect in Ha; cbn [heap names] in Ha. apply sweep_sub in Ha. rewrite cell_app in Ha.
           destruct (Nat.eqb_spec a (length (heap s))) as [->|]; [apply cell_lt in Eb; lia|]. rewrite Ha in Eb. injection Eb as <-.
           intros b Hb. apply ND. exact (A _ _ Ha b Hb).
      * destruct o as [z c d|z w|z w sec|z sec w|z i r|z|z t|z w|z n|z cl0 args|z|z w|z]; cbn [step] in E.
        all: repeat match type of E with
            | (match ?u with _ => _ end) = Done _ _ => destruct u eqn:?; try discriminate
            end; injection E as <- <-.
        all: try (unfold fresh, bind, collect in Ha; cbn [heap names] in Ha; apply sweep_sub in Ha).
        all: try congruence.
        all: try (rewrite cell_app in Ha; destruct (Nat.eqb_spec a (length (heap s))); [try discriminate|congruence]).
        all: try (cbn [heap] in Ha; match type of Ha with cell (put ?q _ _) _ = _ =>
                 rewrite cell_put in Ha by (eapply cell_lt; eassumption); destruct (Nat.eqb_spec q a); [discriminate|congruence] end).
        injection Ha as <- <- <-. intros b Hb. apply ND. apply refs_in in Hb. destruct (lookup_all_in _ _ _ _ Heqo Hb) as [y [_ Y]]. exists y. exact Y.
  - apply IH; auto. intros x Hx. apply F. apply in_or_app; auto.
  - exfalso. destruct X as [x ->]. cbn [step] in E. destruct (assoc x (names s)) as [a|] eqn:Q; [|discriminate].
    destruct (cell (heap s) a) as [[| | |cl refs own]|] eqn:C; try discriminate.
    destruct (observe (S a) (heap s) a) eqn:O; [discriminate|].
    apply (observe_none ka s I) in O; [|lia|now rewrite C]. destruct O as [b [U B]].
    assert (NB : named s b).
    { destruct U as [|b c s0 refs0 own0 U Hb Hc]; [exists x; auto|]. exact (A _ _ Hb c Hc). }
    destruct NB as [y Hy]. destruct (named_cell ka s y b I Hy) as [o Ho]. congruence.
Qed.
Lemma names_kept p : keeps_names p -> run false p start <> None.
Proof.
  intros [N D]. apply names_kept_run; auto; [apply start_inv|]. intros a o H. unfold cell in H; cbn in H. destruct a; discriminate.
Qed.
