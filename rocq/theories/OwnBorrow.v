(** C78: objects that borrow (aggregate = false). *)
From Coq Require Import List Bool Arith Lia Permutation.
From Verif Require Import OwnModel OwnSpec OwnProofs.
Import ListNotations.

Lemma cell_alloc' s c s' p a : alloc s c = Ok s' p -> p = length (hp s) /\ cell_at s' a = (if a =? p then Some c else cell_at s a) /\
  length (hp s') = S (length (hp s)) /\ tick s' = tick s.
Proof.
  intros H. injection H as <- <-. split; [reflexivity|]. rewrite cell_alloc. destruct s as [h t]. cbn.
  split; [reflexivity|]. rewrite app_length. cbn. split; [lia|reflexivity].
Qed.
Lemma cell_none s a : length (hp s) <= a -> cell_at s a = None.
Proof. intros H. unfold cell_at. rewrite (proj2 (nth_error_None _ _) H). reflexivity. Qed.
Lemma delete_leaf n s p c : cell_at s p = Some c -> deleted_by c = [] -> exists s', del (S n) p s = Ok s' tt /\
  length (hp s') = length (hp s) /\ forall a, cell_at s' a = if a =? p then None else cell_at s a.
Proof.
  intros H D. rewrite del_S, H, D. cbn [dels bind]. unfold free. rewrite (proj2 (live_cell s p)) by eauto.
  exists (set_cell s p None). split; [reflexivity|]. split; [unfold set_cell; cbn; apply put_len|]. intros a. apply cell_set. eapply cell_lt; eauto.
Qed.
Lemma delete_two n s p x c d : cell_at s p = Some c -> deleted_by c = [x] -> cell_at s x = Some d -> deleted_by d = [] -> x <> p ->
  exists s', del (S (S n)) p s = Ok s' tt /\ length (hp s') = length (hp s) /\ forall a, cell_at s' a = if (a =? p) || (a =? x) then None else cell_at s a.
Proof.
  intros H D H' D' Ne. rewrite del_S, H, D. cbn [dels]. destruct (delete_leaf n s x d H' D') as (s1 & E1 & L1 & C1). rewrite E1. cbn [bind].
  pose proof (C1 p) as Cp. destruct (Nat.eqb_spec p x) as [E|_]; [congruence|]. unfold free. rewrite (proj2 (live_cell s1 p)) by (rewrite Cp; eauto).
  exists (set_cell s1 p None). split; [reflexivity|]. split; [unfold set_cell; cbn; rewrite put_len; exact L1|].
  intros a. rewrite cell_set by (eapply cell_lt; rewrite Cp; eauto). rewrite C1. destruct (a =? p), (a =? x); reflexivity.
Qed.
Lemma delete_three n s p x y c d e : cell_at s p = Some c -> deleted_by c = [x; y] -> cell_at s x = Some d -> deleted_by d = [] ->
  cell_at s y = Some e -> deleted_by e = [] -> x <> p -> y <> p -> x <> y ->
  exists s', del (S (S n)) p s = Ok s' tt /\ length (hp s') = length (hp s) /\
    forall a, cell_at s' a = if (a =? p) || (a =? x) || (a =? y) then None else cell_at s a.
Proof.
  intros H D H' D' H2 D2 Ne Ne2 Ne3. rewrite del_S, H, D. cbn [dels]. destruct (delete_leaf n s x d H' D') as (s1 & E1 & L1 & C1). rewrite E1. cbn [bind].
  pose proof (C1 y) as Cy. destruct (Nat.eqb_spec y x) as [E|_]; [congruence|]. rewrite H2 in Cy.
  destruct (delete_leaf n s1 y e Cy D2) as (s2 & E2 & L2 & C2). rewrite E2. cbn [bind].
  pose proof (C2 p) as Cp. destruct (Nat.eqb_spec p y) as [E|_]; [congruence|].
  pose proof (C1 p) as Cp1. destruct (Nat.eqb_spec p x) as [E|_]; [congruence|]. rewrite Cp1, H in Cp.
  unfold free. rewrite (proj2 (live_cell s2 p)) by (rewrite Cp; eauto).
  exists (set_cell s2 p None). split; [reflexivity|]. split; [unfold set_cell; cbn; rewrite put_len; congruence|].
  intros a. rewrite cell_set by (eapply cell_lt; rewrite Cp; eauto). rewrite C2, C1. destruct (a =? p), (a =? x), (a =? y); reflexivity.
Qed.
Lemma delete_del s p n : length (hp s) = n -> delete p s = del (S n) p s. Proof. intros <-. reflexivity. Qed.

Section B.
Variable thr : nat -> bool.
Variable rf : bool.

Ltac eqs := repeat match goal with |- context [?a =? ?b] => destruct (Nat.eqb_spec a b) end; subst; cbn [orb]; try congruence; try lia; auto.
Lemma one_alloc s c : deleted_by c = [] -> exists s' p s2, some (alloc s c) = Ok s' (Some p) /\ live s p = false /\
  delete p s' = Ok s2 tt /\ forall a, cell_at s2 a = cell_at s a.
Proof.
  intros D. destruct (alloc s c) as [s' p| | |] eqn:E; try discriminate E.
  assert (A := fun a => cell_alloc' s c s' p a E). destruct (A 0) as (Ep & _ & L & _).
  assert (Cp : cell_at s' p = Some c) by (rewrite (proj1 (proj2 (A p))), Nat.eqb_refl; reflexivity).
  destruct (delete_leaf (length (hp s')) s' p c Cp D) as (s2 & E2 & _ & C2).
  exists s', p, s2. split; [reflexivity|]. split; [unfold live; rewrite cell_none by lia; reflexivity|]. split; [exact E2|].
  intros a. rewrite C2. rewrite (proj1 (proj2 (A a))). destruct (Nat.eqb_spec a p) as [->|]; [rewrite cell_none by lia|]; reflexivity.
Qed.
Lemma borrowed_survive s o : borrows s o ->
  (exists s' p s2, step thr rf o s = Ok s' (Some p) /\ live s p = false /\ delete p s' = Ok s2 tt /\ forall a, cell_at s2 a = cell_at s a) \/
  (exists s', step thr rf o s = Throw s' /\ forall a, live s a = true -> cell_at s' a = cell_at s a).
Proof.
  destruct o; cbn [borrows step]; try contradiction.
  - intros [-> H]. unfold is_orient in H. unfold new_line. rewrite (proj2 (live_cell s o)) by eauto. left. apply one_alloc. reflexivity.
  - intros [-> H]. unfold is_orient in H. unfold new_circle. rewrite (proj2 (live_cell s o)) by eauto.
    destruct (thr (tick s)).
    + right. exists (mkSt (hp s) (S (tick s))). split; reflexivity.
    + left. destruct (one_alloc (mkSt (hp s) (S (tick s))) (CCircle o false) eq_refl) as (s' & p & s2 & E1 & E2 & E3 & E4).
      exists s', p, s2. repeat split; auto.
  - intros [-> H]. left. apply one_alloc. reflexivity.
  - intros [-> H]. unfold new_rounded. destruct (alloc s (CComp [])) as [s1 c| | |] eqn:E; try discriminate E.
    assert (A := fun a => cell_alloc' s _ s1 c a E). destruct (A 0) as (Ep & _ & L & _). cbn [bind]. destruct eqradius_positive.
    + left. destruct (alloc s1 (CRounded c o false)) as [s2 p| | |] eqn:E2; try discriminate E2.
      assert (B := fun a => cell_alloc' s1 _ s2 p a E2). destruct (B 0) as (Ep2 & _ & L2 & _).
      assert (Cp : cell_at s2 p = Some (CRounded c o false)) by (rewrite (proj1 (proj2 (B p))), Nat.eqb_refl; reflexivity).
      assert (Cc : cell_at s2 c = Some (CComp [])).
      { rewrite (proj1 (proj2 (B c))). destruct (Nat.eqb_spec c p); [lia|]. rewrite (proj1 (proj2 (A c))), Nat.eqb_refl. reflexivity. }
      destruct (delete_two (S (length (hp s))) s2 p c _ _ Cp eq_refl Cc eq_refl ltac:(lia)) as (s3 & E3 & _ & C3).
      exists s2, p, s3. split; [reflexivity|]. split; [unfold live; rewrite cell_none by lia; reflexivity|].
      split; [rewrite (delete_del s2 p (S (S (length (hp s))))) by lia; exact E3|].
      intros a. rewrite C3. rewrite (proj1 (proj2 (B a))), (proj1 (proj2 (A a))). eqs.
      all: rewrite cell_none by lia; reflexivity.
    + right. exists s1. split; [reflexivity|]. intros a La. rewrite (proj1 (proj2 (A a))). destruct (Nat.eqb_spec a c) as [->|]; [|reflexivity].
      unfold live in La. rewrite cell_none in La by lia. discriminate La.
  - intros (-> & _). left. apply one_alloc. reflexivity.
Qed.

Lemma shared_copy s s' p c : deleted_by c = [] -> alloc s c = Ok s' p ->
  forall s'' q, alloc s' c = Ok s'' q -> forall l, Permutation l [p; q] -> exists s3, delete_all l s'' = Ok s3 tt /\ forall a, cell_at s3 a = cell_at s a.
Proof.
  intros D E s'' q E2 l P.
  assert (A := fun a => cell_alloc' s c s' p a E). destruct (A 0) as (Ep & _ & L & _).
  assert (B := fun a => cell_alloc' s' c s'' q a E2). destruct (B 0) as (Eq & _ & L2 & _).
  assert (Cq : cell_at s'' q = Some c) by (rewrite (proj1 (proj2 (B q))), Nat.eqb_refl; reflexivity).
  assert (Cp : cell_at s'' p = Some c).
  { rewrite (proj1 (proj2 (B p))). destruct (Nat.eqb_spec p q); [reflexivity|]. rewrite (proj1 (proj2 (A p))), Nat.eqb_refl. reflexivity. }
  assert (Ne : p <> q) by lia.
  assert (G : forall x y, (x = p /\ y = q) \/ (x = q /\ y = p) -> exists s3, delete_all [x; y] s'' = Ok s3 tt /\ forall a, cell_at s3 a = cell_at s a).
  { intros x y H. cbn [delete_all].
    assert (Cx : cell_at s'' x = Some c) by (destruct H as [[-> ->]|[-> ->]]; auto).
    assert (Cy : cell_at s'' y = Some c) by (destruct H as [[-> ->]|[-> ->]]; auto).
    destruct (delete_leaf (length (hp s'')) s'' x c Cx D) as (s2 & E3 & L3 & C3). unfold delete at 1. rewrite E3. cbn [bind].
    assert (Cy2 : cell_at s2 y = Some c) by (rewrite C3; destruct (Nat.eqb_spec y x); [lia|auto]).
    destruct (delete_leaf (length (hp s2)) s2 y c Cy2 D) as (s3 & E4 & L4 & C4). unfold delete. rewrite E4. cbn [bind].
    exists s3. split; [reflexivity|]. intros a. rewrite C4, C3, (proj1 (proj2 (B a))), (proj1 (proj2 (A a))).
    destruct H as [[-> ->]|[-> ->]]; eqs; rewrite cell_none by lia; reflexivity. }
  apply Permutation_sym, Permutation_length_2_inv in P. destruct P as [ -> | -> ]; apply G; auto.
Qed.

Lemma borrower_copy s o s' p : borrows s o -> copied_well o -> step thr rf o s = Ok s' (Some p) ->
  exists s'' q, step thr rf (DoClone p) s' = Ok s'' (Some q) /\
    forall l, Permutation l [p; q] -> exists s3, delete_all l s'' = Ok s3 tt /\ forall a, cell_at s3 a = cell_at s a.
Proof.
  destruct o; cbn [borrows copied_well]; try contradiction.
  - intros [-> H] _. unfold is_orient in H. cbn [step]. unfold new_line. rewrite (proj2 (live_cell s o)) by eauto.
    destruct (alloc s (CLine o false)) as [s1 p'| | |] eqn:E; try discriminate E. cbn [some bind]. intros [= <- <-].
    assert (A := fun a => cell_alloc' s _ s1 p' a E). destruct (A 0) as (Ep & _ & L & _).
    assert (Cp : cell_at s1 p' = Some (CLine o false)) by (rewrite (proj1 (proj2 (A p'))), Nat.eqb_refl; reflexivity).
    assert (Co : live s1 o = true).
    { apply live_cell. rewrite (proj1 (proj2 (A o))). destruct (o =? p'); eauto. }
    unfold Clone. cbn [clone]. rewrite Cp. unfold new_line. rewrite Co.
    destruct (alloc s1 (CLine o false)) as [s2 q| | |] eqn:E2; try discriminate E2.
    exists s2, q. split; [reflexivity|]. exact (shared_copy s s1 p' (CLine o false) eq_refl E s2 q E2).
  - intros [-> H] _. unfold is_orient in H. cbn [step]. unfold new_rounded.
    destruct (alloc s (CComp [])) as [s1 c| | |] eqn:E; try discriminate E. cbn [bind]. destruct eqradius_positive; [|discriminate].
    destruct (alloc s1 (CRounded c o false)) as [s2 p'| | |] eqn:E2; try discriminate E2. cbn [some bind]. intros [= <- <-].
    assert (A := fun a => cell_alloc' s _ s1 c a E). destruct (A 0) as (Ep & _ & L & _).
    assert (B := fun a => cell_alloc' s1 _ s2 p' a E2). destruct (B 0) as (Ep2 & _ & L2 & _).
    assert (Cp : cell_at s2 p' = Some (CRounded c o false)) by (rewrite (proj1 (proj2 (B p'))), Nat.eqb_refl; reflexivity).
    assert (Cc : cell_at s2 c = Some (CComp [])).
    { rewrite (proj1 (proj2 (B c))). destruct (Nat.eqb_spec c p'); [lia|]. rewrite (proj1 (proj2 (A c))), Nat.eqb_refl. reflexivity. }
    pose proof (cell_lt _ _ _ H) as Lo.
    assert (Co : cell_at s2 o = Some COrient).
    { rewrite (proj1 (proj2 (B o))). destruct (Nat.eqb_spec o p'); [lia|]. rewrite (proj1 (proj2 (A o))). destruct (Nat.eqb_spec o c); [lia|]. exact H. }
    assert (Fin : forall s4 c' o', (forall a, cell_at s4 a = if a =? o' then Some COrient else if a =? c' then Some (CComp []) else cell_at s2 a) ->
      length (hp s4) = S (S (length (hp s2))) -> c' <> o' -> length (hp s2) <= c' < S (S (length (hp s2))) ->
      length (hp s2) <= o' < S (S (length (hp s2))) ->
      exists s'' q, some (alloc s4 (CRounded c' o' true)) = Ok s'' (Some q) /\
        forall l, Permutation l [p'; q] -> exists s3, delete_all l s'' = Ok s3 tt /\ forall a, cell_at s3 a = cell_at s a).
    { intros s4 c' o' G4 L4 Nco Bc Bo. destruct (alloc s4 (CRounded c' o' true)) as [s5 q| | |] eqn:E5; try discriminate E5.
      exists s5, q. split; [reflexivity|].
      assert (C5 := fun a => cell_alloc' s4 _ s5 q a E5). destruct (C5 0) as (P5 & _ & L5 & _).
      assert (G : forall a, cell_at s5 a = if a =? q then Some (CRounded c' o' true) else if a =? o' then Some COrient else if a =? c' then Some (CComp [])
        else cell_at s2 a).
      { intros a. rewrite (proj1 (proj2 (C5 a))), G4. reflexivity. }
      assert (Gq : cell_at s5 q = Some (CRounded c' o' true)) by (rewrite G; eqs).
      assert (Go : cell_at s5 o' = Some COrient) by (rewrite G; eqs).
      assert (Gc : cell_at s5 c' = Some (CComp [])) by (rewrite G; eqs).
      assert (Gp : cell_at s5 p' = Some (CRounded c o false)) by (rewrite G; eqs).
      assert (Gcc : cell_at s5 c = Some (CComp [])) by (rewrite G; eqs).
      assert (Base : forall a, cell_at s2 a = if a =? p' then Some (CRounded c o false) else if a =? c then Some (CComp []) else cell_at s a).
      { intros a. rewrite (proj1 (proj2 (B a))), (proj1 (proj2 (A a))). reflexivity. }
      intros l P. apply Permutation_sym, Permutation_length_2_inv in P. destruct P as [ -> | -> ]; cbn [delete_all].
      - destruct (delete_two (pred (length (hp s5))) s5 p' c _ _ Gp eq_refl Gcc eq_refl ltac:(lia)) as (s6 & E6 & L6 & C6).
        rewrite (delete_del s5 p' (S (pred (length (hp s5))))) by lia. rewrite E6. cbn [bind].
        assert (H1 : cell_at s6 q = Some (CRounded c' o' true)) by (rewrite C6; eqs).
        assert (H2 : cell_at s6 o' = Some COrient) by (rewrite C6; eqs).
        assert (H3 : cell_at s6 c' = Some (CComp [])) by (rewrite C6; eqs).
        destruct (delete_three (pred (length (hp s6))) s6 q o' c' _ _ _ H1 eq_refl H2 eq_refl H3 eq_refl ltac:(lia) ltac:(lia) ltac:(lia)) as (s7 & E7 & _ & C7).
        rewrite (delete_del s6 q (S (pred (length (hp s6))))) by lia. rewrite E7. cbn [bind]. exists s7. split; [reflexivity|].
        intros a. rewrite C7, C6, G, Base. eqs; rewrite cell_none by lia; reflexivity.
      - destruct (delete_three (pred (length (hp s5))) s5 q o' c' _ _ _ Gq eq_refl Go eq_refl Gc eq_refl ltac:(lia) ltac:(lia) ltac:(lia)) as (s6 & E6 & L6 & C6).
        rewrite (delete_del s5 q (S (pred (length (hp s5))))) by lia. rewrite E6. cbn [bind].
        assert (H1 : cell_at s6 p' = Some (CRounded c o false)) by (rewrite C6; eqs).
        assert (H2 : cell_at s6 c = Some (CComp [])) by (rewrite C6; eqs).
        destruct (delete_two (pred (length (hp s6))) s6 p' c _ _ H1 eq_refl H2 eq_refl ltac:(lia)) as (s7 & E7 & _ & C7).
        rewrite (delete_del s6 p' (S (pred (length (hp s6))))) by lia. rewrite E7. cbn [bind]. exists s7. split; [reflexivity|].
        intros a. rewrite C7, C6, G, Base. eqs; rewrite cell_none by lia; reflexivity. }
    unfold Clone. cbn [clone]. rewrite Cp. rewrite L2. destruct rf.
    + cbn [clone]. rewrite Co. destruct (alloc s2 COrient) as [s3 o'| | |] eqn:E3; try discriminate E3. cbn [bind].
      assert (C3 := fun a => cell_alloc' s2 _ s3 o' a E3). destruct (C3 0) as (P3 & _ & L3 & _).
      assert (Cc3 : cell_at s3 c = Some (CComp [])) by (rewrite (proj1 (proj2 (C3 c))); eqs). rewrite Cc3.
      destruct (alloc s3 (CComp [])) as [s4 c'| | |] eqn:E4; try discriminate E4. cbn [bind].
      assert (C4 := fun a => cell_alloc' s3 _ s4 c' a E4). destruct (C4 0) as (P4 & _ & L4 & _).
      apply Fin; try lia. intros a. rewrite (proj1 (proj2 (C4 a))), (proj1 (proj2 (C3 a))). eqs.
    + cbn [clone]. rewrite Cc. destruct (alloc s2 (CComp [])) as [s3 c'| | |] eqn:E3; try discriminate E3. cbn [bind].
      assert (C3 := fun a => cell_alloc' s2 _ s3 c' a E3). destruct (C3 0) as (P3 & _ & L3 & _).
      assert (Co3 : cell_at s3 o = Some COrient) by (rewrite (proj1 (proj2 (C3 o))); eqs). rewrite Co3.
      destruct (alloc s3 COrient) as [s4 o'| | |] eqn:E4; try discriminate E4. cbn [bind].
      assert (C4 := fun a => cell_alloc' s3 _ s4 o' a E4). destruct (C4 0) as (P4 & _ & L4 & _).
      apply Fin; try lia. intros a. rewrite (proj1 (proj2 (C4 a))), (proj1 (proj2 (C3 a))). eqs.
  - intros (-> & _) _. cbn [step].
    destruct (alloc s (CTSeg g m false)) as [s1 p'| | |] eqn:E; try discriminate E. cbn [some bind]. intros [= <- <-].
    assert (A := fun a => cell_alloc' s _ s1 p' a E). destruct (A 0) as (Ep & _ & L & _).
    assert (Cp : cell_at s1 p' = Some (CTSeg g m false)) by (rewrite (proj1 (proj2 (A p'))), Nat.eqb_refl; reflexivity).
    unfold Clone. cbn [clone]. rewrite Cp.
    destruct (alloc s1 (CTSeg g m false)) as [s2 q| | |] eqn:E2; try discriminate E2.
    exists s2, q. split; [reflexivity|]. exact (shared_copy s s1 p' (CTSeg g m false) eq_refl E s2 q E2).
Qed.
End B.

Lemma borrow_example : borrows (mkSt [Some COrient; Some CProf; Some CPoint] 0) (NewRounded 0 false true) /\ borrows (mkSt [Some COrient; Some CProf; Some CPoint] 0) (NewTSeg 2 1 false).
Proof. repeat split. Qed.
