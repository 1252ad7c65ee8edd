(** Proofs about composed paths. *)
From Coq Require Import Reals List ZArith Lia Lra Bool.
From Verif Require Import FramesModel FramesSpec Outcome KinSpec ProfModel ProfSpec PathModel PathSpec.
Import ListNotations.
Local Open Scope R_scope.

Section PathInd.
  Variable P : Path -> Prop.
  Hypothesis Hl : forall l, P (PLeaf l).
  Hypothesis Hc : forall gv dv len ca, Forall P gv -> P (PComposite gv dv len ca).
  Hypothesis Hy : forall g n, P g -> P (PCyclic g n).
  Hypothesis Hr : forall c r e n Fs Fv, P c -> P (PRounded c r e n Fs Fv).
  Fixpoint path_ind' (p : Path) : P p :=
    match p with
    | PLeaf l => Hl l
    | PComposite gv dv len ca => Hc gv dv len ca
        ((fix go (gv : list Path) : Forall P gv :=
            match gv with [] => Forall_nil P | c :: r => Forall_cons c (path_ind' c) (go r) end) gv)
    | PCyclic g n => Hy g n (path_ind' g)
    | PRounded c r e n Fs Fv => Hr c r e n Fs Fv (path_ind' c)
    end.
End PathInd.

(** * Naming the inner fixpoints *)
Definition eval_at {A} (f : Leaf -> R -> A) (s' : R) :=
  fix at_ (gv : list Path) (i : nat) {struct gv} : result (A * list Path) :=
    match gv, i with
    | [], _ => Undefd
    | c :: r, O => let? (a, c') := path_eval f c s' in Val (a, c' :: r)
    | c :: r, S i => let? (a, r') := at_ r i in Val (a, c :: r')
    end.
Lemma eval_comp {A} (f : Leaf -> R -> A) gv dv len ca s :
  path_eval f (PComposite gv dv len ca) s =
    let? (s', ca') := lookup dv len ca s in
    let? (a, gv') := eval_at f s' gv (ca_index ca') in
    Val (a, PComposite gv' dv len ca').
Proof. reflexivity. Qed.

Definition covers_on {A} (f : Leaf -> R -> A) (a : A) :=
  fix on_ (gv : list Path) (s : R) {struct gv} : Prop :=
    match gv with
    | [] => False
    | c :: r => (0 <= s <= path_len c /\ covers f c s a) \/ (path_len c <= s /\ on_ r (s - path_len c))
    end.
Lemma covers_comp {A} (f : Leaf -> R -> A) gv dv len ca s a :
  covers f (PComposite gv dv len ca) s a = covers_on f a gv s.
Proof. reflexivity. Qed.

Definition knot_on :=
  fix on_ (gv : list Path) (s : R) {struct gv} : Prop :=
    match gv with
    | [] => False
    | c :: r => (s = path_len c /\ r <> []) \/ (0 <= s <= path_len c /\ knot c s) \/
                (path_len c <= s /\ on_ r (s - path_len c))
    end.
Lemma knot_comp gv dv len ca s : knot (PComposite gv dv len ca) s = knot_on gv s.
Proof. reflexivity. Qed.

Definition joined_all :=
  fix all (gv : list Path) : Prop :=
    match gv with
    | [] => True
    | c :: r => joined c /\
                match r with
                | [] => True
                | d :: _ => forall F G, covers leaf_Pos c (path_len c) F -> covers leaf_Pos d 0 G -> F = G
                end /\ all r
    end.
Lemma joined_comp gv dv len ca : joined (PComposite gv dv len ca) = joined_all gv.
Proof. reflexivity. Qed.

Definition same_all :=
  fix all (gv gw : list Path) {struct gv} : Prop :=
    match gv, gw with
    | [], [] => True
    | c :: r, d :: r' => same_path c d /\ all r r'
    | _, _ => False
    end.
Definition inhabited_all :=
  fix all (gv : list Path) : Prop := match gv with [] => True | c :: r => inhabited_path c /\ all r end.
Definition copyable_all :=
  fix all (gv : list Path) : Prop := match gv with [] => True | c :: r => copyable c /\ all r end.

(** * Invariant of path objects *)
Fixpoint prefix (b : R) (gv : list Path) : list R :=
  match gv with [] => [] | c :: r => (b + path_len c) :: prefix (b + path_len c) r end.

Definition cache_ok (gv : list Path) (ca : Cache) : Prop :=
  ca = mkCache 0 0 0 \/
  exists c, nth_error gv (ca_index ca) = Some c /\ ca_starts ca = total_length (firstn (ca_index ca) gv) /\
    ca_ends ca = ca_starts ca + path_len c.

Fixpoint inv (p : Path) : Prop :=
  match p with
  | PLeaf l => 0 <= leaf_len l
  | PComposite gv dv len ca =>
      (fix all (gv : list Path) : Prop := match gv with [] => True | c :: r => inv c /\ all r end) gv /\
      dv = prefix 0 gv /\ len = total_length gv /\ cache_ok gv ca
  | PCyclic g n => inv g /\ (0 <= n)%Z
  | PRounded c _ _ _ _ _ => inv c
  end.
Definition inv_all :=
  fix all (gv : list Path) : Prop := match gv with [] => True | c :: r => inv c /\ all r end.
Lemma inv_all_app a b : inv_all (a ++ b) <-> inv_all a /\ inv_all b.
Proof. induction a as [|c r IH]; simpl; [tauto|]. rewrite IH. tauto. Qed.

Lemma total_app a b : total_length (a ++ b) = total_length a + total_length b.
Proof. induction a as [|c r IH]; simpl; [ring|]. rewrite IH. ring. Qed.
Lemma prefix_app b x y : prefix b (x ++ y) = prefix b x ++ prefix (b + total_length x) y.
Proof.
  revert b. induction x as [|c r IH]; intros b; simpl; [rewrite Rplus_0_r; reflexivity|].
  rewrite IH. do 2 f_equal. f_equal. ring.
Qed.

Lemma inv_len p : inv p -> 0 <= path_len p.
Proof.
  induction p as [l|gv dv len ca IH|g n IH|c r e n Fs Fv IH] using path_ind'; simpl.
  - exact (fun H => H).
  - intros (H & _ & -> & _). change (inv_all gv) in H. induction IH as [|c r Hc Hr IHr]; simpl; [lra|].
    destruct H as (H1 & H2). specialize (Hc H1). specialize (IHr H2). lra.
  - intros (H & Hn). apply Rmult_le_pos; [apply IH; exact H|]. apply IZR_le in Hn. exact Hn.
  - exact IH.
Qed.
Lemma total_nonneg gv : inv_all gv -> 0 <= total_length gv.
Proof.
  induction gv as [|c r IH]; simpl; [lra|]. intros (H1 & H2). pose proof (inv_len _ H1). specialize (IH H2). lra.
Qed.

(** * Same object up to caches *)
Lemma same_refl p : same_path p p.
Proof.
  induction p as [l|gv dv len ca IH|g n IH|c r e n Fs Fv IH] using path_ind'; simpl; auto.
  - split; [|auto]. change (same_all gv gv). induction IH as [|c r Hc Hr IHr]; simpl; auto.
  - repeat split; exact IH.
Qed.
Lemma same_len p q : same_path p q -> path_len p = path_len q.
Proof.
  revert q. induction p as [l|gv dv len ca IH|g n IH|c r e n Fs Fv IH] using path_ind'; intros [m|gw dw len' ca'|h k|d r' e' n' Fs' Fv']; simpl; try contradiction.
  - intros ->; reflexivity.
  - tauto.
  - intros (H & ->). rewrite (IH _ H). reflexivity.
  - intros (H & _). apply IH, H.
Qed.
Lemma same_all_total gv gw : same_all gv gw -> total_length gv = total_length gw.
Proof.
  revert gw. induction gv as [|c r IH]; intros [|d r']; simpl; try contradiction; [reflexivity|].
  intros (H & Hr). rewrite (same_len _ _ H), (IH _ Hr). reflexivity.
Qed.
Lemma same_all_prefix gv gw b : same_all gv gw -> prefix b gv = prefix b gw.
Proof.
  revert gw b. induction gv as [|c r IH]; intros [|d r'] b; simpl; try contradiction; [reflexivity|].
  intros (H & Hr). rewrite (same_len _ _ H), (IH _ _ Hr). reflexivity.
Qed.
Lemma same_all_firstn gv gw n : same_all gv gw -> same_all (firstn n gv) (firstn n gw).
Proof.
  revert gw n. induction gv as [|c r IH]; intros [|d r'] [|n]; simpl; try contradiction; auto.
  intros (H & Hr). split; auto.
Qed.
Lemma same_all_nth gv gw n c : same_all gv gw -> nth_error gv n = Some c ->
  exists d, nth_error gw n = Some d /\ same_path c d.
Proof.
  revert gw n. induction gv as [|c0 r IH]; intros [|d r'] [|n]; simpl; try contradiction; try discriminate.
  - intros (H & _) E. injection E as ->. exists d. auto.
  - intros (_ & Hr) E. exact (IH _ _ Hr E).
Qed.
Lemma cache_same gv gw ca : same_all gv gw -> cache_ok gv ca -> cache_ok gw ca.
Proof.
  intros H [->|(c & E & S & T)]; [left; reflexivity|right].
  destruct (same_all_nth _ _ _ _ H E) as (d & Ed & Hd). exists d. split; [exact Ed|].
  rewrite <- (same_all_total _ _ (same_all_firstn _ _ (ca_index ca) H)), <- (same_len _ _ Hd). auto.
Qed.

(** * Lookup *)
Lemma scan_ok gv : forall i b s, gv <> [] ->
  exists j c, nth_error gv j = Some c /\
    lookup_scan (prefix b gv) i b s =
      Some (s - (b + total_length (firstn j gv)),
            mkCache (b + total_length (firstn j gv)) (b + total_length (firstn j gv) + path_len c) (i + j)) /\
    (b <= s <= b + total_length gv ->
     b + total_length (firstn j gv) <= s <= b + total_length (firstn j gv) + path_len c).
Proof.
  induction gv as [|c r IH]; intros i b s N; [congruence|]. simpl.
  destruct (Rle_dec s (b + path_len c)) as [L|L].
  - exists 0%nat, c. cbn. split; [reflexivity|]. replace (b + 0) with b by ring. rewrite Nat.add_0_r. split; [reflexivity|lra].
  - destruct r as [|d r].
    + exists 0%nat, c. cbn. split; [reflexivity|]. replace (b + 0) with b by ring. rewrite Nat.add_0_r. split; [reflexivity|lra].
    + cbn [orb prefix]. change (b + path_len c + path_len d :: prefix (b + path_len c + path_len d) r) with (prefix (b + path_len c) (d :: r)).
      destruct (IH (S i) (b + path_len c) s ltac:(discriminate)) as (j & e & E & SC & B).
      exists (S j), e. split; [exact E|]. cbn [firstn total_length].
      replace (b + (path_len c + total_length (firstn j (d :: r)))) with (b + path_len c + total_length (firstn j (d :: r))) by ring.
      replace (i + S j)%nat with (S i + j)%nat by lia. split; [exact SC|].
      intros H. apply B. cbn [total_length] in *. lra.
Qed.

Lemma lookup_ok gv len ca s : cache_ok gv ca -> len = total_length gv -> inv_all gv -> gv <> [] -> 0 <= s <= len ->
  exists c ca', lookup (prefix 0 gv) len ca s = Val (s - total_length (firstn (ca_index ca') gv), ca') /\
    nth_error gv (ca_index ca') = Some c /\ 0 <= s - total_length (firstn (ca_index ca') gv) <= path_len c.
Proof.
  intros HC -> HI N Hs. unfold lookup.
  destruct (Rlt_dec s (- / 1000000000000)) as [B|_]; [exfalso; lra|].
  destruct (Rlt_dec (total_length gv + / 1000000000000) s) as [B|_]; [exfalso; lra|].
  assert (K : exists c ca', match lookup_scan (prefix 0 gv) 0 0 s with Some r => Val r | None => Val (0, ca) end
       = Val (s - total_length (firstn (ca_index ca') gv), ca') /\
    nth_error gv (ca_index ca') = Some c /\ 0 <= s - total_length (firstn (ca_index ca') gv) <= path_len c).
  { destruct (scan_ok gv 0 0 s N) as (j & c & E & -> & B). rewrite !Rplus_0_l in *.
    exists c, (mkCache (total_length (firstn j gv)) (total_length (firstn j gv) + path_len c) j). split; [reflexivity|]. cbn [ca_index]. split; [exact E|]. specialize (B Hs). lra. }
  destruct (Rle_dec (ca_starts ca) s) as [L1|L1]; [|exact K]. destruct (Rle_dec s (ca_ends ca)) as [L2|L2]; [|exact K].
  cbn [andb]. destruct HC as [->|(c & E & S & T)].
  - cbn in *. assert (s = 0) as -> by lra. destruct gv as [|c r]; [congruence|]. exists c, (mkCache 0 0 0). cbn. split; [reflexivity|]. split; [reflexivity|].
    destruct HI as (Hc & _). pose proof (inv_len _ Hc). lra.
  - exists c, ca. rewrite S. split; [reflexivity|]. split; [exact E|]. rewrite T in L2. rewrite S in *. lra.
Qed.

Lemma lookup_cache gv len ca s u ca' : cache_ok gv ca -> lookup (prefix 0 gv) len ca s = Val (u, ca') -> cache_ok gv ca'.
Proof.
  intros HC. unfold lookup. destruct (Rlt_dec s _); [discriminate|]. destruct (Rlt_dec _ s); [discriminate|].
  destruct (_ && _); [injection 1 as _ <-; exact HC|].
  destruct gv as [|c r]; [cbn; injection 1 as _ <-; exact HC|].
  destruct (scan_ok (c :: r) 0 0 s ltac:(discriminate)) as (j & d & E & -> & _). injection 1 as _ <-.
  right. exists d. cbn [ca_index ca_starts ca_ends]. rewrite !Rplus_0_l. auto.
Qed.

(** * Queries keep the object the same *)
Lemma eval_at_keep {A} (f : Leaf -> R -> A) gv : 
  Forall (fun p => inv p -> forall s a p', path_eval f p s = Val (a, p') -> inv p' /\ same_path p p') gv ->
  inv_all gv -> forall i s a gv', eval_at f s gv i = Val (a, gv') -> inv_all gv' /\ same_all gv gv'.
Proof.
  induction 1 as [|c r Hc Hr IH]; intros HI i s a gv' E; [destruct i; discriminate|].
  destruct HI as (I1 & I2). destruct i as [|i]; cbn in E.
  - destruct (path_eval f c s) as [[a0 c']| |] eqn:Ec; try discriminate. injection E as <- <-.
    destruct (Hc I1 _ _ _ Ec). split; cbn; auto. split; [assumption|].
    clear. induction r as [|x r IH]; cbn; auto. split; [apply same_refl|exact IH].
  - destruct (eval_at f s r i) as [[a0 r']| |] eqn:Er; try discriminate. injection E as <- <-.
    destruct (IH I2 _ _ _ _ Er). split; cbn; auto. split; [apply same_refl|assumption].
Qed.

Lemma eval_keep {A} (f : Leaf -> R -> A) p : inv p -> forall s a p', path_eval f p s = Val (a, p') -> inv p' /\ same_path p p'.
Proof.
  induction p as [l|gv dv len ca IH|g n IH|c r e n Fs Fv IH] using path_ind'; intros HI s a p' E.
  - cbn in E. injection E as _ <-. split; [exact HI|reflexivity].
  - rewrite eval_comp in E. destruct HI as (I1 & -> & -> & I4).
    destruct (lookup (prefix 0 gv) (total_length gv) ca s) as [[s' ca']| |] eqn:EL; try discriminate. cbn in E.
    change (ca_index (mkCache _ _ _)) with (ca_index ca') in E.
    destruct (eval_at f s' gv (ca_index ca')) as [[a0 gv']| |] eqn:EA; try discriminate. injection E as <- <-.
    destruct (eval_at_keep f gv IH I1 _ _ _ _ EA) as (K1 & K2).
    pose proof (lookup_cache _ _ _ _ _ _ I4 EL) as K3.
    split; [|split; [exact K2|auto]]. split; [exact K1|].
    split; [apply same_all_prefix; exact K2|]. split; [apply same_all_total; exact K2|].
    exact (cache_same _ _ _ K2 K3).
  - destruct HI as (I1 & I2). cbn in E. destruct (fmod s (path_len g)) as [s'| |]; try discriminate. cbn in E.
    destruct (path_eval f g s') as [[a0 g']| |] eqn:Eg; try discriminate. injection E as <- <-.
    destruct (IH I1 _ _ _ Eg). repeat split; assumption.
  - cbn in E. destruct (path_eval f c s) as [[a0 c']| |] eqn:Ec; try discriminate. injection E as <- <-.
    destruct (IH HI _ _ _ Ec). repeat split; assumption.
Qed.

Lemma same_all_trans gv : Forall (fun p => forall q r, same_path p q -> same_path q r -> same_path p r) gv ->
  forall gw gx, same_all gv gw -> same_all gw gx -> same_all gv gx.
Proof.
  induction 1 as [|c r Hc Hr IH]; intros [|d r'] [|e r'']; cbn; try contradiction; auto.
  intros (A1 & A2) (B1 & B2). split; eauto.
Qed.
Lemma same_trans p : forall q r, same_path p q -> same_path q r -> same_path p r.
Proof.
  induction p as [l|gv dv len ca IH|g n IH|c r e n Fs Fv IH] using path_ind';
    intros [m|gw dw len' ca'|h k|d r' e' n' Fs' Fv'] [m2|gx dx len2 ca2|h2 k2|d2 r2 e2 n2 Fs2 Fv2]; cbn; try contradiction.
  - intros -> ->; reflexivity.
  - intros (A1 & -> & ->) (B1 & -> & ->). split; [exact (same_all_trans gv IH _ _ A1 B1)|auto].
  - intros (A1 & ->) (B1 & ->). split; eauto.
  - intros (A1 & -> & -> & -> & -> & ->) (B1 & -> & -> & -> & -> & ->). repeat split; eauto.
Qed.

Lemma made_inv p : made p -> inv p.
Proof.
  induction 1 as [l H| |p gv dv len ca c E Hp IHp Hc IHc|g n H IH Hn|c r e n Fs Fv H IH|A f p s a p' H IH E|p s i u p' H IH E].
  - exact H.
  - cbn. repeat split. left; reflexivity.
  - subst p. destruct IHp as (I1 & I2 & I3 & I4). cbn [comp_Add].
    split; [apply inv_all_app; split; [exact I1|split; [exact IHc|exact I]]|].
    split; [rewrite I2, I3, prefix_app; cbn; rewrite Rplus_0_l; reflexivity|].
    split; [rewrite I3, total_app; cbn; ring|].
    destruct I4 as [->|(d & E1 & E2 & E3)]; [left; reflexivity|right]. exists d.
    assert (L : (ca_index ca < length gv)%nat) by (apply nth_error_Some; congruence).
    split; [rewrite nth_error_app1 by exact L; exact E1|]. split; [|exact E3].
    rewrite firstn_app. replace (ca_index ca - length gv)%nat with 0%nat by lia. rewrite firstn_O, app_nil_r. exact E2.
  - split; assumption.
  - exact IH.
  - exact (proj1 (eval_keep f p IH _ _ _ E)).
  - destruct p as [l|gv dv len ca|g n|c r e n Fs Fv]; try discriminate. cbn in E.
    destruct (lookup dv len ca s) as [[s' ca']| |] eqn:EL; try discriminate. injection E as _ _ <-.
    destruct IH as (I1 & I2 & I3 & I4). subst dv. split; [exact I1|]. split; [reflexivity|]. split; [exact I3|].
    exact (lookup_cache _ _ _ _ _ _ I4 EL).
Qed.

(** * Evaluation *)
Lemma covers_intro {A} (f : Leaf -> R -> A) a gv : inv_all gv -> forall i c s, nth_error gv i = Some c ->
  0 <= s - total_length (firstn i gv) <= path_len c -> covers f c (s - total_length (firstn i gv)) a -> covers_on f a gv s.
Proof.
  induction gv as [|d r IH]; intros HI [|i] c s E B C; try discriminate; destruct HI as (I1 & I2).
  - cbn in *. injection E as ->. rewrite Rminus_0_r in *. left. auto.
  - cbn [firstn total_length nth_error] in *. right.
    assert (N : inv_all (firstn i r)).
    { rewrite <- (firstn_skipn i r) in I2. apply inv_all_app in I2. tauto. }
    pose proof (total_nonneg _ N).
    replace (s - (path_len d + total_length (firstn i r))) with (s - path_len d - total_length (firstn i r)) in * by ring.
    split; [lra|]. exact (IH I2 i c _ E B C).
Qed.

Lemma eval_at_val {A} (f : Leaf -> R -> A) gv : forall i c s a c', nth_error gv i = Some c ->
  path_eval f c s = Val (a, c') -> exists gv', eval_at f s gv i = Val (a, gv').
Proof.
  induction gv as [|d r IH]; intros [|i] c s a c' E H; try discriminate; cbn in *.
  - injection E as ->. rewrite H. cbn. eauto.
  - destruct (IH _ _ _ _ _ E H) as (gv' & ->). cbn. eauto.
Qed.

Lemma fmod_nonneg s y : 0 <= s -> 0 < y -> exists k, fmod s y = Val (s - IZR k * y) /\ 0 <= s - IZR k * y < y.
Proof.
  intros Hs Hy. unfold fmod. destruct (Req_EM_T y 0); [lra|].
  exists (trunc (s / y)). split; [f_equal; ring|].
  assert (Q : 0 <= s / y) by (apply Rmult_le_pos; [exact Hs|apply Rlt_le, Rinv_0_lt_compat; exact Hy]).
  unfold trunc. destruct (Rle_dec 0 (s / y)); [|contradiction].
  destruct (base_Int_part (s / y)) as (B1 & B2).
  assert (E : s = s / y * y) by (field; lra). rewrite E at 1 3. split; nra.
Qed.

Lemma nth_all {P : Path -> Prop} gv i c : Forall P gv -> nth_error gv i = Some c -> P c.
Proof. intros H E. rewrite Forall_forall in H. apply H. exact (nth_error_In _ _ E). Qed.
Lemma inv_nth gv i c : inv_all gv -> nth_error gv i = Some c -> inv c.
Proof. revert i. induction gv as [|d r IH]; intros [|i] H E; try discriminate; destruct H as (H1 & H2); cbn in E; [congruence|exact (IH _ H2 E)]. Qed.
Lemma inhabited_nth gv i c : inhabited_all gv -> nth_error gv i = Some c -> inhabited_path c.
Proof. revert i. induction gv as [|d r IH]; intros [|i] H E; try discriminate; destruct H as (H1 & H2); cbn in E; [congruence|exact (IH _ H2 E)]. Qed.

Lemma eval_total {A} (f : Leaf -> R -> A) p : inv p -> inhabited_path p -> forall s, 0 <= s <= path_len p ->
  exists a p', path_eval f p s = Val (a, p') /\ covers f p s a.
Proof.
  induction p as [l|gv dv len ca IH|g n IH|c r e n Fs Fv IH] using path_ind'; intros HI HN s Hs.
  - cbn. eauto.
  - destruct HI as (I1 & -> & E3 & I4). destruct HN as (N1 & N2). cbn [path_len] in Hs.
    change (inv_all gv) in I1. change (inhabited_all gv) in N2.
    destruct (lookup_ok gv len ca s I4 E3 I1 N1 Hs) as (c & ca' & EL & En & B).
    rewrite eval_comp, EL. cbn [rbind].
    destruct (nth_all gv _ c IH En (inv_nth _ _ _ I1 En) (inhabited_nth _ _ _ N2 En) _ B) as (a & c' & Ec & Cc).
    destruct (eval_at_val f gv _ _ _ _ _ En Ec) as (gv' & ->). cbn [rbind].
    exists a. eexists. split; [reflexivity|]. rewrite covers_comp. exact (covers_intro f a gv I1 _ _ _ En B Cc).
  - destruct HI as (I1 & I2). destruct HN as (N1 & N2). cbn [path_eval].
    destruct (fmod_nonneg s _ (proj1 Hs) N1) as (k & -> & B). cbn [rbind].
    destruct (IH I1 N2 _ (conj (proj1 B) (Rlt_le _ _ (proj2 B)))) as (a & g' & -> & C). cbn [rbind].
    exists a. eexists. split; [reflexivity|]. cbn [covers]. exists k. split; assumption.
  - cbn [path_eval]. destruct (IH HI HN s Hs) as (a & c' & -> & C). cbn [rbind].
    exists a. eexists. split; [reflexivity|exact C].
Qed.

(** ** The headline *)
Lemma path_answer {A} (f : Leaf -> R -> A) p s : made p -> inhabited_path p -> 0 <= s <= path_len p ->
  exists a p', path_eval f p s = Val (a, p') /\ covers f p s a /\ same_path p p'.
Proof.
  intros M N Hs. pose proof (made_inv _ M) as HI. destruct (eval_total f p HI N s Hs) as (a & p' & E & C).
  exists a, p'. split; [exact E|]. split; [exact C|]. exact (proj2 (eval_keep f p HI _ _ _ E)).
Qed.

(** * Answers do not depend on the history *)
Lemma covers_on_same {A} (f : Leaf -> R -> A) gv : Forall (fun p => forall q s a, same_path p q -> covers f p s a -> covers f q s a) gv ->
  forall gw s a, same_all gv gw -> covers_on f a gv s -> covers_on f a gw s.
Proof.
  induction 1 as [|c r Hc Hr IH]; intros [|d r'] s a; cbn; try contradiction.
  intros (A1 & A2). rewrite (same_len _ _ A1). intros [(B & C)|(B & C)]; [left; eauto|right; eauto].
Qed.
Lemma covers_same {A} (f : Leaf -> R -> A) p : forall q s a, same_path p q -> covers f p s a -> covers f q s a.
Proof.
  induction p as [l|gv dv len ca IH|g n IH|c r e n Fs Fv IH] using path_ind';
    intros [m|gw dw len' ca'|h k|d r' e' n' Fs' Fv'] s a; try (cbn; contradiction).
  - cbn. intros ->. exact (fun H => H).
  - intros (H & _). rewrite !covers_comp. apply (covers_on_same f gv IH). exact H.
  - intros (H & _) (j & B & C). exists j. rewrite <- (same_len _ _ H). split; [exact B|]. eapply IH; eassumption.
  - intros (H & _). cbn [covers]. exact (IH d s a H).
Qed.

Lemma knot_free_on {A} (f : Leaf -> R -> A) gv :
  Forall (fun p => forall s a b, ~ knot p s -> covers f p s a -> covers f p s b -> a = b) gv -> inv_all gv ->
  forall s a b, ~ knot_on gv s -> covers_on f a gv s -> covers_on f b gv s -> a = b.
Proof.
  induction 1 as [|c r Hc Hr IH]; cbn [covers_on knot_on]; intros HI s a b K Ha Hb; [contradiction|].
  destruct HI as (I1 & I2).
  assert (K2 : path_len c <= s -> ~ knot_on r (s - path_len c)) by (intros L Q; apply K; right; right; split; [exact L|exact Q]).
  assert (K1 : 0 <= s <= path_len c -> ~ knot c s) by (intros L Q; apply K; right; left; split; [exact L|exact Q]).
  assert (R0 : forall x, covers_on f x r (s - path_len c) -> r <> []) by (intros x Q ->; exact Q).
  destruct Ha as [(A1 & A2)|(A1 & A2)]; destruct Hb as [(B1 & B2)|(B1 & B2)].
  - exact (Hc _ _ _ (K1 A1) A2 B2).
  - exfalso. apply K. left. split; [lra|exact (R0 _ B2)].
  - exfalso. apply K. left. split; [lra|exact (R0 _ A2)].
  - exact (IH I2 _ _ _ (K2 A1) A2 B2).
Qed.
Lemma same_turn k j s y : 0 < y -> 0 <= s - IZR k * y < y -> 0 <= s - IZR j * y < y -> k = j.
Proof.
  intros Hy A B. assert (H : -1 < IZR k - IZR j < 1).
  { split; apply (Rmult_lt_reg_r y); try exact Hy; lra. }
  rewrite <- minus_IZR in H. destruct H as (H1 & H2). apply lt_IZR in H1. apply lt_IZR in H2. lia.
Qed.
Lemma knot_free {A} (f : Leaf -> R -> A) p : inv p -> forall s a b, ~ knot p s -> covers f p s a -> covers f p s b -> a = b.
Proof.
  induction p as [l|gv dv len ca IH|g n IH|c r e n Fs Fv IH] using path_ind'; intros HI s a b K.
  - cbn. congruence.
  - destruct HI as (I1 & _). change (inv_all gv) in I1. rewrite !covers_comp. apply (knot_free_on f gv); [|exact I1|exact K].
    clear - IH I1. induction IH as [|c r Hc Hr IHr]; [constructor|]. destruct I1 as (I1 & I2). constructor; [exact (Hc I1)|exact (IHr I2)].
  - destruct HI as (I1 & I2). intros (k & B & C) (j & B' & C').
    assert (k = j) as <- by (apply (same_turn k j s (path_len g)); [lra|assumption|assumption]).
    apply (IH I1 (s - IZR k * path_len g)); [|assumption|assumption]. intros Q. apply K. exists k. split; assumption.
  - apply IH; assumption.
Qed.

Lemma inhabited_same p : forall q, same_path p q -> inhabited_path p -> inhabited_path q.
Proof.
  induction p as [l|gv dv len ca IH|g n IH|c r e n Fs Fv IH] using path_ind';
      intros [m|gw dw len' ca'|h k|d r' e' n' Fs' Fv']; cbn; try contradiction; auto.
  - intros (H & _) (N1 & N2). change (same_all gv gw) in H. change (inhabited_all gv) in N2.
    split; [intros ->; destruct gv; [apply N1; reflexivity|destruct H]|].
    change (inhabited_all gw). clear N1. revert gw H. induction IH as [|c r Hc Hr IHr]; intros [|d r'] H; cbn in *; try contradiction; auto.
    destruct H as (H1 & H2). destruct N2 as (N2 & N3). split; auto.
  - intros (H & _) (N1 & N2). rewrite <- (same_len _ _ H). split; auto.
  - intros (H & _). apply IH; assumption.
Qed.
Lemma knot_same p : forall q s, same_path p q -> knot q s -> knot p s.
Proof.
  induction p as [l|gv dv len ca IH|g n IH|c r e n Fs Fv IH] using path_ind';
      intros [m|gw dw len' ca'|h k|d r' e' n' Fs' Fv'] s; try (cbn; contradiction).
  - intros (H & _). rewrite !knot_comp. change (same_all gv gw) in H.
    revert gw s H. induction IH as [|c r Hc Hr IHr]; intros [|d r'] s H; try (cbn in *; contradiction); auto.
    destruct H as (H1 & H2). cbn [knot_on]. rewrite <- (same_len _ _ H1). intros [(Q1 & Q2)|[(Q1 & Q2)|(Q1 & Q2)]].
    * left. split; [exact Q1|]. intros ->. destruct r'; [apply Q2; reflexivity|destruct H2].
    * right; left. split; [exact Q1|]. eapply Hc; eassumption.
    * right; right. split; [exact Q1|]. eapply IHr; eassumption.
  - intros (H & _) (j & B & C). exists j. rewrite <- (same_len _ _ H) in *. split; [exact B|]. eapply IH; eassumption.
  - intros (H & _). cbn [knot]. exact (IH d s H).
Qed.
Lemma same_sym p : forall q, same_path p q -> same_path q p.
Proof.
  induction p as [l|gv dv len ca IH|g n IH|c r e n Fs Fv IH] using path_ind';
      intros [m|gw dw len' ca'|h k|d r' e' n' Fs' Fv']; cbn; try contradiction; auto.
  - intros (H & -> & ->). split; [|auto]. change (same_all gv gw) in H. change (same_all gw gv).
    revert gw H. induction IH as [|c r Hc Hr IHr]; intros [|d r'] H; cbn in *; try contradiction; auto.
    destruct H as (H1 & H2). split; auto.
  - intros (H & ->). auto.
  - intros (H & -> & -> & -> & -> & ->). repeat split; auto.
Qed.

Lemma observed_covers {A} (f : Leaf -> R -> A) p s a : inhabited_path p -> 0 <= s <= path_len p ->
  observed (path_eval f) p s a -> covers f p s a.
Proof.
  intros N Hs (q & q' & Mq & S & E).
  destruct (path_answer f q s Mq (inhabited_same _ _ S N)) as (a1 & q1 & E1 & C1 & _); [rewrite <- (same_len _ _ S); exact Hs|].
  rewrite E in E1. injection E1 as <- <-. exact (covers_same f q p s a (same_sym _ _ S) C1).
Qed.

Lemma history_free {A} (f : Leaf -> R -> A) p s a b : made p -> inhabited_path p ->
  0 <= s <= path_len p -> ~ knot p s ->
  observed (path_eval f) p s a -> observed (path_eval f) p s b -> a = b.
Proof.
  intros Mp N Hs K Ha Hb.
  exact (knot_free f p (made_inv _ Mp) s a b K (observed_covers f p s a N Hs Ha) (observed_covers f p s b N Hs Hb)).
Qed.

(** ** Joined paths: positions do not depend on the history even at the seams *)
Lemma covers_exists {A} (f : Leaf -> R -> A) p s : inv p -> inhabited_path p -> 0 <= s <= path_len p -> exists a, covers f p s a.
Proof. intros I N H. destruct (eval_total f p I N s H) as (a & p' & _ & C). exists a; exact C. Qed.

Lemma joined_start gv : inv_all gv -> inhabited_all gv -> joined_all gv ->
  forall c F G, (forall X Y, covers leaf_Pos c (path_len c) X ->
                   match gv with [] => True | d :: _ => covers leaf_Pos d 0 Y -> X = Y end) ->
  (forall d, In d gv -> forall s a b, covers leaf_Pos d s a -> covers leaf_Pos d s b -> a = b) ->
  covers leaf_Pos c (path_len c) F -> covers_on leaf_Pos G gv 0 -> F = G.
Proof.
  induction gv as [|d r IH]; intros I N J c F G Hj U CF CG; [destruct CG|].
  destruct I as (I1 & I2). destruct N as (N1 & N2). destruct J as (J1 & J2 & J3).
  destruct CG as [(_ & CG)|(L & CG)]; [exact (Hj F G CF CG)|].
  pose proof (inv_len _ I1) as P. assert (Z : path_len d = 0) by lra. rewrite Z in CG. rewrite Rminus_0_r in CG.
  destruct (covers_exists leaf_Pos d 0 I1 N1 ltac:(lra)) as (X & CX).
  rewrite (Hj F X CF CX). apply (IH I2 N2 J3 d).
  - intros A B CA. destruct r as [|e r]; [exact I|]. apply J2, CA.
  - intros e He. apply U. right; exact He.
  - rewrite Z. exact CX.
  - exact CG.
Qed.

Lemma joined_unique p : inv p -> inhabited_path p -> joined p -> forall s F G, covers leaf_Pos p s F -> covers leaf_Pos p s G -> F = G.
Proof.
  induction p as [l|gv dv len ca IH|g n IH|c r e n Fs Fv IH] using path_ind'; intros HI HN HJ s F G.
  - cbn. congruence.
  - destruct HI as (I1 & _). destruct HN as (_ & N2). rewrite joined_comp in HJ. rewrite !covers_comp.
    change (inv_all gv) in I1. change (inhabited_all gv) in N2. clear dv len ca.
    revert s. induction IH as [|c r Hc Hr IHr]; intros s; [intros []|].
    destruct I1 as (I1 & I2). destruct N2 as (N1 & N2). destruct HJ as (J1 & J2 & J3).
    assert (U : forall d, In d r -> forall s a b, covers leaf_Pos d s a -> covers leaf_Pos d s b -> a = b).
    { clear - Hr I2 N2 J3. induction Hr as [|x r Hx Hr IHr]; [intros d []|].
      destruct I2 as (I1 & I2). destruct N2 as (N1 & N2). destruct J3 as (J1 & J2 & J3).
      intros d [->|Hd]; [exact (Hx I1 N1 J1)|exact (IHr I2 N2 J3 d Hd)]. }
    assert (X : forall F G, s = path_len c -> covers leaf_Pos c s F -> covers_on leaf_Pos G r (s - path_len c) -> F = G).
    { intros A B -> CA CB. replace (path_len c - path_len c) with 0 in CB by ring.
      apply (joined_start r I2 N2 J3 c); [|exact U|exact CA|exact CB].
      intros Y Z CY. destruct r as [|d r']; [exact I|]. apply J2, CY. }
    cbn [covers_on]. intros [(A1 & A2)|(A1 & A2)] [(B1 & B2)|(B1 & B2)].
    + exact (Hc I1 N1 J1 _ _ _ A2 B2).
    + apply X; [lra|assumption|assumption].
    + symmetry. apply X; [lra|assumption|assumption].
    + exact (IHr I2 N2 J3 _ A2 B2).
  - destruct HI as (I1 & _). destruct HN as (N1 & N2). intros (k & B & C) (j & B' & C').
    assert (k = j) as <- by (apply (same_turn k j s (path_len g)); assumption).
    exact (IH I1 N2 HJ _ _ _ C C').
  - exact (IH HI HN HJ s F G).
Qed.

Lemma joined_history_free p s F G : made p -> inhabited_path p -> joined p ->
  0 <= s <= path_len p -> observed path_Pos p s F -> observed path_Pos p s G -> F = G.
Proof.
  intros Mp N J Hs HF HG.
  exact (joined_unique p (made_inv _ Mp) N J s F G (observed_covers _ p s F N Hs HF) (observed_covers _ p s G N Hs HG)).
Qed.
