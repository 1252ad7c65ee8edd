(** Proofs for OwnProps.v: copies, corners, reading *)
From Coq Require Import List Bool Arith Lia Permutation.
From Verif Require Import OwnModel OwnSpec OwnProofs.
Import ListNotations.

Lemma forest_tick s n F : forest s F -> forest (mkSt (hp s) n) F.
Proof.
  intros [A N L]. split; [|exact N|exact L]. eapply Forall_impl; [|exact A]. intros t H. apply at_same with s; [exact H|]. reflexivity.
Qed.
Lemma alloc_leaf s c F : forest s F -> deleted_by c = [] -> whole s c ->
  exists s' p, alloc s c = Ok s' p /\ forest s' (T p [] :: F) /\ keeps s s' /\ live s p = false /\ cell_at s' p = Some c.
Proof.
  intros FO D W. destruct (forest_alloc s c [] F FO D W) as (E & F' & K & NL). eexists; eexists. split; [exact E|]. split; [exact F'|].
  split; [exact K|]. split; [exact NL|]. destruct s as [h t]. cbn. rewrite cell_alloc. cbn. rewrite Nat.eqb_refl. reflexivity.
Qed.
Lemma alloc_own s c ts F : forest s (ts ++ F) -> deleted_by c = map root ts -> whole s c ->
  exists s' p, alloc s c = Ok s' p /\ forest s' (T p ts :: F) /\ keeps s s' /\ live s p = false /\ cell_at s' p = Some c.
Proof.
  intros FO D W. destruct (forest_alloc s c ts F FO D W) as (E & F' & K & NL). eexists; eexists. split; [exact E|]. split; [exact F'|].
  split; [exact K|]. split; [exact NL|]. destruct s as [h t]. cbn. rewrite cell_alloc. cbn. rewrite Nat.eqb_refl. reflexivity.
Qed.
Lemma orient_leaf s t : at_ s t -> is_orient s (root t) -> t = T (root t) [].
Proof.
  destruct t as [p ts]. cbn [root]. intros A O. destruct (at_inv _ _ _ _ A O) as (D & _ & _). destruct ts; [reflexivity|discriminate D].
Qed.
Lemma keeps_orient s s' o : keeps s s' -> is_orient s o -> is_orient s' o.
Proof.
  intros K O. unfold is_orient. rewrite K; [exact O|]. apply live_cell; unfold is_orient in O; eauto.
Qed.
Lemma keeps_comp s s' o : keeps s s' -> is_comp s o -> is_comp s' o.
Proof.
  intros K [gv O]. exists gv. rewrite K; [exact O|]. apply live_cell; eauto.
Qed.
Lemma keeps_cell s s' p c : keeps s s' -> cell_at s p = Some c -> cell_at s' p = Some c.
Proof.
  intros K O. rewrite K; [exact O|]. apply live_cell; eauto.
Qed.
Lemma new_line_ok s t F : forest s (t :: F) -> is_orient s (root t) ->
  exists s' l, new_line (root t) true s = Ok s' l /\ forest s' (T l [t] :: F) /\ keeps s s' /\ live s l = false /\
    cell_at s' l = Some (CLine (root t) true).
Proof.
  intros FO O. unfold new_line. rewrite (root_live s t (forest_head _ _ _ FO)).
  destruct (alloc_own s (CLine (root t) true) [t] F FO eq_refl (conj eq_refl O)) as (s' & p & E & F' & K & NL & CE). eauto 10.
Qed.

Lemma if_both (P : res addr -> Prop) (b : bool) x y : P x -> P y -> P (if b then x else y).
Proof.
  destruct b; auto.
Qed.

Section Own.
Variable thr : nat -> bool.
Variable rf : bool.

Lemma new_circle_ok s t F : forest s (t :: F) -> is_orient s (root t) ->
  match new_circle thr (root t) true s with
  | Ok s' c => exists t', root t' = c /\ forest s' (t' :: F) /\ keeps s s' /\ cell_at s' c = Some (CCircle (root t) true)
  | Throw s' => forest s' F /\ (forall a, a <> root t -> cell_at s' a = cell_at s a)
  | _ => False
  end.
Proof.
  intros FO O. unfold new_circle. rewrite (root_live s t (forest_head _ _ _ FO)).
  assert (FT : forest (mkSt (hp s) (S (tick s))) (t :: F)) by now apply forest_tick.
  destruct (thr (tick s)).
  - destruct (forest_delete _ _ _ FT) as (s' & E & F' & _ & _ & FR). unfold delete_throw. rewrite E. cbn [bind].
    split; [exact F'|]. intros a N. change (cell_at s a) with (cell_at (mkSt (hp s) (S (tick s))) a). apply FR.
    rewrite (orient_leaf s t (forest_head _ _ _ FO) O). intros [|[]]; auto.
  - destruct (alloc_own (mkSt (hp s) (S (tick s))) (CCircle (root t) true) [t] F FT eq_refl (conj eq_refl O)) as (s' & p & E & F' & K & NL & CE).
    rewrite E. exists (T p [t]). split; [reflexivity|]. split; [exact F'|]. split; [exact K|exact CE].
Qed.

Lemma plain_keeps s s' p : keeps s s' -> plain s p -> plain s' p.
Proof.
  intros K. induction 1 as [p c C S _ IH]. apply plain_node with c; [|exact S|exact IH]. eapply keeps_cell; eauto.
Qed.
Lemma plain_inv s p c : plain s p -> cell_at s p = Some c -> simple c = true /\ forall q, In q (deleted_by c) -> plain s q.
Proof.
  intros H C. inversion H as [? c' C' S K]; subst. rewrite C in C'. injection C' as ->. auto.
Qed.

Lemma alike_inv s s' p q c c' : alike s s' p q -> cell_at s p = Some c -> cell_at s' q = Some c' ->
  class c = class c' /\ Forall2 (alike s s') (deleted_by c) (deleted_by c').
Proof.
  intros H C C'. inversion H as [? ? d d' D D' E K]; subst. rewrite C in D. rewrite C' in D'. injection D as ->. injection D' as ->. auto.
Qed.
Lemma alike_same s s1 s2 t : forall p, alike s s1 p (root t) -> at_ s1 t -> (forall a, In a (addrs t) -> cell_at s2 a = cell_at s1 a) ->
  alike s s2 p (root t).
Proof.
  induction t as [q ts IH] using tree_ind'. intros p H A E. inversion A as [? c' ? C' D' W K]; subst. cbn [root] in *.
  inversion H as [? ? c d C D X F2]; subst. rewrite C' in D. injection D as <-.
  apply alike_node with c c'; auto; [rewrite E; [exact C'|left; reflexivity]|].
  rewrite D' in *. clear H A C' D' W X C.
  assert (E' : forall t, In t ts -> forall a, In a (addrs t) -> cell_at s2 a = cell_at s1 a).
  { intros t It a Ia. apply E. right. apply in_flat_map; eauto. }
  clear E. revert F2. generalize (deleted_by c). clear c. induction ts as [|t ts IHts]; intros l F2; inversion F2; subst; constructor.
  - inversion IH; inversion K; subst. match goal with H : forall p, alike _ _ p _ -> _ |- _ => apply H end; auto. apply E'. left; reflexivity.
  - inversion IH; inversion K; subst. apply IHts; auto. intros t0 It. apply E'. right; exact It.
Qed.
Lemma alike_keeps s s1 s2 t p : alike s s1 p (root t) -> at_ s1 t -> keeps s1 s2 -> alike s s2 p (root t).
Proof.
  intros H A K. eapply alike_same; eauto. intros a Ia. apply K. eapply at_live; eauto.
Qed.
Lemma alike_src s s0 s1 t : forall q, keeps s s0 -> at_ s t -> alike s0 s1 (root t) q -> alike s s1 (root t) q.
Proof.
  induction t as [p ts IH] using tree_ind'. intros q KE A H. inversion A as [? c ? C D W K]; subst. cbn [root] in *.
  assert (C0 : cell_at s0 p = Some c) by (rewrite KE; [exact C|apply live_cell; eauto]).
  inversion H as [? ? c0 c' D0 C' X F2]; subst. rewrite C0 in D0. injection D0 as <-.
  apply alike_node with c c'; auto. rewrite D in *. clear H A C C0 D W X C'. revert F2. generalize (deleted_by c'). clear c c'.
  induction ts as [|t ts IHts]; intros l F2; inversion F2; subst; constructor.
  - inversion IH; inversion K; subst. auto.
  - inversion IH; inversion K; subst. auto.
Qed.
Lemma alike_leaf s s' p q c c' : cell_at s p = Some c -> cell_at s' q = Some c' -> class c = class c' -> deleted_by c = [] -> deleted_by c' = [] ->
  alike s s' p q.
Proof.
  intros A B C D E. apply alike_node with c c'; auto. rewrite D, E. constructor.
Qed.

(** the specification of one copy *)
Definition cl_post (s : state) (t : tree) (F : list tree) (x : res addr) : Prop :=
  match x with
  | Ok s' p => exists t', root t' = p /\ forest s' (t' :: F) /\ keeps s s' /\ (is_orient s (root t) -> is_orient s' p) /\
                          (is_comp s (root t) -> is_comp s' p) /\ alike s s' (root t) p
  | Throw s' => exists G, forest s' (G ++ F) /\ keeps s s' /\ (plain s (root t) -> G = [])
  | _ => False
  end.
Definition cl_ok (n : nat) (t : tree) : Prop :=
  forall s F, at_ s t -> forest s F -> cl_post s t F (clone thr rf n (root t) s).

Lemma pair_ok n t1 t2 s F : cl_ok n t1 -> cl_ok n t2 -> at_ s t1 -> at_ s t2 -> forest s F ->
  match bind (clone thr rf n (root t1) s) (fun s a => bind (clone thr rf n (root t2) s) (fun s b => Ok s (a, b))) with
  | Ok s' (a, b) => exists u1 u2, root u1 = a /\ root u2 = b /\ forest s' (u1 :: u2 :: F) /\ keeps s s' /\
      (is_orient s (root t1) -> is_orient s' a) /\ (is_comp s (root t1) -> is_comp s' a) /\
      (is_orient s (root t2) -> is_orient s' b) /\ (is_comp s (root t2) -> is_comp s' b) /\
      alike s s' (root t1) a /\ alike s s' (root t2) b
  | Throw s' => exists G, forest s' (G ++ F) /\ keeps s s'
  | _ => False
  end.
Proof.
  intros C1 C2 A1 A2 FO. specialize (C1 s F A1 FO). unfold cl_post in C1.
  destruct (clone thr rf n (root t1) s) as [s1 a|s1| |]; cbn [bind]; try contradiction.
  - destruct C1 as (u1 & R1 & F1 & K1 & O1 & P1 & L1). specialize (C2 s1 (u1 :: F) (at_keeps _ _ _ K1 A2) F1). unfold cl_post in C2.
    destruct (clone thr rf n (root t2) s1) as [s2 b|s2| |]; cbn [bind]; try contradiction.
    + destruct C2 as (u2 & R2 & F2 & K2 & O2 & P2 & L2). exists u1, u2. split; [exact R1|]. split; [exact R2|].
      split; [eapply forest_perm; [apply perm_swap|exact F2]|]. split; [eapply keeps_trans; eauto|].
      do 4 (split; [intros H; eauto using keeps_orient, keeps_comp|]). split.
      * subst a. eapply alike_keeps; [exact L1 | apply (forest_head _ _ _ F1) | exact K2].
      * subst b. eapply alike_src; [exact K1 | exact A2 | exact L2].
    + destruct C2 as (G & F2 & K2 & _). exists (G ++ [u1]). split; [rewrite <- app_assoc; exact F2|]. eapply keeps_trans; eauto.
  - destruct C1 as (G & F1 & K1 & _). exists G. auto.
Qed.
Lemma bind_pair {A} (x : res addr) (y : state -> res addr) (f : addr -> addr -> state -> res A) :
  bind x (fun s a => bind (y s) (fun s b => f a b s)) = bind (bind x (fun s a => bind (y s) (fun s b => Ok s (a, b)))) (fun s p => f (fst p) (snd p) s).
Proof.
  destruct x as [s a| | |]; cbn; try reflexivity. destruct (y s); reflexivity.
Qed.
Lemma live_ne s a p : live s a = true -> live s p = false -> a <> p.
Proof.
  congruence.
Qed.
Lemma incl_mid (G F : list tree) t : incl (fp F) (fp (G ++ F)) /\ incl (fp F) (fp (t :: F)).
Proof.
  split; intros a I; [rewrite fp_app; apply in_or_app; auto | change (In a (addrs t ++ fp F)); apply in_or_app; auto].
Qed.

Lemma loop_alike s s0 s1 s2 q t t' ts0 ts' F : at_ s t -> keeps s s0 -> keeps s0 s1 -> forest s0 (T q ts' :: F) -> forest s1 (t' :: T q ts' :: F) ->
  Forall2 (fun t t' => alike s s0 (root t) (root t')) ts0 ts' -> alike s0 s1 (root t) (root t') -> (forall a, a <> q -> cell_at s2 a = cell_at s1 a) ->
  Forall2 (fun t t' => alike s s2 (root t) (root t')) (ts0 ++ [t]) (ts' ++ [t']).
Proof.
  intros A K0 K1 F0 F1 L0 L1 K2. apply Forall2_app.
  - assert (H : forall u, In u ts' -> at_ s1 u /\ ~ In q (addrs u)).
    { intros u Iu. pose proof (forest_head _ _ _ F0) as H. inversion H as [? ? ? ? ? ? K]; subst. rewrite Forall_forall in K. split.
      - apply at_keeps with s0; auto.
      - intros I. pose proof (fo_nd _ _ F0) as N. change (NoDup (q :: fp ts' ++ fp F)) in N. apply NoDup_cons_iff in N as [N _].
        apply N, in_or_app. left. apply in_flat_map; eauto. }
    assert (H0 : forall u, In u ts' -> at_ s0 u).
    { intros u Iu. pose proof (forest_head _ _ _ F0) as X. inversion X as [? ? ? ? ? ? K]; subst. rewrite Forall_forall in K. auto. }
    clear F0 F1 A L1. induction L0 as [|x y l l' L LL IH]; constructor.
    + apply alike_same with s1.
      * eapply alike_keeps; [exact L | apply H0; left; reflexivity | exact K1].
      * apply H. left; reflexivity.
      * intros a Ia. apply K2. intros ->. revert Ia. apply H. left; reflexivity.
    + apply IH; intros u Iu; [apply H | apply H0]; right; exact Iu.
  - constructor; [|constructor]. apply alike_same with s1.
    + eapply alike_src; eauto.
    + apply (forest_head _ _ _ F1).
    + intros a Ia. apply K2. intros ->. pose proof (fo_nd _ _ F1) as N. change (NoDup (addrs t' ++ q :: fp ts' ++ fp F)) in N.
      apply NoDup_app_l in N as (_ & _ & DJ). apply (DJ q Ia). left; reflexivity.
Qed.

Lemma clone_ok n : forall t, length (addrs t) <= n -> cl_ok n t.
Proof.
  induction n as [|n IH]; intros [p ts] L; [cbn in L; lia|].
  assert (KID : forall t, In t ts -> cl_ok n t).
  { intros t It. apply IH. cbn in L. apply in_split in It as (l1 & l2 & ->). rewrite flat_map_app in L. cbn in L. rewrite !app_length in L. lia. }
  clear IH. intros s F A FO. inversion A as [? c ? C D W K]; subst. cbn [root clone]. rewrite C.
  rewrite Forall_forall in K.
  destruct c as [ | | | |o a|o a|g a|gv|comp o a|g m a|vt].
  1-4: match type of C with _ = Some ?c => pose proof (alloc_leaf s c F FO eq_refl I) as AL end; destruct AL as (s' & q & E & F' & KE & NL & CE); rewrite E;
    exists (T q []); split; [reflexivity|]; split; [exact F'|]; split; [exact KE|]; cbn [root];
    unfold is_orient, is_comp; rewrite C; split; [congruence || (intros _; exact CE) |]; (split; [intros [? ?]; congruence|]); eapply alike_leaf; eauto.
  - destruct W as [-> O]. destruct ts as [|to [|]]; try discriminate D. injection D as ->.
    assert (AO : at_ s to) by (apply K; left; reflexivity). rewrite (root_live s to AO).
    pose proof (KID to (or_introl eq_refl) s F AO FO) as H. unfold cl_post in H.
    destruct (clone thr rf n (root to) s) as [s1 q|s1| |]; cbn [bind]; try contradiction.
    + destruct H as (t' & <- & F1 & K1 & O1 & _ & L1). destruct (new_line_ok s1 t' F F1 (O1 O)) as (s2 & l & E & F2 & K2 & _ & CE). rewrite E.
      exists (T l [t']). split; [reflexivity|]. split; [exact F2|]. split; [eapply keeps_trans; eauto|]. cbn [root].
      unfold is_orient, is_comp. rewrite C. split; [congruence|]. split; [intros [? ?]; congruence|].
      eapply alike_node; [exact C | exact CE | reflexivity |]. constructor; [|constructor].
      eapply alike_keeps; [exact L1 | apply (forest_head _ _ _ F1) | exact K2].
    + destruct H as (G & F1 & K1 & G1). exists G. split; [exact F1|]. split; [exact K1|]. intros P. apply G1.
      apply (proj2 (plain_inv _ _ _ P C)). left; reflexivity.
  - destruct W as [-> O]. destruct ts as [|to [|]]; try discriminate D. injection D as ->.
    assert (AO : at_ s to) by (apply K; left; reflexivity). rewrite (root_live s to AO).
    pose proof (KID to (or_introl eq_refl) s F AO FO) as H. unfold cl_post in H.
    destruct (clone thr rf n (root to) s) as [s1 q|s1| |]; cbn [bind]; try contradiction.
    + destruct H as (t' & <- & F1 & K1 & O1 & _ & L1). pose proof (new_circle_ok s1 t' F F1 (O1 O)) as N.
      destruct (new_circle thr (root t') true s1) as [s2 l|s2| |] eqn:NE; try contradiction.
      * destruct N as (u & <- & F2 & K2 & CE). exists u. split; [reflexivity|]. split; [exact F2|]. split; [eapply keeps_trans; eauto|]. cbn [root].
        unfold is_orient, is_comp. rewrite C. split; [congruence|]. split; [intros [? ?]; congruence|].
        eapply alike_node; [exact C | exact CE | reflexivity |]. constructor; [|constructor].
        eapply alike_keeps; [exact L1 | apply (forest_head _ _ _ F1) | exact K2].
      * destruct N as [F2 K2]. exists []. split; [exact F2|]. split; [|reflexivity]. intros a Ha. rewrite K2; [now apply K1|].
        intros ->. pose proof (fo_nd _ _ F1) as ND. change (fp (t' :: F)) with (addrs t' ++ fp F) in ND.
        apply NoDup_app_l in ND as (_ & _ & DJ). apply (DJ (root t')); [destruct t'; left; reflexivity|]. now apply FO.
    + destruct H as (G & F1 & K1 & G1). exists G. split; [exact F1|]. split; [exact K1|]. intros P. apply G1.
      apply (proj2 (plain_inv _ _ _ P C)). left; reflexivity.
  - cbn in W. subst a. destruct ts as [|to [|]]; try discriminate D. injection D as ->.
    assert (AO : at_ s to) by (apply K; left; reflexivity).
    pose proof (KID to (or_introl eq_refl) s F AO FO) as H. unfold cl_post in H.
    destruct (clone thr rf n (root to) s) as [s1 q|s1| |]; cbn [bind]; try contradiction.
    + destruct H as (t' & <- & F1 & K1 & O1 & _ & L1).
      destruct (alloc_own s1 (CCyclic (root t') true) [t'] F F1 eq_refl eq_refl) as (s2 & l & E & F2 & K2 & _ & CE). rewrite E.
      exists (T l [t']). split; [reflexivity|]. split; [exact F2|]. split; [eapply keeps_trans; eauto|]. cbn [root].
      unfold is_orient, is_comp. rewrite C. split; [congruence|]. split; [intros [? ?]; congruence|].
      eapply alike_node; [exact C | exact CE | reflexivity |]. constructor; [|constructor].
      eapply alike_keeps; [exact L1 | apply (forest_head _ _ _ F1) | exact K2].
    + destruct H as (G & F1 & K1 & G1). exists G. split; [exact F1|]. split; [exact K1|]. intros P. apply G1.
      apply (proj2 (plain_inv _ _ _ P C)). left; reflexivity.
  - cbn in W. destruct (alloc_leaf s (CComp []) F FO eq_refl eq_refl) as (s0 & q & E & F0 & K0 & NL & CE). rewrite E. cbn [bind].
    assert (IC : is_comp s0 q) by (exists []; exact CE). clear CE E.
    assert (DD : map fst gv = map root ts) by (cbn in D; rewrite filter_all in D by exact W; exact D).
    assert (PL : plain s p -> forall t, In t ts -> plain s (root t)).
    { intros P t It. apply (proj2 (plain_inv _ _ _ P C)). rewrite D. now apply in_map. }
    assert (FS : forall t, In t ts -> at_ s t) by exact K.
    cut (match (fix go (l : list (addr * bool)) (s : state) : res addr :=
           match l with
           | [] => Ok s q
           | (g, a) :: r =>
             match clone thr rf n g s with
             | Ok s g' => bind (comp_add q g' a s) (fun s _ => go r s)
             | Throw s => delete_throw q s
             | Ub => Ub | NoFuel => NoFuel
             end
           end) gv s0 with
      | Ok s' p' => p' = q /\ is_comp s' q /\ keeps s s' /\ exists ts', forest s' (T q ts' :: F) /\
                    Forall2 (fun t t' => alike s s' (root t) (root t')) ts ts'
      | Throw s' => exists G, forest s' (G ++ F) /\ keeps s s' /\ (plain s p -> G = [])
      | _ => False end).
    { intros H. unfold cl_post. destruct (_ gv s0) as [s' p'|s'| |]; try contradiction; [|exact H].
      destruct H as (-> & IC' & K' & ts' & F' & L'). exists (T q ts'). split; [reflexivity|]. split; [exact F'|]. split; [exact K'|]. cbn [root].
      split; [unfold is_orient; rewrite C; congruence|]. split; [auto|]. destruct IC' as [gv' C'].
      eapply alike_node; [exact C | exact C' | reflexivity |]. rewrite D, (proj1 (at_inv _ _ _ _ (forest_head _ _ _ F') C')).
      clear - L'. induction L'; constructor; auto. }
    clear C D A L.
    assert (F1 : exists ts0 ts', forest s0 (T q ts' :: F) /\ Forall2 (fun t t' => alike s s0 (root t) (root t')) ts0 ts' /\ ts0 ++ ts = ts)
      by (exists [], []; auto). destruct F1 as (ts0 & ts' & F1 & L0 & EQ). clear F0. rename F1 into F0.
    revert EQ. generalize ts at 2 3 as all. intros all EQ.
    revert ts0 ts' s0 F0 K0 IC L0 EQ. revert gv DD W. induction ts as [|t ts IHts]; intros gv DD W ts0 ts' s0 F0 K0 IC L0 EQ.
    + destruct gv; [|discriminate DD]. split; [reflexivity|]. split; [exact IC|]. split; [exact K0|]. exists ts'. split; [exact F0|].
      rewrite app_nil_r in EQ. subst. exact L0.
    + destruct gv as [|[g b] gv]; [discriminate DD|]. injection DD as -> DD. cbn in W. apply andb_true_iff in W as [-> W].
      pose proof (KID t (or_introl eq_refl) s0 (T q ts' :: F) (at_keeps _ _ _ K0 (FS t (or_introl eq_refl))) F0) as H. unfold cl_post in H.
      destruct (clone thr rf n (root t) s0) as [s1 u|s1| |]; try contradiction.
      * destruct H as (t' & <- & F1 & K1 & _ & _ & L1). assert (IC1 : is_comp s1 q) by (eapply keeps_comp; eauto).
        destruct (comp_add_top s1 q ts' t' F F1 IC1) as (s2 & E2 & F2 & IC2 & K2). rewrite E2. cbn [bind].
        apply (IHts (fun t It => KID t (or_intror It)) (fun t It => K t (or_intror It)) (fun P t It => PL P t (or_intror It)) (fun t It => FS t (or_intror It))
                 gv DD W (ts0 ++ [t]) _ s2 F2); [|exact IC2| |rewrite <- app_assoc; exact EQ].
        -- intros a Ha. rewrite K2 by (eapply live_ne; eauto). rewrite K1; [now apply K0|]. eapply keeps_live; eauto.
        -- eapply (loop_alike s s0 s1 s2 q t t' ts0 ts' F); auto. apply K; left; reflexivity.
      * destruct H as (G & F1 & K1 & G1). unfold delete_throw.
        apply (forest_perm _ _ (T q ts' :: G ++ F)) in F1; [|symmetry; apply Permutation_middle].
        destruct (delete_keeps s s1 (T q ts') F (G ++ F)) as (s2 & E2 & F2 & K2);
          [exact FO | eapply keeps_trans; eauto | exact F1 | apply (incl_mid G F (T q [])) |].
        cbn [root] in E2. rewrite E2. cbn [bind]. exists G. split; [exact F2|]. split; [exact K2|]. intros P. apply G1.
        apply (plain_keeps s); [exact K0|]. apply PL; [exact P|]. left; reflexivity.
  - destruct W as (-> & O & CO). destruct ts as [|to [|tc [|]]]; try discriminate D. injection D as EO EC. subst o comp.
    assert (AO : at_ s to) by (apply K; left; reflexivity). assert (AC : at_ s tc) by (apply K; right; left; reflexivity).
    assert (CO1 : cl_ok n to) by (apply KID; left; reflexivity). assert (CO2 : cl_ok n tc) by (apply KID; right; left; reflexivity).
    assert (FIN : forall s1 uo uc, keeps s s1 -> forest s1 (uo :: uc :: F) -> is_orient s1 (root uo) -> is_comp s1 (root uc) ->
      alike s s1 (root to) (root uo) -> alike s s1 (root tc) (root uc) -> cl_post s (T p [to; tc]) F (alloc s1 (CRounded (root uc) (root uo) true))).
    { intros s1 uo uc K1 F1 O1 C1 LO LC. destruct (alloc_own s1 (CRounded (root uc) (root uo) true) [uo; uc] F F1 eq_refl (conj eq_refl (conj O1 C1)))
        as (s2 & l & E & F2 & K2 & _ & CE). rewrite E. exists (T l [uo; uc]). split; [reflexivity|]. split; [exact F2|]. split; [eapply keeps_trans; eauto|].
      cbn [root]. unfold is_orient, is_comp. rewrite C. split; [congruence|]. split; [intros [? ?]; congruence|].
      eapply alike_node; [exact C | exact CE | reflexivity |]. constructor; [|constructor; [|constructor]].
      - eapply alike_keeps; [exact LO | apply (forest_head _ _ _ F1) | exact K2].
      - eapply alike_keeps; [exact LC | apply (forest_head s1 uc (uo :: F)); eapply forest_perm; [apply perm_swap|exact F1] | exact K2]. }
    assert (NP : plain s p -> False) by (intros P; apply plain_inv with (c := CRounded (root tc) (root to) true) in P; [destruct P; discriminate | exact C]).
    apply if_both.
    + rewrite (bind_pair (clone thr rf n (root to) s) (fun s => clone thr rf n (root tc) s) (fun b a s => alloc s (CRounded a b true))).
      pose proof (pair_ok n to tc s F CO1 CO2 AO AC FO) as H.
      match type of H with match ?x with _ => _ end => destruct x as [s1 [a b]|s1| |] end; cbn [bind]; try contradiction.
      * destruct H as (u1 & u2 & <- & <- & F1 & K1 & O1 & _ & _ & C1 & L1 & L2). apply FIN; auto.
      * destruct H as (G & F1 & K1). exists G. split; [exact F1|]. split; [exact K1|]. cbn [root]. tauto.
    + rewrite (bind_pair (clone thr rf n (root tc) s) (fun s => clone thr rf n (root to) s) (fun a b s => alloc s (CRounded a b true))).
      pose proof (pair_ok n tc to s F CO2 CO1 AC AO FO) as H.
      match type of H with match ?x with _ => _ end => destruct x as [s1 [a b]|s1| |] end; cbn [bind]; try contradiction.
      * destruct H as (u1 & u2 & <- & <- & F1 & K1 & _ & C1 & O1 & _ & L1 & L2). apply FIN; auto. eapply forest_perm; [apply perm_swap|exact F1].
      * destruct H as (G & F1 & K1). exists G. split; [exact F1|]. split; [exact K1|]. cbn [root]. tauto.
  - cbn in W. subst a. destruct ts as [|tm [|tg [|]]]; try discriminate D. injection D as EM EG. subst m g.
    assert (AO : at_ s tm) by (apply K; left; reflexivity). assert (AC : at_ s tg) by (apply K; right; left; reflexivity).
    assert (CO1 : cl_ok n tm) by (apply KID; left; reflexivity). assert (CO2 : cl_ok n tg) by (apply KID; right; left; reflexivity).
    assert (FIN : forall s1 um ug, keeps s s1 -> forest s1 (um :: ug :: F) ->
      alike s s1 (root tm) (root um) -> alike s s1 (root tg) (root ug) -> cl_post s (T p [tm; tg]) F (alloc s1 (CTSeg (root ug) (root um) true))).
    { intros s1 um ug K1 F1 LO LC. destruct (alloc_own s1 (CTSeg (root ug) (root um) true) [um; ug] F F1 eq_refl eq_refl)
        as (s2 & l & E & F2 & K2 & _ & CE). rewrite E. exists (T l [um; ug]). split; [reflexivity|]. split; [exact F2|]. split; [eapply keeps_trans; eauto|].
      cbn [root]. unfold is_orient, is_comp. rewrite C. split; [congruence|]. split; [intros [? ?]; congruence|].
      eapply alike_node; [exact C | exact CE | reflexivity |]. constructor; [|constructor; [|constructor]].
      - eapply alike_keeps; [exact LO | apply (forest_head _ _ _ F1) | exact K2].
      - eapply alike_keeps; [exact LC | apply (forest_head s1 ug (um :: F)); eapply forest_perm; [apply perm_swap|exact F1] | exact K2]. }
    assert (NP : plain s p -> False) by (intros P; apply plain_inv with (c := CTSeg (root tg) (root tm) true) in P; [destruct P; discriminate | exact C]).
    apply if_both.
    + rewrite (bind_pair (clone thr rf n (root tm) s) (fun s => clone thr rf n (root tg) s) (fun b a s => alloc s (CTSeg a b true))).
      pose proof (pair_ok n tm tg s F CO1 CO2 AO AC FO) as H.
      match type of H with match ?x with _ => _ end => destruct x as [s1 [a b]|s1| |] end; cbn [bind]; try contradiction.
      * destruct H as (u1 & u2 & <- & <- & F1 & K1 & _ & _ & _ & _ & L1 & L2). apply FIN; auto.
      * destruct H as (G & F1 & K1). exists G. split; [exact F1|]. split; [exact K1|]. cbn [root]. tauto.
    + rewrite (bind_pair (clone thr rf n (root tg) s) (fun s => clone thr rf n (root tm) s) (fun a b s => alloc s (CTSeg a b true))).
      pose proof (pair_ok n tg tm s F CO2 CO1 AC AO FO) as H.
      match type of H with match ?x with _ => _ end => destruct x as [s1 [a b]|s1| |] end; cbn [bind]; try contradiction.
      * destruct H as (u1 & u2 & <- & <- & F1 & K1 & _ & _ & _ & _ & L1 & L2). apply FIN; auto. eapply forest_perm; [apply perm_swap|exact F1].
      * destruct H as (G & F1 & K1). exists G. split; [exact F1|]. split; [exact K1|]. cbn [root]. tauto.
  - destruct (alloc_leaf s (CTComp []) F FO eq_refl I) as (s0 & q & E & F0 & K0 & NL & CE). rewrite E. cbn [bind].
    assert (IC : exists vt, cell_at s0 q = Some (CTComp vt)) by (exists []; exact CE). clear CE E.
    cbn in D.
    assert (NP : plain s p -> False) by (intros P; apply plain_inv with (c := CTComp vt) in P; [destruct P; discriminate | exact C]).
    cut (match (fix go (l : list addr) (s : state) : res addr :=
           match l with
           | [] => Ok s q
           | t :: r => bind (clone thr rf n t s) (fun s t' => bind (tcomp_add q t' s) (fun s _ => go r s))
           end) vt s0 with
      | Ok s' p' => p' = q /\ keeps s s' /\ (exists vt, cell_at s' q = Some (CTComp vt)) /\ exists ts', forest s' (T q ts' :: F) /\
                    Forall2 (fun t t' => alike s s' (root t) (root t')) ts ts'
      | Throw s' => exists G, forest s' (G ++ F) /\ keeps s s'
      | _ => False end).
    { intros H. unfold cl_post. destruct (_ vt s0) as [s' p'|s'| |]; try contradiction.
      - destruct H as (-> & K' & [vt' C'] & ts' & F' & L'). exists (T q ts'). split; [reflexivity|]. split; [exact F'|]. split; [exact K'|]. cbn [root].
        unfold is_orient, is_comp. rewrite C. split; [congruence|]. split; [intros [? ?]; congruence|].
        eapply alike_node; [exact C | exact C' | reflexivity |]. cbn [deleted_by]. rewrite D.
        pose proof (proj1 (at_inv _ _ _ _ (forest_head _ _ _ F') C')) as D'. cbn in D'. rewrite D'.
        clear - L'. induction L'; constructor; auto.
      - destruct H as (G & F' & K'). exists G. split; [exact F'|]. split; [exact K'|]. cbn [root]. tauto. }
    clear C A L NP.
    assert (F1 : exists ts0 ts', forest s0 (T q ts' :: F) /\ Forall2 (fun t t' => alike s s0 (root t) (root t')) ts0 ts' /\ ts0 ++ ts = ts)
      by (exists [], []; auto). destruct F1 as (ts0 & ts' & F1 & L0 & EQ). clear F0. rename F1 into F0.
    revert EQ. generalize ts at 2 3 as all. intros all EQ.
    revert ts0 ts' s0 F0 K0 IC L0 EQ. revert vt D W. induction ts as [|t ts IHts]; intros vt D W ts0 ts' s0 F0 K0 IC L0 EQ.
    + destruct vt; [|discriminate D]. split; [reflexivity|]. split; [exact K0|]. split; [exact IC|]. exists ts'. split; [exact F0|].
      rewrite app_nil_r in EQ. subst. exact L0.
    + destruct vt as [|g vt]; [discriminate D|]. injection D as -> D.
      pose proof (KID t (or_introl eq_refl) s0 (T q ts' :: F) (at_keeps _ _ _ K0 (K t (or_introl eq_refl))) F0) as H. unfold cl_post in H.
      destruct (clone thr rf n (root t) s0) as [s1 u|s1| |]; cbn [bind]; try contradiction.
      * destruct H as (t' & <- & F1 & K1 & _ & _ & L1). destruct IC as [vt0 IC]. assert (IC1 : cell_at s1 q = Some (CTComp vt0)) by (eapply keeps_cell; eauto).
        destruct (tcomp_add_top s1 q ts' t' F vt0 F1 IC1) as (s2 & E2 & F2 & IC2 & K2). rewrite E2. cbn [bind].
        apply (IHts (fun t It => KID t (or_intror It)) (fun t It => K t (or_intror It)) vt D W (ts0 ++ [t]) _ s2 F2); [|eauto| |rewrite <- app_assoc; exact EQ].
        -- intros a Ha. rewrite K2 by (eapply live_ne; eauto). rewrite K1; [now apply K0|]. eapply keeps_live; eauto.
        -- eapply (loop_alike s s0 s1 s2 q t t' ts0 ts' F); auto. apply K; left; reflexivity.
      * destruct H as (G & F1 & K1 & _). exists (G ++ [T q ts']). split; [rewrite <- app_assoc; exact F1|]. eapply keeps_trans; eauto.
Qed.
End Own.
