(** Proofs for OwnProps.v: histories *)
From Coq Require Import List Bool Arith Lia Permutation.
From Verif Require Import OwnModel OwnSpec OwnProofs OwnProofs2 OwnProofs3.
Import ListNotations.

Lemma destroy_ok s p ts F vt : forest s (T p ts :: F) -> cell_at s p = Some (CTComp vt) ->
  exists s', tcomp_destroy p s = Ok s' tt /\ forest s' (T p [] :: F).
Proof.
  intros FO C. pose proof FO as FO'. destruct FO' as [A N L]. inversion A as [|? ? A1 A2]; subst.
  destruct (at_inv _ _ _ _ A1 C) as (D & _ & K). cbn in D.
  change (NoDup (p :: fp ts ++ fp F)) in N. apply NoDup_cons_iff in N as [NP N]. apply NoDup_app_l in N as (N1 & N2 & DJ).
  destruct (delete_all_trees ts s K N1) as (s1 & E1 & L1 & T1 & F1).
  unfold tcomp_destroy. rewrite C.
  change (exists s' : state, bind (delete_all vt s) (fun s0 _ => Ok (set_cell s0 p (Some (CTComp []))) tt) = Ok s' tt /\ forest s' (T p [] :: F)).
  rewrite D, E1. cbn [bind]. eexists; split; [reflexivity|].
  assert (C1 : cell_at s1 p = Some (CTComp vt)) by (rewrite (proj2 (F1 p)); [exact C | intros I; apply NP, in_or_app; auto]).
  pose proof (set_freed s1 p (Some (CTComp [])) _ C1) as CE.
  assert (SAME : forall t, at_ s t -> (forall a, In a (addrs t) -> In a (fp F)) -> at_ (set_cell s1 p (Some (CTComp []))) t).
  { intros t At I. apply at_same with s; [exact At|]. intros a Ia. rewrite CE. destruct (Nat.eqb_spec a p).
    - subst. exfalso. apply NP, in_or_app; auto.
    - apply F1. intros J. apply (DJ a J). auto. }
  split.
  - constructor.
    + apply at_node with (CTComp []); [rewrite CE, Nat.eqb_refl; reflexivity | reflexivity | exact I | constructor].
    + rewrite Forall_forall in *. intros t It. apply SAME; [now apply A2|]. intros a Ia. apply in_flat_map; eauto.
  - change (NoDup (p :: fp F)). constructor; [|exact N2]. intros I. apply NP, in_or_app; auto.
  - intros a Ha. change (In a (p :: fp F)). apply live_cell in Ha as [x X]. rewrite CE in X. destruct (Nat.eqb_spec a p); [left; auto|right].
    destruct (in_dec Nat.eq_dec a (fp ts)) as [I|I]; [rewrite (proj1 (F1 a) I) in X; discriminate|].
    rewrite (proj2 (F1 a) I) in X. assert (H : live s a = true) by (apply live_cell; eauto). apply L in H.
    change (In a (p :: fp ts ++ fp F)) in H. destruct H as [|H]; [congruence|]. apply in_app_or in H as [|]; [contradiction|assumption].
Qed.

Definition inv (h : list addr) (s : state) (G : list tree) : Prop := exists Tr, map root Tr = h /\ forest s (Tr ++ G).
Lemma inv_perm h h' s G : Permutation h h' -> inv h s G -> inv h' s G.
Proof.
  intros P (Tr & <- & FO). symmetry in P. apply Permutation_map_inv in P as (Tr' & -> & P). exists Tr'. split; [reflexivity|].
  eapply forest_perm; [|exact FO]. now apply Permutation_app_tail.
Qed.
Lemma map_split_app (l : list tree) (a b : list addr) : map root l = a ++ b -> exists x y, l = x ++ y /\ map root x = a /\ map root y = b.
Proof.
  intros H. exists (firstn (length a) l), (skipn (length a) l). split; [symmetry; apply firstn_skipn|].
  rewrite <- firstn_map, <- skipn_map, H, firstn_app, skipn_app, firstn_all, skipn_all, Nat.sub_diag. cbn. rewrite app_nil_r. auto.
Qed.
Lemma forest_nodup s t F : forest s (t :: F) -> NoDup (addrs t).
Proof.
  intros [_ N _]. change (fp (t :: F)) with (addrs t ++ fp F) in N. now apply NoDup_app_l in N.
Qed.
Lemma pick (R : list tree) p rest : map root R = rest -> In p rest ->
  exists t R1 R2, R = R1 ++ t :: R2 /\ root t = p.
Proof.
  intros <- H. apply in_map_iff in H as (t & <- & H). apply in_split in H as (R1 & R2 & ->). eauto.
Qed.

Section Own.
Variable thr : nat -> bool.
Variable rf : bool.

Definition st_post (rest : list addr) (s : state) (o : op) (G : list tree) (x : res (option addr)) : Prop :=
  match x with
  | Ok s' r => inv (match r with Some p => p :: rest | None => rest end) s' G
  | Throw s' => exists G', inv rest s' (G' ++ G) /\ (leak_free s o -> G' = [])
  | _ => False
  end.
Lemma some_new rest s o G R x : map root R = rest ->
  rd_post s (R ++ G) (leak_free s o) x -> st_post rest s o G (some x).
Proof.
  intros ER H. unfold rd_post in H. destruct x as [s' p|s'| |]; cbn [some bind st_post]; try contradiction.
  - destruct H as (t' & <- & F' & _). exists (t' :: R). split; [cbn; now rewrite ER|]. exact F'.
  - destruct H as (G' & F' & _ & P). exists G'. split; [|exact P]. exists R. split; [exact ER|].
    eapply forest_perm; [|exact F']. rewrite !app_assoc. apply Permutation_app_tail, Permutation_app_comm.
Qed.
Lemma some_alloc rest s o G R c ts : map root R = rest -> forest s (ts ++ R ++ G) -> deleted_by c = map root ts -> whole s c ->
  st_post rest s o G (some (alloc s c)).
Proof.
  intros ER FO D W. destruct (alloc_own s c ts _ FO D W) as (s' & p & E & F' & _). rewrite E. cbn. exists (T p ts :: R).
  split; [cbn; now rewrite ER|exact F'].
Qed.
Lemma move_front (t : tree) R1 R2 G : Permutation ((R1 ++ t :: R2) ++ G) (t :: R1 ++ R2 ++ G).
Proof.
  rewrite <- app_assoc. cbn. symmetry. apply Permutation_middle.
Qed.

Lemma step_ok h s o rest G : inv h s G -> allowed h s o rest -> st_post rest s o G (step thr rf o s).
Proof.
  intros I (P & U & TY). apply (inv_perm _ _ _ _ P) in I. destruct I as (Tr & ER & FO). apply map_split_app in ER as (C & R & -> & EC & ER).
  rewrite <- app_assoc in FO. clear P h.
  destruct o as [c|o a|o a|g a|o a e|g m a|p g a|p t|p|p k|p b|p|p|t|ok t pok rok]; cbn [consumed used typed] in *.
  - destruct C; [|discriminate EC]. apply (some_alloc rest s _ G R c []); auto;
      destruct TY as [<-|[<-|[<-|[<-|[<-|[<-|[]]]]]]]; try reflexivity; exact I.
  - destruct C as [|t [|]]; try discriminate EC. injection EC as <-. destruct TY as [-> O]. cbn [step].
    destruct (new_line_ok s t _ FO O) as (s' & l & E & F' & _). rewrite E. exists (T l [t] :: R). split; [cbn; now rewrite ER|exact F'].
  - destruct C as [|t [|]]; try discriminate EC. injection EC as <-. destruct TY as [-> O]. cbn [step].
    pose proof (new_circle_ok thr s t _ FO O) as N. destruct (new_circle thr (root t) true s) as [s' c|s'| |]; cbn [some bind st_post]; try contradiction.
    + destruct N as (t' & <- & F' & _). exists (t' :: R). split; [cbn; now rewrite ER|exact F'].
    + destruct N as [F' _]. exists []. split; [|reflexivity]. exists R. auto.
  - destruct C as [|t [|]]; try discriminate EC. injection EC as <-. subst a. cbn [step].
    apply (some_alloc rest s _ G R _ [t]); auto; reflexivity.
  - destruct C as [|t [|]]; try discriminate EC. injection EC as <-. destruct TY as [-> O]. cbn [step].
    pose proof (new_rounded_ok s t _ e FO O) as N. destruct (new_rounded (root t) true e s) as [s' c|s'| |]; cbn [some bind st_post]; try contradiction.
    + destruct N as (comp & F' & _). exists (T c [t; T comp []] :: R). split; [cbn; now rewrite ER|exact F'].
    + destruct N as (-> & c & F' & _). exists [c; t]. split; [|cbn; discriminate]. exists R. split; [exact ER|].
      eapply forest_perm; [|exact F']. change (c :: t :: R ++ G) with ([c; t] ++ R ++ G). rewrite !app_assoc. apply Permutation_app_tail, Permutation_app_comm.
  - destruct C as [|tg [|tm [|]]]; try discriminate EC. injection EC as <- <-. subst a. cbn [step].
    apply (some_alloc rest s _ G R _ [tm; tg]); auto; try reflexivity. eapply forest_perm; [apply perm_swap|exact FO].
  - destruct C as [|tg [|]]; try discriminate EC. injection EC as <-. destruct TY as [-> IC]. cbn [step].
    destruct (pick R p rest ER (U p (or_introl eq_refl))) as ([q ts] & R1 & R2 & -> & EQ). cbn in EQ. subst q.
    apply (forest_perm _ _ (tg :: T p ts :: R1 ++ R2 ++ G)) in FO; [|apply perm_skip, move_front].
    destruct (comp_add_top s p ts tg _ FO IC) as (s' & E & F' & _). rewrite E. exists (R1 ++ T p (ts ++ [tg]) :: R2).
    split; [rewrite map_app in *; exact ER|]. eapply forest_perm; [symmetry; apply move_front|exact F'].
  - destruct C as [|tg [|]]; try discriminate EC. injection EC as <-. destruct TY as [vt IC]. cbn [step].
    destruct (pick R p rest ER (U p (or_introl eq_refl))) as ([q ts] & R1 & R2 & -> & EQ). cbn in EQ. subst q.
    apply (forest_perm _ _ (tg :: T p ts :: R1 ++ R2 ++ G)) in FO; [|apply perm_skip, move_front].
    destruct (tcomp_add_top s p ts tg _ vt FO IC) as (s' & E & F' & _). rewrite E. exists (R1 ++ T p (ts ++ [tg]) :: R2).
    split; [rewrite map_app in *; exact ER|]. eapply forest_perm; [symmetry; apply move_front|exact F'].
  - destruct C; [|discriminate EC]. destruct TY as [vt IC]. cbn [step].
    destruct (pick R p rest ER (U p (or_introl eq_refl))) as ([q ts] & R1 & R2 & -> & EQ). cbn in EQ. subst q.
    apply (forest_perm _ _ (T p ts :: R1 ++ R2 ++ G)) in FO; [|apply move_front].
    destruct (destroy_ok s p ts _ vt FO IC) as (s' & E & F'). rewrite E. exists (R1 ++ T p [] :: R2).
    split; [rewrite map_app in *; exact ER|]. eapply forest_perm; [symmetry; apply move_front|exact F'].
  - destruct C; [|discriminate EC]. destruct TY as (comp & o & a & IC). cbn [step].
    destruct (pick R p rest ER (U p (or_introl eq_refl))) as ([q ts] & R1 & R2 & -> & EQ). cbn in EQ. subst q.
    apply (forest_perm _ _ (T p ts :: R1 ++ R2 ++ G)) in FO; [|apply move_front].
    destruct (at_inv _ _ _ _ (forest_head _ _ _ FO) IC) as (_ & (-> & _) & _).
    destruct (rounded_children _ _ _ _ _ _ FO IC) as (to & tsc & -> & _).
    pose proof (rounded_add_ok thr rf s p to comp tsc _ o k FO IC) as H.
    destruct (rounded_add thr rf p k s) as [s' u|s'| |]; cbn [none bind st_post]; try contradiction; destruct H as (ts' & F' & _).
    + exists (R1 ++ T p [to; T comp ts'] :: R2). split; [rewrite map_app in *; exact ER|]. eapply forest_perm; [symmetry; apply move_front|exact F'].
    + exists []. split; [|reflexivity]. exists (R1 ++ T p [to; T comp ts'] :: R2). split; [rewrite map_app in *; exact ER|].
      eapply forest_perm; [symmetry; apply move_front|exact F'].
  - destruct C; [|discriminate EC]. destruct TY as (comp & o & a & IC). cbn [step].
    destruct (pick R p rest ER (U p (or_introl eq_refl))) as ([q ts] & R1 & R2 & -> & EQ). cbn in EQ. subst q.
    apply (forest_perm _ _ (T p ts :: R1 ++ R2 ++ G)) in FO; [|apply move_front].
    destruct (at_inv _ _ _ _ (forest_head _ _ _ FO) IC) as (_ & (-> & _) & _).
    destruct (rounded_children _ _ _ _ _ _ FO IC) as (to & tsc & -> & _).
    pose proof (rounded_finish_ok thr rf s p to comp tsc _ o b FO IC) as H.
    destruct (rounded_finish thr rf p b s) as [s' u|s'| |]; cbn [none bind st_post]; try contradiction; destruct H as (ts' & F' & _).
    + exists (R1 ++ T p [to; T comp ts'] :: R2). split; [rewrite map_app in *; exact ER|]. eapply forest_perm; [symmetry; apply move_front|exact F'].
    + exists []. split; [|reflexivity]. exists (R1 ++ T p [to; T comp ts'] :: R2). split; [rewrite map_app in *; exact ER|].
      eapply forest_perm; [symmetry; apply move_front|exact F'].
  - destruct C; [|discriminate EC]. cbn [step]. apply (some_new rest s (DoClone p) G R _ ER).
    destruct (pick R p rest ER (U p (or_introl eq_refl))) as (t & R1 & R2 & -> & <-).
    assert (F2 : forest s (t :: R1 ++ R2 ++ G)) by (eapply forest_perm; [apply move_front|exact FO]).
    pose proof (Clone_ok thr rf s t _ (forest_head _ _ _ F2) (forest_nodup _ _ _ F2) FO) as H. unfold cl_post in H. unfold rd_post.
    destruct (Clone thr rf (root t) s); try contradiction; [|exact H]. destruct H as (t' & A & B & D & _). eauto.
  - destruct C as [|t [|]]; try discriminate EC. injection EC as <-. cbn [step].
    destruct (forest_delete s t _ FO) as (s' & E & F' & _). rewrite E. exists R. auto.
  - destruct C; [|discriminate EC]. cbn [step]. apply (some_new rest s (ReadPath t) G R _ ER). now apply read_path_ok.
  - destruct C; [|discriminate EC]. cbn [step]. apply (some_new rest s (ReadTraj ok t pok rok) G R _ ER). now apply read_traj_ok.
Qed.

Lemma start_inv : inv [] start [].
Proof.
  exists []. split; [reflexivity|]. split; [constructor|constructor|]. intros a H. unfold live, cell_at in H. destruct a; discriminate H.
Qed.
Lemma history_inv safe h s : history thr rf safe h s -> exists G, inv h s G.
Proof.
  induction 1 as [|h s o rest s' r _ [G IH] AL E|h s o rest s' _ [G IH] AL _ E].
  - exists []. apply start_inv.
  - pose proof (step_ok h s o rest G IH AL) as H. rewrite E in H. exists G. exact H.
  - pose proof (step_ok h s o rest G IH AL) as H. rewrite E in H. destruct H as (G' & H & _). eauto.
Qed.
Lemma history_clean h s : history thr rf leak_free h s -> inv h s [].
Proof.
  induction 1 as [|h s o rest s' r _ IH AL E|h s o rest s' _ IH AL S E].
  - apply start_inv.
  - pose proof (step_ok h s o rest [] IH AL) as H. rewrite E in H. exact H.
  - pose proof (step_ok h s o rest [] IH AL) as H. rewrite E in H. destruct H as (G' & H & Z). rewrite (Z S) in H. exact H.
Qed.
Lemma progress safe h s o rest : history thr rf safe h s -> allowed h s o rest ->
  (exists s' r, step thr rf o s = Ok s' r) \/ (exists s', step thr rf o s = Throw s').
Proof.
  intros H AL. destruct (history_inv _ _ _ H) as [G IH]. pose proof (step_ok h s o rest G IH AL) as P.
  destruct (step thr rf o s); try contradiction; eauto.
Qed.
Lemma handles_valid safe h s : history thr rf safe h s -> NoDup h /\ forall p, In p h -> live s p = true.
Proof.
  intros H. destruct (history_inv _ _ _ H) as (G & Tr & <- & FO). pose proof (fo_nd _ _ FO) as N. rewrite fp_app in N. apply NoDup_app_l in N as (N & _ & _).
  split.
  - clear FO H. induction Tr as [|t Tr IH]; [constructor|]. change (NoDup (addrs t ++ fp Tr)) in N. apply NoDup_app_l in N as (_ & N2 & DJ).
    cbn. constructor; [|now apply IH]. intros I. apply in_map_iff in I as (t' & E & I). apply (DJ (root t)).
    + destruct t; left; reflexivity.
    + apply in_flat_map. exists t'. split; [exact I|]. rewrite <- E. destruct t'; left; reflexivity.
  - intros p I. apply in_map_iff in I as (t & <- & I). apply root_live. pose proof (fo_at _ _ FO) as A. apply Forall_app in A as [A _].
    rewrite Forall_forall in A. now apply A.
Qed.
Lemma delete_all_ok h s G l : inv h s G -> Permutation l h -> exists s', delete_all l s = Ok s' tt /\ forest s' G.
Proof.
  intros I P. apply (inv_perm h l) in I; [|now symmetry]. clear P h. destruct I as (Tr & <- & FO).
  revert s FO. induction Tr as [|t Tr IH]; intros s FO; [exists s; auto|].
  cbn [map delete_all]. destruct (forest_delete s t _ FO) as (s' & E & F' & _). rewrite E. cbn [bind]. now apply IH.
Qed.
Lemma delete_everything safe h s l : history thr rf safe h s -> Permutation l h -> exists s', delete_all l s = Ok s' tt.
Proof.
  intros H P. destruct (history_inv _ _ _ H) as [G IH]. destruct (delete_all_ok _ _ _ _ IH P) as (s' & E & _). eauto.
Qed.
Lemma no_leak h s l : history thr rf leak_free h s -> Permutation l h -> exists s', delete_all l s = Ok s' tt /\ empty s'.
Proof.
  intros H P. destruct (delete_all_ok _ _ _ _ (history_clean _ _ H) P) as (s' & E & F). exists s'. split; [exact E|].
  intros p. destruct (live s' p) eqn:L; [|reflexivity]. now apply F in L.
Qed.
Lemma clone_independent safe h s p s' q : history thr rf safe h s -> In p h -> step thr rf (DoClone p) s = Ok s' (Some q) ->
  live s q = false /\ (forall a, live s a = true -> cell_at s' a = cell_at s a) /\ alike s s' p q /\
  exists s2, delete p s' = Ok s2 tt /\ alike s s2 p q /\ exists s3, delete q s2 = Ok s3 tt.
Proof.
  intros H I E. destruct (history_inv _ _ _ H) as (G & Tr & <- & FO). destruct (pick Tr p _ eq_refl I) as (t & R1 & R2 & -> & <-).
  assert (F2 : forest s (t :: R1 ++ R2 ++ G)) by (eapply forest_perm; [apply move_front|exact FO]).
  pose proof (Clone_ok thr rf s t _ (forest_head _ _ _ F2) (forest_nodup _ _ _ F2) F2) as C. cbn [step] in E. unfold some in E.
  destruct (Clone thr rf (root t) s) as [s1 q1|s1| |]; cbn [bind] in E; try discriminate E. injection E as -> ->.
  destruct C as (t' & <- & F' & K & _ & _ & LK). split; [|split; [exact K|split; [exact LK|]]].
  - destruct (live s (root t')) eqn:L; [|reflexivity]. exfalso. apply (fo_live _ _ F2) in L. pose proof (fo_nd _ _ F') as N.
    change (NoDup (addrs t' ++ fp (t :: R1 ++ R2 ++ G))) in N. apply NoDup_app_l in N as (_ & _ & DJ). apply (DJ (root t')); [|exact L].
    destruct t'; left; reflexivity.
  - apply (forest_perm _ _ (t :: t' :: R1 ++ R2 ++ G)) in F'; [|apply perm_swap]. destruct (forest_delete _ _ _ F') as (s2 & E2 & F3 & _ & _ & FR).
    exists s2. split; [exact E2|]. split.
    { pose proof (fo_at _ _ F') as A. inversion A as [|? ? _ A2]; subst. inversion A2 as [|? ? A3 _]; subst.
      apply alike_same with s'; [exact LK | exact A3 |]. intros a Ia. apply FR. intros J. pose proof (fo_nd _ _ F') as N.
      change (NoDup (addrs t ++ addrs t' ++ fp (R1 ++ R2 ++ G))) in N. apply NoDup_app_l in N as (_ & _ & DJ). apply (DJ a J). apply in_or_app; auto. }
    destruct (forest_delete _ _ _ F3) as (s3 & E3 & _). eauto.
Qed.
Lemma copy_bad safe h s p c : history thr rf safe h s -> In p h -> cell_at s p = Some c -> deleted_by c <> [] ->
  exists s' q, copy p s = Ok s' q /\ delete_all [p; q] s' = Ub /\ delete_all [q; p] s' = Ub.
Proof.
  intros H I C D. destruct (history_inv _ _ _ H) as (G & Tr & <- & FO). destruct (pick Tr p _ eq_refl I) as (t & R1 & R2 & -> & <-).
  assert (F2 : forest s (t :: R1 ++ R2 ++ G)) by (eapply forest_perm; [apply move_front|exact FO]). clear FO I H.
  pose proof (forest_head _ _ _ F2) as A. pose proof (forest_nodup _ _ _ F2) as N. destruct t as [a ts]. cbn [root] in *.
  unfold copy. rewrite C. eexists; eexists. split; [reflexivity|].
  set (q := length (hp s)). set (s' := mkSt (hp s ++ [Some c]) (tick s)).
  assert (CE : forall x, cell_at s' x = if x =? q then Some c else cell_at s x) by (intros x; apply cell_alloc).
  assert (LQ : forall x, live s x = true -> x <> q).
  { intros x L ->. apply live_cell in L as [? L]. apply cell_lt in L. unfold q in L. lia. }
  assert (K : forall x, live s x = true -> cell_at s' x = cell_at s x).
  { intros x L. rewrite CE. destruct (Nat.eqb_spec x q); [|reflexivity]. exfalso. now apply (LQ x). }
  assert (A' : at_ s' (T a ts)) by (eapply at_keeps; [exact K|exact A]).
  destruct (at_inv _ _ _ _ A C) as (DB & W & KK).
  assert (AQ : at_ s' (T q ts)).
  { destruct (at_inv _ _ _ _ A' (eq_trans (K a ltac:(apply live_cell; eauto)) C)) as (_ & W' & KK'). apply at_node with c; auto. rewrite CE, Nat.eqb_refl. reflexivity. }
  assert (NQ : ~ In q (a :: flat_map addrs ts)).
  { intros I. apply (LQ q); [|reflexivity]. apply (at_live s (T a ts)); assumption. }
  cbn [addrs] in N. apply NoDup_cons_iff in N as [NA N].
  assert (TWO : forall x y, at_ s' (T x ts) -> NoDup (x :: flat_map addrs ts) -> cell_at s' y = Some c -> ~ In y (x :: flat_map addrs ts) ->
     delete_all [x; y] s' = Ub).
  { intros x y Ax Nx Cy Ny. cbn [delete_all]. destruct (del_tree (T x ts) s' (S (length (hp s'))) Ax Nx) as (s1 & E1 & L1 & T1 & F1);
      [pose proof (addrs_le s' (T x ts) Ax Nx); lia|]. unfold delete at 1. cbn [root] in E1. rewrite E1. cbn [bind].
    unfold delete. rewrite del_S, (proj2 (F1 y) Ny), Cy. destruct (deleted_by c) as [|d ds] eqn:DE; [congruence|].
    destruct ts as [|t1 ts]; [discriminate DB|]. injection DB as -> DB. cbn [dels].
    assert (X : cell_at s1 (root t1) = None) by (apply (F1 (root t1)); right; cbn; apply in_or_app; left; destruct t1; left; reflexivity).
    assert (LL : exists k, length (hp s1) = S k).
    { pose proof (cell_lt _ _ _ Cy) as LT. rewrite <- L1 in LT. destruct (length (hp s1)); [lia|eauto]. }
    destruct LL as [k ->]. rewrite del_S, X. reflexivity. }
  split.
  - apply TWO; [exact A' | constructor; assumption | rewrite CE, Nat.eqb_refl; reflexivity | exact NQ].
  - apply TWO; [exact AQ | constructor; [|exact N] | rewrite K; [exact C|apply live_cell; eauto] |].
    + intros I. apply NQ. right; exact I.
    + intros [E|I]; [apply NQ; left; auto | contradiction].
Qed.
End Own.

(** a history with a rounded corner, whose circle is made at the second attempt, a copy, and a read that fails *)
Definition throw_first (n : nat) : bool := n =? 0.
Definition after (o : op) (s : state) : state := match step throw_first true o s with Ok s _ => s | Throw s => s | _ => s end.
Definition ex0 : state := start.
Definition ex1 : state := Eval vm_compute in after (NewLeaf COrient) ex0.
Definition ex2 : state := Eval vm_compute in after (NewRounded 0 true true) ex1.
Definition ex3 : state := Eval vm_compute in after (RoundedAdd 2 Round) ex2.
Definition ex4 : state := Eval vm_compute in after (RoundedAdd 2 Parallel) ex3.
Definition ex5 : state := Eval vm_compute in after (ReadPath (TComp true [TLine true true true; TBad] true)) ex4.
Definition ex6 : state := Eval vm_compute in after (DoClone 2) ex5.
Lemma example_history : history throw_first true leak_free [21; 2] ex6 /\ (exists c o a, cell_at ex6 21 = Some (CRounded c o a)) /\ plain ex6 8 /\
  step throw_first true (RoundedAdd 2 Round) ex2 = Throw ex3.
Proof.
  assert (ND : forall h s o rest s' r h', history throw_first true leak_free h s -> step throw_first true o s = Ok s' r -> allowed h s o rest ->
    h' = match r with Some p => p :: rest | None => rest end -> history throw_first true leak_free h' s') by (intros; subst; eapply h_done; eauto).
  assert (TH : forall h s o rest s', history throw_first true leak_free h s -> step throw_first true o s = Throw s' -> allowed h s o rest ->
    leak_free s o -> history throw_first true leak_free rest s') by (intros; eapply h_throw; eauto).
  pose proof (h_start throw_first true leak_free) as H. change start with ex0 in H.
  apply (ND _ _ (NewLeaf COrient) [] ex1 (Some 0) [0]) in H; [|vm_compute; reflexivity|split; [reflexivity|]; split; [intros p []|left; reflexivity]|reflexivity].
  apply (ND _ _ (NewRounded 0 true true) [] ex2 (Some 2) [2]) in H; [|vm_compute; reflexivity|split; [reflexivity|]; split; [intros p []|split; reflexivity]|reflexivity].
  apply (TH _ _ (RoundedAdd 2 Round) [2] ex3) in H; [|vm_compute; reflexivity|split; [reflexivity|]; split; [intros p [<-|[]]; left; reflexivity|do 3 eexists; reflexivity]|cbn; auto].
  apply (ND _ _ (RoundedAdd 2 Parallel) [2] ex4 None [2]) in H; [|vm_compute; reflexivity|split; [reflexivity|]; split; [intros p [<-|[]]; left; reflexivity|do 3 eexists; reflexivity]|reflexivity].
  apply (TH _ _ (ReadPath (TComp true [TLine true true true; TBad] true)) [2] ex5) in H; [|vm_compute; reflexivity|split; [reflexivity|]; split; [intros p []|exact I]|cbn; auto].
  apply (ND _ _ (DoClone 2) [2] ex6 (Some 21) [21; 2]) in H; [|vm_compute; reflexivity|split; [reflexivity|]; split; [intros p [<-|[]]; left; reflexivity|exact I]|reflexivity].
  split; [exact H|]. split; [do 3 eexists; reflexivity|]. split; [|vm_compute; reflexivity].
  apply plain_node with (CLine 7 true); [reflexivity|reflexivity|]. intros q [<-|[]]. apply plain_node with COrient; [reflexivity|reflexivity|intros q []].
Qed.

(** findings *)
Definition no_throw (n : nat) : bool := false.
Definition throw_at (k n : nat) : bool := n =? k.
Lemma rounded_leak : exists s, history no_throw true any [] s /\ ~ empty s.
Proof.
  eexists. split.
  - eapply (h_throw _ _ _ [0] _ (NewRounded 0 true false) []).
    + eapply (h_done _ _ _ [] _ (NewLeaf COrient) [] _ (Some 0)); [apply h_start| |reflexivity].
      split; [constructor|]. split; [intros p []|left; reflexivity].
    + split; [constructor; constructor|]. split; [intros p []|]. split; reflexivity.
    + exact I.
    + reflexivity.
  - intros E. specialize (E 0). discriminate E.
Qed.
Lemma read_leak : exists s, step no_throw true (ReadPath (TRounded true true false [] false true)) start = Throw s /\ ~ empty s.
Proof.
  eexists. split; [reflexivity|]. intros E. specialize (E 0). discriminate E.
Qed.
(** 0 orient, 1 circle, 2 profile, 3 segment, 4 composite; the copy allocates 5 composite, then the copy of the circle throws *)
Lemma clone_leak : exists s h, history (throw_at 1) true any h s /\ forall l s', Permutation l h -> delete_all l s = Ok s' tt -> ~ empty s'.
Proof.
  assert (P1 : forall (l : list addr) x, Permutation l [x] -> l = [x]) by (intros l x P; apply Permutation_length_1_inv; symmetry; exact P).
  assert (ND : forall h s o rest s' r h', history (throw_at 1) true any h s -> step (throw_at 1) true o s = Ok s' r -> allowed h s o rest ->
    h' = match r with Some p => p :: rest | None => rest end -> history (throw_at 1) true any h' s') by (intros; subst; eapply h_done; eauto).
  pose proof (h_start (throw_at 1) true any) as H.
  eapply (ND _ _ (NewLeaf COrient) [] _ _ [0]) in H; [|reflexivity|split; [constructor|]; split; [intros p []|left; reflexivity]|reflexivity].
  eapply (ND _ _ (NewCircle 0 true) [] _ _ [1]) in H; [|reflexivity|split; [reflexivity|]; split; [intros p []|split; reflexivity]|reflexivity].
  eapply (ND _ _ (NewLeaf CProf) [1] _ _ [2; 1]) in H; [|reflexivity|split; [reflexivity|]; split; [intros p []|right; left; reflexivity]|reflexivity].
  eapply (ND _ _ (NewTSeg 1 2 true) [] _ _ [3]) in H; [|reflexivity|split; [apply perm_swap|]; split; [intros p []|reflexivity]|reflexivity].
  eapply (ND _ _ (NewLeaf (CTComp [])) [3] _ _ [4; 3]) in H; [|reflexivity|split; [reflexivity|]; split; [intros p []|do 5 right; left; reflexivity]|reflexivity].
  eapply (ND _ _ (AddTraj 4 3) [4] _ _ [4]) in H;
    [|reflexivity|split; [apply perm_swap|]; split; [intros p [<-|[]]; left; reflexivity|eexists; reflexivity]|reflexivity].
  eapply (h_throw _ _ _ _ _ (DoClone 4) [4]) in H; [|split; [reflexivity|]; split; [intros p [<-|[]]; left; reflexivity|exact I]|exact I|reflexivity].
  eexists. exists [4]. split; [exact H|].
  intros l s' P E. apply P1 in P. subst l. injection E as <-. intros E. specialize (E 5). discriminate E.
Qed.
(** aggregate = false: the client keeps the interpolator 0, or the member path; the copy of it belongs to nobody *)
Lemma borrowed_circle : exists s s', run no_throw true [NewLeaf COrient; NewCircle 0 false; DoClone 1] start = Some s /\
  delete_all [3; 1; 0] s = Ok s' tt /\ live s' 2 = true.
Proof.
  eexists; eexists. split; [reflexivity|]. split; reflexivity.
Qed.
Lemma borrowed_composite : exists s s', run no_throw true [NewLeaf CPoint; NewLeaf (CComp []); AddPath 1 0 false; DoClone 1] start = Some s /\
  delete_all [2; 1; 0] s = Ok s' tt /\ live s' 3 = true.
Proof.
  eexists; eexists. split; [reflexivity|]. split; reflexivity.
Qed.
Lemma borrowed_cyclic : exists s s', run no_throw true [NewLeaf CPoint; NewCyclic 0 false; DoClone 1] start = Some s /\
  delete_all [3; 1; 0] s = Ok s' tt /\ live s' 2 = true.
Proof.
  eexists; eexists. split; [reflexivity|]. split; reflexivity.
Qed.
