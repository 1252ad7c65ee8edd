(** Proofs about the singular value routines: the reduction to bidiagonal form. *)
From Coq Require Import Reals List ZArith Bool Arith Lia Lra Psatz.
From Verif Require Import Outcome LinModel LinSpec SumProofs SvdModel SvdHouse.
Import ListNotations.
Local Open Scope R_scope.

Lemma iter_ok {St} (Inv : nat -> St -> Prop) body n : forall i s, Inv i s ->
  (forall k s, (i <= k < i + n)%nat -> Inv k s -> exists s', body k s = Go s' /\ Inv (S k) s') ->
  exists s', iter n i body s = Go s' /\ Inv (i + n)%nat s'.
Proof.
  induction n as [|n IH]; intros i s H0 HB; simpl.
  - exists s. rewrite Nat.add_0_r. auto.
  - destruct (HB i s ltac:(lia) H0) as (s1 & E1 & I1). rewrite E1. cbn [rbind].
    destruct (IH (S i) s1 I1) as (s2 & E2 & I2); [intros k s' Hk; apply HB; lia|].
    exists s2. split; [exact E2|]. replace (i + S n)%nat with (S i + n)%nat by lia. exact I2.
Qed.
Lemma iter_down_ok {St} (Inv : nat -> St -> Prop) body n : forall s, Inv n s ->
  (forall k s, (k < n)%nat -> Inv (S k) s -> exists s', body k s = Go s' /\ Inv k s') ->
  exists s', iter_down n body s = Go s' /\ Inv 0%nat s'.
Proof.
  induction n as [|n IH]; intros s H0 HB; simpl.
  - exists s. auto.
  - destruct (HB n s ltac:(lia) H0) as (s1 & E1 & I1). rewrite E1. cbn [rbind].
    apply IH; [exact I1|]. intros k s' Hk. apply HB. lia.
Qed.

(** * Reflections of matrices *)
Definition reflL (rows : nat) (u : vec) (beta : R) (X : mat) : mat :=
  fun a b => X a b + beta * sumn rows (fun c => u c * X c b) * u a.
Definition reflR (cols : nat) (v : vec) (gamma : R) (X : mat) : mat :=
  fun a b => X a b + gamma * sumn cols (fun d => X a d * v d) * v b.
(** the stored vectors and factors of step i *)
Definition lv (U : mat) (i : nat) : vec := fun a => if Nat.leb i a then U a i else 0.
Definition rv (U : mat) (i : nat) : vec := fun b => if Nat.leb (i + 1) b then U i b else 0.
Definition factor (x s : R) : R := if Req_EM_T s 0 then 0 else 1 / (x * s).
Definition bid (S T : vec) : mat := fun a b => if Nat.eqb a b then S a else if Nat.eqb b (a + 1) then T b else 0.

Lemma sum_lv rows U i (x : vec) : sumn rows (fun c => lv U i c * x c) = from i rows (fun c => U c i * x c).
Proof. rewrite from_sumn. apply sumn_ext. intros c _. unfold lv. destruct (Nat.leb i c); ring. Qed.
Lemma sum_rv cols U i (x : vec) : sumn cols (fun d => x d * rv U i d) = from (i + 1) cols (fun d => U i d * x d).
Proof. rewrite from_sumn. apply sumn_ext. intros d _. unfold rv. destruct (Nat.leb (i + 1) d); ring. Qed.
Lemma factor_zero x s : s = 0 -> factor x s = 0.
Proof. intros ->. unfold factor. destruct (Req_EM_T 0 0); [reflexivity|contradiction]. Qed.
Lemma factor_nonzero x s : s <> 0 -> factor x s = 1 / (x * s).
Proof. intros H. unfold factor. destruct (Req_EM_T s 0); [contradiction|reflexivity]. Qed.

Section Bidiag.
Variables (rows cols : nat).

(** The column phase of step i, Z being the finished rows. *)
Definition before_col (i : nat) (Z U : mat) : mat := fun a b => if Nat.ltb a i then Z a b else if Nat.ltb b i then 0 else U a b.
Definition after_col (i : nat) (s : R) (Z U : mat) : mat := fun a b =>
  if Nat.ltb a i then Z a b else if Nat.ltb b i then 0 else if Nat.eqb b i then (if Nat.eqb a i then s else 0) else U a b.
Lemma col_refl i Z U U' s :
  ((s = 0 /\ (forall a b, U' a b = U a b) /\ (forall k, (i <= k < rows)%nat -> U k i = 0)) \/
   ((i < rows)%nat /\ U' i i <> 0 /\ s <> 0 /\
    from i rows (fun k => U' k i * U' k i) = -2 * (U' i i * s) /\
    (forall k, (i <= k < rows)%nat -> U k i = (if Nat.eqb k i then s else 0) + U' k i) /\
    forall k j, (i <= k < rows)%nat -> (i < j < cols)%nat ->
      U k j = U' k j + 1 / (U' i i * s) * from i rows (fun l => U' l i * U' l j) * U' k i)) ->
  forall a b, (a < rows)%nat -> (b < cols)%nat ->
  before_col i Z U a b = reflL rows (lv U' i) (factor (U' i i) s) (after_col i s Z U') a b.
Proof.
  intros H a b Ha Hb. unfold reflL, before_col. rewrite sum_lv.
  destruct H as [(Es & EU & Ez)|(Hr & HU & Hs & Hsq & Hc & Hj)].
  - rewrite (factor_zero _ _ Es), !Rmult_0_l, Rplus_0_r. unfold after_col.
    destruct (Nat.ltb_spec a i); [reflexivity|]. destruct (Nat.ltb_spec b i); [reflexivity|].
    destruct (Nat.eqb_spec b i) as [->|N]; [|now rewrite EU]. rewrite (Ez a) by lia. destruct (Nat.eqb a i); [now rewrite Es|reflexivity].
  - rewrite (factor_nonzero _ _ Hs). unfold after_col at 1.
    destruct (Nat.ltb_spec a i) as [La|La].
    { unfold lv. destruct (Nat.leb_spec i a); [lia|]. ring. }
    unfold lv. destruct (Nat.leb_spec i a) as [_|]; [|lia].
    destruct (Nat.ltb_spec b i) as [Lb|Lb].
    { rewrite (from_zero i rows). { ring. }
      intros c Hc0. unfold after_col. destruct (Nat.ltb_spec c i); [lia|]. destruct (Nat.ltb_spec b i); [ring|lia]. }
    destruct (Nat.eqb_spec b i) as [->|N].
    + rewrite (Hc a) by lia. rewrite (from_pick i rows i); [|lia|].
      * unfold after_col. rewrite Nat.ltb_irrefl, Nat.eqb_refl. field. split; assumption.
      * intros c Hc0 Nc. unfold after_col. rewrite Nat.ltb_irrefl, Nat.eqb_refl. destruct (Nat.ltb_spec c i); [lia|]. destruct (Nat.eqb_spec c i); [contradiction|ring].
    + rewrite (Hj a b) by lia. f_equal. f_equal. f_equal. apply from_ext. intros c Hc0. unfold after_col.
      destruct (Nat.ltb_spec c i); [lia|]. destruct (Nat.ltb_spec b i); [lia|]. destruct (Nat.eqb_spec b i); [contradiction|reflexivity].
Qed.
(** The row phase: Zi is the finished row i. *)
Lemma row_refl i Z U U' s t : (forall a d, (a < i)%nat -> (i < d < cols)%nat -> Z a d = 0) ->
  ((t = 0 /\ (forall a b, U' a b = U a b) /\ ((i < rows)%nat -> forall k, (i + 1 <= k < cols)%nat -> U i k = 0)) \/
   ((i < rows)%nat /\ (i + 1 < cols)%nat /\ U' i (i + 1)%nat <> 0 /\ t <> 0 /\
    from (i + 1) cols (fun k => U' i k * U' i k) = -2 * (U' i (i + 1)%nat * t) /\
    (forall k, (i + 1 <= k < cols)%nat -> U i k = (if Nat.eqb k (i + 1) then t else 0) + U' i k) /\
    forall a k, (i < a < rows)%nat -> (i + 1 <= k < cols)%nat ->
      U a k = U' a k + 1 / (U' i (i + 1)%nat * t) * from (i + 1) cols (fun l => U' i l * U' a l) * U' i k)) ->
  forall Z', (forall a b, (a < i)%nat -> Z' a b = Z a b) ->
  (forall b, Z' i b = if Nat.eqb b i then s else if Nat.eqb b (i + 1) then t else 0) ->
  forall a b, (a < rows)%nat -> (b < cols)%nat ->
  after_col i s Z U a b = reflR cols (rv U' i) (factor (U' i (i + 1)%nat) t) (before_col (i + 1) Z' U') a b.
Proof.
  intros HZ H Z' Z1 Z2 a b Ha Hb. unfold reflR. rewrite sum_rv.
  destruct H as [(Es & EU & Ez)|(Hr & Hp & HU & Hs & Hsq & Hc & Hj)].
  - rewrite (factor_zero _ _ Es), !Rmult_0_l, Rplus_0_r. unfold after_col, before_col.
    destruct (Nat.ltb_spec a i) as [La|La].
    { destruct (Nat.ltb_spec a (i + 1)); [|lia]. symmetry. apply Z1. exact La. }
    destruct (Nat.ltb_spec a (i + 1)) as [La1|La1].
    { assert (a = i) by lia. subst a. rewrite Z2. rewrite Nat.eqb_refl. destruct (Nat.ltb_spec b i).
      - destruct (Nat.eqb_spec b i); [lia|]. destruct (Nat.eqb_spec b (i + 1)); [lia|reflexivity].
      - destruct (Nat.eqb_spec b i); [reflexivity|]. rewrite (Ez Ha b) by lia. destruct (Nat.eqb b (i + 1)); congruence. }
    destruct (Nat.ltb_spec b i).
    { destruct (Nat.ltb_spec b (i + 1)); [reflexivity|lia]. }
    destruct (Nat.eqb_spec b i).
    { destruct (Nat.eqb_spec a i); [lia|]. destruct (Nat.ltb_spec b (i + 1)); [reflexivity|lia]. }
    destruct (Nat.ltb_spec b (i + 1)); [lia|]. now rewrite EU.
  - rewrite (factor_nonzero _ _ Hs). unfold after_col.
    destruct (Nat.ltb_spec a i) as [La|La].
    { rewrite (from_zero (i + 1) cols).
      - unfold before_col. destruct (Nat.ltb_spec a (i + 1)); [|lia]. rewrite (Z1 a b La). ring.
      - intros d Hd. unfold before_col. destruct (Nat.ltb_spec a (i + 1)); [|lia]. rewrite (Z1 a d La), HZ by lia. ring. }
    destruct (Nat.ltb_spec b i) as [Lb|Lb].
    { unfold rv. destruct (Nat.leb_spec (i + 1) b); [lia|]. rewrite Rmult_0_r, Rplus_0_r. unfold before_col.
      destruct (Nat.ltb_spec a (i + 1)).
      - assert (a = i) by lia. subst a. rewrite Z2. destruct (Nat.eqb_spec b i); [lia|]. destruct (Nat.eqb_spec b (i + 1)); [lia|reflexivity].
      - destruct (Nat.ltb_spec b (i + 1)); [reflexivity|lia]. }
    destruct (Nat.eqb_spec b i) as [->|N].
    { unfold rv. destruct (Nat.leb_spec (i + 1) i); [lia|]. rewrite Rmult_0_r, Rplus_0_r. unfold before_col.
      destruct (Nat.eqb_spec a i) as [->|Na].
      - destruct (Nat.ltb_spec i (i + 1)); [|lia]. now rewrite Z2, Nat.eqb_refl.
      - destruct (Nat.ltb_spec a (i + 1)); [lia|]. destruct (Nat.ltb_spec i (i + 1)); [reflexivity|lia]. }
    unfold rv. destruct (Nat.leb_spec (i + 1) b) as [_|]; [|lia].
    destruct (Nat.eq_dec a i) as [->|Na].
    + rewrite (Hc b) by lia. rewrite (from_pick (i + 1) cols (i + 1)); [|lia|].
      * unfold before_col. destruct (Nat.ltb_spec i (i + 1)); [|lia]. rewrite !Z2.
        destruct (Nat.eqb_spec (i + 1) i); [lia|]. rewrite Nat.eqb_refl. destruct (Nat.eqb_spec b i); [contradiction|]. field. split; assumption.
      * intros d Hd Nd. unfold before_col. destruct (Nat.ltb_spec i (i + 1)); [|lia]. rewrite Z2.
        destruct (Nat.eqb_spec d i); [lia|]. destruct (Nat.eqb_spec d (i + 1)); [contradiction|ring].
    + rewrite (Hj a b) by lia. unfold before_col at 1. destruct (Nat.ltb_spec a (i + 1)); [lia|]. destruct (Nat.ltb_spec b (i + 1)); [lia|].
      f_equal. f_equal. f_equal. apply from_ext. intros d Hd. unfold before_col.
      destruct (Nat.ltb_spec a (i + 1)); [lia|]. destruct (Nat.ltb_spec d (i + 1)); [lia|reflexivity].
Qed.

Variables (checked : bool) (eps : R).
Hypothesis eps_ok : 0 <= eps.

(** tmp with the value that the next step will store in place i *)
Definition pending (st : hh) (i : nat) : vec := vset (hT st) i (hscale st * hg st).
(** stored reflection vectors are complete *)
Record stored (n : nat) (U : mat) (S T : vec) : Prop := {
  st_0 : T 0%nat = 0;
  st_l : forall a, (a < n)%nat -> S a <> 0 -> (a < rows)%nat /\ U a a <> 0 /\ from a rows (fun k => U k a * U k a) = -2 * (U a a * S a);
  st_r : forall a, (a < n)%nat -> T (a + 1)%nat <> 0 -> (a < rows)%nat /\ (a + 1 < cols)%nat /\ U a (a + 1)%nat <> 0 /\
           from (a + 1) cols (fun k => U a k * U a k) = -2 * (U a (a + 1)%nat * T (a + 1)%nat) }.
(** the matrices between the steps, from the given one to the bidiagonal one *)
Definition history (A : mat) (n : nat) (U : mat) (S T : vec) : Prop :=
  exists As : nat -> mat,
    (forall a b, (a < rows)%nat -> (b < cols)%nat -> As 0%nat a b = A a b) /\
    (forall i, (i < n)%nat -> forall a b, (a < rows)%nat -> (b < cols)%nat ->
       As i a b = reflL rows (lv U i) (factor (U i i) (S i)) (reflR cols (rv U i) (factor (U i (i + 1)%nat) (T (i + 1)%nat)) (As (i + 1)%nat)) a b) /\
    (forall a b, (a < rows)%nat -> (b < cols)%nat -> As n a b = before_col n (bid S T) U a b).

Lemma reflL_ext u u' beta beta' X X' a b : (a < rows)%nat -> (forall c, (c < rows)%nat -> u c = u' c) -> beta = beta' ->
  (forall c, (c < rows)%nat -> X c b = X' c b) -> reflL rows u beta X a b = reflL rows u' beta' X' a b.
Proof.
  intros Ha Hu <- HX. unfold reflL. rewrite (HX a Ha), (Hu a Ha). f_equal. f_equal. f_equal.
  apply sumn_ext. intros c Hc. now rewrite (Hu c Hc), (HX c Hc).
Qed.
Lemma reflR_ext v v' gamma gamma' X X' a b : (b < cols)%nat -> (forall c, (c < cols)%nat -> v c = v' c) -> gamma = gamma' ->
  (forall c, (c < cols)%nat -> X a c = X' a c) -> reflR cols v gamma X a b = reflR cols v' gamma' X' a b.
Proof.
  intros Hb Hv <- HX. unfold reflR. rewrite (HX b Hb), (Hv b Hb). f_equal. f_equal. f_equal.
  apply sumn_ext. intros c Hc. now rewrite (Hv c Hc), (HX c Hc).
Qed.

Lemma vset_same v i x : vset v i x i = x.
Proof. unfold vset. now rewrite Nat.eqb_refl. Qed.
Lemma vset_other v i x a : a <> i -> vset v i x a = v a.
Proof. unfold vset. intros. destruct (Nat.eqb_spec a i); [contradiction|reflexivity]. Qed.

Definition bi_inv (A : mat) (i : nat) (st : hh) : Prop :=
  stored i (hU st) (hS st) (pending st i) /\ (hanorm st = 0 \/ hanorm st = 1) /\
  (eps = 0 -> history A i (hU st) (hS st) (pending st i)).

Lemma hh_step_ok A i st : (i < cols)%nat -> bi_inv A i st -> exists st', hh_step checked eps rows cols i st = Go st' /\ bi_inv A (S i) st'.
Proof.
  intros Hi (HS & Ha & HH). unfold hh_step. fold (pending st i). set (T := pending st i) in *.
  destruct (hh_col_ok checked eps rows cols eps_ok i (hU st) Hi) as (U1 & sc & g & E1 & K1 & D1). rewrite E1. cbn [rbind].
  destruct (hh_row_ok checked eps rows cols eps_ok i U1 T Hi) as (U2 & T2 & sc2 & g2 & E2 & KT & K2 & D2). rewrite E2. cbn [rbind].
  eexists. split; [reflexivity|]. set (st' := mkHH U2 _ _ _ _ _).
  set (s := sc * g) in *. set (t := sc2 * g2) in *.
  assert (PT : forall k, (k <= i)%nat -> pending st' (S i) k = T k).
  { intros k Hk. unfold pending, st'. cbn [hT hscale hg]. rewrite vset_other by lia. apply KT. exact Hk. }
  assert (Pt : pending st' (S i) (i + 1)%nat = t).
  { unfold pending. replace (S i) with (i + 1)%nat by lia. rewrite vset_same. reflexivity. }
  set (T' := pending st' (S i)) in *.
  assert (S'i : hS st' i = s) by (unfold st'; cbn [hS]; apply vset_same).
  assert (S'o : forall a, a <> i -> hS st' a = hS st a) by (intros a N; unfold st'; cbn [hS]; apply vset_other; exact N).
  assert (U'e : hU st' = U2) by reflexivity.
  assert (KU : forall a b, (a < i \/ b < i)%nat -> U2 a b = hU st a b).
  { intros a b Hab. rewrite K2, K1 by lia. reflexivity. }
  assert (KC : forall a, U2 a i = U1 a i) by (intros a; apply K2; lia).
  destruct HS as [S0 SL SR].
  unfold bi_inv. fold T'. rewrite U'e. split; [|split].
  - constructor.
    + rewrite PT by lia. exact S0.
    + intros a Hai Ha0. destruct (Nat.eq_dec a i) as [->|N].
      * rewrite S'i in *. rewrite !KC. rewrite (from_ext i rows (fun k => U2 k i * U2 k i) (fun k => U1 k i * U1 k i)) by (intros; now rewrite !KC).
        destruct D1 as [(Z & _)|(Q1 & Q2 & Q3 & Q4 & _)]; [contradiction|]. auto.
      * rewrite S'o in * by exact N. rewrite (KU a a) by lia.
        rewrite (from_ext a rows (fun k => U2 k a * U2 k a) (fun k => hU st k a * hU st k a)) by (intros; rewrite !KU by lia; reflexivity).
        apply SL; [lia|exact Ha0].
    + intros a Hai Ha0. destruct (Nat.eq_dec a i) as [->|N].
      * rewrite Pt in *. destruct D2 as [(Z & _)|(Q1 & Q2 & Q3 & Q4 & Q5 & _)]; [contradiction|]. auto.
      * rewrite PT in * by lia. rewrite (KU a (a + 1)%nat) by lia.
        rewrite (from_ext (a + 1) cols (fun k => U2 a k * U2 a k) (fun k => hU st a k * hU st a k)) by (intros; rewrite !KU by lia; reflexivity).
        apply SR; [lia|exact Ha0].
  - unfold st'. cbn [hanorm]. unfold anorm_next. destruct (if _ : bool then _ else _); auto.
  - intros E0. destruct (HH E0) as (As & A0 & A1 & A2).
    set (new := before_col (i + 1) (bid (hS st') T') U2).
    exists (fun k => if Nat.leb k i then As k else new). split; [|split].
    + intros a b Hra Hcb. cbn. apply A0; assumption.
    + intros k Hk a b Hra Hcb. cbn beta. destruct (Nat.leb_spec k i) as [_|]; [|lia].
      destruct (Nat.eq_dec k i) as [->|N].
      * destruct (Nat.leb_spec (i + 1) i); [lia|]. rewrite (A2 a b Hra Hcb), S'i, Pt.
        assert (C : ((s = 0 /\ (forall a b, U1 a b = hU st a b) /\ (forall k, (i <= k < rows)%nat -> hU st k i = 0)) \/
           ((i < rows)%nat /\ U1 i i <> 0 /\ s <> 0 /\ from i rows (fun k => U1 k i * U1 k i) = -2 * (U1 i i * s) /\
            (forall k, (i <= k < rows)%nat -> hU st k i = (if Nat.eqb k i then s else 0) + U1 k i) /\
            forall k j, (i <= k < rows)%nat -> (i < j < cols)%nat ->
              hU st k j = U1 k j + 1 / (U1 i i * s) * from i rows (fun l => U1 l i * U1 l j) * U1 k i))).
        { destruct D1 as [(Q1 & Q2 & Q3)|Q]; [left; auto|right; exact Q]. }
        rewrite (col_refl i (bid (hS st) T) (hU st) U1 s C a b Hra Hcb).
        apply reflL_ext; [exact Hra| | |].
        { intros c _. unfold lv. destruct (Nat.leb i c); [symmetry; apply KC|reflexivity]. }
        { now rewrite KC. }
        intros c Hc. apply row_refl; [| | | |exact Hc|exact Hcb].
        { intros x d Hx Hd. unfold bid. destruct (Nat.eqb_spec x d); [lia|]. destruct (Nat.eqb_spec d (x + 1)); [lia|reflexivity]. }
        { destruct D2 as [(Q1 & Q2 & Q3)|Q]; [left; auto|right; exact Q]. }
        { intros x d Hx. unfold bid. rewrite S'o by lia. destruct (Nat.eqb x d); [reflexivity|]. destruct (Nat.eqb_spec d (x + 1)); [|reflexivity].
          apply PT. lia. }
        { intros d. unfold bid. rewrite S'i. rewrite (Nat.eqb_sym i d). destruct (Nat.eqb d i); [reflexivity|].
          destruct (Nat.eqb_spec d (i + 1)) as [->|]; [exact Pt|reflexivity]. }
      * destruct (Nat.leb_spec (k + 1) i) as [_|]; [|lia]. rewrite (A1 k ltac:(lia) a b Hra Hcb).
        apply reflL_ext; [exact Hra| | |].
        { intros c _. unfold lv. rewrite KU by lia. reflexivity. }
        { rewrite KU, S'o by lia. reflexivity. }
        intros c Hc. apply reflR_ext; [exact Hcb| | |reflexivity].
        { intros d _. unfold rv. rewrite KU by lia. reflexivity. }
        { rewrite KU, PT by lia. reflexivity. }
    + intros a b Hra Hcb. cbn beta. destruct (Nat.leb_spec (S i) i); [lia|]. replace (S i) with (i + 1)%nat by lia. reflexivity.
Qed.

(** After the reduction. *)
Lemma bidiag_ok A S0 T0 : exists b, iter cols 0 (hh_step checked eps rows cols) (hh_start rows cols A S0 T0) = Go b /\
  (hanorm b = 0 \/ hanorm b = 1) /\ (forall a, (a < cols)%nat -> hS b a <> 0 -> (a < rows)%nat) /\
  (cols = 0%nat \/ exists T, (forall k, (k < cols)%nat -> T k = hT b k) /\ T cols = 0 /\ stored cols (hU b) (hS b) T /\
    (eps = 0 -> history A cols (hU b) (hS b) T)).
Proof.
  destruct (iter_ok (bi_inv A) (hh_step checked eps rows cols) cols 0 (hh_start rows cols A S0 T0)) as (b & E & HS & Ha & HH).
  - unfold bi_inv, hh_start, pending. cbn [hU hS hT hscale hg hanorm]. split; [|split; [left; reflexivity|]].
    + constructor; [rewrite vset_same; ring| |]; intros a L; lia.
    + intros _. exists (fun _ => A). split; [reflexivity|]. split; [intros i L; lia|].
      intros a b Ra Cb. unfold before_col. destruct (Nat.ltb_spec a 0); [lia|]. destruct (Nat.ltb_spec b 0); [lia|]. destruct (Nat.ltb_spec a rows); [|lia]. destruct (Nat.ltb_spec b cols); [reflexivity|lia].
  - intros k s Hk I. apply hh_step_ok; [lia|exact I].
  - exists b. split; [exact E|]. split; [exact Ha|]. cbn [Nat.add] in *. split.
    { intros a L N. apply (st_l _ _ _ _ HS a L N). }
    destruct (Nat.eq_dec cols 0) as [EC|EC]; [left; exact EC|right].
    exists (pending b cols). split; [|split; [|split; [exact HS|exact HH]]].
    + intros k Hk. unfold pending. apply vset_other. lia.
    + destruct (Req_dec (pending b cols cols) 0) as [|N]; [assumption|]. exfalso.
      assert (N' : pending b cols (cols - 1 + 1)%nat <> 0) by (replace (cols - 1 + 1)%nat with cols by lia; exact N).
      destruct (st_r _ _ _ _ HS (cols - 1)%nat ltac:(lia) N') as (_ & L & _). lia.
Qed.
End Bidiag.
