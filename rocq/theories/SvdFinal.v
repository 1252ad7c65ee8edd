(** Proofs about the singular value routines: whole runs. *)
From Coq Require Import Reals List ZArith Bool Arith Lia Lra Psatz FunctionalExtensionality.
From Verif Require Import Outcome LinModel LinSpec SumProofs LmaSpec VelIkLin VelIkModel VelIkSpec SvdModel SvdSpec SvdHouse SvdBidiag SvdAccum SvdNorm SvdQr SvdDiag.
Import ListNotations.
Local Open Scope R_scope.

(** * From the bidiagonal form to the invariant of the diagonalization *)
Lemma bid_good rows cols A U0 S T hT U V : stored rows cols cols U0 S T -> T cols = 0 -> (forall k, (k < cols)%nat -> T k = hT k) ->
  bidiagonal_form rows cols S T A U V -> good rows cols A 0 U V (bidl cols S hT).
Proof.
  intros HST HTc HT (HA & HV & HU). split; [lra|].
  set (Q := fun a b => if Nat.ltb a rows then U a b else if Nat.ltb b rows then 0 else delta (a - rows) b).
  exists Q, (bidl cols S hT). split; [|split; [|split; [exact HV|split]]].
  - intros a b Ha Hb. unfold Q. destruct (Nat.ltb_spec a rows); [reflexivity|lia].
  - intros i j Hi Hj. rewrite sumn_split.
    rewrite (sumn_ext rows _ (fun a => U a i * U a j)).
    2:{ intros a Ha. unfold Q. destruct (Nat.ltb_spec a rows); [reflexivity|lia]. }
    rewrite (HU i j Hi Hj).
    rewrite (sumn_ext cols _ (fun a => delta i a * (if Nat.ltb i rows then 0 else if Nat.ltb j rows then 0 else delta a j))).
    2:{ intros a Ha. unfold Q. destruct (Nat.ltb_spec (rows + a) rows); [lia|]. replace (rows + a - rows)%nat with a by lia. rewrite (delta_sym i a).
        destruct (Nat.ltb i rows); [ring|]. destruct (Nat.ltb j rows); ring. }
    rewrite (sumn_delta' cols i (fun a => if Nat.ltb i rows then 0 else if Nat.ltb j rows then 0 else delta a j) Hi).
    destruct (Nat.ltb_spec i rows); [ring|]. destruct (Nat.ltb_spec j rows); [rewrite delta_other by lia|]; ring.
  - assert (EB : forall c d, (c < cols)%nat -> (d < cols)%nat -> bid S T c d = bidl cols S hT c d).
    { intros c d Hc Hd. unfold bid, bidl. nats; try reflexivity. apply HT. exact Hd. }
    intros a b Ha Hb. unfold padded. destruct (Nat.ltb_spec a rows) as [La|La].
    + rewrite (HA a b La Hb). apply tri_ext; [|exact EB|reflexivity]. intros c Hc. unfold Q. destruct (Nat.ltb_spec a rows); [reflexivity|lia].
    + unfold tri. symmetry. apply sumn_zero. intros c Hc. unfold Q. destruct (Nat.ltb_spec a rows); [lia|].
      destruct (Nat.ltb_spec c rows) as [Lc|Lc]; [ring|]. rewrite (sumn_zero cols); [ring|].
      intros d Hd. rewrite <- EB by assumption.
      assert (Sc : S c = 0). { destruct (Req_dec (S c) 0) as [Z|N]; [exact Z|]. destruct (st_l _ _ _ _ _ _ HST c Hc N). lia. }
      assert (Tc : T (c + 1)%nat = 0). { destruct (Req_dec (T (c + 1)%nat) 0) as [Z|N]; [exact Z|]. destruct (st_r _ _ _ _ _ _ HST c Hc N). lia. }
      unfold bid. nats; subst; rewrite ?Sc, ?Tc; ring.
  - right. unfold fro2. rewrite Rmult_0_r. unfold dsum. apply sumn_zero. intros i _. apply sumn_zero. intros j _. ring.
Qed.

Definition tail (l cols : nat) (T : vec) : R := sumn cols (fun k => if Nat.leb l k then Rabs (T k) else 0).

Section Core.
Variables (rnd : R -> R) (checked : bool) (eps : R) (rows cols : nat) (A : mat) (maxiter : Z).
Hypothesis eps_ok : 0 <= eps.
Hypothesis units : keeps_units rnd.

Definition diag_inv (anorm : R) (n : nat) (st : sv * Z * (nat -> Z)) : Prop :=
  let '(d, its, used) := st in
  sT d O = 0 /\ (n = O -> (0 < cols)%nat -> used O = 1%Z) /\ (its = if Nat.eqb n cols then -1 else if Nat.eqb n 0 then 1 else its)%Z /\
  (forall k, (n <= k < cols)%nat -> (used k <= maxiter)%Z -> (1 <= used k)%Z /\ 0 <= sS d k /\ absorbed rnd anorm (sT d k) = true) /\
  (forall tol a0, rounds_within rnd tol -> 0 <= a0 -> eps = 0 -> fro2 rows cols A <= a0 * a0 ->
     not_fooled rnd (a0 + 3 * tol * INR (Z.to_nat maxiter) * INR (cols - n) + tail n cols (sT d)) ->
     good rows cols A (3 * tol * INR (Z.to_nat maxiter) * INR (cols - n) + tail n cols (sT d)) (sU d) (sV d) (bidl n (sS d) (sT d))).

Lemma diag_step_ok anorm n st : (anorm = 0 \/ anorm = 1) -> (n < cols)%nat -> diag_inv anorm (S n) st ->
  exists st', diag_step rnd checked eps rows cols anorm maxiter n st = Go st' /\ diag_inv anorm n st'.
Proof.
  intros Ha Hn. destruct st as [[d its] used]. intros (T0 & _ & _ & HU & HG). unfold diag_step.
  set (N := Z.to_nat maxiter) in *.
  assert (TL : forall T T' : vec, (forall i, (n < i)%nat -> T' i = T i) -> tail n cols T' = Rabs (T' n) + tail (S n) cols T).
  { intros T T' K. unfold tail. transitivity (sumn cols (fun k => if Nat.eqb k n then Rabs (T' k) else 0) + sumn cols (fun k => if Nat.leb (S n) k then Rabs (T k) else 0)).
    2:{ f_equal. rewrite (sumn_one cols n _ Hn); [now rewrite Nat.eqb_refl|]. intros k _ Nk. destruct (Nat.eqb_spec k n); [contradiction|reflexivity]. }
    rewrite <- sumn_add. apply sumn_ext. intros k _. destruct (Nat.eqb_spec k n) as [->|].
    - destruct (Nat.leb_spec n n); [|lia]. destruct (Nat.leb_spec (S n) n); [lia|ring].
    - destruct (Nat.leb_spec n k); destruct (Nat.leb_spec (S n) k); try lia; [rewrite K by lia|]; ring. }
  (* the run *)
  destruct (loop_ok rnd checked eps rows cols A eps_ok units anorm Ha 0 0 (Rle_refl 0) (Rle_refl 0) False n N
     (fun f => match f with end) (fun f => match f with end) (fun f => match f with end) Hn 0 1%Z d (fun f => match f with end) T0 (fun f => match f with end))
    as (d1 & its1 & E & T1 & K0 & K & HC & Hits & _).
  rewrite E. cbn [rbind]. eexists. split; [reflexivity|]. unfold diag_inv. split; [exact T1|]. split.
  { intros -> _. rewrite Nat.eqb_refl. exact (K0 eq_refl). }
  split.
  { destruct (Nat.eqb_spec n cols); [lia|]. destruct (Nat.eqb_spec n 0) as [Z|]; [rewrite (K0 Z); reflexivity|reflexivity]. }
  split.
  { intros k Hk. destruct (Nat.eqb_spec k n) as [->|Nk].
    - intros L. split; [lia|]. apply HC. lia.
    - intros L. destruct (K k ltac:(lia)) as [-> ->]. apply HU; [lia|exact L]. }
  intros tol a0 HR H0 He HA HB. fold N in HB |- *.
  pose proof (TL (sT d) (sT d1) (fun i Hi => proj2 (K i Hi))) as ET. rewrite ET in HB |- *.
  assert (EI : 3 * tol * INR N * INR (cols - n) = 3 * tol * INR N * INR (cols - S n) + 3 * tol * INR N).
  { replace (cols - n)%nat with (S (cols - S n)) by lia. rewrite S_INR. ring. }
  rewrite EI in HB |- *. assert (tol_ok : 0 <= tol) by apply HR.
  pose proof (pos_INR N) as PN. pose proof (Rabs_pos (sT d1 n)) as PT.
  assert (P3 : 0 <= 3 * tol * INR N) by (apply Rmult_le_pos; lra).
  set (e := 3 * tol * INR N * INR (cols - S n) + tail (S n) cols (sT d)).
  destruct (loop_ok rnd checked eps rows cols A eps_ok units anorm Ha tol a0 tol_ok H0 True n N
     (fun _ => He) (fun _ => HR) (fun _ => HA) Hn e 1%Z d) as (d2 & its2 & E2 & _ & _ & _ & _ & _ & G2).
  - intros _. apply (not_fooled_less _ _ _ HB). unfold e. lra.
  - exact T0.
  - intros _. replace (n + 1)%nat with (S n) by lia. apply (HG tol a0 HR H0 He HA). apply (not_fooled_less _ _ _ HB). lra.
  - rewrite E in E2. injection E2 as E3 E4. rewrite <- E3 in G2. specialize (G2 I).
    replace (3 * tol * INR N * INR (cols - S n) + 3 * tol * INR N + (Rabs (sT d1 n) + tail (S n) cols (sT d)))
      with (e + 3 * tol * INR N + Rabs (sT d1 n)) by (unfold e; ring). exact G2.
Qed.

Lemma core_ok S0 V0 T0 : exists d its used anorm, svd_core rnd checked eps rows cols maxiter A S0 V0 T0 = Go (d, its, used) /\
  (anorm = 0 \/ anorm = 1) /\
  its = (if Nat.eqb cols 0 then -1 else 1)%Z /\ ((0 < cols)%nat -> used O = 1%Z) /\
  (forall k, (k < cols)%nat -> (used k <= maxiter)%Z -> (1 <= used k)%Z /\ 0 <= sS d k /\ absorbed rnd anorm (sT d k) = true) /\
  (forall tol a0, rounds_within rnd tol -> 0 <= a0 -> eps = 0 -> fro2 rows cols A <= a0 * a0 -> not_fooled rnd (a0 + budget cols maxiter tol (sT d)) ->
     good rows cols A (budget cols maxiter tol (sT d)) (sU d) (sV d) (bidl 0 (sS d) (sT d))).
Proof.
  unfold svd_core.
  destruct (bidiag_ok rows cols checked eps eps_ok A S0 T0) as (b & E & Ha & _ & HB). rewrite E. cbn [rbind].
  destruct (Nat.eq_dec cols 0) as [Ec|NZ]; [|destruct HB as [Ec|(T & HT & HTc & HST & HH)]; [contradiction|]].
  - clear HB. rewrite Ec in *. cbn [iter_down rbind Nat.min]. eexists _, _, _, (hanorm b). split; [reflexivity|]. split; [exact Ha|]. split; [reflexivity|]. split; [lia|].
    split; [intros; lia|]. intros tol a0 HR H0 _ _ _. unfold budget. cbn [sumn INR]. split.
    { rewrite Rmult_0_r, Rplus_0_r. lra. }
    exists (fun _ _ => 0), (fun _ _ => 0). split; [intros a c _ L; lia|]. split; [intros i j L; lia|]. split; [intros i j L; lia|]. split; [intros; lia|].
    unfold fro2, dsum. cbn [sumn]. apply Rle_0_sqr.
  - destruct (right_ok rows cols checked eps eps_ok (hU b) (hS b) T HST (hT b) V0 (hg b) HT) as (V & g & EV & HV). rewrite EV. cbn [rbind].
    assert (HW : exists Ws, eps = 0 -> right_hist cols (hU b) T 0 V Ws).
    { destruct (Req_dec eps 0) as [Z|N]; [destruct (HV Z) as (Ws & W); exists Ws; intros _; exact W|exists (fun _ => V); intros; contradiction]. }
    destruct HW as (Ws & HW).
    destruct (left_ok rows cols checked eps eps_ok (hU b) (hS b) T HST A V Ws HH HW) as (U & EU & HU). rewrite EU. cbn [rbind].
    destruct (iter_down_ok (diag_inv (hanorm b)) (diag_step rnd checked eps rows cols (hanorm b) maxiter) cols (mkSV U (hS b) V (hT b), (-1)%Z, fun _ => 0%Z)) as (st & ED & HD).
    + unfold diag_inv. cbn [sU sS sV sT]. split; [rewrite <- (HT 0%nat) by lia; exact (st_0 _ _ _ _ _ _ HST)|].
      split; [intros; lia|]. split; [now rewrite Nat.eqb_refl|]. split; [intros; lia|].
      intros tol a0 HR H0 He HA _. rewrite Nat.sub_diag. cbn [INR]. rewrite Rmult_0_r.
      unfold tail. rewrite (sumn_zero cols), Rplus_0_r; [|intros k Hk; destruct (Nat.leb_spec cols k); [lia|reflexivity]].
      apply (bid_good rows cols A (hU b) (hS b) T (hT b) U V HST HTc HT (HU He)).
    + intros k s Hk Hs. apply diag_step_ok; assumption.
    + rewrite ED. destruct st as [[d its] used]. exists d, its, used, (hanorm b). destruct HD as (_ & H0 & H1 & H2 & H3).
      split; [reflexivity|]. split; [exact Ha|]. split.
      { rewrite H1. destruct (Nat.eqb_spec 0 cols) as [Q|Q]; [rewrite <- Q; reflexivity|]. destruct (Nat.eqb_spec cols 0); [congruence|reflexivity]. }
      split; [exact (H0 eq_refl)|]. split; [intros k Hk; apply H2; lia|].
      intros tol a0 HR Ha0 He HA HBd.
      assert (ET : tail 0 cols (sT d) = sumn cols (fun k => Rabs (sT d k))) by (unfold tail; apply sumn_ext; reflexivity).
      unfold budget in *. specialize (H3 tol a0 HR Ha0 He HA). rewrite Nat.sub_0_r, ET in H3. apply H3. apply (not_fooled_less _ _ _ HBd). lra.
Qed.
End Core.

(** * What the result means *)
Lemma tri_diag cols Q S T V a b : (b < cols)%nat -> tri cols Q (bidl 0 S T) V a b = product cols Q S V a b.
Proof.
  intros Hb. unfold tri, product. apply sumn_ext. intros c Hc.
  rewrite (sumn_ext cols _ (fun d => delta c d * (S c * V b d))).
  - rewrite (sumn_delta' cols c (fun d => S c * V b d) Hc). ring.
  - intros d Hd. unfold bidl. rewrite andb_false_r. destruct (Nat.eqb_spec c d) as [->|N]; [rewrite delta_same|rewrite delta_other by congruence]; ring.
Qed.
Lemma sum_le n (f g : nat -> R) : (forall i, (i < n)%nat -> f i <= g i) -> sumn n f <= sumn n g.
Proof. induction n as [|n IH]; intros H; cbn [sumn]; [lra|]. pose proof (IH ltac:(intros; apply H; lia)). pose proof (H n ltac:(lia)). lra. Qed.
Lemma cauchy1 n (x y : vec) : sumn n (fun i => x i * y i) * sumn n (fun i => x i * y i) <= sumn n (fun i => x i * x i) * sumn n (fun i => y i * y i).
Proof.
  pose proof (cauchy n 1 (fun i _ => x i) (fun i _ => y i)) as C. unfold fro2, dsum in C. cbn [sumn] in C.
  assert (E : forall f : nat -> R, sumn n (fun i => 0 + f i) = sumn n f) by (intros; apply sumn_ext; intros; ring).
  rewrite !E in C. exact C.
Qed.
Lemma good_within rows cols A e U V S T : good rows cols A e U V (bidl 0 S T) -> svd_within e rows cols A U S V.
Proof.
  intros [He (Q & X & HU & HQ & HV & HA & HB)].
  assert (F : fro2 (rows + cols) cols (fun a b => padded rows A a b - product cols Q S V a b) <= e * e).
  { rewrite <- (tri_fro2 cols (rows + cols) Q (fun i j => X i j - bidl 0 S T i j) V HQ HV) in HB. eapply Rle_trans; [|exact HB]. right.
    apply fro2_ext. intros a b Ha Hb. rewrite tri_sub, (HA a b Ha Hb), tri_diag by exact Hb. reflexivity. }
  unfold fro2, dsum in F. rewrite sumn_split in F.
  set (bot := fun a b => Q (rows + a)%nat b) in *.
  assert (F2 : sumn cols (fun i => sumn cols (fun j => (padded rows A (rows + i)%nat j - product cols Q S V (rows + i)%nat j) * (padded rows A (rows + i)%nat j - product cols Q S V (rows + i)%nat j)))
     = fro2 cols cols (fun a c => bot a c * S c)).
  { rewrite (fro2_transpose cols cols (fun a c => bot a c * S c)). rewrite <- (left_fro2 cols cols cols V (fun c a => bot a c * S c) HV), (fro2_transpose cols cols).
    apply dsum_ext. intros i j Hi Hj. unfold padded. destruct (Nat.ltb_spec (rows + i) rows); [lia|].
    assert (EP : product cols Q S V (rows + i)%nat j = sumn cols (fun c => V j c * (bot i c * S c))) by (apply sumn_ext; intros; unfold bot; ring).
    rewrite EP. ring. }
  rewrite F2 in F.
  assert (F1 : sumn rows (fun a => sumn cols (fun j => (padded rows A a j - product cols Q S V a j) * (padded rows A a j - product cols Q S V a j)))
     = size2 rows cols (fun a b => A a b - product cols U S V a b)).
  { apply dsum_ext. intros a b Ha Hb. unfold padded. destruct (Nat.ltb_spec a rows); [|lia].
    assert (EP : product cols U S V a b = product cols Q S V a b) by (apply sumn_ext; intros c Hc; now rewrite (HU a c Ha Hc)). rewrite EP. reflexivity. }
  rewrite F1 in F.
  assert (P1 : 0 <= size2 rows cols (fun a b => A a b - product cols U S V a b)) by apply fro2_nonneg.
  pose proof (fro2_nonneg cols cols (fun a c => bot a c * S c)) as P2.
  split; [lra|]. split; [exact HV|]. intros i j Hi Hj.
  set (n := fun c => sumn cols (fun a => bot a c * bot a c)).
  assert (U1 : forall c d, (c < cols)%nat -> (d < cols)%nat -> sumn rows (fun a => U a c * U a d) = delta c d - sumn cols (fun a => bot a c * bot a d)).
  { intros c d Hc Hd. rewrite <- (HQ c d Hc Hd), sumn_split. unfold bot. rewrite (sumn_ext rows (fun a => U a c * U a d) (fun a => Q a c * Q a d)); [ring|].
    intros a Ha. now rewrite (HU a c Ha Hc), (HU a d Ha Hd). }
  assert (Pn : forall c, 0 <= n c) by (intros c; apply sumn_nonneg; intros; apply Rle_0_sqr).
  assert (N1 : n j <= 1).
  { pose proof (U1 j j Hj Hj) as U2. fold (n j) in U2. rewrite delta_same in U2. assert (0 <= sumn rows (fun a => U a j * U a j)) by (apply sumn_nonneg; intros; apply Rle_0_sqr). lra. }
  assert (NS : S i * S i * n i <= e * e).
  { apply Rle_trans with (fro2 cols cols (fun a c => bot a c * S c)); [|lra].
    unfold fro2. rewrite dsum_swap. unfold dsum.
    apply Rle_trans with (sumn cols (fun c => if Nat.eqb c i then S i * S i * n i else 0)).
    - right. symmetry. rewrite (sumn_one cols i _ Hi); [now rewrite Nat.eqb_refl|]. intros c _ Nc. destruct (Nat.eqb_spec c i); [contradiction|reflexivity].
    - apply sum_le. intros c Hc.
      assert (EC : sumn cols (fun a => bot a c * S c * (bot a c * S c)) = S c * S c * n c) by (unfold n; rewrite <- sumn_scale; apply sumn_ext; intros; ring).
      rewrite EC. destruct (Nat.eqb_spec c i) as [->|]; [lra|]. pose proof (Pn c). pose proof (Rle_0_sqr (S c)) as Q1. unfold Rsqr in Q1.
      assert (0 <= S c * S c * n c) by (apply Rmult_le_pos; assumption). lra. }
  rewrite (U1 i j Hi Hj). replace (delta i j - sumn cols (fun a => bot a i * bot a j) - delta i j) with (- sumn cols (fun a => bot a i * bot a j)) by ring.
  rewrite Rabs_Ropp, <- Rabs_mult. set (w := sumn cols (fun a => bot a i * bot a j)).
  pose proof (cauchy1 cols (fun a => bot a i) (fun a => bot a j)) as C. fold w in C. fold (n i) in C. fold (n j) in C.
  assert (CC : (S i * w) * (S i * w) <= e * e).
  { replace (S i * w * (S i * w)) with (S i * S i * (w * w)) by ring. pose proof (Rle_0_sqr (S i)) as Q1. unfold Rsqr in Q1. pose proof (Pn i).
    apply Rle_trans with (S i * S i * n i); [|exact NS]. apply Rmult_le_compat_l; [exact Q1|]. apply Rle_trans with (1 := C).
    apply Rle_trans with (n i * 1); [apply Rmult_le_compat_l; assumption|lra]. }
  apply Rabs_le. split; nra.
Qed.

(** * Sorting *)
Lemma index_max_ok S n : forall j best, (best < j)%nat ->
  let m := index_max S n j best in (m = best \/ (j <= m < j + n)%nat) /\ S best <= S m /\ forall i, (j <= i < j + n)%nat -> S i <= S m.
Proof.
  induction n as [|n IH]; intros j best Hb; cbn [index_max].
  - cbv zeta. split; [left; reflexivity|]. split; [lra|intros; lia].
  - destruct (Rlt_dec (S best) (S j)) as [L|L].
    + destruct (IH (j + 1)%nat j ltac:(lia)) as (M & B & H). cbv zeta. set (m := index_max S n (j + 1) j) in *. split; [right; destruct M as [->|M]; lia|]. split; [lra|].
      intros i Hi. destruct (Nat.eq_dec i j) as [->|N]; [exact B|apply H; lia].
    + destruct (IH (j + 1)%nat best ltac:(lia)) as (M & B & H). cbv zeta. set (m := index_max S n (j + 1) best) in *. split; [destruct M as [->|M]; [left; reflexivity|right; lia]|]. split; [exact B|].
      intros i Hi. destruct (Nat.eq_dec i j) as [->|N]; [lra|apply H; lia].
Qed.
Lemma swapped_lt i m n a : (i < n)%nat -> (m < n)%nat -> (a < n)%nat -> (swapped i m a < n)%nat.
Proof. intros. unfold swapped. nats; assumption. Qed.
Lemma sumn_swapped n i m f : (i < n)%nat -> (m < n)%nat -> sumn n (fun a => f (swapped i m a)) = sumn n f.
Proof.
  intros Hi Hm. destruct (Nat.eq_dec i m) as [->|N].
  - apply sumn_ext. intros a _. f_equal. unfold swapped. nats; congruence.
  - apply (sumn_two n _ _ i m Hi Hm N).
    + intros a _ Ni Nm. f_equal. unfold swapped. nats; congruence.
    + unfold swapped. rewrite !Nat.eqb_refl. destruct (Nat.eqb_spec m i); [congruence|]. ring.
Qed.
Lemma delta_swapped i m a b : delta (swapped i m a) (swapped i m b) = delta a b.
Proof.
  destruct (Nat.eq_dec a b) as [->|N]; [now rewrite !delta_same|]. rewrite !delta_other; [reflexivity|exact N|].
  unfold swapped. nats.
Qed.
Definition keeps (rows cols : nat) (st st' : sv) : Prop :=
  sT st' = sT st /\
  (forall A err, svd_within err rows cols A (sU st) (sS st) (sV st) -> svd_within err rows cols A (sU st') (sS st') (sV st')) /\
  ((forall k, (k < cols)%nat -> 0 <= sS st k) -> forall k, (k < cols)%nat -> 0 <= sS st' k).
Lemma sort_step_ok rows cols i st : (i < cols)%nat -> (forall a b, (a < i)%nat -> (a <= b < cols)%nat -> sS st b <= sS st a) ->
  keeps rows cols st (sort_step cols i st) /\ (forall a b, (a < i + 1)%nat -> (a <= b < cols)%nat -> sS (sort_step cols i st) b <= sS (sort_step cols i st) a).
Proof.
  intros Hi HD. unfold sort_step.
  destruct (index_max_ok (sS st) (cols - (i + 1)) (i + 1) i ltac:(lia)) as (M & B & H). set (m := index_max (sS st) (cols - (i + 1)) (i + 1) i) in *.
  assert (Hm : (i <= m < cols)%nat) by lia. cbn [sU sS sV sT]. split; [split; [reflexivity|split]|].
  - intros A err (W1 & W2 & W3). split; [|split].
    + cbn [sU sS sV]. eapply Rle_trans; [|exact W1]. right. apply dsum_ext. intros a b _ _.
      assert (EP : product cols (fun r c => sU st r (swapped i m c)) (fun c => sS st (swapped i m c)) (fun r c => sV st r (swapped i m c)) a b = product cols (sU st) (sS st) (sV st) a b).
      { unfold product. apply (sumn_swapped cols i m (fun c => sU st a c * sS st c * sV st b c)); lia. }
      rewrite EP. reflexivity.
    + cbn [sV]. intros a b Ha Hb. rewrite (W2 (swapped i m a) (swapped i m b)) by (apply swapped_lt; lia). apply delta_swapped.
    + cbn [sU sS]. intros a b Ha Hb. rewrite <- (delta_swapped i m a b). apply W3; apply swapped_lt; lia.
  - cbn [sS]. intros P k Hk. apply P. apply swapped_lt; lia.
  - intros a b Ha Hb. destruct (Nat.eq_dec a i) as [->|N].
    + assert (E : swapped i m i = m) by (unfold swapped; now rewrite Nat.eqb_refl). rewrite E.
      assert (K : (i <= swapped i m b < cols)%nat) by (unfold swapped; nats; lia).
      destruct (Nat.eq_dec (swapped i m b) i) as [->|N]; [exact B|apply H; lia].
    + assert (E : swapped i m a = a) by (unfold swapped; nats; lia). rewrite E. apply HD; [lia|]. unfold swapped. nats; lia.
Qed.
Lemma keeps_trans rows cols a b c : keeps rows cols a b -> keeps rows cols b c -> keeps rows cols a c.
Proof.
  intros (T1 & W1 & P1) (T2 & W2 & P2). split; [congruence|]. split; [intros A err W; apply W2, W1, W|intros P; apply P2, P1, P].
Qed.
Lemma sort_ok rows cols n : forall i st, (i + n = cols)%nat -> (forall a b, (a < i)%nat -> (a <= b < cols)%nat -> sS st b <= sS st a) ->
  keeps rows cols st (sort_from cols n i st) /\ descending cols (sS (sort_from cols n i st)).
Proof.
  induction n as [|n IH]; intros i st E HD; cbn [sort_from].
  - split; [split; [reflexivity|split; auto]|]. intros a b Hab Hb. apply HD; lia.
  - destruct (sort_step_ok rows cols i st ltac:(lia) HD) as (K1 & D1). destruct (IH (i + 1)%nat (sort_step cols i st) ltac:(lia) D1) as (K2 & D2).
    split; [eapply keeps_trans; eassumption|exact D2].
Qed.

(** * The two routines *)
Definition code_of (cols : nat) (maxiter : Z) : Z :=
  if Nat.eqb cols 0 then (if (maxiter =? -1)%Z then (-2)%Z else 0%Z) else (if (maxiter =? 1)%Z then (-2)%Z else 0%Z).
Lemma code_ok cols maxiter its : its = (if Nat.eqb cols 0 then -1 else 1)%Z -> svd_code its maxiter = code_of cols maxiter.
Proof.
  intros ->. unfold svd_code, code_of. destruct (Nat.eqb cols 0).
  - destruct (Z.eqb_spec (-1) maxiter); destruct (Z.eqb_spec maxiter (-1)); congruence.
  - destruct (Z.eqb_spec 1 maxiter); destruct (Z.eqb_spec maxiter 1); congruence.
Qed.
Lemma converged_small rnd tol anorm cols maxiter used d : keeps_units rnd -> (anorm = 0 \/ anorm = 1) -> rounds_within rnd tol ->
  (forall k, (k < cols)%nat -> (used k <= maxiter)%Z -> (1 <= used k)%Z /\ 0 <= sS d k /\ absorbed rnd anorm (sT d k) = true) ->
  converged cols maxiter used -> sumn cols (fun k => Rabs (sT d k)) <= tol * INR cols.
Proof.
  intros HU Ha HR HK HC. replace (tol * INR cols) with (sumn cols (fun _ => tol)).
  - apply sum_le. intros k Hk.
    destruct (HK k Hk (HC k Hk)) as (_ & _ & AB). pose proof (absorbed_small rnd anorm Ha tol (sT d k) HR AB). lra.
  - clear. induction cols as [|n IH]; [cbn [sumn INR]; ring|]. cbn [sumn]. rewrite IH, S_INR. ring.
Qed.
Lemma eigen_run rnd rows cols A S0 V0 T0 maxiter eps : keeps_units rnd -> 0 <= eps ->
  exists d used, svd_eigen_HH rnd rows cols A S0 V0 T0 maxiter eps = Go (code_of cols maxiter, d, used) /\
    ((0 < cols)%nat -> used O = 1%Z) /\ (forall k, (k < cols)%nat -> (used k <= maxiter)%Z -> (1 <= used k)%Z) /\
    descending cols (sS d) /\
    (converged cols maxiter used -> forall k, (k < cols)%nat -> 0 <= sS d k) /\
    (forall tol a0, rounds_within rnd tol -> 0 <= a0 -> eps = 0 -> size2 rows cols A <= a0 * a0 ->
       (converged cols maxiter used -> sumn cols (fun k => Rabs (sT d k)) <= tol * INR cols) /\
       (not_fooled rnd (a0 + budget cols maxiter tol (sT d)) -> svd_within (budget cols maxiter tol (sT d)) rows cols A (sU d) (sS d) (sV d))).
Proof.
  intros HU He. unfold svd_eigen_HH.
  destruct (core_ok rnd true eps rows cols A maxiter He HU S0 V0 T0) as (d & its & used & anorm & E & Ha & Hits & HK0 & HK & HG). rewrite E. cbn [rbind].
  rewrite (code_ok cols maxiter its Hits).
  destruct (sort_ok rows cols cols 0 d eq_refl ltac:(intros; lia)) as ((KT & KW & KP) & KD).
  eexists _, used. split; [reflexivity|]. split; [exact HK0|]. split; [intros k Hk L; apply (HK k Hk L)|]. split; [exact KD|]. split.
  { intros C. apply KP. intros k Hk. apply (HK k Hk (C k Hk)). }
  intros tol a0 HR H0 Ez HA. rewrite KT. split.
  - intros C. eapply converged_small; eassumption.
  - intros B. apply KW. eapply good_within. apply (HG tol a0); assumption.
Qed.
Lemma hh_run rnd rows cols A S0 V0 T0 maxiter : keeps_units rnd ->
  exists d used, svd_HH_calculate rnd rows cols A S0 V0 T0 maxiter = Go (code_of cols maxiter, d, used) /\
    ((0 < cols)%nat -> used O = 1%Z) /\ (forall k, (k < cols)%nat -> (used k <= maxiter)%Z -> (1 <= used k)%Z) /\
    (forall k, (k < cols)%nat -> (used k <= maxiter)%Z -> 0 <= sS d k) /\
    (forall tol a0, rounds_within rnd tol -> 0 <= a0 -> size2 rows cols A <= a0 * a0 ->
       (converged cols maxiter used -> sumn cols (fun k => Rabs (sT d k)) <= tol * INR cols) /\
       (not_fooled rnd (a0 + budget cols maxiter tol (sT d)) -> svd_within (budget cols maxiter tol (sT d)) rows cols A (sU d) (sS d) (sV d))).
Proof.
  intros HU. unfold svd_HH_calculate.
  destruct (core_ok rnd false 0 rows cols A maxiter (Rle_refl 0) HU S0 V0 T0) as (d & its & used & anorm & E & Ha & Hits & HK0 & HK & HG). rewrite E. cbn [rbind].
  rewrite (code_ok cols maxiter its Hits). exists d, used. split; [reflexivity|]. split; [exact HK0|]. split; [intros k Hk L; apply (HK k Hk L)|]. split.
  { intros k Hk C. apply (HK k Hk C). }
  intros tol a0 HR H0 HA. split.
  - intros C. eapply converged_small; eassumption.
  - intros B. eapply good_within. apply (HG tol a0); try assumption. reflexivity.
Qed.

(** * The statements *)
Lemma eigen_codes rnd rows cols A S0 V0 T0 maxiter eps : keeps_units rnd -> 0 <= eps ->
  exists rc d used, svd_eigen_HH rnd rows cols A S0 V0 T0 maxiter eps = Go (rc, d, used) /\
    (rc = 0%Z \/ rc = (-2)%Z) /\ ((0 < cols)%nat -> (rc = (-2)%Z <-> maxiter = 1%Z)) /\ (cols = O -> (rc = (-2)%Z <-> maxiter = (-1)%Z)).
Proof.
  intros HU He. destruct (eigen_run rnd rows cols A S0 V0 T0 maxiter eps HU He) as (d & used & E & _).
  exists (code_of cols maxiter), d, used. split; [exact E|]. unfold code_of. destruct (Nat.eqb_spec cols 0); [destruct (Z.eqb_spec maxiter (-1))|destruct (Z.eqb_spec maxiter 1)];
    (split; [auto|split; intros; split; intros; try lia; try discriminate; try congruence]).
Qed.
Lemma hh_codes rnd rows cols A S0 V0 T0 maxiter : keeps_units rnd ->
  exists rc d used, svd_HH_calculate rnd rows cols A S0 V0 T0 maxiter = Go (rc, d, used) /\
    (rc = 0%Z \/ rc = (-2)%Z) /\ ((0 < cols)%nat -> (rc = (-2)%Z <-> maxiter = 1%Z)) /\ (cols = O -> (rc = (-2)%Z <-> maxiter = (-1)%Z)).
Proof.
  intros HU. destruct (hh_run rnd rows cols A S0 V0 T0 maxiter HU) as (d & used & E & _).
  exists (code_of cols maxiter), d, used. split; [exact E|]. unfold code_of. destruct (Nat.eqb_spec cols 0); [destruct (Z.eqb_spec maxiter (-1))|destruct (Z.eqb_spec maxiter 1)];
    (split; [auto|split; intros; split; intros; try lia; try discriminate; try congruence]).
Qed.
(** with a limit of one, a column is always diagonalized in time and always reported as a failure *)
Lemma eigen_one rnd rows A S0 V0 T0 eps : keeps_units rnd -> 0 <= eps ->
  exists d used, svd_eigen_HH rnd rows 1 A S0 V0 T0 1 eps = Go ((-2)%Z, d, used) /\ converged 1 1 used.
Proof.
  intros HU He. destruct (eigen_run rnd rows 1 A S0 V0 T0 1 eps HU He) as (d & used & E & U0 & _).
  exists d, used. split; [exact E|]. intros k Hk. replace k with O by lia. rewrite U0 by lia. lia.
Qed.
(** with a limit below one, nothing is diagonalized and nothing is reported *)
Lemma eigen_none rnd rows cols A S0 V0 T0 maxiter eps : keeps_units rnd -> 0 <= eps -> (0 < cols)%nat -> (maxiter <= 0)%Z ->
  exists d used, svd_eigen_HH rnd rows cols A S0 V0 T0 maxiter eps = Go (0%Z, d, used) /\ forall k, (k < cols)%nat -> (maxiter < used k)%Z.
Proof.
  intros HU He Hc Hm. destruct (eigen_run rnd rows cols A S0 V0 T0 maxiter eps HU He) as (d & used & E & _ & U1 & _).
  exists d, used. split.
  - rewrite E. unfold code_of. destruct (Nat.eqb_spec cols 0); [lia|]. destruct (Z.eqb_spec maxiter 1); [lia|reflexivity].
  - intros k Hk. destruct (Z.le_gt_cases (used k) maxiter) as [L|L]; [specialize (U1 k Hk L); lia|lia].
Qed.
Lemma hh_one rnd rows A S0 V0 T0 : keeps_units rnd ->
  exists d used, svd_HH_calculate rnd rows 1 A S0 V0 T0 1 = Go ((-2)%Z, d, used) /\ converged 1 1 used.
Proof.
  intros HU. destruct (hh_run rnd rows 1 A S0 V0 T0 1 HU) as (d & used & E & U0 & _).
  exists d, used. split; [exact E|]. intros k Hk. replace k with O by lia. rewrite U0 by lia. lia.
Qed.
Lemma hh_none rnd rows cols A S0 V0 T0 maxiter : keeps_units rnd -> (0 < cols)%nat -> (maxiter <= 0)%Z ->
  exists d used, svd_HH_calculate rnd rows cols A S0 V0 T0 maxiter = Go (0%Z, d, used) /\ forall k, (k < cols)%nat -> (maxiter < used k)%Z.
Proof.
  intros HU Hc Hm. destruct (hh_run rnd rows cols A S0 V0 T0 maxiter HU) as (d & used & E & _ & U1 & _).
  exists d, used. split.
  - rewrite E. unfold code_of. destruct (Nat.eqb_spec cols 0); [lia|]. destruct (Z.eqb_spec maxiter 1); [lia|reflexivity].
  - intros k Hk. destruct (Z.le_gt_cases (used k) maxiter) as [L|L]; [specialize (U1 k Hk L); lia|lia].
Qed.

Lemma within_weaken e e' rows cols A U S V : svd_within e rows cols A U S V -> 0 <= e -> e <= e' -> svd_within e' rows cols A U S V.
Proof.
  intros (W1 & W2 & W3) P L. split; [eapply Rle_trans; [exact W1|]; apply Rmult_le_compat; lra|]. split; [exact W2|]. intros i j Hi Hj. eapply Rle_trans; [apply W3; assumption|exact L].
Qed.
Lemma budget_pos cols maxiter tol T : 0 <= tol -> 0 <= budget cols maxiter tol T.
Proof.
  intros H. unfold budget. pose proof (pos_INR (Z.to_nat maxiter)). pose proof (pos_INR cols).
  assert (0 <= 3 * tol * INR (Z.to_nat maxiter) * INR cols) by (apply Rmult_le_pos; [apply Rmult_le_pos; lra|assumption]).
  assert (0 <= sumn cols (fun k => Rabs (T k))) by (apply sumn_nonneg; intros; apply Rabs_pos). lra.
Qed.
Lemma converged_within rnd rows cols A maxiter tol a0 d : 0 <= tol ->
  (not_fooled rnd (a0 + budget cols maxiter tol (sT d)) -> svd_within (budget cols maxiter tol (sT d)) rows cols A (sU d) (sS d) (sV d)) ->
  sumn cols (fun k => Rabs (sT d k)) <= tol * INR cols -> not_fooled rnd (a0 + bound cols maxiter tol) ->
  svd_within (bound cols maxiter tol) rows cols A (sU d) (sS d) (sV d).
Proof.
  intros P W L B.
  assert (LB : budget cols maxiter tol (sT d) <= bound cols maxiter tol) by (unfold budget, bound in *; nra).
  apply within_weaken with (budget cols maxiter tol (sT d)); [apply W; apply (not_fooled_less _ _ _ B); lra|apply budget_pos, P|exact LB].
Qed.
