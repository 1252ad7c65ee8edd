(** The sweeps of plane rotations: what they keep, when they end, what they leave. *)
From Coq Require Import Reals List ZArith Lra Lia Bool Arith.
From Verif Require Import FramesModel Outcome LoopProofs LinModel LinSpec SumProofs LmaSpec LmaProofs SvdModel SvdFinal VelIkModel VelIkSpec VelIkLin GivensModel GivensSpec GivensLin.
Import ListNotations.
Local Open Scope list_scope.
Local Open Scope R_scope.

Lemma left_alone_iff thr p qi qj : 0 < thr -> 0 <= qi -> 0 <= qj -> (left_alone thr p qi qj = true <-> p * p < thr * (qi * qj)).
Proof.
  intros T Hi Hj. unfold left_alone. assert (Pq : 0 <= qi * qj) by (apply Rmult_le_pos; assumption).
  destruct (Req_EM_T (qi * qj) 0) as [E|N].
  - rewrite E. split; [discriminate|]. intros H. nra.
  - assert (P : 0 < qi * qj) by lra. clear N Pq Hi Hj. revert P. generalize (qi * qj). intros d P. destruct (Rlt_dec (p * p / d) thr) as [L|L]; (split; [intros H|intros H]); try reflexivity; try discriminate.
    + apply (Rmult_lt_compat_r d) in L; [|exact P]. replace (p * p / d * d) with (p * p) in L by (field; lra). exact L.
    + exfalso. apply L. apply (Rmult_lt_reg_r d); [exact P|]. replace (p * p / d * d) with (p * p) by (field; lra). exact H.
Qed.

Lemma multiples d y : 0 < d -> exists N, y < INR N * d.
Proof.
  intros D. exists (Z.to_nat (up (y / d))). destruct (archimed (y / d)) as [U _].
  assert (Y : y < IZR (up (y / d)) * d). { apply (Rmult_lt_compat_r d) in U; [|exact D]. replace (y / d * d) with y in U by (field; lra). exact U. }
  destruct (Z_le_gt_dec 0 (up (y / d))) as [P|N].
  - rewrite INR_IZR_INZ, Z2Nat.id by exact P. exact Y.
  - assert (IZR (up (y / d)) <= 0) by (apply IZR_le; lia). pose proof (pos_INR (Z.to_nat (up (y / d)))). nra.
Qed.

Definition spun (n : nat) (B W B' W' : mat) : Prop := exists Q : (nat -> R) -> (nat -> R),
  (forall x, sq n (Q x) = sq n x) /\ (forall x a, mv n B' x a = mv n B (Q x) a) /\ (forall x a, mv n W' x a = mv n W (Q x) a).
Lemma spun_refl n B W : spun n B W B W.
Proof. exists (fun x => x). auto. Qed.
Lemma spun_trans n B W B1 W1 B2 W2 : spun n B W B1 W1 -> spun n B1 W1 B2 W2 -> spun n B W B2 W2.
Proof.
  intros (Q & S1 & E1 & F1) (Q2 & S2 & E2 & F2). exists (fun x => Q (Q2 x)). split; [|split]; intros.
  - rewrite S1. apply S2.
  - rewrite E2. apply E1.
  - rewrite F2. apply F1.
Qed.
Lemma spun_turn n i j cs sn B W : (i < j < n)%nat -> cs * cs + sn * sn = 1 -> spun n B W (turn i j cs sn B) (turn i j cs sn W).
Proof.
  intros H E. exists (spin i j cs sn). split; [|split]; intros.
  - apply sq_spin; assumption.
  - apply mv_turn; exact H.
  - apply mv_turn; exact H.
Qed.
Lemma spun_stretches rows n low B W B' W' : spun n B W B' W' ->
  (stretches rows n low B -> stretches rows n low B') /\ (stretches rows n low W -> stretches rows n low W').
Proof.
  intros (Q & S1 & E1 & F1). split; intros H x.
  - rewrite <- (S1 x), (sq_ext rows (mv n B' x) (mv n B (Q x))) by auto. apply H.
  - rewrite <- (S1 x), (sq_ext rows (mv n W' x) (mv n W (Q x))) by auto. apply H.
Qed.
Lemma spun_at_most rows n high B W B' W' : spun n B W B' W' ->
  (stretched_at_most rows n high B -> stretched_at_most rows n high B') /\ (stretched_at_most rows n high W -> stretched_at_most rows n high W').
Proof.
  intros (Q & S1 & E1 & F1). split; intros H x.
  - rewrite <- (S1 x), (sq_ext rows (mv n B' x) (mv n B (Q x))) by auto. apply H.
  - rewrite <- (S1 x), (sq_ext rows (mv n W' x) (mv n W (Q x))) by auto. apply H.
Qed.
(** B = A W stays true. *)
Lemma spun_product m n A B W B' W' a : spun n B W B' W' ->
  (forall x, mv n B x a = mv m A (mv n W x) a) -> forall x, mv n B' x a = mv m A (mv n W' x) a.
Proof. intros (Q & S1 & E1 & F1) H x. rewrite E1, H. apply mv_ext; [reflexivity|]. intros k _. symmetry. apply F1. Qed.

Definition trace (rows n : nat) (B : mat) : R := sumn n (fun i => gram rows B i i).
Definition diag2 (rows n : nat) (B : mat) : R := sumn n (fun i => gram rows B i i * gram rows B i i).
Lemma diag2_bound rows n B : diag2 rows n B <= trace rows n B * trace rows n B.
Proof.
  unfold diag2, trace. induction n as [|n IH]; cbn [sumn]; [lra|].
  assert (0 <= sumn n (fun i => gram rows B i i)) by (apply sumn_nonneg; intros; apply gram_nn). pose proof (gram_nn rows B n).
  assert (0 <= sumn n (fun i => gram rows B i i) * gram rows B n n) by (apply Rmult_le_pos; assumption). nra.
Qed.
Lemma turn_trace rows n i j B cs sn : (i < j < n)%nat -> plane (gram rows B i j) (gram rows B i i - gram rows B j j) = Ret (cs, sn) ->
  trace rows n (turn i j cs sn B) = trace rows n B /\
  diag2 rows n (turn i j cs sn B) = diag2 rows n B + 2 * (gram rows B i j * gram rows B i j).
Proof.
  intros H E. destruct (turn_pair rows i j B cs sn (proj1 H) E) as (_ & G1 & G2). destruct (turn_gram rows i j cs sn B (proj1 H)) as (_ & _ & _ & G3).
  unfold trace, diag2. split.
  - rewrite (sumn_two n i j (fun k => gram rows B k k) _ H) by (intros; apply G3; assumption). lra.
  - rewrite (sumn_two n i j (fun k => gram rows B k k * gram rows B k k) _ H) by (intros; rewrite G3 by assumption; reflexivity). lra.
Qed.

Section Sweep.
Variables (thr : R) (rows n : nat).
Hypothesis Thr : 0 < thr.
Definition alone (B : mat) (i j : nat) : Prop := gram rows B i j * gram rows B i j < thr * (gram rows B i i * gram rows B j j).
Lemma alone_iff B i j : left_alone thr (cdot rows B i j) (cdot rows B i i) (cdot rows B j j) = true <-> alone B i j.
Proof. rewrite !cdot_gram. apply left_alone_iff; [exact Thr|apply gram_nn|apply gram_nn]. Qed.

Lemma pair_cases B W k i j st : (i < j < n)%nat -> jacobi_pair thr rows i j (B, W, k) = Ret st ->
  (st = (B, W, k) /\ alone B i j) \/
  exists cs sn, st = (turn i j cs sn B, turn i j cs sn W, S k) /\ cs * cs + sn * sn = 1 /\ ~ alone B i j /\
    plane (gram rows B i j) (gram rows B i i - gram rows B j j) = Ret (cs, sn).
Proof.
  intros H. unfold jacobi_pair. destruct (left_alone thr _ _ _) eqn:L.
  - intros E; injection E as <-. left. split; [reflexivity|]. apply alone_iff, L.
  - intros E. apply obind_Ret_inv in E as ([cs sn] & E1 & E2). injection E2 as <-. right. exists cs, sn.
    rewrite !cdot_gram in E1. destruct (plane_spec _ _ _ _ E1) as [U _]. split; [reflexivity|]. split; [exact U|]. split; [|exact E1].
    intros A. apply alone_iff in A. congruence.
Qed.

(** One sweep *)
Lemma sweep_keeps B W B' W' k : jacobi_sweep thr rows n B W = Ret (B', W', k) ->
  spun n B W B' W' /\ trace rows n B' = trace rows n B /\
  (k = 0%nat -> B' = B /\ W' = W /\ forall i j, (i < j < n)%nat -> alone B i j).
Proof.
  intros E. unfold jacobi_sweep in E.
  set (P := fun (done : nat -> nat -> Prop) (st : mat * mat * nat) => let '(B1, W1, k1) := st in
    spun n B W B1 W1 /\ trace rows n B1 = trace rows n B /\ (k1 = 0%nat -> B1 = B /\ W1 = W /\ forall i j, done i j -> (i < j < n)%nat -> alone B i j)).
  assert (St : forall (d d' : nat -> nat -> Prop) i j st st', (i < j < n)%nat -> (forall a b, d' a b -> d a b \/ (a = i /\ b = j)) -> P d st ->
    jacobi_pair thr rows i j st = Ret st' -> P d' st').
  { intros d d' i j [[B1 W1] k1] st' Hij Hd (H1 & H2 & H3) Ep. destruct (pair_cases _ _ _ _ _ _ Hij Ep) as [(-> & Al) | (cs & sn & -> & U & _ & Pl)].
    - split; [exact H1|split; [exact H2|]]. intros Z. destruct (H3 Z) as (X1 & X2 & X3). split; [exact X1|split; [exact X2|]].
      intros a b Dab Hab. destruct (Hd a b Dab) as [D|[-> ->]]; [apply X3; assumption|]. rewrite <- X1. exact Al.
    - split; [apply (spun_trans _ _ _ B1 W1); [exact H1|apply spun_turn; assumption]|]. split; [|discriminate].
      rewrite (proj1 (turn_trace rows n i j B1 cs sn Hij Pl)). exact H2. }
  assert (F' : P (fun a _ => (a < 0 + n)%nat) (B', W', k)).
  { refine (for_loop_pinv (fun i st => P (fun a _ => (a < i)%nat) st) (fun i => for_loop (n - S i) (S i) (jacobi_pair thr rows i)) n 0 (B, W, 0%nat) (B', W', k) _ _ E).
    - intros i st st' Hi Hst Es.
      assert (G' : P (fun a b => (a < i)%nat \/ (a = i /\ (b < S i + (n - S i))%nat)) st').
      { refine (for_loop_pinv (fun j st => P (fun a b => (a < i)%nat \/ (a = i /\ (b < j)%nat)) st) (jacobi_pair thr rows i) (n - S i) (S i) st st' _ _ Es).
        - intros j s s' Hj. apply St; [lia|]. intros a b [D|D]; [left; left; exact D|]. destruct (Nat.eq_dec b j) as [->|]; [right; lia|left; right; lia].
        - destruct st as [[B1 W1] k1]. destruct Hst as (H1 & H2 & H3). split; [exact H1|split; [exact H2|]]. intros Z. destruct (H3 Z) as (X1 & X2 & X3).
          split; [exact X1|split; [exact X2|]]. intros a b [D|D] Hab; [apply X3; assumption|lia]. }
      destruct st' as [[B1 W1] k1]. destruct G' as (H1 & H2 & H3). split; [exact H1|split; [exact H2|]]. intros Z. destruct (H3 Z) as (X1 & X2 & X3).
      split; [exact X1|split; [exact X2|]]. intros a b Dab Hab. apply X3; [|exact Hab]. destruct (Nat.eq_dec a i) as [->|]; [right; lia|left; lia].
    - split; [apply spun_refl|split; [reflexivity|]]. intros _. repeat split. intros; lia. }
  destruct F' as (H1 & H2 & H3). split; [exact H1|split; [exact H2|]]. intros Z. destruct (H3 Z) as (X1 & X2 & X3). split; [exact X1|split; [exact X2|]].
  intros i j Hij. apply X3; lia.
Qed.

(** A sweep over independent columns is defined and each rotation raises [diag2]. *)
Lemma sweep_total low B W : 0 < low -> stretches rows n low B ->
  exists B' W' k, jacobi_sweep thr rows n B W = Ret (B', W', k) /\ diag2 rows n B + INR k * (2 * (thr * (low * low))) <= diag2 rows n B'.
Proof.
  intros L Hreg. unfold jacobi_sweep.
  set (P := fun st : mat * mat * nat => let '(B1, W1, k1) := st in
    stretches rows n low B1 /\ diag2 rows n B + INR k1 * (2 * (thr * (low * low))) <= diag2 rows n B1).
  assert (St : forall i j st, (i < j < n)%nat -> P st -> exists st', jacobi_pair thr rows i j st = Ret st' /\ P st').
  { intros i j [[B1 W1] k1] Hij (H1 & H2).
    assert (Q : forall a, (a < n)%nat -> low <= gram rows B1 a a).
    { intros a Ha. rewrite (gram_basis rows n B1 a Ha). specialize (H1 (delta a)). rewrite sq_basis in H1 by exact Ha. lra. }
    pose proof (Q i ltac:(lia)) as Qi. pose proof (Q j ltac:(lia)) as Qj.
    unfold jacobi_pair. destruct (left_alone thr _ _ _) eqn:La; [eexists; split; [reflexivity|split; assumption]|].
    assert (Na : ~ alone B1 i j) by (intros A; apply alone_iff in A; congruence). unfold alone in Na.
    assert (Pq : low * low <= gram rows B1 i i * gram rows B1 j j) by nra.
    assert (Pp : thr * (low * low) <= gram rows B1 i j * gram rows B1 i j).
    { apply Rle_trans with (thr * (gram rows B1 i i * gram rows B1 j j)); [apply Rmult_le_compat_l; lra | lra]. }
    assert (Np : gram rows B1 i j <> 0). { intros Z. rewrite Z in Pp. assert (0 < thr * (low * low)) by (apply Rmult_lt_0_compat; [exact Thr|nra]). lra. }
    cbv zeta. rewrite (cdot_gram rows B1 i j), (cdot_gram rows B1 i i), (cdot_gram rows B1 j j). destruct (plane_defined (gram rows B1 i j) (gram rows B1 i i - gram rows B1 j j) (or_introl Np)) as (cs & sn & E). rewrite E. cbn [obind].
    eexists; split; [reflexivity|]. destruct (plane_spec _ _ _ _ E) as [U _]. destruct (turn_trace rows n i j B1 cs sn Hij E) as [_ D]. split.
    - apply (spun_stretches rows n low B1 W1 _ _ (spun_turn n i j cs sn B1 W1 Hij U)). exact H1.
    - rewrite D, S_INR. lra. }
  destruct (for_loop_inv (fun _ st => P st) (fun i => for_loop (n - S i) (S i) (jacobi_pair thr rows i)) n 0 (B, W, 0%nat)) as ([[B' W'] k] & E & _ & D).
  - intros i st Hi Hst. destruct (for_loop_inv (fun _ st => P st) (jacobi_pair thr rows i) (n - S i) (S i) st) as (st' & E & H); [|exact Hst|exists st'; split; assumption].
    intros j s Hj Hs. apply St; [lia|exact Hs].
  - split; [exact Hreg|]. cbn [INR]. lra.
  - exists B', W', k. split; [exact E|exact D].
Qed.

(** A sweep that finds every pair orthogonal does nothing. *)
Lemma sweep_idle B W : (forall i j, (i < j < n)%nat -> alone B i j) -> jacobi_sweep thr rows n B W = Ret (B, W, 0%nat).
Proof.
  intros H. unfold jacobi_sweep.
  destruct (for_loop_inv (fun _ st => st = (B, W, 0%nat)) (fun i => for_loop (n - S i) (S i) (jacobi_pair thr rows i)) n 0 (B, W, 0%nat)) as (st & E & ->); [|reflexivity|exact E].
  intros i st Hi ->.
  destruct (for_loop_inv (fun _ st => st = (B, W, 0%nat)) (jacobi_pair thr rows i) (n - S i) (S i) (B, W, 0%nat)) as (st & E & ->); [|reflexivity|eexists; split; [exact E|reflexivity]].
  intros j st Hj ->. eexists. split; [|reflexivity]. unfold jacobi_pair. rewrite (proj2 (alone_iff B i j)); [reflexivity|]. apply H; lia.
Qed.

(** ** The loop *)
Lemma jacobi_result : forall fuel B W F Sg k0 W' F' Sg' k', jacobi fuel thr rows n B W F Sg k0 = Ret (Some (W', F', Sg', k')) ->
  exists Bf, spun n B W Bf W' /\ (forall i j, (i < j < n)%nat -> alone Bf i j) /\ (forall i, (n <= i)%nat -> Sg' i = Sg i) /\
  ((k' = k0 /\ Bf = B /\ W' = W /\ F' = F /\ Sg' = Sg) \/
   ((k0 < k')%nat /\ F' = unit_columns rows n Bf /\ forall i, (i < n)%nat -> Sg' i = Some (sqrt (gram rows Bf i i)))).
Proof.
  induction fuel as [|fuel IH]; intros B W F Sg k0 W' F' Sg' k' E; [discriminate|]. cbn [jacobi] in E.
  apply obind_Ret_inv in E as ([[B1 W1] r] & E1 & E2). destruct (sweep_keeps _ _ _ _ _ E1) as (S1 & _ & Z1).
  destruct (Nat.eqb_spec r 0) as [R0|R0].
  - injection E2 as <- <- <- <-. destruct (Z1 R0) as (-> & -> & Al). exists B. split; [apply spun_refl|]. split; [exact Al|]. split; [reflexivity|]. left. auto.
  - destruct (IH _ _ _ _ _ _ _ _ _ E2) as (Bf & S2 & Al & Hi & C). exists Bf. split; [exact (spun_trans _ _ _ _ _ _ _ S1 S2)|]. split; [exact Al|]. split.
    + intros i Hn. rewrite (Hi i Hn). unfold column_lengths. rewrite (proj2 (Nat.ltb_ge i n) Hn). reflexivity.
    + right. destruct C as [(-> & -> & _ & -> & ->) | (Lt & -> & Ls)].
      * split; [lia|]. split; [reflexivity|]. intros i Hn. unfold column_lengths. rewrite (proj2 (Nat.ltb_lt i n) Hn), cdot_gram. reflexivity.
      * split; [lia|]. split; [reflexivity|exact Ls].
Qed.
Lemma jacobi_more : forall fuel extra B W F Sg k0 r, jacobi fuel thr rows n B W F Sg k0 = Ret (Some r) ->
  jacobi (fuel + extra) thr rows n B W F Sg k0 = Ret (Some r).
Proof.
  induction fuel as [|fuel IH]; intros extra B W F Sg k0 r E; [discriminate|]. cbn [jacobi Nat.add] in *.
  destruct (jacobi_sweep thr rows n B W) as [[[B1 W1] k]|]; [|discriminate]. cbn [obind] in *. destruct (Nat.eqb k 0); [exact E|]. apply IH, E.
Qed.
(** Independent columns: the loop ends. *)
Lemma jacobi_ends low : 0 < low -> forall fuel B W F Sg k0, stretches rows n low B ->
  trace rows n B * trace rows n B - diag2 rows n B < INR fuel * (2 * (thr * (low * low))) ->
  exists r, jacobi fuel thr rows n B W F Sg k0 = Ret (Some r).
Proof.
  intros L. induction fuel as [|fuel IH]; intros B W F Sg k0 Hreg Hf.
  - cbn [INR] in Hf. pose proof (diag2_bound rows n B). lra.
  - cbn [jacobi]. destruct (sweep_total low B W L Hreg) as (B1 & W1 & k & E & D). rewrite E. cbn [obind]. destruct (Nat.eqb_spec k 0) as [Z|N]; [eexists; reflexivity|].
    destruct (sweep_keeps _ _ _ _ _ E) as (Sp & Tr & _). apply IH.
    + apply (spun_stretches rows n low B W B1 W1 Sp). exact Hreg.
    + rewrite Tr. rewrite S_INR in Hf.
      assert (K : 1 <= INR k). { change 1 with (INR 1). apply le_INR. lia. }
      assert (0 < 2 * (thr * (low * low))) by (apply Rmult_lt_0_compat; [lra|]; apply Rmult_lt_0_compat; [exact Thr|nra]). nra.
Qed.
Lemma jacobi_terminates low B W F Sg k0 : 0 < low -> stretches rows n low B ->
  exists enough r, forall fuel, (enough <= fuel)%nat -> jacobi fuel thr rows n B W F Sg k0 = Ret (Some r).
Proof.
  intros L Hreg. set (d := 2 * (thr * (low * low))).
  assert (D : 0 < d) by (apply Rmult_lt_0_compat; [lra|]; apply Rmult_lt_0_compat; [exact Thr|nra]).
  destruct (multiples d (trace rows n B * trace rows n B - diag2 rows n B) D) as (N & HN).
  destruct (jacobi_ends low L N B W F Sg k0 Hreg) as (r & E); [exact HN|].
  exists N, r. intros fuel Hf. replace fuel with (N + (fuel - N))%nat by lia. apply jacobi_more, E.
Qed.
Lemma jacobi_idle fuel B W F Sg k0 : (forall i j, (i < j < n)%nat -> alone B i j) ->
  jacobi (S fuel) thr rows n B W F Sg k0 = Ret (Some (W, F, Sg, k0)).
Proof. intros H. cbn [jacobi]. rewrite sweep_idle by exact H. reflexivity. Qed.
End Sweep.
