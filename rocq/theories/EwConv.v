(** The first order observer of EwSpec.v for an input that stays the same. *)
From Coq Require Import Reals List Arith Lia Lra Psatz.
From Verif Require Import EwSpec.
Import ListNotations.
Local Open Scope list_scope.
Local Open Scope R_scope.

Lemma observer_app K dt f us vs : forall x, observer K dt f x (us ++ vs) = observer K dt f (observer K dt f x us) vs.
Proof. induction us as [|u us IH]; intros x; cbn; [reflexivity|apply IH]. Qed.

(** ** A second order recurrence whose roots lie inside the unit circle *)
Definition rec2 (t f y0 y1 : R) : nat -> R * R := fix go n := match n with O => (y0, y1) | S m => (snd (go m), t * snd (go m) - f * fst (go m)) end.
Definition lyap (rho t f y0 y1 : R) : R := (rho * rho + f) * (y1 * y1 + rho * rho * (y0 * y0)) - 2 * t * (rho * rho) * (y1 * y0).
Lemma lyap_step rho t f y0 y1 : let y2 := t * y1 - f * y0 in
  lyap rho t f y1 y2 = rho * rho * lyap rho t f y0 y1 - (rho * rho - f) * ((y2 - rho * rho * y0) * (y2 - rho * rho * y0)).
Proof. unfold lyap. ring. Qed.
Lemma lyap_decr rho t f y0 y1 n : f <= rho * rho -> lyap rho t f (fst (rec2 t f y0 y1 n)) (snd (rec2 t f y0 y1 n)) <= rho ^ n * rho ^ n * lyap rho t f y0 y1.
Proof.
  intros H. induction n as [|n IH]; [cbn; lra|].
  change (rec2 t f y0 y1 (S n)) with (snd (rec2 t f y0 y1 n), t * snd (rec2 t f y0 y1 n) - f * fst (rec2 t f y0 y1 n)).
  cbn [fst snd]. pose proof (lyap_step rho t f (fst (rec2 t f y0 y1 n)) (snd (rec2 t f y0 y1 n))) as E. cbv zeta in E. rewrite E.
  set (L := lyap rho t f (fst (rec2 t f y0 y1 n)) (snd (rec2 t f y0 y1 n))) in *.
  pose proof (Rle_0_sqr (t * snd (rec2 t f y0 y1 n) - f * fst (rec2 t f y0 y1 n) - rho * rho * fst (rec2 t f y0 y1 n))) as Q. unfold Rsqr in Q.
  assert (Q2 : 0 <= (rho * rho - f) * ((t * snd (rec2 t f y0 y1 n) - f * fst (rec2 t f y0 y1 n) - rho * rho * fst (rec2 t f y0 y1 n)) * (t * snd (rec2 t f y0 y1 n) - f * fst (rec2 t f y0 y1 n) - rho * rho * fst (rec2 t f y0 y1 n)))) by (apply Rmult_le_pos; [lra|exact Q]).
  cbn [pow]. replace (rho * rho ^ n * (rho * rho ^ n) * lyap rho t f y0 y1) with (rho * rho * (rho ^ n * rho ^ n * lyap rho t f y0 y1)) by ring.
  assert (Q3 : 0 <= rho * rho) by (pose proof (Rle_0_sqr rho) as Z; exact Z).
  pose proof (Rmult_le_compat_l _ _ _ Q3 IH). lra.
Qed.
Lemma lyap_low rho t f y0 y1 : 0 <= rho -> (rho * rho + f - Rabs t * rho) * (rho * rho) * (y0 * y0) <= lyap rho t f y0 y1 + (Rabs t * rho - rho * rho - f) * (y1 * y1).
Proof.
  intros H. unfold lyap.
  assert (A : 0 <= Rabs t * rho * (y1 * y1 + rho * rho * (y0 * y0)) - 2 * t * (rho * rho) * (y1 * y0)).
  { destruct (Rcase_abs t) as [N|N].
    - rewrite Rabs_left by exact N. replace (- t * rho * (y1 * y1 + rho * rho * (y0 * y0)) - 2 * t * (rho * rho) * (y1 * y0)) with (- t * rho * ((y1 + rho * y0) * (y1 + rho * y0))) by ring.
      apply Rmult_le_pos; [apply Rmult_le_pos; lra|apply Rle_0_sqr].
    - rewrite Rabs_right by exact N. replace (t * rho * (y1 * y1 + rho * rho * (y0 * y0)) - 2 * t * (rho * rho) * (y1 * y0)) with (t * rho * ((y1 - rho * y0) * (y1 - rho * y0))) by ring.
      apply Rmult_le_pos; [apply Rmult_le_pos; lra|apply Rle_0_sqr]. }
  lra.
Qed.

Lemma rate_exists t f : Rabs f < 1 -> Rabs t < 1 + f -> exists rho, 0 < rho < 1 /\ f <= rho * rho /\ 0 < rho * rho + f - Rabs t * rho.
Proof.
  intros Hf Ht. set (m := 1 + f - Rabs t). assert (Hm : 0 < m) by (unfold m; lra).
  pose proof (Rabs_pos t) as T0. assert (F := Rle_abs f).
  set (d := Rmin (m / 4) ((1 - Rabs f) / 2)).
  assert (D1 : d <= m / 4) by apply Rmin_l. assert (D2 : d <= (1 - Rabs f) / 2) by apply Rmin_r.
  assert (D0 : 0 < d) by (apply Rmin_glb_lt; lra).
  assert (F' : - f <= Rabs f) by (rewrite <- Rabs_Ropp; apply Rle_abs). pose proof (Rabs_pos f) as F0.
  exists (1 - d). split; [lra|]. split; [nra|]. unfold m in *. nra.
Qed.

Lemma observer_rec K dt f u x n : let t := 1 + f - K * dt * (1 - f) in let y0 := snd x - u in let y1 := (t - 1) * y0 + (1 - f) * (fst x - u) in
  let z := observer K dt f x (repeat u n) in
  fst (rec2 t f y0 y1 n) = snd z - u /\ snd (rec2 t f y0 y1 n) = (t - 1) * (snd z - u) + (1 - f) * (fst z - u).
Proof.
  cbv zeta. induction n as [|n IH]; [cbn; split; ring|].
  replace (repeat u (S n)) with (repeat u n ++ [u]) by (rewrite <- repeat_cons; reflexivity).
  rewrite observer_app. cbn [observer]. set (z := observer K dt f x (repeat u n)) in *.
  destruct IH as [I1 I2]. unfold rec2; fold (rec2 (1 + f - K * dt * (1 - f)) f (snd x - u) ((1 + f - K * dt * (1 - f) - 1) * (snd x - u) + (1 - f) * (fst x - u))).
  cbn [fst snd]. rewrite I1, I2. unfold observer_step. cbn [fst snd]. split; ring.
Qed.

(** ** The estimate approaches a constant input at a geometric rate, for every filter constant and every gain below the limit *)
Theorem observer_converges K dt f : -1 < f < 1 -> 0 < K * dt -> K * dt * (1 - f) < 2 * (1 + f) ->
  exists rho B, 0 < rho < 1 /\ 0 < B /\ forall u x n,
    Rabs (snd (observer K dt f x (repeat u n)) - u) <= B * rho ^ n * (Rabs (fst x - u) + Rabs (snd x - u)).
Proof.
  intros Hf Ha Hs. set (t := 1 + f - K * dt * (1 - f)).
  assert (P1 : 0 < K * dt * (1 - f)) by (apply Rmult_lt_0_compat; lra).
  assert (Ht : Rabs t < 1 + f) by (unfold t; apply Rabs_def1; lra).
  assert (Hf' : Rabs f < 1) by (apply Rabs_def1; lra).
  destruct (rate_exists t f Hf' Ht) as (rho & R1 & R2 & R3). set (g := rho * rho + f - Rabs t * rho) in *.
  assert (Hrr : 0 < rho * rho) by (apply Rmult_lt_0_compat; lra).
  assert (Hg : 0 < g * (rho * rho)) by (apply Rmult_lt_0_compat; assumption).
  exists rho, (sqrt (40 / (g * (rho * rho)))). split; [exact R1|]. split. { apply sqrt_lt_R0. apply Rdiv_lt_0_compat; lra. }
  intros u x n. set (e := fst x - u). set (y := snd x - u). set (N := Rabs e + Rabs y). set (y1 := (t - 1) * y + (1 - f) * e).
  destruct (observer_rec K dt f u x n) as [O1 _]. fold t y e in O1. fold y1 in O1.
  assert (N0 : 0 <= N) by (unfold N; pose proof (Rabs_pos e); pose proof (Rabs_pos y); lra).
  assert (Y1 : Rabs y1 <= 3 * N).
  { unfold y1, N. eapply Rle_trans; [apply Rabs_triang|]. rewrite !Rabs_mult.
    assert (A1 : Rabs (t - 1) <= 3) by (apply Rabs_le; apply Rabs_def2 in Ht; lra). assert (A2 : Rabs (1 - f) <= 3) by (apply Rabs_le; lra).
    pose proof (Rmult_le_compat_r _ _ _ (Rabs_pos y) A1). pose proof (Rmult_le_compat_r _ _ _ (Rabs_pos e) A2). lra. }
  assert (V0 : lyap rho t f y y1 <= 40 * (N * N)).
  { assert (Q1 : y1 * y1 <= 9 * (N * N)).
    { replace (y1 * y1) with (Rabs y1 * Rabs y1) by (rewrite <- Rabs_mult; apply Rabs_right, Rle_ge, Rle_0_sqr). pose proof (Rabs_pos y1). nra. }
    assert (Q0 : y * y <= N * N).
    { replace (y * y) with (Rabs y * Rabs y) by (rewrite <- Rabs_mult; apply Rabs_right, Rle_ge, Rle_0_sqr). pose proof (Rabs_pos y). assert (Rabs y <= N) by (unfold N; pose proof (Rabs_pos e); lra). nra. }
    unfold lyap. assert (C1 : rho * rho + f <= 2) by nra. assert (C2 : 0 <= rho * rho + f) by (unfold g in R3; pose proof (Rmult_le_pos _ _ (Rabs_pos t) (Rlt_le _ _ (proj1 R1))); lra).
    assert (S1 : 0 <= y1 * y1) by apply Rle_0_sqr. assert (S0 : 0 <= y * y) by apply Rle_0_sqr.
    assert (D1 : (rho * rho + f) * (y1 * y1 + rho * rho * (y * y)) <= 2 * (y1 * y1 + y * y)).
    { assert (H1 : 0 <= rho * rho * (y * y)) by (apply Rmult_le_pos; [lra|exact S0]).
      assert (H2 : rho * rho <= 1) by (clear - R1; nra).
      assert (H3 : rho * rho * (y * y) <= 1 * (y * y)) by (apply Rmult_le_compat_r; assumption).
      apply Rmult_le_compat; [exact C2|lra|exact C1|lra]. }
    assert (D2 : - (2 * t * (rho * rho) * (y1 * y)) <= 2 * (y1 * y1 + y * y)).
    { apply Rabs_def2 in Ht. assert (E1 : -2 <= t * (rho * rho) <= 2) by (split; nra).
      assert (G1 : - (y1 * y1 + y * y) <= 2 * (y1 * y) <= y1 * y1 + y * y). { pose proof (Rle_0_sqr (y1 + y)) as Z1. pose proof (Rle_0_sqr (y1 - y)) as Z2. unfold Rsqr in *. lra. }
      replace (2 * t * (rho * rho) * (y1 * y)) with ((t * (rho * rho)) * (2 * (y1 * y))) by ring.
      set (a := t * (rho * rho)) in *. set (b := 2 * (y1 * y)) in *. set (s := y1 * y1 + y * y) in *. nra. }
    lra. }
  pose proof (lyap_decr rho t f y y1 n R2) as DL. set (Z := rec2 t f y y1 n) in *.
  pose proof (lyap_low rho t f (fst Z) (snd Z) (Rlt_le _ _ (proj1 R1))) as LL. fold g in LL.
  assert (LL' : g * (rho * rho) * (fst Z * fst Z) <= lyap rho t f (fst Z) (snd Z)).
  { assert (0 <= (g) * (snd Z * snd Z)) by (apply Rmult_le_pos; [lra|apply Rle_0_sqr]). unfold g in *. lra. }
  rewrite <- O1. set (p := rho ^ n) in *. assert (P0 : 0 < p) by (apply pow_lt; lra).
  assert (Fin : fst Z * fst Z <= 40 / (g * (rho * rho)) * (p * N * (p * N))).
  { apply (Rmult_le_reg_l (g * (rho * rho))); [exact Hg|].
    replace (g * (rho * rho) * (40 / (g * (rho * rho)) * (p * N * (p * N)))) with (40 * (p * p * (N * N))) by (field; split; lra).
    eapply Rle_trans; [exact LL'|]. eapply Rle_trans; [exact DL|]. assert (0 <= p * p) by nra. pose proof (Rmult_le_compat_l _ _ _ H V0). lra. }
  assert (PN : 0 <= p * N) by (apply Rmult_le_pos; lra).
  rewrite <- sqrt_Rsqr_abs. unfold Rsqr. replace (sqrt (40 / (g * (rho * rho))) * p * N) with (sqrt (40 / (g * (rho * rho)) * (p * N * (p * N)))).
  - apply sqrt_le_1_alt. exact Fin.
  - rewrite sqrt_mult_alt by (apply Rlt_le, Rdiv_lt_0_compat; lra). rewrite sqrt_square by exact PN. ring.
Qed.

(** Without the filter the error shrinks by exactly 1 - K dt in each step *)
Theorem observer_unfiltered K dt u n : forall x, fst (observer K dt 0 (x, x) (repeat u n)) = snd (observer K dt 0 (x, x) (repeat u n)) /\
  snd (observer K dt 0 (x, x) (repeat u n)) - u = (1 - K * dt) ^ n * (x - u).
Proof.
  induction n as [|n IH]; intros x; [cbn; split; ring|]. cbn [repeat observer].
  replace (observer_step K dt 0 u (x, x)) with (x + K * dt * (u - x), x + K * dt * (u - x)) by (unfold observer_step; cbn [fst snd]; f_equal; ring).
  destruct (IH (x + K * dt * (u - x))) as [I1 I2]. split; [exact I1|]. rewrite I2. cbn [pow]. ring.
Qed.
(** A gain above the limit is useless: the estimate never gets closer than the start *)
Theorem observer_diverges K dt u n : 2 <= K * dt -> Rabs u <= Rabs (snd (observer K dt 0 (0, 0) (repeat u n)) - u).
Proof.
  intros H. destruct (observer_unfiltered K dt u n 0) as [_ ->]. rewrite Rabs_mult, <- RPow_abs.
  replace (Rabs (0 - u)) with (Rabs u) by (rewrite <- Rabs_Ropp; f_equal; ring).
  assert (1 <= Rabs (1 - K * dt)) by (rewrite Rabs_left; lra).
  pose proof (pow_R1_Rle _ n H0) as Q. pose proof (Rmult_le_compat_r _ _ _ (Rabs_pos u) Q). lra.
Qed.
