(** Decimal text and doubles. *)
From Coq Require Import Reals ZArith Lia Lra Psatz.
From Flocq Require Import Core Relative.
From Verif Require Import IoModel IoSpec.
Local Open Scope R_scope.

Lemma round10_opp p x : (0 < p)%Z -> round10 p (- x) = - round10 p x.
Proof. intros Hp. unfold round10. apply round_NE_opp. Qed.
Lemma to_double_opp x : to_double (- x) = - to_double x.
Proof. unfold to_double. apply round_NE_opp. Qed.

Lemma powers : / 2 * bpow radix10 (- 16) < / 2 * bpow radix2 (- 53).
Proof.
  apply Rmult_lt_compat_l; [lra|]. cbn [bpow]. apply Rinv_lt_contravar; [|apply IZR_lt; reflexivity].
  apply Rmult_lt_0_compat; apply IZR_lt; reflexivity.
Qed.
Lemma round10_error p x : (0 < p)%Z -> Rabs (round10 p x - x) <= / 2 * bpow radix10 (1 - p) * Rabs x.
Proof.
  intros Hp. unfold round10. assert (P : Prec_gt_0 p) by exact Hp. replace (1 - p)%Z with (- p + 1)%Z by ring.
  apply relative_error_N_FLX; assumption.
Qed.

Lemma gap x : 0 < x -> is_double x -> bpow radix2 (- 53) * x <= x - pred radix2 (FLT_exp (-1074) 53) x /\ bpow radix2 (- 53) * x <= ulp radix2 (FLT_exp (-1074) 53) x.
Proof.
  intros Hx F. assert (H1 : bpow radix2 (mag radix2 x - 1) <= x) by (pose proof (bpow_mag_le radix2 x ltac:(lra)) as Q; rewrite (Rabs_pos_eq x) in Q by lra; exact Q).
  assert (H2 : x < bpow radix2 (mag radix2 x)) by (pose proof (bpow_mag_gt radix2 x) as Q; rewrite (Rabs_pos_eq x) in Q by lra; exact Q).
  set (e := (mag radix2 x : Z)) in *.
  assert (U : bpow radix2 (- 53) * x <= ulp radix2 (FLT_exp (-1074) 53) x).
  { rewrite ulp_neq_0 by lra. unfold cexp. fold e. apply Rle_trans with (bpow radix2 (- 53 + e)).
    - rewrite bpow_plus. apply Rmult_le_compat_l; [apply bpow_ge_0|lra].
    - apply bpow_le. unfold FLT_exp. lia. }
  split; [|exact U]. rewrite pred_eq_pos by lra. unfold pred_pos. fold e. case Req_bool_spec; intros E.
  - replace (x - (x - bpow radix2 (FLT_exp (-1074) 53 (e - 1)))) with (bpow radix2 (FLT_exp (-1074) 53 (e - 1))) by ring.
    apply Rle_trans with (bpow radix2 (- 53) * bpow radix2 (e - 1)); [apply Rmult_le_compat_l; [apply bpow_ge_0|lra]|].
    rewrite <- bpow_plus. apply bpow_le. unfold FLT_exp. lia.
  - replace (x - (x - ulp radix2 (FLT_exp (-1074) 53) x)) with (ulp radix2 (FLT_exp (-1074) 53) x) by ring. exact U.
Qed.

Lemma near_double x y : 0 < x -> is_double x -> Rabs (y - x) < / 2 * bpow radix2 (- 53) * x -> to_double y = x.
Proof.
  intros Hx F H. assert (P : Prec_gt_0 53) by reflexivity. destruct (gap x Hx F) as [G1 G2]. apply Rabs_lt_inv in H. unfold to_double.
  apply Rle_antisym.
  - apply round_N_le_midp; [exact (FLT_exp_valid (-1074) 53)|exact F|]. rewrite succ_eq_pos by (apply Rlt_le; exact Hx). lra.
  - apply round_N_ge_midp; [exact (FLT_exp_valid (-1074) 53)|exact F|]. lra.
Qed.
Lemma seventeen p x : (17 <= p)%Z -> is_double x -> to_double (round10 p x) = x.
Proof.
  assert (POS : forall x, (17 <= p)%Z -> 0 < x -> is_double x -> to_double (round10 p x) = x).
  { clear x. intros x Hp Hx F. apply near_double; [exact Hx|exact F|].
    pose proof (round10_error p x ltac:(lia)) as E. rewrite (Rabs_pos_eq x) in E by lra. apply (Rle_lt_trans _ _ _ E).
    apply Rmult_lt_compat_r; [lra|]. apply Rle_lt_trans with (2 := powers). apply Rmult_le_compat_l; [lra|].
    apply bpow_le. lia. }
  intros Hp F. destruct (Rtotal_order x 0) as [Hx|[Hx|Hx]].
  - rewrite <- (Ropp_involutive x). rewrite round10_opp by lia. rewrite to_double_opp. f_equal. apply POS; [exact Hp|lra|]. apply generic_format_opp. exact F.
  - subst x. unfold round10, to_double. rewrite !round_0; auto with typeclass_instances.
  - apply POS; assumption.
Qed.

(** fewer digits: the relative error *)
Lemma short_error p x : (1 <= p)%Z -> bpow radix2 (-1021) <= Rabs x ->
  Rabs (to_double (round10 p x) - x) <= (/ 2 * bpow radix10 (1 - p) + bpow radix2 (-52)) * Rabs x.
Proof.
  intros Hp Hx. pose proof (round10_error p x ltac:(lia)) as E1. set (y := round10 p x) in *.
  assert (B : bpow radix10 (1 - p) <= 1) by (change 1 with (bpow radix10 0); apply bpow_le; lia).
  assert (X : 0 < Rabs x) by (apply Rlt_le_trans with (2 := Hx); apply bpow_gt_0).
  assert (Y1 : / 2 * Rabs x <= Rabs y <= 2 * Rabs x).
  { assert (Rabs (y - x) <= / 2 * Rabs x).
    { apply (Rle_trans _ _ _ E1). apply Rmult_le_compat_r; [lra|]. pose proof (bpow_ge_0 radix10 (1 - p)). nra. }
    pose proof (Rabs_triang_inv x y). pose proof (Rabs_triang_inv y x). rewrite (Rabs_minus_sym x y) in *. lra. }
  assert (E2 : Rabs (to_double y - y) <= / 2 * bpow radix2 (-53 + 1) * Rabs y).
  { unfold to_double. apply relative_error_N_FLT; [lia|]. apply Rle_trans with (2 := proj1 Y1).
    apply Rle_trans with (/ 2 * bpow radix2 (-1021)); [|apply Rmult_le_compat_l; lra].
    change (/ 2) with (bpow radix2 (-1)). rewrite <- bpow_plus. apply bpow_le. lia. }
  change (-53 + 1)%Z with (-52)%Z in E2.
  replace (to_double y - x) with ((to_double y - y) + (y - x)) by ring. apply Rle_trans with (1 := Rabs_triang _ _).
  pose proof (bpow_gt_0 radix2 (-52)). nra.
Qed.
