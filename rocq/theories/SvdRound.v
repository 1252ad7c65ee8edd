(** Rounding functions that satisfy the hypotheses of the theorems about the singular value routines:
    exact arithmetic, and IEEE double precision, round to nearest even. *)
From Coq Require Import Reals ZArith Lia Lra.
From Flocq Require Import Core.
From Verif Require Import SvdModel SvdSpec.
Local Open Scope R_scope.

Lemma exact_units : keeps_units (fun x => x). Proof. split; reflexivity. Qed.
Lemma exact_rounds : rounds_within (fun x => x) 0.
Proof.
  split; [lra|]. split; [|split]; intros x ->; [rewrite Rabs_R0; lra| |].
  - replace (1 - 1) with 0 by ring. rewrite Rabs_R0. lra.
  - replace (-1 + 1) with 0 by ring. rewrite Rabs_R0. lra.
Qed.

Definition double (x : R) : R := round radix2 (FLT_exp (-1074) 53) ZnearestE x.
Lemma format_int n : (Z.abs n <= 2)%Z -> double (IZR n) = IZR n.
Proof.
  intros H. unfold double. apply round_generic; [apply valid_rnd_N|].
  replace (IZR n) with (F2R (Float radix2 n 0)) by (unfold F2R; simpl; ring).
  apply generic_format_FLT. exists (Float radix2 n 0); [reflexivity|simpl; lia|simpl; lia].
Qed.
Lemma double_units : keeps_units double.
Proof. split; [exact (format_int 0 ltac:(lia))|exact (format_int 1 ltac:(lia))]. Qed.
Lemma double_units2 : double 2 = 2 /\ double (-1) = -1.
Proof. split; [exact (format_int 2 ltac:(lia))|exact (format_int (-1) ltac:(lia))]. Qed.
Lemma double_error x : Rabs (x - double x) <= / 2 * ulp radix2 (FLT_exp (-1074) 53) (double x).
Proof.
  rewrite Rabs_minus_sym. apply error_le_half_ulp_round.
  - apply FLT_exp_valid. reflexivity.
  - apply FLT_exp_monotone.
Qed.
Lemma ulp_unit : ulp radix2 (FLT_exp (-1074) 53) 1 = bpow radix2 (-52).
Proof. change 1 with (bpow radix2 0). rewrite ulp_bpow. reflexivity. Qed.
Lemma double_rounds : rounds_within double (bpow radix2 (-53)).
Proof.
  assert (P : 0 <= bpow radix2 (-53)) by apply bpow_ge_0.
  assert (H : / 2 * bpow radix2 (-52) = bpow radix2 (-53)) by (change (/ 2) with (bpow radix2 (-1)); rewrite <- bpow_plus; reflexivity).
  split; [exact P|]. split; [|split]; intros x E; pose proof (double_error x) as D; rewrite E in D.
  - rewrite Rminus_0_r in D. eapply Rle_trans; [exact D|]. rewrite ulp_FLT_0 by reflexivity.
    change (/ 2) with (bpow radix2 (-1)). rewrite <- bpow_plus. apply bpow_le. lia.
  - rewrite ulp_unit, H in D. exact D.
  - replace (x - -1) with (x + 1) in D by ring. replace (-1) with (- (1)) in D by ring. rewrite ulp_opp, ulp_unit, H in D. exact D.
Qed.
