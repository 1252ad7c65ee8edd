(** A run of SVD_HH on the Jacobian of a two-joint machine that ends with a wrong decomposition. *)
From Coq Require Import Reals List ZArith Bool Arith Lia Lra Psatz.
From Verif Require Import Outcome LinModel LinSpec SumProofs LmaSpec VelIkLin VelIkModel VelIkSpec SvdModel SvdSpec SvdHouse SvdBidiag SvdAccum SvdNorm SvdQr SvdDiag SvdFinal SvdWitness.
Import ListNotations.
Local Open Scope R_scope.

Definition two_cols (l0 l1 : list R) : mat := fun a b => match b with O => nth a l0 0 | S O => nth a l1 0 | _ => 0 end.
Definition holds (U : mat) (l0 l1 : list R) : Prop := forall a b, (a < 6)%nat -> (b < 2)%nat -> U a b = two_cols l0 l1 a b.
Lemma from06 f : from 0 6 f = f O + f 1%nat + f 2%nat + f 3%nat + f 4%nat + f 5%nat. Proof. cbn [from Nat.leb]. ring. Qed.
Lemma from16 f : from 1 6 f = f 1%nat + f 2%nat + f 3%nat + f 4%nat + f 5%nat. Proof. cbn [from Nat.leb]. ring. Qed.
Lemma holds_all U l0 l1 : holds U l0 l1 ->
  (U 0 0 = nth 0 l0 0%R /\ U 1 0 = nth 1 l0 0%R /\ U 2 0 = nth 2 l0 0%R /\ U 3 0 = nth 3 l0 0%R /\ U 4 0 = nth 4 l0 0%R /\ U 5 0 = nth 5 l0 0%R)%nat /\
  (U 0 1 = nth 0 l1 0%R /\ U 1 1 = nth 1 l1 0%R /\ U 2 1 = nth 2 l1 0%R /\ U 3 1 = nth 3 l1 0%R /\ U 4 1 = nth 4 l1 0%R /\ U 5 1 = nth 5 l1 0%R)%nat.
Proof. intros H. repeat split; rewrite H by lia; reflexivity. Qed.
Lemma holds_by U l0 l1 :
  (U 0 0 = nth 0 l0 0%R /\ U 1 0 = nth 1 l0 0%R /\ U 2 0 = nth 2 l0 0%R /\ U 3 0 = nth 3 l0 0%R /\ U 4 0 = nth 4 l0 0%R /\ U 5 0 = nth 5 l0 0%R)%nat ->
  (U 0 1 = nth 0 l1 0%R /\ U 1 1 = nth 1 l1 0%R /\ U 2 1 = nth 2 l1 0%R /\ U 3 1 = nth 3 l1 0%R /\ U 4 1 = nth 4 l1 0%R /\ U 5 1 = nth 5 l1 0%R)%nat -> holds U l0 l1.
Proof. intros (A0 & A1 & A2 & A3 & A4 & A5) (B0 & B1 & B2 & B3 & B4 & B5) a b Ha Hb. destruct b as [|[|]]; [| |lia]; do 6 (destruct a as [|a]; [assumption|]); lia. Qed.
Ltac entries := cbn [Nat.add within Nat.leb Nat.ltb Nat.eqb andb orb nth]; rewrite ?from06, ?from16, ?from12; unfold eset; cbn [Nat.eqb andb orb Nat.leb Nat.ltb within]; cbv iota.
Ltac known H := let A := fresh "A" in let B := fresh "B" in destruct (holds_all _ _ _ H) as (A & B); cbn [nth] in A, B;
  destruct A as (?A0 & ?A1 & ?A2 & ?A3 & ?A4 & ?A5); destruct B as (?B0 & ?B1 & ?B2 & ?B3 & ?B4 & ?B5).
Ltac use := repeat match goal with H : ?U _ _ = _ |- context[?U _ _] => rewrite !H end.

Section Run.
Variables (checked : bool) (eps : R).
Hypothesis eps_ok : 0 <= eps < 1.

Lemma run_col0 U : holds U [2;0;0;0;0;0] [1;0;0;0;0;1] ->
  exists U', hh_col checked eps 6 2 0 U = Go (U', 2, -1) /\ holds U' [4;0;0;0;0;0] [-1;0;0;0;0;1].
Proof.
  intros H. known H. unfold hh_col. change (Nat.ltb 0 6) with true. cbv iota.
  rewrite (from06 (fun k => Rabs (U k 0%nat))), A0, A1, A2, A3, A4, A5, Rabs_R0, (Rabs_right 2) by lra.
  replace (2 + 0 + 0 + 0 + 0 + 0) with 2 by ring. cbv zeta. rewrite (Rabs_right 2) by lra. destruct (Rlt_dec eps 2) as [_|]; [|lra].
  unfold bare_divisor at 1. destruct (Req_EM_T 2 0); [lra|]. cbn [rbind]. rewrite !from06. cbn [Nat.eqb andb within Nat.leb Nat.ltb].
  rewrite A0, A1, A2, A3, A4, A5. match goal with |- context[radicand _ _ ?x] => replace x with 1 by field end. replace (2 / 2) with 1 by field.
  unfold radicand. destruct (Rle_dec 0 1); [|lra]. cbn [rbind]. rewrite sqrt_1, (sgn_pos 1 1), Rabs_R1 by lra.
  change (0 + 1 <? 2)%nat with true. cbv iota.
  rewrite (divisor_ok checked (-4) (1 * - (1) - 1)) by lra. cbn [rbind].
  eexists. split; [reflexivity|]. apply holds_by; entries; entries; rewrite ?A0, ?A1, ?A2, ?A3, ?A4, ?A5, ?B0, ?B1, ?B2, ?B3, ?B4, ?B5; repeat split; field; lra.
Qed.
Lemma run_row0 U tmp : holds U [4;0;0;0;0;0] [-1;0;0;0;0;1] ->
  exists U' tmp', hh_row checked eps 6 2 0 U tmp = Go (U', tmp', 1, 1) /\ holds U' [4;0;0;0;0;0] [-2;0;0;0;0;-1] /\ tmp' 0%nat = tmp 0%nat.
Proof.
  intros H. known H. unfold hh_row. change (Nat.ltb 0 6 && negb (Nat.eqb (0 + 1) 2)) with true. cbv iota zeta. cbn [Nat.add].
  rewrite (from12 (fun k => Rabs (U 0%nat k))), B0. replace (Rabs (-1)) with 1 by (rewrite Rabs_left; lra). rewrite Rabs_R1. destruct (Rlt_dec eps 1) as [_|]; [|lra].
  unfold bare_divisor at 1. destruct (Req_EM_T 1 0); [lra|]. cbn [rbind]. rewrite !from12. cbn [Nat.eqb andb within Nat.leb Nat.ltb].
  rewrite B0. replace (-1 / 1 * (-1 / 1)) with 1 by field. replace (-1 / 1) with (-1) by field.
  unfold radicand. destruct (Rle_dec 0 1); [|lra]. cbn [rbind]. rewrite sqrt_1, (sgn_neg 1 (-1)), Rabs_R1 by lra.
  rewrite Ropp_involutive. rewrite (divisor_ok checked (-6) (-1 * 1 - 1)) by lra. cbn [rbind].
  eexists _, _. split; [reflexivity|]. split; [|reflexivity].
  apply holds_by; entries; entries; rewrite ?A0, ?A1, ?A2, ?A3, ?A4, ?A5, ?B0, ?B1, ?B2, ?B3, ?B4, ?B5; repeat split; field; lra.
Qed.
Lemma run_col1 U : holds U [4;0;0;0;0;0] [-2;0;0;0;0;-1] -> exists U', hh_col checked eps 6 2 1 U = Go (U', 1, -1) /\ holds U' [4;0;0;0;0;0] [-2;1;0;0;0;-1].
Proof.
  intros H. known H. unfold hh_col. change (Nat.ltb 1 6) with true. cbv iota.
  rewrite (from16 (fun k => Rabs (U k 1%nat))), B1, B2, B3, B4, B5, Rabs_R0. replace (Rabs (-1)) with 1 by (rewrite Rabs_left; lra). replace (0 + 0 + 0 + 0 + 1) with 1 by ring.
  cbv zeta. rewrite Rabs_R1. destruct (Rlt_dec eps 1) as [_|]; [|lra].
  unfold bare_divisor at 1. destruct (Req_EM_T 1 0); [lra|]. cbn [rbind]. rewrite !from16. cbn [Nat.eqb andb within Nat.leb Nat.ltb].
  rewrite B1, B2, B3, B4, B5. match goal with |- context[radicand _ _ ?x] => replace x with 1 by field end. replace (0 / 1) with 0 by field.
  unfold radicand. destruct (Rle_dec 0 1); [|lra]. cbn [rbind]. rewrite sqrt_1, (sgn_pos 1 0), Rabs_R1 by lra.
  change (1 + 1 <? 2)%nat with false. cbv iota. cbn [rbind]. eexists. split; [reflexivity|].
  apply holds_by; entries; entries; rewrite ?A0, ?A1, ?A2, ?A3, ?A4, ?A5, ?B0, ?B1, ?B2, ?B3, ?B4, ?B5; repeat split; field; lra.
Qed.
Definition bent : mat := two_cols [2;0;0;0;0;0] [1;0;0;0;0;1].
Lemma run_bidiagonal A S0 T0 : holds A [2;0;0;0;0;0] [1;0;0;0;0;1] -> exists b, iter 2 0 (hh_step checked eps 6 2) (hh_start 6 2 A S0 T0) = Go b /\
  hS b 0%nat = -2 /\ hS b 1%nat = -1 /\ hT b 0%nat = 0 /\ hT b 1%nat = 1 /\ hanorm b = 1 /\ holds (hU b) [4;0;0;0;0;0] [-2;1;0;0;0;-1].
Proof.
  intros HA. cbn [iter]. unfold hh_step at 1. unfold hh_start. cbn [hU hS hT hscale hg hanorm].
  destruct (run_col0 (fun a b => if (a <? 6)%nat && (b <? 2)%nat then A a b else 0)) as (U1 & E1 & H1).
  { intros a b Ha Hb. destruct (Nat.ltb_spec a 6); [|lia]. destruct (Nat.ltb_spec b 2); [|lia]. apply HA; assumption. }
  rewrite E1. cbn [rbind].
  destruct (run_row0 U1 (vset T0 0 (0 * 0)) H1) as (U2 & t2 & E2 & H2 & B2). rewrite E2. cbn [rbind].
  unfold hh_step. cbn [hU hS hT hscale hg hanorm].
  destruct (run_col1 U2 H2) as (U3 & E3 & H3). rewrite E3. cbn [rbind].
  change (hh_row checked eps 6 2 1 U3 (vset t2 1 (1 * 1))) with (Go (U3, vset t2 1 (1 * 1), 0, 0)). cbn [rbind].
  eexists. split; [reflexivity|]. cbn [hS hT hanorm hU]. unfold vset. cbn [Nat.eqb]. rewrite B2. cbn [Nat.eqb vset].
  split; [ring|]. split; [ring|]. split; [unfold vset; cbn [Nat.eqb]; ring|]. split; [ring|]. split; [|exact H3].
  assert (Q : as_bool (Rabs (1 * -1) + Rabs (1 * 1)) = true).
  { unfold as_bool. destruct (Req_EM_T (Rabs (1 * -1) + Rabs (1 * 1)) 0) as [Z|_]; [|reflexivity]. rewrite Rmult_1_r, Rabs_R1 in Z. pose proof (Rabs_pos (1 * -1)). lra. }
  unfold anorm_next at 1. rewrite Q. match goal with |- context[as_bool (anorm_next ?x ?y)] => destruct (as_bool (anorm_next x y)) end; reflexivity.
Qed.
Lemma run_right U T V g : holds U [4;0;0;0;0;0] [-2;1;0;0;0;-1] -> T 0%nat = 0 -> T 1%nat = 1 ->
  exists V', iter_down 2 (right_step checked eps 6 2 U T) (V, g) = Go (V', 0) /\ V' 0%nat 0%nat = 1 /\ V' 0%nat 1%nat = 0 /\ V' 1%nat 0%nat = 0 /\ V' 1%nat 1%nat = -1.
Proof.
  intros H T0 T1. known H. cbn [iter_down]. unfold right_step at 1. change (1 <? 2 - 1)%nat with false. cbv iota zeta. cbn [rbind].
  unfold right_step. change (0 <? 2 - 1)%nat with true. cbv iota zeta. rewrite T1, Rabs_R1. destruct (Rlt_dec eps 1) as [_|]; [|lra].
  change (0 <? 6)%nat with true. cbv iota. cbn [rbind Nat.add]. rewrite divisor_ok by lra. cbn [rbind]. unfold bare_divisor. destruct (Req_EM_T 1 0); [lra|]. cbn [rbind].
  rewrite T0. eexists. split; [reflexivity|]. entries. repeat split; rewrite ?from12; cbn [Nat.eqb andb]; rewrite ?B0; field.
Qed.
Lemma run_left S U : holds U [4;0;0;0;0;0] [-2;1;0;0;0;-1] -> S 0%nat = -2 -> S 1%nat = -1 ->
  exists U', iter_down (Nat.min 2 6) (left_step checked eps 6 2 S) U = Go U' /\ holds U' [-1;0;0;0;0;0] [0;0;0;0;0;1].
Proof.
  intros H S0 S1. change (Nat.min 2 6) with 2%nat. cbn [iter_down].
  assert (L1 : exists U1, left_step checked eps 6 2 S 1 U = Go U1 /\ holds U1 [4;0;0;0;0;0] [-2;0;0;0;0;1]).
  { known H. unfold left_step. rewrite S1. replace (Rabs (-1)) with 1 by (rewrite Rabs_left; lra). destruct (Rlt_dec eps 1) as [_|]; [|lra].
    unfold bare_divisor. destruct (Req_EM_T (-1) 0); [lra|]. cbn [rbind]. change (1 + 1 <? 2)%nat with false. cbv iota zeta. cbn [rbind].
    eexists. split; [reflexivity|]. apply holds_by; entries; entries; rewrite ?A0, ?A1, ?A2, ?A3, ?A4, ?A5, ?B0, ?B1, ?B2, ?B3, ?B4, ?B5; repeat split; field; lra. }
  destruct L1 as (U1 & E1 & H1). rewrite E1. cbn [rbind]. known H1.
  unfold left_step. rewrite S0. replace (Rabs (-2)) with 2 by (rewrite Rabs_left; lra). destruct (Rlt_dec eps 2) as [_|]; [|lra].
  unfold bare_divisor. destruct (Req_EM_T (-2) 0); [lra|]. cbn [rbind]. change (0 + 1 <? 2)%nat with true. cbv iota zeta.
  rewrite divisor_ok by (cbn; lra). cbn [rbind].
  eexists. split; [reflexivity|]. apply holds_by; entries; entries; rewrite ?A0, ?A1, ?A2, ?A3, ?A4, ?A5, ?B0, ?B1, ?B2, ?B3, ?B4, ?B5; repeat split; field; lra.
Qed.
End Run.

Section RunDiag.
Variables (rnd : R -> R) (checked : bool) (eps : R).
Hypothesis eps_ok : 0 <= eps < 1.
Hypothesis r1 : rnd 1 = 1.
Hypothesis r2 : rnd 2 = 2.
Hypothesis rm1 : rnd (-1) = -1.

Lemma root2 : 0 < sqrt 2 /\ sqrt 2 * sqrt 2 = 2. Proof. split; [apply sqrt_lt_R0; lra|apply sqrt_sqrt; lra]. Qed.
Lemma run_pass1 U S V T : holds U [-1;0;0;0;0;0] [0;0;0;0;0;1] -> S 0%nat = -2 -> S 1%nat = -1 -> T 0%nat = 0 -> T 1%nat = 1 ->
  exists U' S' T', qr_pass rnd checked eps 6 2 1 1 (mkSV U S V T) = Go (mkSV U' S' V T', true) /\ S' 0%nat = -2 /\ S' 1%nat = sqrt 2 /\ T' 0%nat = 0 /\
    holds U' [/ sqrt 2;0;0;0;0;- / sqrt 2] [- / sqrt 2;0;0;0;0;- / sqrt 2].
Proof.
  intros HU S0 S1 T0 T1. unfold qr_pass. cbn [sS sT sU sV].
  assert (A1 : absorbed rnd 1 1 = false).
  { unfold absorbed. rewrite Rabs_R1. replace (1 + 1) with 2 by ring. rewrite r2. destruct (Req_EM_T 2 1); [lra|reflexivity]. }
  assert (A2 : absorbed_inside rnd 1 (-2) = true).
  { unfold absorbed_inside. replace (-2 + 1) with (-1) by ring. rewrite rm1. rewrite Rabs_left by lra. destruct (Req_EM_T (- -1) 1); [reflexivity|lra]. }
  cbn [split_at]. rewrite T1, A1, S0, A2. cbn [rbind Nat.sub Nat.add cancel]. rewrite T1, Rmult_1_r, A1, S1.
  assert (EP : pythag 1 (-1) = sqrt 2). { rewrite pythag_sqrt. f_equal. ring. }
  rewrite EP. destruct root2 as (P2 & _). rewrite divisor_ok by lra. cbn [rbind Nat.eqb].
  unfold vset at 1. cbn [Nat.eqb]. destruct (Rlt_dec (sqrt 2) 0); [lra|].
  eexists _, _, _. split; [reflexivity|]. unfold vset. cbn [Nat.eqb]. do 3 (split; [assumption || reflexivity|]).
  known HU. apply holds_by; unfold rot; entries; entries; rewrite ?A0, ?A3, ?A4, ?A5, ?A6, ?A7, ?B0, ?B1, ?B2, ?B3, ?B4, ?B5; repeat split; try ring; field; lra.
Qed.
Lemma run_pass0 U S V T : S 0%nat = -2 -> T 0%nat = 0 -> V 0%nat 0%nat = 1 -> V 0%nat 1%nat = 0 -> V 1%nat 0%nat = 0 -> V 1%nat 1%nat = -1 ->
  exists V' S', qr_pass rnd checked eps 6 2 1 0 (mkSV U S V T) = Go (mkSV U S' V' T, true) /\ S' 0%nat = 2 /\ S' 1%nat = S 1%nat /\
    V' 0%nat 0%nat = -1 /\ V' 0%nat 1%nat = 0 /\ V' 1%nat 0%nat = 0 /\ V' 1%nat 1%nat = -1.
Proof.
  intros S0 T0 V00 V01 V10 V11. unfold qr_pass. cbn [sS sT sU sV split_at].
  assert (A1 : absorbed rnd 1 0 = true).
  { unfold absorbed. rewrite Rabs_R0, Rplus_0_l, r1. destruct (Req_EM_T 1 1); [reflexivity|lra]. }
  rewrite T0, A1. cbn [rbind Nat.eqb]. rewrite S0. destruct (Rlt_dec (-2) 0); [|lra].
  eexists _, _. split; [reflexivity|]. unfold vset. cbn [Nat.eqb within Nat.leb Nat.ltb andb]. rewrite V00, V01, V10, V11. repeat split; ring.
Qed.
Lemma run_core A maxiter S0 V0 T0 : holds A [2;0;0;0;0;0] [1;0;0;0;0;1] -> (1 <= maxiter)%Z ->
  exists d used, svd_core rnd checked eps 6 2 maxiter A S0 V0 T0 = Go (d, 1%Z, used) /\ (forall k, (k < 2)%nat -> used k = 1%Z) /\
    sS d 0%nat = 2 /\ sS d 1%nat = sqrt 2 /\ sV d 0%nat 0%nat = -1 /\ sV d 0%nat 1%nat = 0 /\ sV d 1%nat 0%nat = 0 /\ sV d 1%nat 1%nat = -1 /\
    holds (sU d) [/ sqrt 2;0;0;0;0;- / sqrt 2] [- / sqrt 2;0;0;0;0;- / sqrt 2].
Proof.
  intros HA Hm. unfold svd_core.
  destruct (run_bidiagonal checked eps eps_ok A S0 T0 HA) as (b & E & SB0 & SB1 & TB0 & TB1 & AN & HB). rewrite E. cbn [rbind].
  destruct (run_right checked eps eps_ok (hU b) (hT b) V0 (hg b) HB TB0 TB1) as (V & EV & V00 & V01 & V10 & V11). rewrite EV. cbn [rbind].
  destruct (run_left checked eps eps_ok (hS b) (hU b) HB SB0 SB1) as (U & EU & HU). rewrite EU. cbn [rbind].
  destruct (Z.to_nat maxiter) as [|m] eqn:EM; [lia|]. cbn [iter_down]. unfold diag_step. rewrite EM, AN. cbn [qr_loop].
  destruct (run_pass1 U (hS b) V (hT b) HU SB0 SB1 TB0 TB1) as (U1 & S1 & T1 & E1 & Q0 & Q1 & R0 & H1). rewrite E1. cbn [rbind].
  destruct (run_pass0 U1 S1 V T1 Q0 R0 V00 V01 V10 V11) as (V2 & S2 & E2 & Q2 & Q3 & W). rewrite E2. cbn [rbind].
  eexists _, _. split; [reflexivity|]. cbn [sS sV sU]. split; [intros k Hk; destruct k as [|[|]]; [reflexivity|reflexivity|lia]|].
  split; [exact Q2|]. split; [congruence|]. destruct W as (W1 & W2 & W3 & W4). auto 6.
Qed.
End RunDiag.
