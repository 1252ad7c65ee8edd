(** Concrete runs of the singular value routines. *)
From Coq Require Import Reals List ZArith Bool Arith Lia Lra Psatz.
From Verif Require Import Outcome LinModel LinSpec SumProofs LmaSpec VelIkLin VelIkModel VelIkSpec SvdModel SvdSpec SvdHouse SvdBidiag SvdAccum SvdNorm SvdQr SvdDiag SvdFinal SvdEps.
Import ListNotations.
Local Open Scope R_scope.

Definition mat22 (a b c d : R) : mat := fun i j => match i, j with O, O => a | O, S O => b | S O, O => c | S O, S O => d | _, _ => 0 end.
Lemma from02 f : from 0 2 f = f O + f 1%nat. Proof. cbn [from Nat.leb]. ring. Qed.
Lemma from12 f : from 1 2 f = f 1%nat. Proof. cbn [from Nat.leb]. ring. Qed.

(** The 2 x 2 matrix with rows (2, 1) and (0, 1) *)
Definition skew : mat := mat22 2 1 0 1.
Section Skew.
Variables (checked : bool) (eps : R).
Hypothesis eps_ok : 0 <= eps < 1.

Lemma sgn_pos a b : 0 <= b -> sign a b = Rabs a. Proof. intros. unfold sign. destruct (Rle_dec 0 b); [reflexivity|lra]. Qed.
Lemma sgn_neg a b : b < 0 -> sign a b = - Rabs a. Proof. intros. unfold sign. destruct (Rle_dec 0 b); [lra|reflexivity]. Qed.

Lemma skew_col0 U : U 0%nat 0%nat = 2 -> U 1%nat 0%nat = 0 -> U 0%nat 1%nat = 1 -> U 1%nat 1%nat = 1 ->
  exists U', hh_col checked eps 2 2 0 U = Go (U', 2, -1) /\ U' 0%nat 1%nat = -1 /\ U' 1%nat 1%nat = 1.
Proof.
  intros E00 E10 E01 E11. unfold hh_col. change (Nat.ltb 0 2) with true. cbv iota.
  rewrite (from02 (fun k => Rabs (U k 0%nat))), E00, E10, Rabs_R0, (Rabs_right 2) by lra.
  replace (2 + 0) with 2 by ring. cbv zeta. rewrite (Rabs_right 2) by lra. destruct (Rlt_dec eps 2) as [_|]; [|lra].
  unfold bare_divisor at 1. destruct (Req_EM_T 2 0); [lra|]. cbn [rbind]. rewrite !from02. cbn [Nat.eqb andb within Nat.leb Nat.ltb].
  rewrite E00, E10. replace (2 / 2 * (2 / 2) + 0 / 2 * (0 / 2)) with 1 by field. replace (2 / 2) with 1 by field.
  unfold radicand. destruct (Rle_dec 0 1); [|lra]. cbn [rbind]. rewrite sqrt_1, (sgn_pos 1 1), Rabs_R1 by lra.
  change (0 + 1 <? 2)%nat with true. cbv iota.
  rewrite (divisor_ok checked (-4) (1 * - (1) - 1)) by lra. cbn [rbind].
  eexists. split; [reflexivity|]. cbn [Nat.add within Nat.leb Nat.ltb Nat.eqb andb]. rewrite !from02. unfold eset. cbn [Nat.eqb andb Nat.leb]. cbv iota. rewrite ?E00, ?E10, ?E01, ?E11. split; field; lra.
Qed.
Lemma skew_row0 U tmp : U 0%nat 1%nat = -1 -> U 1%nat 1%nat = 1 ->
  exists U' tmp', hh_row checked eps 2 2 0 U tmp = Go (U', tmp', 1, 1) /\ U' 1%nat 1%nat = -1 /\ tmp' 0%nat = tmp 0%nat.
Proof.
  intros E01 E11. unfold hh_row. change (Nat.ltb 0 2 && negb (Nat.eqb (0 + 1) 2)) with true. cbv iota zeta. cbn [Nat.add].
  rewrite (from12 (fun k => Rabs (U 0%nat k))), E01. replace (Rabs (-1)) with 1 by (rewrite Rabs_left; lra). rewrite Rabs_R1. destruct (Rlt_dec eps 1) as [_|]; [|lra].
  unfold bare_divisor at 1. destruct (Req_EM_T 1 0); [lra|]. cbn [rbind]. rewrite !from12. cbn [Nat.eqb andb within Nat.leb Nat.ltb].
  rewrite E01. replace (-1 / 1 * (-1 / 1)) with 1 by field. replace (-1 / 1) with (-1) by field.
  unfold radicand. destruct (Rle_dec 0 1); [|lra]. cbn [rbind]. rewrite sqrt_1, (sgn_neg 1 (-1)), Rabs_R1 by lra.
  rewrite Ropp_involutive. rewrite (divisor_ok checked (-6) (-1 * 1 - 1)) by lra. cbn [rbind].
  eexists _, _. split; [reflexivity|]. cbn [Nat.add within Nat.leb Nat.ltb Nat.eqb andb]. rewrite !from12. unfold eset. cbn [Nat.eqb andb Nat.leb]. cbv iota. rewrite ?E01, ?E11. split; [field; lra|reflexivity].
Qed.
Lemma skew_col1 U : U 1%nat 1%nat = -1 -> exists U', hh_col checked eps 2 2 1 U = Go (U', 1, 1).
Proof.
  intros E11. unfold hh_col. change (Nat.ltb 1 2) with true. cbv iota.
  rewrite (from12 (fun k => Rabs (U k 1%nat))), E11. replace (Rabs (-1)) with 1 by (rewrite Rabs_left; lra). cbv zeta. rewrite Rabs_R1. destruct (Rlt_dec eps 1) as [_|]; [|lra].
  unfold bare_divisor at 1. destruct (Req_EM_T 1 0); [lra|]. cbn [rbind]. rewrite !from12. cbn [Nat.eqb andb within Nat.leb Nat.ltb].
  rewrite E11. replace (-1 / 1 * (-1 / 1)) with 1 by field. replace (-1 / 1) with (-1) by field.
  unfold radicand. destruct (Rle_dec 0 1); [|lra]. cbn [rbind]. rewrite sqrt_1, (sgn_neg 1 (-1)), Rabs_R1 by lra. rewrite Ropp_involutive.
  change (1 + 1 <? 2)%nat with false. cbv iota. cbn [rbind]. eexists. reflexivity.
Qed.
Lemma skew_row1 U tmp : hh_row checked eps 2 2 1 U tmp = Go (U, tmp, 0, 0).
Proof. reflexivity. Qed.
Lemma skew_bidiagonal S0 T0 : exists b, iter 2 0 (hh_step checked eps 2 2) (hh_start 2 2 skew S0 T0) = Go b /\
  hS b 0%nat = -2 /\ hS b 1%nat = 1 /\ hT b 0%nat = 0 /\ hT b 1%nat = 1 /\ hanorm b = 1.
Proof.
  cbn [iter]. unfold hh_step at 1. unfold hh_start. cbn [hU hS hT hscale hg hanorm].
  destruct (skew_col0 (fun a b => if (a <? 2)%nat && (b <? 2)%nat then skew a b else 0) eq_refl eq_refl eq_refl eq_refl) as (U1 & E1 & A1 & B1).
  rewrite E1. cbn [rbind].
  destruct (skew_row0 U1 (vset T0 0 (0 * 0)) A1 B1) as (U2 & t2 & E2 & A2 & B2). rewrite E2. cbn [rbind].
  unfold hh_step. cbn [hU hS hT hscale hg hanorm].
  destruct (skew_col1 U2 A2) as (U3 & E3). rewrite E3. cbn [rbind]. rewrite skew_row1. cbn [rbind].
  eexists. split; [reflexivity|]. cbn [hS hT hanorm]. unfold vset. cbn [Nat.eqb]. rewrite B2. cbn [Nat.eqb vset].
  split; [ring|]. split; [ring|]. split; [unfold vset; cbn [Nat.eqb]; ring|]. split; [ring|].
  assert (Q : as_bool (Rabs (1 * 1) + Rabs (1 * 1)) = true).
  { unfold as_bool. destruct (Req_EM_T (Rabs (1 * 1) + Rabs (1 * 1)) 0) as [Z|_]; [|reflexivity]. rewrite Rmult_1_r, Rabs_R1 in Z. lra. }
  unfold anorm_next at 1. rewrite Q. match goal with |- context[as_bool (anorm_next ?x ?y)] => destruct (as_bool (anorm_next x y)) end; reflexivity.
Qed.
End Skew.

Section SkewDiag.
Variables (rnd : R -> R) (checked : bool) (eps : R).
Hypothesis eps_ok : 0 <= eps < 1.
Hypothesis r0 : rnd 0 = 0.
Hypothesis r1 : rnd 1 = 1.
Hypothesis r2 : rnd 2 = 2.
Hypothesis rm1 : rnd (-1) = -1.

Lemma skew_pass1 U S V T : S 0%nat = -2 -> S 1%nat = 1 -> T 0%nat = 0 -> T 1%nat = 1 ->
  exists U' S' T', qr_pass rnd checked eps 2 2 1 1 (mkSV U S V T) = Go (mkSV U' S' V T', true) /\ S' 0%nat = -2 /\ S' 1%nat = sqrt 2 /\ T' 0%nat = 0 /\ T' 1%nat = 0.
Proof.
  intros S0 S1 T0 T1. unfold qr_pass. cbn [sS sT sU sV].
  assert (A1 : absorbed rnd 1 1 = false).
  { unfold absorbed. rewrite Rabs_R1. replace (1 + 1) with 2 by ring. rewrite r2. destruct (Req_EM_T 2 1); [lra|reflexivity]. }
  assert (A2 : absorbed_inside rnd 1 (-2) = true).
  { unfold absorbed_inside. replace (-2 + 1) with (-1) by ring. rewrite rm1. rewrite Rabs_left by lra. destruct (Req_EM_T (- -1) 1); [reflexivity|lra]. }
  cbn [split_at]. rewrite T1, A1, S0, A2. cbn [rbind Nat.sub Nat.add cancel]. rewrite T1, Rmult_1_r, A1, S1.
  assert (EP : pythag 1 1 = sqrt 2). { rewrite pythag_sqrt. f_equal. ring. }
  rewrite EP. assert (P2 : 0 < sqrt 2) by (apply sqrt_lt_R0; lra). rewrite divisor_ok by lra. cbn [rbind Nat.eqb].
  unfold vset at 1. cbn [Nat.eqb]. destruct (Rlt_dec (sqrt 2) 0); [lra|].
  eexists _, _, _. split; [reflexivity|]. unfold vset. cbn [Nat.eqb]. repeat split; try assumption. ring.
Qed.
Lemma skew_pass0 U S V T : S 0%nat = -2 -> T 0%nat = 0 ->
  exists V' S', qr_pass rnd checked eps 2 2 1 0 (mkSV U S V T) = Go (mkSV U S' V' T, true) /\ S' 0%nat = 2 /\ S' 1%nat = S 1%nat.
Proof.
  intros S0 T0. unfold qr_pass. cbn [sS sT sU sV split_at].
  assert (A1 : absorbed rnd 1 0 = true).
  { unfold absorbed. rewrite Rabs_R0, Rplus_0_l, r1. destruct (Req_EM_T 1 1); [reflexivity|lra]. }
  rewrite T0, A1. cbn [rbind Nat.eqb]. rewrite S0. destruct (Rlt_dec (-2) 0); [|lra].
  eexists _, _. split; [reflexivity|]. unfold vset. cbn [Nat.eqb]. split; [ring|reflexivity].
Qed.
Lemma skew_core maxiter S0 V0 T0 : (1 <= maxiter)%Z ->
  exists d used, svd_core rnd checked eps 2 2 maxiter skew S0 V0 T0 = Go (d, 1%Z, used) /\ (forall k, (k < 2)%nat -> used k = 1%Z) /\
    sS d 0%nat = 2 /\ sS d 1%nat = sqrt 2.
Proof.
  intros Hm. unfold svd_core.
  destruct (skew_bidiagonal checked eps eps_ok S0 T0) as (b & E & SB0 & SB1 & TB0 & TB1 & AN). rewrite E. cbn [rbind].
  destruct (bidiag_ok 2 2 checked eps (proj1 eps_ok) skew S0 T0) as (b' & E' & _ & _ & HB). rewrite E in E'. injection E' as <-.
  destruct HB as [Z|(T & HT & _ & HST & HH)]; [discriminate|].
  destruct (right_ok 2 2 checked eps (proj1 eps_ok) (hU b) (hS b) T HST (hT b) V0 (hg b) HT) as (V & g & EV & HV). rewrite EV. cbn [rbind].
  destruct (Req_dec eps 0) as [Ez|Nz].
  - destruct (HV Ez) as (Ws & W).
    destruct (left_ok 2 2 checked eps (proj1 eps_ok) (hU b) (hS b) T HST skew V Ws HH (fun _ => W)) as (U & EU & _). rewrite EU. cbn [rbind].
    destruct (Z.to_nat maxiter) as [|m] eqn:EM; [lia|]. cbn [iter_down]. unfold diag_step. rewrite EM, AN. cbn [qr_loop].
    destruct (skew_pass1 U (hS b) V (hT b) SB0 SB1 TB0 TB1) as (U1 & S1 & T1 & E1 & Q0 & Q1 & R0 & _). rewrite E1. cbn [rbind].
    destruct (skew_pass0 U1 S1 V T1 Q0 R0) as (V2 & S2 & E2 & Q2 & Q3). rewrite E2. cbn [rbind].
    eexists _, _. split; [reflexivity|]. cbn [sS]. split; [intros k Hk; destruct k as [|[|]]; [reflexivity|reflexivity|lia]|]. split; [exact Q2|congruence].
  - destruct (left_ok 2 2 checked eps (proj1 eps_ok) (hU b) (hS b) T HST skew V (fun _ => V) HH (fun e => match Nz e with end)) as (U & EU & _). rewrite EU. cbn [rbind].
    destruct (Z.to_nat maxiter) as [|m] eqn:EM; [lia|]. cbn [iter_down]. unfold diag_step. rewrite EM, AN. cbn [qr_loop].
    destruct (skew_pass1 U (hS b) V (hT b) SB0 SB1 TB0 TB1) as (U1 & S1 & T1 & E1 & Q0 & Q1 & R0 & _). rewrite E1. cbn [rbind].
    destruct (skew_pass0 U1 S1 V T1 Q0 R0) as (V2 & S2 & E2 & Q2 & Q3). rewrite E2. cbn [rbind].
    eexists _, _. split; [reflexivity|]. cbn [sS]. split; [intros k Hk; destruct k as [|[|]]; [reflexivity|reflexivity|lia]|]. split; [exact Q2|congruence].
Qed.
End SkewDiag.

(** |A x|^2 <= S0^2 |x|^2 for a decomposition with largest value S0 *)
Lemma svd_norm2 A U S V : svd_within 0 2 2 A U S V -> S 0%nat = 2 -> Rabs (S 1%nat) <= 2 ->
  forall x y, (A 0%nat 0%nat * x + A 0%nat 1%nat * y) * (A 0%nat 0%nat * x + A 0%nat 1%nat * y) + (A 1%nat 0%nat * x + A 1%nat 1%nat * y) * (A 1%nat 0%nat * x + A 1%nat 1%nat * y) <= 4 * (x * x + y * y).
Proof.
  intros (W1 & W2 & W3) H0 H1 x y.
  assert (EA : forall a b, (a < 2)%nat -> (b < 2)%nat -> A a b = U a 0%nat * 2 * V b 0%nat + U a 1%nat * S 1%nat * V b 1%nat).
  { intros a b Ha Hb. pose proof (entry_le 2 2 _ 0 a b Ha Hb (Rle_refl 0) W1) as E. cbv beta in E.
    assert (A a b - product 2 U S V a b = 0). { pose proof (Rle_abs (A a b - product 2 U S V a b)). pose proof (Rle_abs (- (A a b - product 2 U S V a b))). rewrite Rabs_Ropp in *. lra. }
    unfold product in *. cbn [sumn] in *. rewrite H0 in *. lra. }
  pose proof (W2 0%nat 0%nat ltac:(lia) ltac:(lia)) as V00. pose proof (W2 0%nat 1%nat ltac:(lia) ltac:(lia)) as V01. pose proof (W2 1%nat 1%nat ltac:(lia) ltac:(lia)) as V11.
  cbn [sumn delta Nat.eqb] in V00, V01, V11.
  pose proof (W3 0%nat 0%nat ltac:(lia) ltac:(lia)) as U00. pose proof (W3 0%nat 1%nat ltac:(lia) ltac:(lia)) as U01. pose proof (W3 1%nat 1%nat ltac:(lia) ltac:(lia)) as U11.
  rewrite H0, (Rabs_right 2) in U00, U01 by lra.
  assert (Z : forall c w, 0 <= c -> c * Rabs w <= 0 -> c = 0 \/ w = 0).
  { intros c w Hc L. destruct (Req_dec c 0) as [->|N]; [left; reflexivity|right]. destruct (Req_dec w 0) as [->|Nw]; [reflexivity|]. apply Rabs_pos_lt in Nw. nra. }
  apply Z in U00; [|lra]. apply Z in U01; [|lra]. apply Z in U11; [|apply Rabs_pos].
  destruct U00 as [|U00]; [lra|]. destruct U01 as [|U01]; [lra|]. cbn [sumn delta Nat.eqb] in U00, U01, U11.
  rewrite !EA by lia. set (s := S 1%nat) in *.
  set (p := V 0%nat 0%nat * x + V 1%nat 0%nat * y). set (q := V 0%nat 1%nat * x + V 1%nat 1%nat * y).
  assert (PQ : p * p + q * q <= x * x + y * y).
  { set (v00 := V 0%nat 0%nat) in *. set (v10 := V 1%nat 0%nat) in *. set (v01 := V 0%nat 1%nat) in *. set (v11 := V 1%nat 1%nat) in *.
    assert (RE : x * x + y * y - (p * p + q * q) = (x - (v00 * p + v01 * q)) * (x - (v00 * p + v01 * q)) + (y - (v10 * p + v11 * q)) * (y - (v10 * p + v11 * q))
       + p * p * (1 - (v00 * v00 + v10 * v10)) + q * q * (1 - (v01 * v01 + v11 * v11)) - 2 * p * q * (v00 * v01 + v10 * v11)) by (unfold p, q; ring).
    assert (v00 * v00 + v10 * v10 = 1) by lra. assert (v01 * v01 + v11 * v11 = 1) by lra. assert (v00 * v01 + v10 * v11 = 0) by lra.
    rewrite H, H2, H3 in RE. pose proof (Rle_0_sqr (x - (v00 * p + v01 * q))) as Q1. pose proof (Rle_0_sqr (y - (v10 * p + v11 * q))) as Q2. unfold Rsqr in Q1, Q2. lra. }
  set (u00 := U 0%nat 0%nat) in *. set (u10 := U 1%nat 0%nat) in *. set (u01 := U 0%nat 1%nat) in *. set (u11 := U 1%nat 1%nat) in *.
  replace ((u00 * 2 * V 0%nat 0%nat + u01 * s * V 0%nat 1%nat) * x + (u00 * 2 * V 1%nat 0%nat + u01 * s * V 1%nat 1%nat) * y) with (2 * u00 * p + s * u01 * q) by (unfold p, q; ring).
  replace ((u10 * 2 * V 0%nat 0%nat + u11 * s * V 0%nat 1%nat) * x + (u10 * 2 * V 1%nat 0%nat + u11 * s * V 1%nat 1%nat) * y) with (2 * u10 * p + s * u11 * q) by (unfold p, q; ring).
  replace ((2 * u00 * p + s * u01 * q) * (2 * u00 * p + s * u01 * q) + (2 * u10 * p + s * u11 * q) * (2 * u10 * p + s * u11 * q))
    with (4 * (u00 * u00 + u10 * u10) * (p * p) + 4 * s * (u00 * u01 + u10 * u11) * (p * q) + (s * s) * (u01 * u01 + u11 * u11) * (q * q)) by ring.
  assert (E1 : u00 * u00 + u10 * u10 = 1) by lra. assert (E2 : u00 * u01 + u10 * u11 = 0) by lra. rewrite E1, E2.
  assert (E3 : s * s * (u01 * u01 + u11 * u11) <= 4).
  { assert (SS : s * s <= 4). { replace (s * s) with (Rabs s * Rabs s) by (unfold Rabs; destruct (Rcase_abs s); ring). pose proof (Rabs_pos s). nra. }
    destruct U11 as [Z1|U11].
    - assert (s = 0). { destruct (Req_dec s 0) as [|N]; [assumption|]. apply Rabs_no_R0 in N. contradiction. } rewrite H. lra.
    - assert (E4 : u01 * u01 + u11 * u11 = 1) by lra. rewrite E4. lra. }
  pose proof (Rle_0_sqr p) as Q1. pose proof (Rle_0_sqr q) as Q2. unfold Rsqr in Q1, Q2. nra.
Qed.

Lemma skew_wrong rnd rows S0 V0 T0 maxiter eps : rows = 2%nat -> keeps_units rnd -> rnd 2 = 2 -> rnd (-1) = -1 -> 0 <= eps < 1 -> (2 <= maxiter)%Z ->
  exists d used, svd_eigen_HH rnd rows 2 skew S0 V0 T0 maxiter eps = Go (0%Z, d, used) /\ converged 2 maxiter used /\
    sS d 0%nat = 2 /\ sS d 1%nat = sqrt 2 /\ ~ svd_within 0 2 2 skew (sU d) (sS d) (sV d).
Proof.
  intros -> (r0 & r1) r2 rm1 He Hm. unfold svd_eigen_HH.
  destruct (skew_core rnd true eps He r1 r2 rm1 maxiter S0 V0 T0 ltac:(lia)) as (d & used & E & HU & D0 & D1). rewrite E. cbn [rbind].
  assert (SQ : 0 < sqrt 2 < 2).
  { split; [apply sqrt_lt_R0; lra|]. rewrite <- (sqrt_square 2) at 2 by lra. apply sqrt_lt_1; lra. }
  assert (M0 : index_max (sS d) 1 1 0 = 0%nat). { cbn [index_max]. destruct (Rlt_dec (sS d 0%nat) (sS d 1%nat)); [lra|reflexivity]. }
  assert (ES : sS (sort_from 2 2 0 d) 0%nat = 2 /\ sS (sort_from 2 2 0 d) 1%nat = sqrt 2).
  { cbn [sort_from]. unfold sort_step. cbn [sS sU sV sT Nat.sub Nat.add]. rewrite M0. cbn [index_max]. unfold swapped. cbn [Nat.eqb]. split; assumption. }
  destruct ES as [ES0 ES1].
  exists (sort_from 2 2 0 d), used. split.
  { unfold svd_code. destruct (Z.eqb_spec 1 maxiter); [lia|reflexivity]. }
  split. { intros k Hk. rewrite (HU k Hk). lia. }
  split; [exact ES0|]. split; [exact ES1|]. intros W.
  assert (B : Rabs (sS (sort_from 2 2 0 d) 1%nat) <= 2) by (rewrite ES1, Rabs_right; lra).
  pose proof (svd_norm2 skew _ _ _ W ES0 B 2 1) as C. unfold skew, mat22 in C. lra.
Qed.

(** The 2 x 2 matrix with rows (0, 1/2) and (1, 0): every column converges at once. *)
Definition turned : mat := mat22 0 (1/2) 1 0.
Section Turned.
Variables (checked : bool) (eps : R).
Hypothesis eps_ok : 0 <= eps < 1/2.
Lemma turned_col0 U : U 0%nat 0%nat = 0 -> U 1%nat 0%nat = 1 -> U 0%nat 1%nat = 1/2 -> U 1%nat 1%nat = 0 ->
  exists U', hh_col checked eps 2 2 0 U = Go (U', 1, -1) /\ U' 0%nat 1%nat = 0 /\ U' 1%nat 1%nat = -(1/2).
Proof.
  intros E00 E10 E01 E11. unfold hh_col. change (Nat.ltb 0 2) with true. cbv iota.
  rewrite (from02 (fun k => Rabs (U k 0%nat))), E00, E10, Rabs_R0, Rabs_R1.
  replace (0 + 1) with 1 by ring. cbv zeta. rewrite Rabs_R1. destruct (Rlt_dec eps 1) as [_|]; [|lra].
  unfold bare_divisor at 1. destruct (Req_EM_T 1 0); [lra|]. cbn [rbind]. rewrite !from02. cbn [Nat.eqb andb within Nat.leb Nat.ltb].
  rewrite E00, E10. replace (0 / 1 * (0 / 1) + 1 / 1 * (1 / 1)) with 1 by field. replace (0 / 1) with 0 by field.
  unfold radicand. destruct (Rle_dec 0 1); [|lra]. cbn [rbind]. rewrite sqrt_1, (sgn_pos 1 0), Rabs_R1 by lra.
  change (0 + 1 <? 2)%nat with true. cbv iota.
  rewrite (divisor_ok checked (-4) (0 * - (1) - 1)) by lra. cbn [rbind].
  eexists. split; [reflexivity|]. cbn [Nat.add within Nat.leb Nat.ltb Nat.eqb andb]. rewrite !from02. unfold eset. cbn [Nat.eqb andb Nat.leb]. cbv iota. rewrite ?E00, ?E10, ?E01, ?E11. split; field; lra.
Qed.
Lemma turned_row0 U tmp : U 0%nat 1%nat = 0 -> hh_row checked eps 2 2 0 U tmp = Go (U, tmp, 0, 0).
Proof.
  intros E01. unfold hh_row. change (Nat.ltb 0 2 && negb (Nat.eqb (0 + 1) 2)) with true. cbv iota zeta. cbn [Nat.add].
  rewrite (from12 (fun k => Rabs (U 0%nat k))), E01, Rabs_R0. rewrite Rabs_R0. destruct (Rlt_dec eps 0) as [|_]; [lra|reflexivity].
Qed.
Lemma turned_bidiagonal S0 T0 : exists b, iter 2 0 (hh_step checked eps 2 2) (hh_start 2 2 turned S0 T0) = Go b /\ hT b 0%nat = 0 /\ hT b 1%nat = 0.
Proof.
  cbn [iter]. unfold hh_step at 1. unfold hh_start. cbn [hU hS hT hscale hg hanorm].
  destruct (turned_col0 (fun a b => if (a <? 2)%nat && (b <? 2)%nat then turned a b else 0) eq_refl eq_refl eq_refl eq_refl) as (U1 & E1 & A1 & B1).
  rewrite E1. cbn [rbind]. rewrite (turned_row0 U1 _ A1). cbn [rbind].
  unfold hh_step. cbn [hU hS hT hscale hg hanorm].
  destruct (hh_col_ok checked eps 2 2 ltac:(lra) 1 U1 ltac:(lia)) as (U3 & sc & g & E3 & _). rewrite E3. cbn [rbind]. rewrite skew_row1. cbn [rbind].
  eexists. split; [reflexivity|]. cbn [hT]. unfold vset. cbn [Nat.eqb]. split; ring.
Qed.
End Turned.
Lemma turned_converges rnd S0 V0 T0 maxiter : keeps_units rnd -> (1 <= maxiter)%Z ->
  exists rc d used, svd_eigen_HH rnd 2 2 turned S0 V0 T0 maxiter 0 = Go (rc, d, used) /\ converged 2 maxiter used.
Proof.
  intros HU Hm. unfold svd_eigen_HH, svd_core.
  destruct (turned_bidiagonal true 0 ltac:(lra) S0 T0) as (b & E & TB0 & TB1). rewrite E. cbn [rbind].
  destruct (bidiag_ok 2 2 true 0 (Rle_refl 0) turned S0 T0) as (b' & E' & AN & _ & HB). rewrite E in E'. injection E' as <-.
  destruct HB as [Z|(T & HT & _ & HST & HH)]; [discriminate|].
  destruct (right_ok 2 2 true 0 (Rle_refl 0) (hU b) (hS b) T HST (hT b) V0 (hg b) HT) as (V & g & EV & HV). rewrite EV. cbn [rbind].
  destruct (HV eq_refl) as (Ws & W).
  destruct (left_ok 2 2 true 0 (Rle_refl 0) (hU b) (hS b) T HST turned V Ws HH (fun _ => W)) as (U & EU & _). rewrite EU. cbn [rbind].
  destruct (Z.to_nat maxiter) as [|m] eqn:EM; [lia|].
  assert (K : forall k st, sT st k = 0 -> exists st', qr_pass rnd true 0 2 2 (hanorm b) k st = Go (st', true) /\ sT st' = sT st).
  { intros k st Z. unfold qr_pass. assert (Q : split_at rnd (hanorm b) (sS st) (sT st) k = Go (k, false)) by (destruct k; cbn [split_at]; rewrite Z, absorbed_zero by assumption; reflexivity).
    rewrite Q. cbn [rbind]. rewrite Nat.eqb_refl. destruct (Rlt_dec (sS st k) 0); eexists; split; reflexivity. }
  cbn [iter_down]. unfold diag_step. rewrite EM. cbn [qr_loop].
  destruct (K 1%nat (mkSV U (hS b) V (hT b)) TB1) as (s1 & E1 & Q1). rewrite E1. cbn [rbind].
  destruct (K 0%nat s1 ltac:(rewrite Q1; exact TB0)) as (s2 & E2 & Q2). rewrite E2. cbn [rbind].
  eexists _, _, _. split; [reflexivity|]. intros k Hk. destruct k as [|[|]]; [cbn; lia|cbn; lia|lia].
Qed.
Lemma reported_refuted : ~ (forall rnd rows cols A S0 V0 T0 maxiter eps, keeps_units rnd -> 0 <= eps ->
  exists rc d used, svd_eigen_HH rnd rows cols A S0 V0 T0 maxiter eps = Go (rc, d, used) /\ (~ converged cols maxiter used -> (rc < 0)%Z)).
Proof.
  intros H. assert (U : keeps_units (fun x => x)) by (split; reflexivity).
  destruct (H (fun x => x) 2%nat 2%nat skew (fun _ => 0) (fun _ _ => 0) (fun _ => 0) 0%Z 0 U (Rle_refl 0)) as (rc & d & used & E & C).
  destruct (eigen_none (fun x => x) 2 2 skew (fun _ => 0) (fun _ _ => 0) (fun _ => 0) 0%Z 0 U (Rle_refl 0) ltac:(lia) ltac:(lia)) as (d' & used' & E' & N).
  rewrite E in E'. injection E' as -> -> ->. assert (0 < 0)%Z; [apply C; intros Q; specialize (Q O ltac:(lia)); specialize (N O ltac:(lia)); lia|lia].
Qed.
Lemma spurious_refuted : ~ (forall rnd rows cols A S0 V0 T0 maxiter eps, keeps_units rnd -> 0 <= eps ->
  exists rc d used, svd_eigen_HH rnd rows cols A S0 V0 T0 maxiter eps = Go (rc, d, used) /\ (converged cols maxiter used -> rc = 0%Z)).
Proof.
  intros H. assert (U : keeps_units (fun x => x)) by (split; reflexivity).
  destruct (H (fun x => x) 2%nat 1%nat skew (fun _ => 0) (fun _ _ => 0) (fun _ => 0) 1%Z 0 U (Rle_refl 0)) as (rc & d & used & E & C).
  destruct (eigen_one (fun x => x) 2 skew (fun _ => 0) (fun _ _ => 0) (fun _ => 0) 0 U (Rle_refl 0)) as (d' & used' & E' & N).
  rewrite E in E'. injection E' as -> -> ->. specialize (C N). discriminate.
Qed.
Lemma skew_size : size2 2 2 skew = 6. Proof. unfold size2, skew, mat22. cbn [sumn]. ring. Qed.
(** The hypotheses of the accuracy theorem can be met: double precision, thirty iterations, a matrix that converges. *)
Lemma turned_nonvacuous : size2 2 2 turned <= (3/2) * (3/2) /\ (forall tol, 0 <= tol <= /1000 -> 3/2 + bound 2 30 tol + tol < 2) /\
  forall S0 V0 T0, exists rc d used, svd_eigen_HH (fun x => x) 2 2 turned S0 V0 T0 30 0 = Go (rc, d, used) /\ converged 2 30 used.
Proof.
  split; [unfold size2, turned, mat22; cbn [sumn]; lra|]. split.
  - intros tol H. unfold bound. replace (INR (Z.to_nat 30)) with 30 by (rewrite INR_IZR_INZ; reflexivity). replace (INR 2) with 2 by reflexivity. lra.
  - intros. apply turned_converges; [split; reflexivity|lia].
Qed.
