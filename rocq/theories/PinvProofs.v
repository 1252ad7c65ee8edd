(** Accuracy of ChainIkSolverVel_pinv together with SVD_HH. *)
From Coq Require Import Reals List ZArith Lra Lia Bool Arith Psatz.
From Flocq Require Import Core.
From Verif Require Import FramesModel Outcome InertiaModel DualModel KinModel KinSpec TreeModel LinModel LinSpec SumProofs IkModel LmaModel LmaSpec LmaProofs LmaProofs2
  SvdModel SvdSpec SvdNorm SvdHouse SvdBidiag SvdAccum SvdDiag SvdFinal SvdLast SvdRound VelIkModel VelIkSpec VelIkLin VelIkProofs VelIkWitness GivensModel GivensSpec GivensLin GivensFactor NearSvd PinvModel PinvSpec.
Import ListNotations.
Local Open Scope list_scope.
Local Open Scope R_scope.

(** ** The answer is the truncated pseudo-inverse of the decomposition *)
Lemma pinv_answer svd c s q v qdot : chain_ok c -> pinv_clean s -> 0 < pv_eps s -> pv_nj s = ch_nj c -> length q = ch_nj c -> length qdot = ch_nj c ->
  let d := svd (pv_maxiter s) (mkM 6 (ch_nj c) (tip_jacobian c q)) in dc_rc d = 0%Z ->
  exists s', pinv_CartToJnt svd c s q v qdot = Ret (singular_code (pv_eps s) d (ch_nj c), pinv_sol 6 (ch_nj c) (pv_eps s) d (t_at v), s').
Proof.
  intros Hok [CL LJ0] He F Q Q2 d Z0. unfold pinv_CartToJnt.
  rewrite F, Nat.eqb_refl, Q, Q2, Nat.eqb_refl. cbn [negb orb].
  rewrite CL, F, jac_now by (auto; lia). cbn [obind]. change (E_NOERROR <? 0)%Z with false. cbn match.
  pose proof (jacobian_at_length c q Hok ltac:(lia)) as LJ.
  assert (EJ : jac_mat (jacobian_at c (-1) q) = mkM 6 (ch_nj c) (tip_jacobian c q)) by (unfold jac_mat; rewrite LJ; reflexivity).
  rewrite EJ, LJ. fold d. rewrite Z0. cbn [Z.eqb negb].
  rewrite (entries_map _ (fun i => inv_factor (pv_eps s) d i * coef 6 (t_at v) (dc_U d) i))
    by (intros; apply pinv_tmp_factor; exact He).
  cbn [obind]. rewrite map_sol. fold (sol 6 (ch_nj c) (t_at v) (dc_U d) (dc_V d) (inv_factor (pv_eps s) d)).
  fold (pinv_sol 6 (ch_nj c) (pv_eps s) d (t_at v)). fold (singular_code (pv_eps s) d (ch_nj c)).
  eexists. reflexivity.
Qed.
Lemma large_sum eps d n : sumn n (fun i => if Rlt_dec (Rabs (dc_S d i)) eps then 0 else 1) = INR (length (large_values n eps d)).
Proof.
  unfold large_values. induction n as [|n IH]; [reflexivity|]. rewrite seq_S, filter_app, app_length, plus_INR, <- IH. cbn [sumn filter Nat.add].
  destruct (Rlt_dec (Rabs (dc_S d n)) eps); cbn [length INR]; reflexivity.
Qed.
Lemma pinv_sol_near m n eps d b j : (j < n)%nat -> nth j (pinv_sol m n eps d b) 0 = near_sol m n (dc_U d) (dc_S d) (dc_V d) eps b j.
Proof. intros Hj. unfold pinv_sol, sol. unfold vlist. rewrite nth_map_seq by exact Hj. reflexivity. Qed.

Lemma near_pinv m n A d err eps b : 0 < eps -> 0 <= err -> svd_within err m n A (dc_U d) (dc_S d) (dc_V d) -> (m <= length (large_values n eps d))%nat ->
  let del := err / eps * (INR n + 1 + INR n * (err / eps)) in
  misfit m n A b (pinv_sol m n eps d b) <= del * del * sumn m (fun r => b r * b r) /\
  forall y, length y = n -> (forall r, (r < m)%nat -> image n A y r = b r) -> norm2 n (pinv_sol m n eps d b) <= (1 + del) * (1 + del) * norm2 n y.
Proof.
  intros He Hr W L del.
  assert (M : INR m <= sumn n (fun i => if Rlt_dec (Rabs (dc_S d i)) eps then 0 else 1)) by (rewrite large_sum; apply le_INR; exact L).
  split.
  - pose proof (near_residual m n A (dc_U d) (dc_S d) (dc_V d) err eps He Hr W M b) as Q. fold del in Q. unfold misfit.
    eapply Rle_trans; [|exact Q]. right. unfold sq. apply sumn_ext. intros r Hr0.
    assert (E : image n A (pinv_sol m n eps d b) r = mv n A (near_sol m n (dc_U d) (dc_S d) (dc_V d) eps b) r).
    { unfold image, mv. apply sumn_ext. intros j Hj. rewrite pinv_sol_near by exact Hj. reflexivity. }
    rewrite E. reflexivity.
  - intros y Ly Hy. pose proof (near_short m n A (dc_U d) (dc_S d) (dc_V d) err eps He Hr W M b (fun j => nth j y 0) Hy) as Q. fold del in Q.
    eapply Rle_trans; [|exact Q]. right. unfold norm2, sq. apply sumn_ext. intros j Hj. rewrite pinv_sol_near by exact Hj. reflexivity.
Qed.

(** ** The whole solver *)
Lemma bound_nn n k tol : 0 <= tol -> 0 <= bound n k tol.
Proof. intros. unfold bound. pose proof (pos_INR n). pose proof (pos_INR (Z.to_nat k)). repeat apply Rmult_le_pos; lra. Qed.
Lemma pinv_accurate rnd tol S0 V0 T0 c s q v qdot :
  keeps_units rnd -> rounds_within rnd tol ->
  chain_ok c -> pinv_clean s -> 0 < pv_eps s -> (6 <= ch_nj c)%nat -> (Z.of_nat (ch_nj c) < 2 ^ 32)%Z ->
  pv_nj s = ch_nj c -> length q = ch_nj c -> length qdot = ch_nj c ->
  let n := ch_nj c in
  let J := tip_jacobian c q in
  let e := pinv_error n (pv_maxiter s) tol (pv_eps s) in
  let svd r := svd_HH_calculate r 6 n J S0 V0 T0 (pv_maxiter s) in
  exists rc d used code out s', svd rnd = Go (rc, d, used) /\
    pinv_CartToJnt (svd_HH_routine rnd S0 V0 T0) c s q v qdot = Ret (code, out, s') /\
    (code = E_SVD_FAILED <-> pv_maxiter s = 1%Z) /\
    (code = E_NOERROR -> svd (guarded rnd) = svd rnd -> converged n (pv_maxiter s) used ->
      misfit 6 n J (t_at v) out <= e * e * sumn 6 (fun r => t_at v r * t_at v r) /\
      forall y, length y = n -> (forall r, (r < 6)%nat -> image n J y r = t_at v r) ->
        norm2 n out <= (1 + e) * (1 + e) * norm2 n y).
Proof.
  intros HU HR Hok HC He H6 H32 F Q Q2 n J e svd.
  destruct (hh_codes rnd 6 n J S0 V0 T0 (pv_maxiter s) HU) as (rc & d & used & E & CC & C1 & _). fold (svd rnd) in E.
  destruct (hh_unless rnd tol 6 n J S0 V0 T0 (pv_maxiter s) HU HR) as (rc' & d' & used' & E' & W). fold (svd rnd) in E', W. fold (svd (guarded rnd)) in W.
  rewrite E in E'. injection E' as <- <- <-. specialize (C1 ltac:(lia)).
  set (D := svd_HH_routine rnd S0 V0 T0 (pv_maxiter s) (mkM 6 n J)).
  assert (ED : D = mkD rc (sU d) (sS d) (sV d)) by (unfold D, svd_HH_routine; cbn [mrows mcols mentry]; fold (svd rnd); rewrite E; reflexivity).
  destruct CC as [-> | ->].
  - assert (Z0 : dc_rc D = 0%Z) by (rewrite ED; reflexivity).
    destruct (pinv_answer (svd_HH_routine rnd S0 V0 T0) c s q v qdot Hok HC He F Q Q2 Z0) as (s' & EA).
    eexists _, d, used, _, _, s'. split; [exact E|]. split; [exact EA|]. fold n. fold J. fold D. split.
    { split; [|intros X; apply C1 in X; discriminate]. intros X. destruct (singular_code_cases (pv_eps s) D n) as [Y|Y]; rewrite Y in X; discriminate. }
    intros NE G CV. destruct (W G CV) as (W1 & _).
    assert (L : (6 <= length (large_values n (pv_eps s) D))%nat).
    { destruct (le_lt_dec 6 (length (large_values n (pv_eps s) D))) as [|X]; [assumption|exfalso].
      pose proof (singular_code_meaning (pv_eps s) D n H32) as (M1 & _). pose proof (proj2 M1 (conj H6 X)) as Y. rewrite Y in NE. discriminate. }
    apply (near_pinv 6 n J D (bound n (pv_maxiter s) tol) (pv_eps s) (t_at v) He).
    + apply bound_nn. apply HR.
    + rewrite ED. exact W1.
    + exact L.
  - pose proof (pinv_call (svd_HH_routine rnd S0 V0 T0) c s q v qdot Hok HC He H32) as (code & out & s' & EA & _ & _ & _ & _ & _ & P).
    cbv zeta in P. destruct P as (_ & _ & P). destruct (P F (conj Q Q2)) as (_ & P1 & _).
    fold n in P1. fold J in P1. fold D in P1. rewrite ED in P1. cbn [dc_rc] in P1. destruct (P1 ltac:(lia)) as (Ec & _ & _).
    exists (-2)%Z, d, used, code, out, s'. split; [exact E|]. split; [exact EA|]. split; [split; [intros _; apply C1; reflexivity|auto]|]. intros X. rewrite X in Ec. discriminate.
Qed.

(** Round to nearest double, the solver's default parameters and at most ten joints. *)
Lemma bpow53 : bpow radix2 (-53) <= 112 / 10^18.
Proof. unfold bpow. cbn [Z.pow_pos Pos.iter radix_val radix2]. apply Rmult_le_reg_l with (IZR (Z.pow_pos 2 53)); [apply IZR_lt; reflexivity|]. rewrite Rinv_r; [|apply IZR_neq; discriminate]. cbn. lra. Qed.
Lemma error_mono n k t1 t2 e : 0 < e -> 0 <= t1 <= t2 -> 0 <= pinv_error n k t1 e <= pinv_error n k t2 e.
Proof.
  intros He [T1 T2]. unfold pinv_error. pose proof (pos_INR n) as N. pose proof (pos_INR (Z.to_nat k)) as K.
  assert (B : 0 <= bound n k t1 / e <= bound n k t2 / e).
  { unfold bound. set (z := (3 * INR (Z.to_nat k) + 1) * INR n). assert (0 <= z) by (unfold z; apply Rmult_le_pos; lra). assert (0 < / e) by (apply Rinv_0_lt_compat; exact He).
    unfold Rdiv. split; [repeat apply Rmult_le_pos; lra|]. apply Rmult_le_compat_r; [lra|]. apply Rmult_le_compat_l; lra. }
  set (x := bound n k t1 / e) in *. set (y := bound n k t2 / e) in *. cbv zeta.
  assert (0 <= INR n * x <= INR n * y) by (split; [apply Rmult_le_pos|apply Rmult_le_compat_l]; lra).
  split; [apply Rmult_le_pos; lra|apply Rmult_le_compat; lra].
Qed.
Lemma error_double n : (n <= 10)%nat -> 0 <= pinv_error n 150 (bpow radix2 (-53)) (1 / 100000) <= / 10^6.
Proof.
  intros Hn. pose proof bpow53 as B. pose proof (bpow_ge_0 radix2 (-53)) as B0.
  destruct (error_mono n 150 _ _ (1/100000) ltac:(lra) (conj B0 B)) as (P0 & P). split; [exact P0|]. eapply Rle_trans; [exact P|].
  apply le_INR in Hn. replace (INR 10) with 10 in Hn by (cbn; lra). pose proof (pos_INR n) as N.
  unfold pinv_error, bound. replace (INR (Z.to_nat 150)) with 150 by (rewrite INR_IZR_INZ; cbn; reflexivity).
  set (x := (3 * 150 + 1) * INR n * (112 / 10 ^ 18) / (1 / 100000)). cbv zeta.
  assert (X : x = INR n * (451 * 112 / 10 ^ 13)) by (unfold x; field). 
  assert (0 <= x <= 6 / 10^8) by (rewrite X; cbn [pow]; lra).
  assert (INR n * x <= 10 * x) by (apply Rmult_le_compat_r; lra).
  eapply Rle_trans; [apply Rmult_le_compat_l; [lra|apply Rplus_le_compat; [apply Rplus_le_compat_r; exact Hn|exact H0]]|].
  assert (10 * x <= 1) by (cbn [pow] in H; lra). eapply Rle_trans; [apply Rmult_le_compat_l; [lra|apply Rplus_le_compat_l; exact H1]|]. cbn [pow] in *. lra.
Qed.
