(** Lengths and unit vectors in rounded arithmetic. *)
From Coq Require Import Reals Bool Lia Lra Psatz.
From Verif Require Import FramesModel FramesSpec FramesProofs RotationProofs RotationProofs3 PathProofs5 FlModel FlSpec FlProofs FlJoint FlWitness FlRotSpec FlRotProofs FlQuatModel FlQuatProofs FlQuatFinal FlNormModel FlNormSpec.
Local Open Scope R_scope.

Section E.
Variables (eps : R) (rnd : R -> R).
Hypothesis (He : 0 <= eps <= / 50000) (Hp : precise eps rnd).
Lemma ke : kdl_epsilon = / 1000000. Proof. unfold kdl_epsilon. lra. Qed.
Lemma precise_rounds : rounds eps rnd.
Proof. intros x. eapply Rle_trans; [apply Hp|]. apply Rmult_le_compat_l; [lra|]. rewrite ke. lra. Qed.
Lemma e0 : 0 <= eps. Proof. lra. Qed.
Lemma z0 : 0 <= 0. Proof. lra. Qed.
Lemma ez : eps + 0 <= eps. Proof. lra. Qed.
Lemma es : eps <= / 2000. Proof. lra. Qed.
Notation up := (rnd_up eps 0 eps rnd e0 z0 ez es precise_rounds).

Lemma ratio_ok a b : a <> 0 -> Rabs b <= Rabs a -> exists p, fl_div rnd b a = Some p /\ Rabs (p - b / a) <= 3 * eps /\ Rabs (b / a) <= 1.
Proof.
  intros Ha Hb. assert (R1 : Rabs (b / a) <= 1). { unfold Rdiv. rewrite Rabs_mult, Rabs_inv. apply Rmult_le_reg_r with (Rabs a); [apply Rabs_pos_lt; exact Ha|]. rewrite Rmult_assoc, Rinv_l by (apply Rabs_no_R0; exact Ha). lra. }
  unfold fl_div. destruct (Req_EM_T a 0) as [Z|_]; [contradiction|]. eexists; split; [reflexivity|]. split; [|exact R1].
  eapply Rle_trans; [apply (up 0 1 (b / a) (b / a)); [rewrite Rminus_diag_eq, Rabs_R0; [lra|reflexivity]|exact R1|lra]|lra].
Qed.
Lemma sq_ok p r : Rabs (p - r) <= 3 * eps -> Rabs r <= 1 -> Rabs (rnd (p * p) - r * r) <= 9 * eps /\ 0 <= r * r <= 1.
Proof.
  intros H B. apply ab in B. assert (S : 0 <= r * r <= 1) by nra. split; [|exact S].
  eapply Rle_trans; [apply (up (61/10) 1 (p * p) (r * r)); [|rewrite Rabs_right; lra|lra]|lra].
  replace (p * p - r * r) with ((p - r) * (2 * r + (p - r))) by ring. rewrite Rabs_mult.
  assert (Rabs (2 * r + (p - r)) <= 2 + 3 * eps) by (eapply Rle_trans; [apply Rabs_triang|]; apply Rplus_le_compat; [apply b2; lra|exact H]).
  assert (Rabs (p - r) * Rabs (2 * r + (p - r)) <= 3 * eps * (2 + 3 * eps)) by (apply Rmult_le_compat; auto using Rabs_pos). nra.
Qed.
Lemma scaled_ok a b c : a <> 0 -> Rabs b <= Rabs a -> Rabs c <= Rabs a ->
  let n := sqrt (a * a + b * b + c * c) in exists n', fl_scaled rnd a b c = Some n' /\ Rabs (n' - n) <= 20 * eps * n + eps * kdl_epsilon.
Proof.
  intros Ha Hb Hc n. unfold fl_scaled. destruct (ratio_ok a b Ha Hb) as (p & Ep & Kp & Bp). destruct (ratio_ok a c Ha Hc) as (q & Eq & Kq & Bq). rewrite Ep, Eq. cbn [bind].
  destruct (sq_ok _ _ Kp Bp) as [Sp Pp]. destruct (sq_ok _ _ Kq Bq) as [Sq Pq]. set (r := b / a) in *. set (t := c / a) in *.
  assert (S1 : Rabs (rnd (1 + rnd (p * p)) - (1 + r * r)) <= 13 * eps).
  { eapply Rle_trans; [apply (up 9 2 (1 + rnd (p * p)) (1 + r * r)); [|rewrite Rabs_right; lra|lra]|lra]. replace (1 + rnd (p * p) - (1 + r * r)) with (rnd (p * p) - r * r) by ring. exact Sp. }
  assert (S2 : Rabs (rnd (rnd (1 + rnd (p * p)) + rnd (q * q)) - (1 + r * r + t * t)) <= 27 * eps).
  { eapply Rle_trans; [apply (up 22 3 (rnd (1 + rnd (p * p)) + rnd (q * q)) (1 + r * r + t * t)); [|rewrite Rabs_right; lra|lra]|lra].
    replace (rnd (1 + rnd (p * p)) + rnd (q * q) - (1 + r * r + t * t)) with ((rnd (1 + rnd (p * p)) - (1 + r * r)) + (rnd (q * q) - t * t)) by ring. eapply Rle_trans; [apply Rabs_triang|]. lra. }
  set (S' := rnd (rnd (1 + rnd (p * p)) + rnd (q * q))) in *. set (S := 1 + r * r + t * t) in *. apply ab in S2 as S3.
  unfold fl_sqrt. destruct (Rlt_dec S' 0) as [L|_]; [unfold S in *; lra|]. cbn [bind]. eexists; split; [reflexivity|].
  assert (V0 := sqrt_sqrt S' ltac:(unfold S in *; lra)). assert (W0 := sqrt_sqrt S ltac:(unfold S; lra)). assert (V1 := sqrt_pos S'). assert (W1 := sqrt_pos S). set (v := sqrt S') in *. set (w := sqrt S) in *.
  assert (Wb : 1 <= w <= 174/100) by (unfold S in W0; split; nra).
  assert (Vb : 99/100 <= v) by (apply Rnot_lt_le; intros V; assert (v * v < 9801/10000) by nra; unfold S in *; lra).
  assert (K : Rabs (v - w) <= 14 * eps).
  { assert (E : (v - w) * (v + w) = S' - S) by nra. rewrite <- E, Rabs_mult, (Rabs_right (v + w)) in S2 by lra.
    assert (Rabs (v - w) * (199/100) <= Rabs (v - w) * (v + w)) by (apply Rmult_le_compat_l; [apply Rabs_pos|lra]). lra. }
  assert (K2 : Rabs (rnd v - w) <= 17 * eps) by (eapply Rle_trans; [apply (up 14 (174/100) v w K); [rewrite Rabs_right; lra|lra]|lra]).
  assert (A0 : 0 < Rabs a) by (apply Rabs_pos_lt; exact Ha).
  assert (En : n = Rabs a * w).
  { unfold n. replace (a * a + b * b + c * c) with (a * a * S) by (unfold S, r, t; field; exact Ha). rewrite sqrt_mult by (try apply Rle_0_sqr; unfold S; nra). fold w. f_equal. apply sqrt_Rsqr_abs. }
  assert (Nn : Rabs a <= n) by (rewrite En; nra).
  assert (M : Rabs (Rabs a * rnd v - n) <= 17 * eps * n).
  { rewrite En at 1. replace (Rabs a * rnd v - Rabs a * w) with (Rabs a * (rnd v - w)) by ring. rewrite Rabs_mult, Rabs_Rabsolu.
    assert (Rabs a * Rabs (rnd v - w) <= n * (17 * eps)) by (apply Rmult_le_compat; try apply Rabs_pos; lra). lra. }
  pose proof (Hp (Rabs a * rnd v)) as R. apply ab in M as M2.
  assert (Rabs (Rabs a * rnd v) <= n * 2) by (apply b2; nra).
  assert (eps * (Rabs (Rabs a * rnd v) + kdl_epsilon) <= eps * (n * 2 + kdl_epsilon)) by (apply Rmult_le_compat_l; lra).
  replace (rnd (Rabs a * rnd v) - n) with ((rnd (Rabs a * rnd v) - Rabs a * rnd v) + (Rabs a * rnd v - n)) by ring. eapply Rle_trans; [apply Rabs_triang|]. nra.
Qed.

Lemma thr : Rabs (rnd kdl_epsilon - kdl_epsilon) <= kdl_epsilon / 1000.
Proof. eapply Rle_trans; [apply Hp|]. rewrite ke. rewrite Rabs_right; lra. Qed.
Lemma en_perm a b c d : a ^ 2 + b ^ 2 + c ^ 2 = d -> sqrt (a * a + b * b + c * c) = sqrt d. Proof. intros <-. f_equal. ring. Qed.
Lemma norm_any v : (fl_norm rnd v = Some 0 /\ Rabs (vx v) < rnd kdl_epsilon /\ Rabs (vy v) <= Rabs (vx v) /\ Rabs (vz v) <= Rabs (vx v)) \/
  exists n', fl_norm rnd v = Some n' /\ Rabs (n' - euclid_norm v) <= 20 * eps * euclid_norm v + eps * kdl_epsilon.
Proof.
  pose proof (ab _ _ thr) as T. let K := fresh "KE" in pose proof ke as K. destruct v as [x y z]. unfold fl_norm, fl_norm_eps, euclid_norm; cbn [vx vy vz].
  assert (NZ : forall a b, Rabs b < Rabs a -> a <> 0) by (intros a b H ->; rewrite Rabs_R0 in H; pose proof (Rabs_pos b); lra).
  destruct (Rle_dec (Rabs y) (Rabs x)) as [L1|L1].
  - destruct (Rle_dec (Rabs z) (Rabs x)) as [L2|L2].
    + destruct (Rlt_dec (Rabs x) (rnd kdl_epsilon)) as [L3|L3]; [left; auto|right].
      rewrite <- (en_perm x y z) by ring. apply scaled_ok; auto. intros ->. rewrite Rabs_R0 in L3. lra.
    + right. rewrite <- (en_perm z x y) by ring. apply scaled_ok; [apply (NZ z x); lra|lra|lra].
  - destruct (Rlt_dec (Rabs z) (Rabs y)) as [L2|L2]; right.
    + rewrite <- (en_perm y x z) by ring. apply scaled_ok; [apply (NZ y z); lra|lra|lra].
    + rewrite <- (en_perm z x y) by ring. apply scaled_ok; [apply (NZ z x); lra|lra|lra].
Qed.
Lemma en2 v : euclid_norm v * euclid_norm v = vx v ^ 2 + vy v ^ 2 + vz v ^ 2 /\ 0 <= euclid_norm v.
Proof. unfold euclid_norm. split; [apply sqrt_sqrt|apply sqrt_pos]. pose proof (pow2_ge_0 (vx v)). pose proof (pow2_ge_0 (vy v)). pose proof (pow2_ge_0 (vz v)). lra. Qed.
Lemma norm_ok v : 2 * kdl_epsilon <= euclid_norm v -> exists n', fl_norm rnd v = Some n' /\ Rabs (n' - euclid_norm v) <= 21 * eps * euclid_norm v.
Proof.
  intros H. destruct (norm_any v) as [(E & Lx & Ly & Lz)|(n' & E & K)].
  - exfalso. pose proof (ab _ _ thr) as T. destruct (en2 v) as [S P]. let K := fresh "KE" in pose proof ke as K.
    assert (Q : forall b m, Rabs b <= m -> b ^ 2 <= m ^ 2) by (intros b m B; pose proof (Rabs_pos b); rewrite <- (pow2_abs b); apply pow_incr; lra).
    pose proof (Q (vx v) (Rabs (vx v)) ltac:(lra)). pose proof (Q (vy v) (Rabs (vx v)) Ly). pose proof (Q (vz v) (Rabs (vx v)) Lz). pose proof (Rabs_pos (vx v)). set (m := Rabs (vx v)) in *.
    assert (m ^ 2 <= (1001/1000 * / 1000000) ^ 2) by (apply pow_incr; lra).
    assert (2 * / 1000000 * (2 * / 1000000) <= euclid_norm v * euclid_norm v) by (apply Rmult_le_compat; lra). lra.
  - exists n'. split; [exact E|]. destruct (en2 v) as [_ P]. assert (eps * kdl_epsilon <= eps * euclid_norm v) by (apply Rmult_le_compat_l; let K := fresh "KE" in pose proof ke as K; lra). lra.
Qed.
Lemma comp_le v : Rabs (vx v) <= euclid_norm v /\ Rabs (vy v) <= euclid_norm v /\ Rabs (vz v) <= euclid_norm v.
Proof.
  destruct (en2 v) as [S P]. pose proof (pow2_ge_0 (vx v)). pose proof (pow2_ge_0 (vy v)). pose proof (pow2_ge_0 (vz v)).
  repeat split; apply sq_abs; lra || nra.
Qed.
Lemma div_ok d n n' : 0 < n -> Rabs d <= n -> Rabs (n' - n) <= 21 * eps * n -> exists q, fl_div rnd d n' = Some q /\ Rabs (q - d / n) <= 25 * eps.
Proof.
  intros Hn Hd H. apply ab in H as H2. assert (E21 : 21 * eps <= / 2000) by lra. assert (N : 999/1000 * n <= n') by nra.
  unfold fl_div. destruct (Req_EM_T n' 0) as [Z|_]; [lra|]. eexists; split; [reflexivity|].
  assert (B : Rabs (d / n) <= 1). { unfold Rdiv. rewrite Rabs_mult, Rabs_inv, (Rabs_right n) by lra. apply Rmult_le_reg_r with n; [exact Hn|]. rewrite Rmult_assoc, Rinv_l by lra. lra. }
  eapply Rle_trans; [apply (up (2202/100) 1 (d / n') (d / n)); [|exact B|lra]|lra].
  replace (d / n' - d / n) with (d / n * ((n - n') / n')) by (field; lra). rewrite Rabs_mult.
  assert (Q : Rabs ((n - n') / n') <= 2202/100 * eps).
  { unfold Rdiv. rewrite Rabs_mult, Rabs_inv, (Rabs_right n') by lra. rewrite Rabs_minus_sym. apply Rmult_le_reg_r with n'; [lra|]. rewrite Rmult_assoc, Rinv_l by lra.
    assert (2202/100 * eps * (999/1000 * n) <= 2202/100 * eps * n') by (apply Rmult_le_compat_l; lra). assert (0 <= eps * n) by (apply Rmult_le_pos; lra). lra. }
  assert (Rabs (d / n) * Rabs ((n - n') / n') <= 1 * (2202/100 * eps)) by (apply Rmult_le_compat; auto using Rabs_pos). lra.
Qed.
Lemma vdiv_ok v n' : 0 < euclid_norm v -> Rabs (n' - euclid_norm v) <= 21 * eps * euclid_norm v ->
  exists u, fl_v_div rnd v n' = Some u /\ v_near (25 * eps) u (v_div v (euclid_norm v)).
Proof.
  intros P H. destruct (comp_le v) as (X & Y & Z). unfold fl_v_div.
  destruct (div_ok _ _ _ P X H) as (x & Ex & Kx). destruct (div_ok _ _ _ P Y H) as (y & Ey & Ky). destruct (div_ok _ _ _ P Z H) as (z & Ez & Kz).
  rewrite Ex, Ey, Ez. cbn [bind]. eexists; split; [reflexivity|]. unfold v_div; repeat split; cbn [vx vy vz]; assumption.
Qed.
Lemma joint_axis_ok v : 2 * kdl_epsilon <= euclid_norm v -> exists u, fl_joint_axis rnd v = Some u /\ v_near (25 * eps) u (v_div v (euclid_norm v)).
Proof.
  intros H. destruct (norm_ok v H) as (n' & E & K). unfold fl_joint_axis. rewrite E. cbn [bind]. apply vdiv_ok; [let K := fresh "KE" in pose proof ke as K; lra|exact K].
Qed.
Lemma normalize_ok v : 2 * kdl_epsilon <= euclid_norm v ->
  exists u n', fl_normalize rnd v = Some (u, n') /\ v_near (25 * eps) u (v_div v (euclid_norm v)) /\ Rabs (n' - euclid_norm v) <= 21 * eps * euclid_norm v.
Proof.
  intros H. destruct (norm_ok v H) as (n' & E & K). unfold fl_normalize. rewrite E. cbn [bind]. pose proof (ab _ _ thr) as T. apply ab in K as K2. let K := fresh "KE" in pose proof ke as K.
  assert (E21 : 21 * eps <= / 2000) by lra. destruct (Rlt_dec _ _) as [L|_]; [exfalso; nra|].
  destruct (vdiv_ok v n' ltac:(lra) K) as (u & Eu & Ku). rewrite Eu. cbn [bind]. exists u, n'. auto.
Qed.
Lemma normalize_short v : euclid_norm v <= kdl_epsilon / 2 -> fl_normalize rnd v = Some (mkV 1 0 0, 0).
Proof.
  intros H. pose proof (ab _ _ thr) as T. unfold fl_normalize. destruct (en2 v) as [_ P]. let K := fresh "KE" in pose proof ke as K. destruct (norm_any v) as [(E & _)|(n' & E & K)]; rewrite E; cbn [bind].
  - destruct (Rlt_dec _ _) as [_|N]; [reflexivity|exfalso; let K := fresh "KE" in pose proof ke as K; lra].
  - apply ab in K. let K := fresh "KE" in pose proof ke as K. destruct (Rlt_dec _ _) as [_|N]; [reflexivity|exfalso; nra].
Qed.
Lemma exact_normalize v : 2 * kdl_epsilon <= euclid_norm v -> v_normalize v = (v_div v (euclid_norm v), euclid_norm v).
Proof. intros H. unfold v_normalize, v_normalize_eps. rewrite (v_norm_large v H). destruct (Rlt_dec _ _) as [L|_]; [let K := fresh "KE" in pose proof ke as K; lra|reflexivity]. Qed.
Lemma exact_short v : euclid_norm v <= kdl_epsilon / 2 -> v_normalize v = (mkV 1 0 0, 0).
Proof. intros H. unfold v_normalize, v_normalize_eps. destruct (v_norm_0_or v) as [-> | ->]; (destruct (Rlt_dec _ _) as [_|N]; [reflexivity|let K := fresh "KE" in pose proof ke as K; lra]). Qed.
Lemma unit_div v : 0 < euclid_norm v -> unit_vector (v_div v (euclid_norm v)).
Proof. intros P. destruct (en2 v) as [S _]. unfold unit_vector, v_div; cbn [vx vy vz]. replace _ with ((vx v ^ 2 + vy v ^ 2 + vz v ^ 2) / (euclid_norm v * euclid_norm v)) by (field; lra). rewrite <- S. field. lra. Qed.

(** the rotation about any axis that is not borderline *)
Lemma normalize_stored v a : clear_axis v -> exists u n, fl_normalize rnd v = Some (u, n) /\ prog_stored (25 * eps) (PRot2 u a) (PRot2 (fst (v_normalize v)) a).
Proof.
  intros [H|H].
  - destruct (normalize_ok v H) as (u & n & E & K & _). exists u, n. split; [exact E|]. rewrite (exact_normalize v H). apply ps_axis; [apply unit_div; let K := fresh "KE" in pose proof ke as K; lra|exact K].
  - exists (mkV 1 0 0), 0. split; [apply normalize_short; exact H|]. rewrite (exact_short v H). apply ps_axis; [unfold unit_vector; cbn; ring|].
    repeat split; cbn [vx vy vz fst]; rewrite Rminus_diag_eq, Rabs_R0; lra || reflexivity.
Qed.
End E.
