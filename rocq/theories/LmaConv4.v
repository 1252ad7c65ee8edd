(** ChainIkSolverPos_LMA converges near a position where the Jacobian has full row rank. *)
From Coq Require Import Reals String List ZArith Bool Arith Lia Lra Psatz.
From Verif Require Import FramesModel FramesSpec FramesProofs FrameOpsProofs Outcome InertiaModel DualModel KinModel KinSpec DerivProofs KinProofs JacProofs JacDotProofs JntModel
  LinModel LinSpec SumProofs LmaModel LmaSpec LmaProofs LmaProofs2 IkModel IkSpec IkProofs IkGeoProofs VelIkModel VelIkSpec VelIkWitness GivensSpec RotNear LipProofs TaylorProofs
  NewtonSpec NewtonProofs NewtonLoop NewtonPinv NewtonThms LmaConv1 LmaConv2 LmaConv3.
Import ListNotations.
Local Open Scope R_scope.

Section Loop.
Variable svd : list Twist -> Svd.
Variables (c : Chain) (s : lma) (g : Frame) (q0 : list R).
Hypothesis OK : chain_ok c.
Hypothesis NJ : la_nj s = ch_nj c.
Hypothesis Hg : rigid g.
Hypothesis Hq0 : length q0 = ch_nj c.
Let E q := weighted_error (la_L s) c g q.
Let WE q := weigh (la_L s) (pose_error c g q).
Let WJ q := weighted_jacobian (la_L s) c q.
Let err q := perr g (tip c q) + rerr g (tip c q).
Variables eta A th ka C M mm e1 Lp : R.
Hypothesis HA : 0 < A.
Hypothesis Th : 0 <= th < 1.
Hypothesis Ka : 0 < ka < 1.
Hypothesis HM : 0 < M.
Hypothesis Hmm : 0 < mm.
Hypothesis He1 : e1 <= eta.
Hypothesis HLp : 0 <= Lp.
Hypothesis Err : forall q, length q = ch_nj c -> d1 q q0 <= e1 -> err q <= eta.
Hypothesis SV : forall q, length q = ch_nj c -> d1 q q0 <= e1 -> is_svd (ch_nj c) (WJ q) (svd (WJ q)).
Hypothesis NEAR : forall q, length q = ch_nj c -> d1 q q0 <= eta -> err q <= eta ->
    C * kdl_epsilon <= E q -> forall lambda d, 0 < lambda <= 10 -> length d = ch_nj c ->
       (forall m, (m < ch_nj c)%nat -> t_dot6 (nth m (WJ q) t_zero) (jac_mul (WJ q) d) + lambda * nth m d 0 = t_dot6 (nth m (WJ q) t_zero) (WE q)) ->
       s1 d <= A * E q /\
       (t_dot6 (jac_mul (WJ q) d) (jac_mul (WJ q) d) + 2 * lambda * sumn (ch_nj c) (fun m => nth m d 0 * nth m d 0)) / 2 <= E q * E q - E (line q d 1) * E (line q d 1) /\
       E (line q d 1) <= ka * E q /\ (1 - th) * E q <= M * s1 d /\
       mm * (E q * E q) <= sumn (ch_nj c) (fun m => t_dot6 (nth m (WJ q) t_zero) (WE q) * t_dot6 (nth m (WJ q) t_zero) (WE q)).
Hypothesis HC : C * kdl_epsilon <= la_eps s.
Hypothesis EJ : 0 < la_epsj s.
Hypothesis EJ1 : la_epsj s * (M * (INR (ch_nj c) + 1)) <= (1 - th) * la_eps s.
Hypothesis EJ2 : la_epsj s * la_epsj s <= mm * (la_eps s * la_eps s).
Hypothesis EP : 0 < la_eps s.

Definition close_by (q : list R) : Prop := length q = ch_nj c /\ d1 q q0 + A / (1 - ka) * E q <= e1.

Lemma loop_converges : forall m n i q lambda v roots tips, (m <= n)%nat -> close_by q -> 0 < lambda <= 10 -> la_eps s <= E q -> ka ^ m * E q < la_eps s ->
  length roots = ch_nj c -> length tips = ch_nj c ->
  exists r, lma_loop svd n i c s g q (WE q) (E q) lambda v (WJ q) roots tips = Ret r /\ le_code r = E_NOERROR /\ close_by (le_q r) /\ E (le_q r) < la_eps s /\
    (le_iter r < i + m)%nat.
Proof.
  assert (LWJ : forall q, length q = ch_nj c -> length (WJ q) = ch_nj c).
  { intros q Hq. unfold WJ, weighted_jacobian. rewrite map_length. apply jacobian_at_length; assumption. }
  induction m as [|m IH]; intros n i q lambda v roots tips Hmn Hc Hl He Hm HR HT.
  { cbn [pow] in Hm. lra. }
  destruct n as [|n]; [lia|]. cbn [lma_loop]. destruct Hc as (Hq & Hd).
  assert (EN : 0 <= E q) by apply weighted_error_pos.
  assert (HAk : 0 < A / (1 - ka)) by (apply Rdiv_lt_0_compat; lra).
  assert (Dq : d1 q q0 <= e1) by (assert (0 <= A / (1 - ka) * E q) by (apply Rmult_le_pos; lra); lra).
  destruct (step_normal svd (ch_nj c) (WJ q) (WE q) lambda (LWJ q Hq) (SV q Hq Dq) (proj1 Hl)) as (d & ES & LD & ND).
  destruct (NEAR q Hq ltac:(lra) (Err q Hq Dq) ltac:(lra) lambda d Hl LD ND) as (N1 & N2 & N3 & N4 & N5).
  rewrite NJ, ES. cbn [obind].
  pose proof (s1_max d) as SM. rewrite LD in SM. pose proof (pos_INR (ch_nj c)) as Nn.
  assert (MN : la_epsj s <= max_norm d).
  { apply Rnot_lt_le. intros X.
    assert (M0 : 0 <= max_norm d). { clear. induction d as [|x d IH]; [cbn; lra|]. change (max_norm (x :: d)) with (Rmax (Rabs x) (max_norm d)). eapply Rle_trans; [apply Rabs_pos|apply Rmax_l]. }
    assert (P1 : M * s1 d <= M * (INR (ch_nj c) * max_norm d)) by (apply Rmult_le_compat_l; lra).
    assert (P2 : M * (INR (ch_nj c) * max_norm d) <= M * ((INR (ch_nj c) + 1) * max_norm d)).
    { apply Rmult_le_compat_l; [lra|]. apply Rmult_le_compat_r; lra. }
    assert (P3 : M * (INR (ch_nj c) + 1) * max_norm d < M * (INR (ch_nj c) + 1) * la_epsj s) by (apply Rmult_lt_compat_l; [apply Rmult_lt_0_compat; lra|exact X]).
    assert (P4 : (1 - th) * la_eps s <= (1 - th) * E q) by (apply Rmult_le_compat_l; lra). lra. }
  destruct (Rlt_dec (max_norm d) (la_epsj s)) as [X|_]; [lra|].
  destruct (Rlt_dec (vdot _ _) _) as [SG|_].
  { exfalso. rewrite grad_sum, (LWJ q Hq) in SG. assert (la_eps s * la_eps s <= E q * E q) by (apply Rmult_le_compat; lra).
    assert (mm * (la_eps s * la_eps s) <= mm * (E q * E q)) by (apply Rmult_le_compat_l; lra). lra. }
  rewrite vplus_line by lia. set (q2 := line q d 1) in *.
  assert (Hq2 : length q2 = ch_nj c) by (unfold q2; rewrite line_length by lia; exact Hq).
  destruct (lma_fwd c q2 roots tips (proj1 OK) Hq2 HR HT) as (r2 & t2 & F2 & LR2 & LT2 & FP). rewrite F2. cbn [obind].
  change (f_diff (tip_frame c q2 (length (ch_segs c))) g 1) with (pose_error c g q2).
  rewrite weigh_norm. fold (E q2). fold (WE q2).
  rewrite (normal_gain (ch_nj c) (WJ q) (WE q) lambda (LWJ q Hq) d LD ND).
  assert (GP : 0 < t_dot6 (jac_mul (WJ q) d) (jac_mul (WJ q) d) + 2 * lambda * sumn (ch_nj c) (fun m => nth m d 0 * nth m d 0))
    by (apply gain_pos; [apply Hl|exact LD|lra]).
  set (gn := t_dot6 (jac_mul (WJ q) d) (jac_mul (WJ q) d) + 2 * lambda * sumn (ch_nj c) (fun m => nth m d 0 * nth m d 0)) in *.
  unfold rdiv. destruct (Req_EM_T gn 0) as [Z|_]; [lra|]. cbn [obind].
  set (rho := (E q * E q - E q2 * E q2) / gn).
  assert (RHO : / 2 <= rho).
  { unfold rho. apply Rmult_le_reg_r with gn; [exact GP|]. unfold Rdiv. rewrite Rmult_assoc, Rinv_l by lra. lra. }
  destruct (Rgt_dec rho 0) as [_|X]; [|lra].
  assert (CB : close_by q2).
  { split; [exact Hq2|]. assert (DM : d1 q2 q = s1 d) by (unfold q2; rewrite line_d1, Rabs_R1 by lia; ring).
    pose proof (d1_tri q2 q q0 ltac:(lia) ltac:(lia)) as DT. rewrite DM in DT.
    assert (A / (1 - ka) * E q2 <= A / (1 - ka) * (ka * E q)) by (apply Rmult_le_compat_l; lra).
    assert (A * E q + A / (1 - ka) * (ka * E q) = A / (1 - ka) * E q) by (field; lra). lra. }
  destruct (Rlt_dec (E q2) (la_eps s)) as [Cv|Cv].
  - eexists. split; [reflexivity|]. cbn [le_code le_q le_iter]. split; [reflexivity|]. split; [exact CB|]. split; [exact Cv|lia].
  - rewrite (lma_jac c q2 r2 t2 (WJ q) OK Hq2 (LWJ q Hq) FP). cbn [obind].
    change (map (weigh (la_L s)) (jacobian_at c (-1) q2)) with (WJ q2).
    set (t := 2 * rho - 1). assert (T0 : 0 <= t) by (unfold t; lra).
    assert (T3 : 0 <= t * t * t) by (apply Rmult_le_pos; [apply Rmult_le_pos|]; exact T0).
    assert (MX : 1 / 3 <= Rmax (1 / 3) (1 - t * t * t) <= 1) by (split; [apply Rmax_l|apply Rmax_lub; lra]).
    destruct (IH n (S i) q2 (lambda * Rmax (1 / 3) (1 - t * t * t)) 2 r2 t2) as (r & ER & R1 & R2 & R3 & R4); auto.
    + lia.
    + set (mx := Rmax (1 / 3) (1 - t * t * t)) in *. destruct Hl. split; [apply Rmult_lt_0_compat; lra|].
      assert (lambda * mx <= lambda * 1) by (apply Rmult_le_compat_l; lra). lra.
    + lra.
    + cbn [pow] in Hm. assert (0 < ka ^ m) by (apply pow_lt; lra). assert (ka ^ m * E q2 <= ka ^ m * (ka * E q)) by (apply Rmult_le_compat_l; lra). lra.
    + exists r. split; [exact ER|]. split; [exact R1|]. split; [exact R2|]. split; [exact R3|lia].
Qed.
End Loop.

Lemma lma_converges : forall svd c q0 rho low L,
  chain_ok c -> length q0 = ch_nj c -> 0 < rho -> 0 < low -> stretches (ch_nj c) 6 low (transposed (tip_jacobian c q0)) ->
  (forall i, (i < 6)%nat -> t_at L i <> 0) ->
  (forall q, joints_within rho q q0 -> is_svd (ch_nj c) (weighted_jacobian L c q) (svd (weighted_jacobian L c q))) ->
  exists delta C kappa theta, 0 < delta /\ 0 < C /\ 0 < kappa /\ 0 < theta < 1 /\ forall s m q g qo,
    la_L s = L -> lma_sized c s -> C * kdl_epsilon <= la_eps s -> 0 < la_epsj s <= kappa * la_eps s ->
    theta ^ m <= la_eps s -> (m <= la_maxiter s)%nat -> length qo = ch_nj c ->
    joints_within delta q q0 -> rigid g -> f_close (tip c q0) g delta ->
    exists q' s', lma_CartToJnt svd c s q g qo = Ret (E_NOERROR, q', s') /\ joints_within rho q' q0 /\ weighted_error L c g q' < la_eps s /\ (la_iter s' <= m)%nat.
Proof.
  intros svd c q0 rho low L Hok Hq0 Hrho Hlow ST HL SV.
  destruct (lma_near L c q0 low Hok Hq0 Hlow ST HL) as (eta & A & th & ka & C & M & mm & wh & (He & He60) & HA & Th & Ka & HC & HM & Hmm & Hwh & NEAR).
  destruct (pose_lip c q0 Hok Hq0) as (Lp & HLp & PL).
  set (n := INR (ch_nj c)). assert (Hn : 0 <= n) by apply pos_INR.
  set (e1 := Rmin (Rmin eta rho) (eta / (2 * (Lp + 1)))).
  assert (He1 : 0 < e1). { unfold e1. repeat apply Rmin_glb_lt; try lra. apply Rdiv_lt_0_compat; lra. }
  assert (E1a : e1 <= eta) by (unfold e1; eapply Rle_trans; [apply Rmin_l|apply Rmin_l]).
  assert (E1b : e1 <= rho) by (unfold e1; eapply Rle_trans; [apply Rmin_l|apply Rmin_r]).
  assert (E1c : Lp * e1 <= eta / 2).
  { apply Rle_trans with ((Lp + 1) * (eta / (2 * (Lp + 1)))); [|right; field; lra]. apply Rmult_le_compat; [exact HLp|lra|lra|apply Rmin_r]. }
  set (Aw := A / (1 - ka)). assert (HAw : 0 < Aw) by (apply Rdiv_lt_0_compat; lra).
  set (W := 9 * wh * (12 + Lp * n)). assert (HW : 0 < W). { unfold W. apply Rmult_lt_0_compat; [lra|]. assert (0 <= Lp * n) by (apply Rmult_le_pos; assumption). lra. }
  set (delta := Rmin (Rmin (eta / 24) (e1 / (n + Aw * W + 1))) (/ (2 * W))).
  assert (AW0 : 0 < Aw * W) by (apply Rmult_lt_0_compat; assumption).
  assert (Hd : 0 < delta). { unfold delta. repeat apply Rmin_glb_lt; [lra|apply Rdiv_lt_0_compat; lra|apply Rinv_0_lt_compat; lra]. }
  assert (Hd1 : delta <= eta / 24) by (unfold delta; eapply Rle_trans; [apply Rmin_l|apply Rmin_l]).
  assert (Hd2 : (n + Aw * W + 1) * delta <= e1).
  { apply Rle_trans with ((n + Aw * W + 1) * (e1 / (n + Aw * W + 1))); [|right; field; lra]. apply Rmult_le_compat_l; [lra|]. unfold delta. eapply Rle_trans; [apply Rmin_l|apply Rmin_r]. }
  assert (Hd3 : W * delta <= / 2).
  { apply Rle_trans with (W * / (2 * W)); [|right; field; lra]. apply Rmult_le_compat_l; [lra|]. apply Rmin_r. }
  set (kappa := Rmin ((1 - th) / (M * (n + 1))) (sqrt mm)).
  assert (Hk : 0 < kappa). { unfold kappa. apply Rmin_glb_lt; [apply Rdiv_lt_0_compat; [lra|apply Rmult_lt_0_compat; lra]|apply sqrt_lt_R0; exact Hmm]. }
  exists delta, C, kappa, ka. split; [exact Hd|]. split; [exact HC|]. split; [exact Hk|]. split; [exact Ka|].
  intros s m q g qo EL Sz HCe (HJ0 & HJ) Hth Hmi Lo Wq Hg Fc.
  pose proof Sz as (NJ & S1 & S2 & S3).
  assert (EP : 0 < la_eps s). { assert (0 < C * kdl_epsilon) by (apply Rmult_lt_0_compat; [exact HC|unfold kdl_epsilon; lra]). lra. }
  assert (Hq : length q = ch_nj c) by (destruct Wq; lia).
  assert (D0 : d1 q q0 <= n * delta) by (unfold n; rewrite <- Hq0; apply within_d1; exact Wq).
  set (err := fun q => perr g (tip c q) + rerr g (tip c q)).
  assert (R0 : err q0 <= 12 * delta) by (apply close_errs; exact Fc).
  assert (ERR : forall x, length x = ch_nj c -> d1 x q0 <= 1 -> err x <= 12 * delta + Lp * d1 x q0).
  { intros x Lx Nx. specialize (PL x ltac:(lia) Nx). unfold err, perr, rerr in *.
    pose proof (vn_sub_tri (fp g) (fp (tip c q0)) (fp (tip c x))). pose proof (rn_minus_triangle (fM g) (fM (tip c q0)) (fM (tip c x))). lra. }
  assert (P1 : n * delta <= (n + Aw * W + 1) * delta) by (apply Rmult_le_compat_r; lra).
  assert (Err : forall x, length x = ch_nj c -> d1 x q0 <= e1 -> err x <= eta).
  { intros x Lx Nx. specialize (ERR x Lx ltac:(lra)). assert (Lp * d1 x q0 <= Lp * e1) by (apply Rmult_le_compat_l; lra). lra. }
  assert (Dq1 : d1 q q0 <= e1) by lra.
  assert (Eq : err q <= (12 + Lp * n) * delta).
  { specialize (ERR q Hq ltac:(lra)). assert (Lp * d1 q q0 <= Lp * (n * delta)) by (apply Rmult_le_compat_l; lra). lra. }
  assert (WQ : weighted_error L c g q <= W * delta).
  { destruct (NEAR g q Hg Hq ltac:(lra) (Err q Hq Dq1)) as (N0 & _). fold (err q) in N0.
    assert (wh * (9 * err q) <= wh * (9 * ((12 + Lp * n) * delta))) by (apply Rmult_le_compat_l; lra). unfold W. lra. }
  subst L. unfold lma_CartToJnt.
  rewrite NJ, Hq, Lo, !Nat.eqb_refl. cbn [negb orb].
  destruct (lma_fwd c q (la_roots s) (la_tips s) (proj1 Hok) Hq S2 S3) as (r1 & t1 & F1 & LR1 & LT1 & FP).
  rewrite F1. cbn [obind]. change (f_diff (tip_frame c q (length (ch_segs c))) g 1) with (pose_error c g q).
  rewrite weigh_norm.
  destruct (Rlt_dec (weighted_error (la_L s) c g q) (la_eps s)) as [Cv|Cv].
  - cbn [obind le_code le_q le_iter]. do 2 eexists. split; [reflexivity|]. cbn [la_iter]. split; [apply d1_within; [lia|lra]|]. split; [exact Cv|lia].
  - rewrite (lma_jac c q r1 t1 (la_jac s) Hok Hq S1 FP). cbn [obind].
    change (map (weigh (la_L s)) (jacobian_at c (-1) q)) with (weighted_jacobian (la_L s) c q).
    assert (CB : close_by c s g q0 A ka e1 q).
    { split; [exact Hq|]. fold Aw. assert (Aw * weighted_error (la_L s) c g q <= Aw * (W * delta)) by (apply Rmult_le_compat_l; lra).
      assert (0 <= delta) by lra. lra. }
    assert (K1 : la_epsj s * (M * (n + 1)) <= (1 - th) * la_eps s).
    { assert (M0 : 0 < M * (n + 1)) by (apply Rmult_lt_0_compat; lra).
      apply Rle_trans with ((1 - th) / (M * (n + 1)) * la_eps s * (M * (n + 1))); [|right; field; lra].
      apply Rmult_le_compat_r; [lra|]. eapply Rle_trans; [exact HJ|]. apply Rmult_le_compat_r; [lra|apply Rmin_l]. }
    assert (K2 : la_epsj s * la_epsj s <= mm * (la_eps s * la_eps s)).
    { assert (la_epsj s <= sqrt mm * la_eps s) by (eapply Rle_trans; [exact HJ|]; apply Rmult_le_compat_r; [lra|apply Rmin_r]).
      apply Rle_trans with (sqrt mm * la_eps s * (sqrt mm * la_eps s)); [apply Rmult_le_compat; lra|].
      replace (sqrt mm * la_eps s * (sqrt mm * la_eps s)) with (sqrt mm * sqrt mm * (la_eps s * la_eps s)) by ring. rewrite sqrt_sqrt by lra. lra. }
    destruct (loop_converges svd c s g q0 Hok NJ Hq0 eta A th ka C M mm e1) with (m := m) (n := la_maxiter s) (i := 0%nat) (q := q) (lambda := 10) (v := 2) (roots := r1) (tips := t1)
      as (r & ER & Q1 & Q2 & Q3 & Q4); auto; try lra.
    + intros x Lx Nx. apply SV. apply d1_within; [lia|lra].
    + intros x Lx Nx Ex HCx. destruct (NEAR g x Hg Lx Nx Ex) as (_ & N). exact (N HCx).
    + assert (0 < ka ^ m) by (apply pow_lt; lra). assert (ka ^ m * weighted_error (la_L s) c g q <= ka ^ m * / 2) by (apply Rmult_le_compat_l; lra). lra.
    + rewrite ER. cbn [obind]. rewrite Q1. do 2 eexists. split; [reflexivity|]. cbn [la_iter]. destruct Q2 as (Q2a & Q2b).
      split; [|split; [exact Q3|lia]]. apply d1_within; [lia|]. fold Aw in Q2b.
      assert (0 <= Aw * weighted_error (la_L s) c g (le_q r)) by (apply Rmult_le_pos; [lra|apply weighted_error_pos]). lra.
Qed.
