(** ChainIkSolverVel_wdls near a configuration where the weighted Jacobian has full rank. *)
From Coq Require Import Reals String List ZArith Bool Arith Lia Lra Psatz.
From Verif Require Import FramesModel FramesSpec FramesProofs FrameOpsProofs Outcome InertiaModel DualModel KinModel KinSpec DerivProofs KinProofs JacProofs JacDotProofs JntModel
  LinModel LinSpec SumProofs LmaModel LmaSpec LmaProofs IkModel IkSpec IkProofs IkGeoProofs VelIkModel VelIkSpec VelIkLin VelIkProofs VelIkProofs3 VelIkWitness GivensSpec SvdSpec SvdNorm SvdFinal GivensFactor NearSvd PinvSpec PinvProofs RotNear LipProofs TaylorProofs NewtonSpec NewtonProofs NewtonLoop NewtonPinv NewtonThms.
Import ListNotations.
Local Open Scope R_scope.

(** ** The least-squares solution of a matrix of full row rank *)
Section Surjective.
Variables m n : nat.
Variable A : nat -> nat -> R.
Variables low eps : R.
Hypothesis Heps : 0 < eps.
Hypothesis Hle : eps * eps <= low.
Hypothesis Hst : stretches n m low (transposed A).
Variable d : Decomp.
Hypothesis Hd : svd_of m n A d.

Let f (i : nat) : R := if Req_EM_T (dc_S d i) 0 then 0 else / dc_S d i.
Lemma surj_solution b : exists x, shortest_least_squares m n A b x /\ (forall r, (r < m)%nat -> image n A x r = b r) /\
  eps * eps * norm2 n x <= sumn m (fun r => b r * b r).
Proof.
  assert (Hlow : 0 < low) by nra.
  destruct Hd as (HA & HV & HU).
  assert (SS : shortest_least_squares m n A b (sol m n b (dc_U d) (dc_V d) f)).
  { apply (sol_shortest m n A b (dc_U d) (dc_S d) (dc_V d) f (fun _ => 0) HA HV HU).
    - intros; lra.
    - intros i Hi. unfold f. destruct (Req_EM_T (dc_S d i) 0) as [Z|N]; [rewrite Z; ring|field; exact N].
    - reflexivity.
    - intros i Hi Z. unfold f. destruct (Req_EM_T (dc_S d i) 0); [reflexivity|contradiction]. }
  exists (sol m n b (dc_U d) (dc_V d) f). split; [exact SS|]. split.
  - apply (ls_exact m n A low Hlow Hst). apply SS.
  - rewrite (sol_norm2 m n b (dc_U d) (dc_V d) f HV).
    pose proof (bessel m n (dc_U d) b (fun i => if Req_EM_T (dc_S d i) 0 then false else true)) as Be.
    eapply Rle_trans; [|apply Be].
    + rewrite <- sumn_scale. apply sumn_le. intros i Hi. unfold f.
      destruct (Req_EM_T (dc_S d i) 0) as [Z|N]; [right; ring|].
      pose proof (sv_large m n A low Hst d (conj HA (conj HV HU)) i Hi N) as Lg.
      set (k := coef m b (dc_U d) i). assert (P : 0 <= k * k) by nra.
      assert (S2 : 0 < dc_S d i * dc_S d i) by nra.
      assert (I : eps * eps * (/ dc_S d i * / dc_S d i) <= 1).
      { rewrite <- Rinv_mult. apply Rmult_le_reg_r with (dc_S d i * dc_S d i); [exact S2|]. rewrite Rmult_assoc, Rinv_l by lra. lra. }
      replace (eps * eps * (/ dc_S d i * k * (/ dc_S d i * k))) with (eps * eps * (/ dc_S d i * / dc_S d i) * (k * k)) by ring. nra.
    + intros i k Hi Hk Oi Ok. destruct (Req_EM_T (dc_S d i) 0); [discriminate|]. destruct (Req_EM_T (dc_S d k) 0); [discriminate|]. apply HU; assumption.
Qed.
Lemma surj_count : length (large_values n eps d) = m.
Proof.
  apply (sv_count m n A low Hst d Hd eps Heps Hle). intros r Hr. destruct (surj_solution (delta r)) as (x & _ & H & _). exists x. exact H.
Qed.
End Surjective.

Lemma sixth_large n A low eps d : 0 < eps -> eps * eps <= low -> stretches n 6 low (transposed A) -> svd_of 6 n A d -> svd_sorted 6 n d -> (6 <= n)%nat ->
  eps <= dc_S d 5.
Proof.
  intros He Hl Hst Hd (So & Po & Ze) H6. apply Rnot_lt_le. intros Sm.
  pose proof (surj_count 6 n A low eps He Hl Hst d Hd) as C. apply (f_equal INR) in C. rewrite <- large_sum in C.
  rewrite (sumn_split3 n 5) in C by lia.
  assert (Z : forall i, (5 <= i < n)%nat -> (if Rlt_dec (Rabs (dc_S d i)) eps then 0 else 1) = 0).
  { intros i Hi. destruct (Rlt_dec (Rabs (dc_S d i)) eps) as [|N]; [reflexivity|]. exfalso. apply N. rewrite Rabs_pos_eq by (apply Po; lia).
    eapply Rle_lt_trans; [apply (So 5%nat i); lia|exact Sm]. }
  rewrite (Z 5%nat) in C by lia. rewrite (sumn_zero (n - 6)) in C by (intros i Hi; apply Z; lia).
  assert (U : forall i, (if Rlt_dec (Rabs (dc_S d i)) eps then 0 else 1) <= 1) by (intros i; destruct (Rlt_dec _ _); lra).
  cbn [sumn] in C. pose proof (U 0%nat). pose proof (U 1%nat). pose proof (U 2%nat). pose proof (U 3%nat). pose proof (U 4%nat).
  cbn [INR] in C. lra.
Qed.

(** ** Bounds *)
Lemma bounded_entries (A : nat -> nat -> R) m n : exists M, 0 <= M /\ forall r j, (r < m)%nat -> (j < n)%nat -> Rabs (A r j) <= M.
Proof.
  exists (sumn m (fun r => sumn n (fun j => Rabs (A r j)))).
  assert (P : forall r, 0 <= sumn n (fun j => Rabs (A r j))) by (intros; apply sumn_nonneg; intros; apply Rabs_pos).
  split; [apply sumn_nonneg; intros; apply P|]. intros r j Hr Hj.
  assert (T : forall k (g : nat -> R) i, (forall i, 0 <= g i) -> (i < k)%nat -> g i <= sumn k g).
  { clear. induction k as [|k IH]; intros g i Hg Hi; [lia|]. cbn [sumn]. destruct (Nat.eq_dec i k) as [->|Ne].
    - pose proof (sumn_nonneg k g (fun i _ => Hg i)). lra.
    - pose proof (IH g i Hg ltac:(lia)). pose proof (Hg k). lra. }
  eapply Rle_trans; [apply (T n (fun j => Rabs (A r j)) j); [intros; apply Rabs_pos|exact Hj]|].
  apply (T m (fun r => sumn n (fun j => Rabs (A r j))) r); assumption.
Qed.
Lemma sum_abs_le n f b : (forall i, (i < n)%nat -> Rabs (f i) <= b) -> Rabs (sumn n f) <= INR n * b.
Proof.
  induction n as [|n IH]; intros H.
  - cbn. rewrite Rabs_R0. lra.
  - rewrite S_INR. cbn [sumn]. eapply Rle_trans; [apply Rabs_triang|]. pose proof (H n ltac:(lia)). pose proof (IH (fun i Hi => H i ltac:(lia))). lra.
Qed.
Lemma twist_entry t r : (r < 6)%nat -> Rabs (t_at t r) <= tn t.
Proof.
  intros Hr. rewrite <- twist_size_tn. unfold twist_size. cbn [sumn].
  pose proof (Rabs_pos (t_at t 0)). pose proof (Rabs_pos (t_at t 1)). pose proof (Rabs_pos (t_at t 2)).
  pose proof (Rabs_pos (t_at t 3)). pose proof (Rabs_pos (t_at t 4)). pose proof (Rabs_pos (t_at t 5)).
  do 6 (destruct r as [|r]; [lra|]). lia.
Qed.

(** ** The solver *)
Definition wdls_ready (c : Chain) (s0 s : wdls) : Prop :=
  wdls_clean s /\ wdls_shapes s /\ wd_nj s = ch_nj c /\ wd_eps s = wd_eps s0 /\ wd_maxiter s = wd_maxiter s0 /\ wd_lambda s = wd_lambda s0 /\
  wd_ts s = wd_ts s0 /\ wd_js s = wd_js s0.
Lemma weighted_jac_same c q s s0 : wd_ts s = wd_ts s0 -> wd_js s = wd_js s0 -> weighted_jac c q s = weighted_jac c q s0.
Proof. intros E1 E2. unfold weighted_jac. rewrite E1, E2. reflexivity. Qed.
Lemma weighted_image c q s x r : image (ch_nj c) (mentry (weighted_jac c q s)) x r =
  sumn 6 (fun k => mentry (wd_ts s) r k * image (ch_nj c) (tip_jacobian c q) (weighted (ch_nj c) (mentry (wd_js s)) x) k).
Proof.
  unfold weighted_jac. cbn [mentry]. unfold image, times. set (n := ch_nj c). set (X := mentry (wd_ts s)). set (Q := mentry (wd_js s)).
  rewrite (sumn_ext n _ (fun j => sumn 6 (fun l => X r l * (sumn n (fun m => tip_jacobian c q l m * Q m j) * nth j x 0)))).
  2:{ intros j Hj. rewrite <- sumn_scale_r. apply sumn_ext. intros; ring. }
  rewrite sumn_swap. apply sumn_ext. intros k Hk. rewrite sumn_scale. f_equal.
  rewrite (sumn_ext n _ (fun j => sumn n (fun m => tip_jacobian c q k m * (Q m j * nth j x 0)))).
  2:{ intros j Hj. rewrite <- sumn_scale_r. apply sumn_ext. intros; ring. }
  rewrite sumn_swap. apply sumn_ext. intros i Hi. rewrite sumn_scale. f_equal. unfold weighted. rewrite nth_map_seq by exact Hi. reflexivity.
Qed.

Lemma wdls_exact svd c s q v qdot low : chain_ok c -> wdls_clean s -> wdls_shapes s -> wd_nj s = ch_nj c ->
  length q = ch_nj c -> length qdot = ch_nj c -> 0 < wd_eps s -> (6 <= ch_nj c)%nat -> (Z.of_nat (ch_nj c) < 2 ^ 32)%Z ->
  wd_eps s * wd_eps s <= low -> stretches (ch_nj c) 6 low (transposed (mentry (weighted_jac c q s))) ->
  symmetric 6 (mentry (wd_ts s)) -> (forall y, (forall r, (r < 6)%nat -> sumn 6 (fun k => mentry (wd_ts s) r k * y k) = 0) -> forall r, (r < 6)%nat -> y r = 0) ->
  let d := svd (wd_maxiter s) (weighted_jac c q s) in
  dc_rc d = 0%Z -> svd_of 6 (ch_nj c) (mentry (weighted_jac c q s)) d -> svd_sorted 6 (ch_nj c) d ->
  exists x s', wdls_CartToJnt svd c s q v qdot = Ret (E_NOERROR, weighted (ch_nj c) (mentry (wd_js s)) x, s') /\ wdls_ready c s s' /\
    (forall r, (r < 6)%nat -> image (ch_nj c) (tip_jacobian c q) (weighted (ch_nj c) (mentry (wd_js s)) x) r = t_at v r) /\
    wd_eps s * wd_eps s * norm2 (ch_nj c) x <= sumn 6 (fun r => weighted_twist s v r * weighted_twist s v r).
Proof.
  intros Hok Cl Sh Nj Lq Ld He H6 Hn Hl Hst Sy Inj d Rc Sv So.
  pose proof (sixth_large _ _ low (wd_eps s) d He Hl Hst Sv So H6) as S5.
  destruct (wdls_solution svd c s q v qdot Hok Cl Sh Nj Lq Ld He H6 Hn Rc Sv So) as (code & out & s' & x & R1 & P); [right; fold d; lra|].
  fold d in P. destruct P as (_ & Cl' & Sh' & Nj' & Ep' & Mi' & La' & Ts' & Js' & _ & _ & _ & _ & C1 & C2 & _ & Lx & Eo & _ & Sl).
  specialize (Sl (or_introl S5)).
  assert (code = E_NOERROR) as -> by (destruct C1 as [->|E]; [exfalso; apply (proj1 C2) in S5 as _ || idtac; pose proof (proj1 C2 eq_refl); lra|exact E]).
  destruct (surj_solution 6 (ch_nj c) (mentry (weighted_jac c q s)) low (wd_eps s) He Hl Hst d Sv (weighted_twist s v)) as (x' & Sx & Im & Nm).
  rewrite (shortest_unique _ _ _ _ _ _ Sl Sx) in *. subst out. exists x', s'. split; [exact R1|]. split; [repeat split; try apply Cl'; try apply Sh'; congruence|].
  split; [|exact Nm].
  set (J := image (ch_nj c) (tip_jacobian c q) (weighted (ch_nj c) (mentry (wd_js s)) x')) in *.
  intros r Hr. apply Rminus_diag_uniq. apply (Inj (fun k => J k - t_at v k)); [|exact Hr]. intros i Hi.
  specialize (Im i Hi). rewrite weighted_image in Im. fold J in Im.
  rewrite (sumn_ext 6 _ (fun k => mentry (wd_ts s) i k * J k - mentry (wd_ts s) i k * t_at v k)) by (intros; ring).
  rewrite sumn_sub, Im. unfold weighted_twist. rewrite <- sumn_sub. apply sumn_zero. intros k Hk. rewrite (Sy k i) by assumption. ring.
Qed.

Lemma wdls_velocity_solver svd c q0 rho0 s0 low : chain_ok c -> length q0 = ch_nj c -> (6 <= ch_nj c)%nat -> (Z.of_nat (ch_nj c) < 2 ^ 32)%Z -> 0 < rho0 ->
  0 < wd_eps s0 -> wd_eps s0 * wd_eps s0 < low ->
  symmetric 6 (mentry (wd_ts s0)) -> (forall y, (forall r, (r < 6)%nat -> sumn 6 (fun k => mentry (wd_ts s0) r k * y k) = 0) -> forall r, (r < 6)%nat -> y r = 0) ->
  stretches (ch_nj c) 6 low (transposed (mentry (weighted_jac c q0 s0))) ->
  (forall q, joints_within rho0 q q0 -> let d := svd (wd_maxiter s0) (weighted_jac c q s0) in
     dc_rc d = 0%Z /\ svd_of 6 (ch_nj c) (mentry (weighted_jac c q s0)) d /\ svd_sorted 6 (ch_nj c) d) ->
  exists rho B, 0 < rho <= rho0 /\ 0 <= B /\ velocity_solver c q0 rho B 0 (wdls_ready c s0) (wdls_CartToJnt svd c).
Proof.
  intros Hok Hq H6 Hn Hrho He Hl Sy Inj Hst Hsvd. set (n := ch_nj c) in *. set (eps := wd_eps s0) in *.
  destruct (stretches_near 6 n low (eps * eps) (mentry (weighted_jac c q0 s0))) as (e & Pe & Near); [nra|exact Hst|].
  destruct (jac_lip c q0 Hok Hq) as (L & PL & HL).
  destruct (bounded_entries (mentry (wd_ts s0)) 6 6) as (X & PX & HX).
  destruct (bounded_entries (mentry (wd_js s0)) n n) as (Q & PQ & HQ).
  set (N := INR n + 1). assert (HN : 1 <= N) by (unfold N; pose proof (pos_INR n); lra).
  set (K := 6 * X * N * Q * L + 1).
  assert (K0 : 0 <= 6 * X * N * Q * L) by (repeat apply Rmult_le_pos; lra).
  assert (HK : 1 <= K) by (unfold K; lra).
  set (x := Rmin (/ N) (e / (N * K))).
  assert (X1 : x <= / N) by apply Rmin_l. assert (X2 : x <= e / (N * K)) by apply Rmin_r.
  assert (X0 : 0 < x). { unfold x. apply Rmin_glb_lt; [apply Rinv_0_lt_compat; lra|apply Rdiv_lt_0_compat; [lra|nra]]. }
  set (Bx := INR n * Q * (3 * (6 * X) / eps)).
  assert (PBx : 0 <= Bx). { unfold Bx, Rdiv. repeat apply Rmult_le_pos; try lra; [apply pos_INR|left; apply Rinv_0_lt_compat; exact He]. }
  exists (Rmin rho0 x), (INR n * Bx). split; [split; [apply Rmin_glb_lt; lra|apply Rmin_l]|].
  split; [apply Rmult_le_pos; [apply pos_INR|exact PBx]|].
  intros s q t d (Cl & Sh & Nj & Ep & Mi & La & Ts & Js) Wq Ld.
  assert (Wq' : joints_within x q q0). { destruct Wq as (W1 & W2). split; [exact W1|]. intros i Hi. eapply Rle_trans; [apply W2; exact Hi|apply Rmin_r]. }
  assert (Wq0 : joints_within rho0 q q0). { destruct Wq as (W1 & W2). split; [exact W1|]. intros i Hi. eapply Rle_trans; [apply W2; exact Hi|apply Rmin_l]. }
  assert (Lq : length q = n) by (destruct Wq as (W1 & _); unfold n; lia).
  apply within_d1 in Wq'. rewrite Hq in Wq'. fold n in Wq'.
  assert (Dx : d1 q q0 <= N * x) by (unfold N; nra).
  assert (Nx1 : N * x <= 1). { apply Rle_trans with (N * / N); [apply Rmult_le_compat_l; lra|right; field; lra]. }
  assert (Nx2 : K * (N * x) <= e).
  { apply Rle_trans with (K * (N * (e / (N * K)))); [|right; field; lra]. apply Rmult_le_compat_l; [lra|]. apply Rmult_le_compat_l; lra. }
  pose proof (d1_nn q q0) as D0.
  destruct (Hsvd q Wq0) as (Rc & Sv & So).
  assert (WJ : weighted_jac c q s = weighted_jac c q s0) by (apply weighted_jac_same; assumption).
  assert (Lin : forall r j, (r < 6)%nat -> (j < n)%nat -> Rabs (mentry (weighted_jac c q s0) r j - mentry (weighted_jac c q0 s0) r j) <= e).
  { intros r j Hr Hj. unfold weighted_jac. cbn [mentry]. unfold times. rewrite <- sumn_sub.
    assert (I1 : forall k, (k < 6)%nat -> Rabs (mentry (wd_ts s0) r k * sumn n (fun l => tip_jacobian c q k l * mentry (wd_js s0) l j) -
        mentry (wd_ts s0) r k * sumn n (fun l => tip_jacobian c q0 k l * mentry (wd_js s0) l j)) <= X * (N * (L * d1 q q0 * Q))).
    { intros k Hk. rewrite <- Rmult_minus_distr_l, Rabs_mult, <- sumn_sub. apply Rmult_le_compat; [apply Rabs_pos|apply Rabs_pos|apply HX; assumption|].
      assert (P0 : 0 <= L * d1 q q0 * Q) by (repeat apply Rmult_le_pos; assumption).
      eapply Rle_trans; [apply (sum_abs_le n _ (L * d1 q q0 * Q))|].
      - intros l Hll. rewrite <- Rmult_minus_distr_r, Rabs_mult. apply Rmult_le_compat; [apply Rabs_pos|apply Rabs_pos| |apply HQ; assumption].
        apply HL; [unfold n in Lq; lia|lra|exact Hk|exact Hll].
      - unfold N. nra. }
    eapply Rle_trans; [apply (sum_abs_le 6 _ _ I1)|]. replace (INR 6) with 6 by (cbn; ring).
    replace (6 * (X * (N * (L * d1 q q0 * Q)))) with (6 * X * N * Q * L * d1 q q0) by ring.
    eapply Rle_trans; [|exact Nx2]. apply Rmult_le_compat; [exact K0|exact D0|unfold K; lra|exact Dx]. }
  destruct (wdls_exact svd c s q t d (eps * eps)) as (y & s' & R1 & Rd & Im & Nm); auto.
  { rewrite Ep. exact He. } { rewrite Ep. fold eps. lra. } { rewrite WJ. apply Near. exact Lin. } { rewrite Ts. exact Sy. } { rewrite Ts. exact Inj. }
  { rewrite WJ, Mi. exact Rc. } { rewrite WJ, Mi. exact Sv. } { rewrite WJ, Mi. exact So. }
  fold n in R1, Im, Nm. rewrite Js in R1, Im. rewrite Ep in Nm. fold eps in Nm.
  set (out := weighted n (mentry (wd_js s0)) y) in *.
  exists out, s'. split; [exact R1|]. split.
  { destruct Rd as (A1 & A2 & A3 & A4 & A5 & A6 & A7 & A8). repeat split; try apply A1; try apply A2; congruence. }
  split; [unfold out, weighted; rewrite map_length, seq_length; reflexivity|]. split.
  - rewrite twist_size_tn. pose proof (tn_nn t) as T0.
    assert (Wt : forall r, (r < 6)%nat -> Rabs (weighted_twist s t r) <= 6 * (X * tn t)).
    { intros r Hr. unfold weighted_twist. replace 6 with (INR 6) by (cbn; ring). apply sum_abs_le. intros k Hk. rewrite Rabs_mult, Ts.
      apply Rmult_le_compat; [apply Rabs_pos|apply Rabs_pos|apply HX; assumption|apply twist_entry; exact Hk]. }
    set (w := 6 * (X * tn t)) in *. assert (W0 : 0 <= w) by (unfold w; apply Rmult_le_pos; [lra|apply Rmult_le_pos; assumption]).
    assert (S6 : sumn 6 (fun r => weighted_twist s t r * weighted_twist s t r) <= 6 * (w * w)).
    { eapply Rle_trans; [apply Rle_abs|]. apply Rle_trans with (INR 6 * (w * w)); [|right; cbn; ring]. apply sum_abs_le. intros r Hr. rewrite Rabs_mult.
      apply Rmult_le_compat; try apply Rabs_pos; apply Wt; exact Hr. }
    assert (Ent : forall i, (i < n)%nat -> Rabs (nth i y 0) <= 3 * w / eps).
    { intros i Hi. pose proof (norm2_entry n y i Hi) as Ne.
      assert (G : (eps * Rabs (nth i y 0)) * (eps * Rabs (nth i y 0)) <= 6 * (w * w)).
      { replace ((eps * Rabs (nth i y 0)) * (eps * Rabs (nth i y 0))) with (eps * eps * (Rabs (nth i y 0) * Rabs (nth i y 0))) by ring.
        rewrite <- Rabs_mult, Rabs_pos_eq by nra. eapply Rle_trans; [|exact S6]. eapply Rle_trans; [|exact Nm]. apply Rmult_le_compat_l; nra. }
      pose proof (Rabs_pos (nth i y 0)).
      assert (eps * Rabs (nth i y 0) <= 3 * w) by (apply Rnot_lt_le; intros C; nra).
      apply Rmult_le_reg_l with eps; [exact He|]. replace (eps * (3 * w / eps)) with (3 * w) by (field; lra). assumption. }
    assert (Out : forall i, (i < n)%nat -> Rabs (nth i out 0) <= Bx * tn t).
    { intros i Hi. unfold out, weighted. rewrite nth_map_seq by exact Hi.
      eapply Rle_trans; [apply (sum_abs_le n _ (Q * (3 * w / eps)))|].
      - intros j Hj. rewrite Rabs_mult. apply Rmult_le_compat; [apply Rabs_pos|apply Rabs_pos|apply HQ; assumption|apply Ent; exact Hj].
      - right. unfold Bx, w. field. lra. }
    unfold size. fold n. eapply Rle_trans; [apply sumn_le; exact Out|]. rewrite sumn_const. right. ring.
  - intros i Hi. rewrite Im, Rminus_diag_eq, Rabs_R0 by (auto; reflexivity). lra.
Qed.

(** ** Convergence of the position solvers around it *)
Lemma nr_wdls svd c q0 rho s0 low beta :
  chain_ok c -> length q0 = ch_nj c -> (6 <= ch_nj c)%nat -> (Z.of_nat (ch_nj c) < 2 ^ 32)%Z -> 0 < rho -> 1 <= beta ->
  wdls_clean s0 -> wdls_shapes s0 -> wd_nj s0 = ch_nj c -> 0 < wd_eps s0 -> wd_eps s0 * wd_eps s0 < low ->
  symmetric 6 (mentry (wd_ts s0)) -> (forall y, (forall r, (r < 6)%nat -> sumn 6 (fun k => mentry (wd_ts s0) r k * y k) = 0) -> forall r, (r < 6)%nat -> y r = 0) ->
  stretches (ch_nj c) 6 low (transposed (mentry (weighted_jac c q0 s0))) ->
  (forall q, joints_within rho q q0 -> let d := svd (wd_maxiter s0) (weighted_jac c q s0) in
     dc_rc d = 0%Z /\ svd_of 6 (ch_nj c) (mentry (weighted_jac c q s0)) d /\ svd_sorted 6 (ch_nj c) d) ->
  exists delta, 0 < delta /\ forall m maxiter epsp q g qo,
    0 < epsp <= / 2 -> 1 <= beta ^ m * epsp -> ((m + 1) * (m + 1) <= maxiter)%nat -> length qo = ch_nj c ->
    joints_within delta q q0 -> rigid g -> f_close (tip c q0) g delta ->
    exists q' s' w', nr_CartToJnt (own_fk c) (wdls_CartToJnt svd c) c (nr_make c maxiter epsp) s0 q g qo = Ret (E_NOERROR, q', s', w') /\
      joints_within rho q' q0 /\ pose_within epsp (tip c q') g.
Proof.
  intros Hok Hq H6 Hn Hrho Hb Cl Sh Nj He Hl Sy Inj Hst Hsvd.
  destruct (wdls_velocity_solver svd c q0 rho s0 low Hok Hq H6 Hn Hrho He Hl Sy Inj Hst Hsvd) as (rho1 & B & Hrho1 & HB & Hik).
  destruct (nr_local wdls (own_fk c) (wdls_CartToJnt svd c) (wdls_ready c s0) c q0 rho1 B 0 beta Hok Hq) as (delta & Hd & H); auto.
  { lra. } { lra. } { lra. } { apply own_forward, Hok. }
  exists delta. split; [exact Hd|]. intros m maxiter epsp q g qo Hep Hm Hmax Lqo Wq Hg Fq.
  destruct (H (nr_make c maxiter epsp) m s0 q g qo) as (q' & s' & w' & R1 & _ & Wq' & Pq'); auto.
  { apply repeat_length. } { repeat split; try apply Cl; try apply Sh; assumption. }
  exists q', s', w'. split; [exact R1|]. split; [|exact Pq'].
  destruct Wq' as (W1 & W2). split; [exact W1|]. intros i Hi. eapply Rle_trans; [apply W2; exact Hi|apply Hrho1].
Qed.
Lemma nrjl_wdls svd c q0 rho s0 low beta :
  chain_ok c -> length q0 = ch_nj c -> (6 <= ch_nj c)%nat -> (Z.of_nat (ch_nj c) < 2 ^ 32)%Z -> 0 < rho -> 1 <= beta ->
  wdls_clean s0 -> wdls_shapes s0 -> wd_nj s0 = ch_nj c -> 0 < wd_eps s0 -> wd_eps s0 * wd_eps s0 < low ->
  symmetric 6 (mentry (wd_ts s0)) -> (forall y, (forall r, (r < 6)%nat -> sumn 6 (fun k => mentry (wd_ts s0) r k * y k) = 0) -> forall r, (r < 6)%nat -> y r = 0) ->
  stretches (ch_nj c) 6 low (transposed (mentry (weighted_jac c q0 s0))) ->
  (forall q, joints_within rho q q0 -> let d := svd (wd_maxiter s0) (weighted_jac c q s0) in
     dc_rc d = 0%Z /\ svd_of 6 (ch_nj c) (mentry (weighted_jac c q s0)) d /\ svd_sorted 6 (ch_nj c) d) ->
  exists delta, 0 < delta /\ forall m maxiter epsp lo hi q g qo,
    0 < epsp <= / 2 -> 1 <= beta ^ m * epsp -> ((m + 1) * (m + 1) <= maxiter)%nat -> length qo = ch_nj c ->
    length lo = ch_nj c -> length hi = ch_nj c -> (forall i, (i < ch_nj c)%nat -> nth i lo 0 + rho <= nth i q0 0 <= nth i hi 0 - rho) ->
    joints_within delta q q0 -> rigid g -> f_close (tip c q0) g delta ->
    exists q' s' w', nrjl_CartToJnt (own_fk c) (wdls_CartToJnt svd c) c (nrjl_make c lo hi maxiter epsp) s0 q g qo = Ret (E_NOERROR, q', s', w') /\
      joints_within rho q' q0 /\ pose_within epsp (tip c q') g.
Proof.
  intros Hok Hq H6 Hn Hrho Hb Cl Sh Nj He Hl Sy Inj Hst Hsvd.
  destruct (wdls_velocity_solver svd c q0 rho s0 low Hok Hq H6 Hn Hrho He Hl Sy Inj Hst Hsvd) as (rho1 & B & Hrho1 & HB & Hik).
  destruct (nrjl_local wdls (own_fk c) (wdls_CartToJnt svd c) (wdls_ready c s0) c q0 rho1 B 0 beta Hok Hq) as (delta & Hd & H); auto.
  { lra. } { lra. } { lra. } { apply own_forward, Hok. }
  exists delta. split; [exact Hd|]. intros m maxiter epsp lo hi q g qo Hep Hm Hmax Lqo Llo Lhi Lim Wq Hg Fq.
  destruct (H (nrjl_make c lo hi maxiter epsp) m s0 q g qo) as (q' & s' & w' & R1 & _ & Wq' & Pq'); auto.
  { apply repeat_length. } { repeat split; try apply Cl; try apply Sh; assumption. } { intros i Hi. specialize (Lim i Hi). cbn [nrjl_make nj_min nj_max]. lra. }
  exists q', s', w'. split; [exact R1|]. split; [|exact Pq'].
  destruct Wq' as (W1 & W2). split; [exact W1|]. intros i Hi. eapply Rle_trans; [apply W2; exact Hi|apply Hrho1].
Qed.
