(** C70, C80: six-joint arms at positions that are not singular. *)
From Coq Require Import String Reals List Arith Lia Lra Psatz ZArith Bool.
From Verif Require Import FramesModel FramesSpec Outcome InertiaModel DualModel KinModel KinSpec KinProofs JacProofs LinModel LinSpec SumProofs LmaSpec LmaProofs SvdModel SvdFinal JntModel IkModel IkSpec
  VelIkModel VelIkSpec VelIkLin LmaProofs2 GivensSpec GivensLin GivensThms GivensThms2 NewtonSpec NewtonThms VelIkWitness NewtonWitness RobotModel RobotSpec RobotProofs RobotSing.
Import ListNotations.
Local Open Scope list_scope.
Local Open Scope R_scope.

(** A square matrix without kernel has a transpose that does not shrink vectors arbitrarily. *)
Lemma square_stretches n A : (forall x, (forall r, (r < n)%nat -> mv n A x r = 0) -> forall j, (j < n)%nat -> x j = 0) ->
  exists low, 0 < low /\ stretches n n low (transposed A).
Proof.
  intros Inj.
  assert (H : forall k, (k <= n)%nat -> exists K, 0 < K /\ forall x, sumn k (fun i => x i * x i) <= K * sq n (mv n (transposed A) x)).
  { induction k as [|k IH]; intros Hk.
    - exists 1. split; [lra|]. intros x. cbn [sumn]. pose proof (sq_nn n (mv n (transposed A) x)). lra.
    - destruct (IH ltac:(lia)) as (K & PK & HK). destruct (onto n A Inj (delta k)) as (y & Hy). exists (K + sq n y). split; [pose proof (sq_nn n y); lra|].
      intros x. cbn [sumn]. specialize (HK x).
      assert (E : x k = sumn n (fun i => y i * mv n (transposed A) x i)).
      { rewrite <- (adjoint n n A y x). rewrite (sumn_ext n _ (fun r => x r * delta k r)) by (intros i Hi; rewrite (Hy i Hi); ring). symmetry. apply sumn_delta. lia. }
      pose proof (cauchy1 n y (mv n (transposed A) x)) as C. rewrite <- E in C. unfold sq in *. nra. }
  destruct (H n (le_n n)) as (K & PK & HK). exists (/ K). split; [apply Rinv_0_lt_compat, PK|]. intros x. specialize (HK x). fold (sq n x) in HK.
  apply (Rmult_le_reg_l K); [exact PK|]. rewrite <- Rmult_assoc, Rinv_r, Rmult_1_l by lra. exact HK.
Qed.

Lemma t_at_jac J x : length J = length x -> forall r, t_at (jac_mul J x) r = sumn (length x) (fun j => t_at (nth j J t_zero) r * nth j x 0).
Proof.
  revert x. induction J as [|a J IH]; intros [|b x] L r; try discriminate L.
  - cbn [jac_mul length sumn]. destruct r as [|[|[|[|[|]]]]]; reflexivity.
  - injection L as L. cbn [length]. rewrite sumn_head. cbn [jac_mul nth]. rewrite <- IH by exact L. destruct r as [|[|[|[|[|]]]]]; reflexivity.
Qed.
Lemma t_at_zero t : (forall r, (r < 6)%nat -> t_at t r = 0) -> t = t_zero.
Proof.
  intros H. destruct t as [[a b c] [d e f]]. pose proof (H 0%nat ltac:(lia)) as H0. pose proof (H 1%nat ltac:(lia)) as H1. pose proof (H 2%nat ltac:(lia)) as H2.
  pose proof (H 3%nat ltac:(lia)) as H3. pose proof (H 4%nat ltac:(lia)) as H4. pose proof (H 5%nat ltac:(lia)) as H5.
  cbn in H0, H1, H2, H3, H4, H5. subst. reflexivity.
Qed.

Lemma regular_stretches c q : chain_ok c -> ch_nj c = 6%nat -> length q = 6%nat -> ~ singular_at c q ->
  exists low, 0 < low /\ stretches 6 6 low (transposed (tip_jacobian c q)).
Proof.
  intros Hok H6 Hq Ns. apply square_stretches. intros x Zx j Hj. destruct (Req_dec (x j) 0) as [E|N]; [exact E|]. exfalso. apply Ns.
  exists (vlist 6 x). split; [rewrite vlist_length; symmetry; exact H6|]. split; [exists j; rewrite vlist_nth by exact Hj; exact N|].
  apply t_at_zero. intros r Hr. rewrite t_at_jac.
  - rewrite vlist_length. etransitivity; [|exact (Zx r Hr)]. unfold mv. apply sumn_ext. intros i Hi. rewrite vlist_nth by exact Hi. reflexivity.
  - rewrite vlist_length, <- H6. apply jacobian_at_length; [exact Hok|congruence].
Qed.

Section Ik.
Variables (svd : Z -> Mat -> Decomp) (c : Chain) (q0 : list R) (rho : R) (k : Z).
Hypotheses (Ok : chain_ok c) (N6 : ch_nj c = 6%nat) (L6 : length q0 = 6%nat) (Rho : 0 < rho) (Ns : ~ singular_at c q0).
Hypothesis Svd : forall q, joints_within rho q q0 -> let d := svd k (mkM 6 6 (tip_jacobian c q)) in dc_rc d = 0%Z /\ svd_of 6 6 (tip_jacobian c q) d.

Lemma nr_regular : exists eps0, 0 < eps0 /\ forall eps, 0 < eps <= eps0 -> exists delta, 0 < delta /\ forall m maxiter epsp q g qo,
    0 < epsp <= / 2 -> 1 <= 2 ^ m * epsp -> ((m + 1) * (m + 1) <= maxiter)%nat -> length qo = 6%nat ->
    joints_within delta q q0 -> rigid g -> f_close (tip c q0) g delta ->
    exists q' s' w', nr_CartToJnt (own_fk c) (pinv_CartToJnt svd c) c (nr_make c maxiter epsp) (pinv_make c eps k) q g qo = Ret (E_NOERROR, q', s', w') /\
      joints_within rho q' q0 /\ pose_within epsp (tip c q') g.
Proof.
  destruct (regular_stretches c q0 Ok N6 L6 Ns) as (low & PL & St). exists (Rmin 1 (low / 2)). split; [apply Rmin_glb_lt; lra|]. intros eps [E0 E1].
  assert (A : eps <= 1) by (eapply Rle_trans; [exact E1|apply Rmin_l]). assert (B : eps <= low / 2) by (eapply Rle_trans; [exact E1|apply Rmin_r]).
  destruct (nr_pinv svd c q0 rho eps k low 2 Ok) as (dl & Pd & H); [congruence|rewrite N6; reflexivity|exact Rho|exact E0|nra|lra|rewrite N6; exact St|rewrite N6; exact Svd|].
  exists dl. split; [exact Pd|]. intros m maxiter epsp q g qo X1 X2 X3 X4. apply (H m); try assumption. congruence.
Qed.
Lemma nrjl_regular : exists eps0, 0 < eps0 /\ forall eps, 0 < eps <= eps0 -> exists delta, 0 < delta /\ forall m maxiter epsp lo hi q g qo,
    0 < epsp <= / 2 -> 1 <= 2 ^ m * epsp -> ((m + 1) * (m + 1) <= maxiter)%nat -> length qo = 6%nat ->
    length lo = 6%nat -> length hi = 6%nat -> (forall i, (i < 6)%nat -> nth i lo 0 + rho <= nth i q0 0 <= nth i hi 0 - rho) ->
    joints_within delta q q0 -> rigid g -> f_close (tip c q0) g delta ->
    exists q' s' w', nrjl_CartToJnt (own_fk c) (pinv_CartToJnt svd c) c (nrjl_make c lo hi maxiter epsp) (pinv_make c eps k) q g qo = Ret (E_NOERROR, q', s', w') /\
      joints_within rho q' q0 /\ pose_within epsp (tip c q') g.
Proof.
  destruct (regular_stretches c q0 Ok N6 L6 Ns) as (low & PL & St). exists (Rmin 1 (low / 2)). split; [apply Rmin_glb_lt; lra|]. intros eps [E0 E1].
  assert (A : eps <= 1) by (eapply Rle_trans; [exact E1|apply Rmin_l]). assert (B : eps <= low / 2) by (eapply Rle_trans; [exact E1|apply Rmin_r]).
  destruct (nrjl_pinv svd c q0 rho eps k low 2 Ok) as (dl & Pd & H); [congruence|rewrite N6; reflexivity|exact Rho|exact E0|nra|lra|rewrite N6; exact St|rewrite N6; exact Svd|].
  exists dl. split; [exact Pd|]. intros m maxiter epsp lo hi q g qo X1 X2 X3 X4 X5 X6 X7. apply (H m); try assumption; try congruence. rewrite N6. exact X7.
Qed.
End Ik.

Lemma gantry_not_singular : ~ singular_at (gantry 1) home.
Proof.
  intros (qd & L & (j & Nj) & Z). pose proof (gantry_regular) as St.
  assert (Inj : forall x, (forall r, (r < 6)%nat -> mv 6 (tip_jacobian (gantry 1) home) x r = 0) -> forall i, (i < 6)%nat -> x i = 0).
  { intros x Zx i Hi. destruct (Req_dec (x i) 0) as [E|N]; [exact E|]. exfalso.
    apply (kernel_transposed 6 (tip_jacobian (gantry 1) home) x i Zx Hi N). intros y Zy. apply sq_zero.
    specialize (St y). rewrite (sq_zero_of 6 (mv 6 (transposed (tip_jacobian (gantry 1) home)) y)) in St by exact Zy. lra. }
  apply Nj. destruct (Nat.lt_ge_cases j 6) as [Hj|Hj].
  - apply (Inj (fun i => nth i qd 0)); [|exact Hj]. intros r Hr. change 6%nat with (ch_nj (gantry 1)). rewrite <- L. unfold mv, tip_jacobian. rewrite <- t_at_jac.
    + rewrite Z. destruct r as [|[|[|[|[|]]]]]; reflexivity.
    + rewrite L. apply jacobian_at_length; [apply gantry_ok|reflexivity].
  - apply nth_overflow. rewrite L. exact Hj.
Qed.
Lemma regular_example : chain_ok (gantry 1) /\ ch_nj (gantry 1) = 6%nat /\ length home = 6%nat /\ ~ singular_at (gantry 1) home /\
  forall q, joints_within 1 q home -> let d := wrist_svd 150 (mkM 6 6 (tip_jacobian (gantry 1) q)) in dc_rc d = 0%Z /\ svd_of 6 6 (tip_jacobian (gantry 1) q) d.
Proof.
  split; [apply gantry_ok|]. split; [reflexivity|]. split; [reflexivity|]. split; [exact gantry_not_singular|]. intros q Hq. exact (wrist_svd_near 150 q Hq).
Qed.
Lemma puma_ik svd rho k q1 q2 q3 q4 q5 q6 : let q0 := [q1; q2; q3; q4; q5; q6] in 0 < rho -> ~ puma_singular q2 q3 q5 ->
  (forall q, joints_within rho q q0 -> let d := svd k (mkM 6 6 (tip_jacobian puma q)) in dc_rc d = 0%Z /\ svd_of 6 6 (tip_jacobian puma q) d) ->
  exists eps0, 0 < eps0 /\ forall eps, 0 < eps <= eps0 -> exists delta, 0 < delta /\ forall m maxiter epsp q g qo,
    0 < epsp <= / 2 -> 1 <= 2 ^ m * epsp -> ((m + 1) * (m + 1) <= maxiter)%nat -> length qo = 6%nat ->
    joints_within delta q q0 -> rigid g -> f_close (tip puma q0) g delta ->
    exists q' s' w', nr_CartToJnt (own_fk puma) (pinv_CartToJnt svd puma) puma (nr_make puma maxiter epsp) (pinv_make puma eps k) q g qo = Ret (E_NOERROR, q', s', w') /\
      joints_within rho q' q0 /\ pose_within epsp (tip puma q') g.
Proof.
  intros q0 Pr Ns Sv. apply nr_regular; [exact puma_ok|exact (proj1 puma_counts)|reflexivity|exact Pr| |exact Sv].
  intros S. apply Ns, (proj1 (puma_singularities q1 q2 q3 q4 q5 q6)), S.
Qed.
