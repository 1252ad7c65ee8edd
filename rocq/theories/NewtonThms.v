(** Convergence of the position solvers: statements. *)
From Coq Require Import Reals String List ZArith Bool Arith Lia Lra Psatz.
From Verif Require Import FramesModel FramesSpec FramesProofs FrameOpsProofs Outcome InertiaModel DualModel KinModel KinSpec DerivProofs KinProofs JacProofs JntModel
  LinModel LinSpec SumProofs IkModel IkSpec IkProofs IkGeoProofs VelIkModel VelIkSpec GivensSpec RotNear LipProofs TaylorProofs NewtonSpec NewtonProofs NewtonLoop NewtonPinv.
Import ListNotations.
Local Open Scope R_scope.

Lemma close_errs f g e : f_close f g e -> perr g f + rerr g f <= 12 * e.
Proof.
  intros ((A & B & C) & (D0 & D1 & D2 & D3 & D4 & D5 & D6 & D7 & D8)). unfold close in *. unfold perr, rerr, vn, rn, v_sub, r_minus; cbn [vx vy vz r0 r1 r2 r3 r4 r5 r6 r7 r8].
  rewrite (Rabs_minus_sym (vx (fp g))), (Rabs_minus_sym (vy (fp g))), (Rabs_minus_sym (vz (fp g))).
  rewrite (Rabs_minus_sym (r0 (fM g))), (Rabs_minus_sym (r1 (fM g))), (Rabs_minus_sym (r2 (fM g))), (Rabs_minus_sym (r3 (fM g))), (Rabs_minus_sym (r4 (fM g))),
   (Rabs_minus_sym (r5 (fM g))), (Rabs_minus_sym (r6 (fM g))), (Rabs_minus_sym (r7 (fM g))), (Rabs_minus_sym (r8 (fM g))). lra.
Qed.

(** Choice of the radii. *)
Lemma newton_radii c q0 rho B r beta : chain_ok c -> length q0 = ch_nj c -> 0 < rho -> 0 <= B -> 1 <= beta -> 0 <= r -> 1296 * beta * r <= 1 ->
  exists e delta, 0 < e <= rho /\ 0 < delta /\
   (e <= / 30 /\ forall g q d, rigid g -> length q = length q0 -> length d = length q0 -> d1 q q0 <= e ->
    perr g (tip c q) + rerr g (tip c q) <= e ->
    let t := f_diff (tip c q) g 1 in let q' := line q d 1 in
    s1 d <= B * tn t -> (forall i, (i < 6)%nat -> Rabs (image (ch_nj c) (tip_jacobian c q) d i - t_at t i) <= r * tn t) ->
    tn t <= 9 * (perr g (tip c q) + rerr g (tip c q)) /\ vn (tvel t) = perr g (tip c q) /\
    perr g (tip c q') <= / (36 * beta) * tn t /\
    (rerr g (tip c q') <= / (36 * beta) * tn t \/ trot t = v_zero /\ rn (r_minus (fM (tip c q')) (fM (tip c q))) <= / (36 * beta) * tn t)) /\
   forall q g, joints_within delta q q0 -> f_close (tip c q0) g delta -> near c q0 B e g q.
Proof.
  intros Hok Hq Hrho HB Hbeta Hr Hrb.
  assert (Hk : 0 < / (36 * beta)) by (apply Rinv_0_lt_compat; lra).
  assert (Hrk : 36 * r <= / (36 * beta)).
  { apply Rmult_le_reg_r with (36 * beta); [lra|]. rewrite Rinv_l by lra. lra. }
  destruct (newton_step c q0 Hok Hq B r (/ (36 * beta)) HB Hr Hk Hrk) as (eta & Heta & Hstep).
  destruct (pose_lip c q0 Hok Hq) as (L & PL & HL).
  set (e := Rmin eta rho). assert (E1 : e <= eta) by apply Rmin_l. assert (E2 : e <= rho) by apply Rmin_r.
  assert (E0 : 0 < e) by (apply Rmin_glb_lt; lra).
  set (N := INR (ch_nj c)). assert (HN : 0 <= N) by apply pos_INR.
  set (C := 1 + (N + 1) + (18 * B + 1) * (12 + L * N)). assert (HC : 1 <= C) by (unfold C; assert (0 <= L * N) by nra; nra).
  exists e, (e / C). split; [lra|]. split; [apply Rdiv_lt_0_compat; lra|]. split.
  - split; [lra|]. intros g q d Hg Hl Hd Dq Eq. apply Hstep; auto; lra.
  - intros q g Wq Fq. set (dl := e / C) in *. assert (Ed : e = dl * C) by (unfold dl; field; lra).
    assert (D0 : 0 < dl) by (apply Rdiv_lt_0_compat; lra).
    assert (LN : 0 <= L * N) by nra. assert (BL : 0 <= B * (L * N)) by (apply Rmult_le_pos; assumption).
    assert (Lq : length q = length q0) by apply Wq. apply within_d1 in Wq. rewrite Hq in Wq. fold N in Wq.
    assert (ND : N * dl <= 1).
    { assert (N * dl <= e); [|lra]. rewrite Ed. unfold C. assert (0 <= (18 * B + 1) * (12 + L * N)) by nra. nra. }
    specialize (HL q Lq ltac:(lra)). apply close_errs in Fq.
    assert (Er : err c g q <= (12 + L * N) * dl).
    { unfold err, perr, rerr in *. pose proof (vn_sub_tri (fp g) (fp (tip c q0)) (fp (tip c q))).
      pose proof (rn_minus_triangle (fM g) (fM (tip c q0)) (fM (tip c q))).
      assert (L * d1 q q0 <= L * (N * dl)) by (apply Rmult_le_compat_l; assumption). lra. }
    assert (Pos1 : 0 <= N * dl) by nra. assert (Pos2 : 0 <= (12 + L * N) * dl) by nra. assert (Pos3 : 0 <= B * ((12 + L * N) * dl)) by nra.
    split; [exact Lq|]. split.
    + assert (18 * B * err c g q <= 18 * B * ((12 + L * N) * dl)) by (apply Rmult_le_compat_l; [lra|exact Er]).
      rewrite Ed. unfold C. lra.
    + rewrite Ed. unfold C. lra.
Qed.

(** ** Any accurate velocity solver *)
Lemma nr_local (W : Type) (fk : W -> list R -> outcome (Z * Frame * W)) (ikv : W -> list R -> Twist -> list R -> outcome (Z * list R * W)) Inv c q0 rho B r beta :
  chain_ok c -> length q0 = ch_nj c -> 0 < rho -> 0 <= B -> 1 <= beta -> 0 <= r -> 1296 * beta * r <= 1 ->
  forward_solver c Inv fk -> velocity_solver c q0 rho B r Inv ikv ->
  exists delta, 0 < delta /\ forall s m w q g qo,
    0 < nr_eps s <= / 2 -> 1 <= beta ^ m * nr_eps s -> ((m + 1) * (m + 1) <= nr_maxiter s)%nat ->
    nr_nj s = ch_nj c -> length (nr_delta s) = ch_nj c -> length qo = ch_nj c -> Inv w ->
    joints_within delta q q0 -> rigid g -> f_close (tip c q0) g delta ->
    exists q' s' w', nr_CartToJnt fk ikv c s w q g qo = Ret (E_NOERROR, q', s', w') /\ Inv w' /\
      joints_within rho q' q0 /\ pose_within (nr_eps s) (tip c q') g.
Proof.
  intros Hok Hq Hrho HB Hbeta Hr Hrb Hfk Hik.
  destruct (newton_radii c q0 rho B r beta Hok Hq Hrho HB Hbeta Hr Hrb) as (e & delta & He & Hd & Hst & Hn).
  exists delta. split; [exact Hd|]. intros s m w q g qo Heps Hm Hmax Nj Ld Lqo Iw Wq Hg Fq.
  pose proof (Hn q g Wq Fq) as Nq. pose proof (err_nn c g q) as En. destruct Nq as (Lq & Dq & Eq). destruct Hst as (E30 & Hst).
  destruct (nr_converges c q0 Hok Hq fk ikv Inv rho B r beta e HB Hbeta Hfk Hik He (conj E30 Hst) g Hg (nr_eps s) Heps m Hm
    (nr_maxiter s) m m w q (nr_delta s)) as (q' & d' & w' & R1 & Iw' & Ld' & Lq' & Wq' & Pq').
  { lia. } { exact Iw. } { split; [|split]; assumption. } { exact Ld. } { lra. } { lra. }
  unfold nr_CartToJnt. rewrite Nj, Lqo, Nat.eqb_refl. replace (length q =? ch_nj c)%nat with true by (symmetry; apply Nat.eqb_eq; lia).
  cbn [negb orb]. rewrite R1. cbn [obind]. do 3 eexists. split; [reflexivity|]. auto.
Qed.

Lemma nrjl_local (W : Type) (fk : W -> list R -> outcome (Z * Frame * W)) (ikv : W -> list R -> Twist -> list R -> outcome (Z * list R * W)) Inv c q0 rho B r beta :
  chain_ok c -> length q0 = ch_nj c -> 0 < rho -> 0 <= B -> 1 <= beta -> 0 <= r -> 1296 * beta * r <= 1 ->
  forward_solver c Inv fk -> velocity_solver c q0 rho B r Inv ikv ->
  exists delta, 0 < delta /\ forall s m w q g qo,
    0 < nj_eps s <= / 2 -> 1 <= beta ^ m * nj_eps s -> ((m + 1) * (m + 1) <= nj_maxiter s)%nat ->
    nj_nj s = ch_nj c -> length (nj_delta s) = ch_nj c -> length qo = ch_nj c -> Inv w ->
    length (nj_min s) = ch_nj c -> length (nj_max s) = ch_nj c ->
    (forall i, (i < ch_nj c)%nat -> nth i (nj_min s) 0 + rho <= nth i q0 0 <= nth i (nj_max s) 0 - rho) ->
    joints_within delta q q0 -> rigid g -> f_close (tip c q0) g delta ->
    exists q' s' w', nrjl_CartToJnt fk ikv c s w q g qo = Ret (E_NOERROR, q', s', w') /\ Inv w' /\
      joints_within rho q' q0 /\ pose_within (nj_eps s) (tip c q') g.
Proof.
  intros Hok Hq Hrho HB Hbeta Hr Hrb Hfk Hik.
  destruct (newton_radii c q0 rho B r beta Hok Hq Hrho HB Hbeta Hr Hrb) as (e & delta & He & Hd & Hst & Hn).
  exists delta. split; [exact Hd|]. intros s m w q g qo Heps Hm Hmax Nj Ld Lqo Iw Llo Lhi Lim Wq Hg Fq.
  pose proof (Hn q g Wq Fq) as Nq. pose proof (err_nn c g q) as En. destruct Nq as (Lq & Dq & Eq). destruct Hst as (E30 & Hst).
  destruct (nrjl_converges c q0 Hok Hq fk ikv Inv rho B r beta e HB Hbeta Hfk Hik He (conj E30 Hst) g Hg (nj_eps s) Heps m Hm s eq_refl ltac:(lia) ltac:(lia)
    ltac:(rewrite Hq; exact Lim) (nj_maxiter s) m m w q (nj_delta s)) as (q' & d' & w' & R1 & Iw' & Ld' & Lq' & Wq' & Pq').
  { lia. } { exact Iw. } { split; [|split]; assumption. } { exact Ld. } { lra. } { lra. }
  unfold nrjl_CartToJnt. rewrite Nj, Lqo, Llo, Lhi, Nat.eqb_refl. replace (ch_nj c =? length q)%nat with true by (symmetry; apply Nat.eqb_eq; lia).
  cbn [negb orb]. rewrite R1. cbn [obind]. do 3 eexists. split; [reflexivity|]. auto.
Qed.

(** ** The library's own inner solvers *)
Lemma own_forward (W : Type) (Inv : W -> Prop) c : chain_ok c -> forward_solver c Inv (own_fk c).
Proof.
  intros [Hw _] w q Iw Lq. unfold own_fk. exists w. split; [|exact Iw].
  rewrite (fk_result c q (-1) (length (ch_segs c)) Hw) by (left; split; [lia|reflexivity]). rewrite Lq, Nat.eqb_refl, Nat.leb_refl. reflexivity.
Qed.
Lemma nr_pinv svd c q0 rho eps k low beta :
  chain_ok c -> length q0 = ch_nj c -> (Z.of_nat (ch_nj c) < 2 ^ 32)%Z -> 0 < rho -> 0 < eps -> eps * eps < low -> 1 <= beta ->
  stretches (ch_nj c) 6 low (transposed (tip_jacobian c q0)) ->
  (forall q, joints_within rho q q0 -> let d := svd k (mkM 6 (ch_nj c) (tip_jacobian c q)) in dc_rc d = 0%Z /\ svd_of 6 (ch_nj c) (tip_jacobian c q) d) ->
  exists delta, 0 < delta /\ forall m maxiter epsp q g qo,
    0 < epsp <= / 2 -> 1 <= beta ^ m * epsp -> ((m + 1) * (m + 1) <= maxiter)%nat -> length qo = ch_nj c ->
    joints_within delta q q0 -> rigid g -> f_close (tip c q0) g delta ->
    exists q' s' w', nr_CartToJnt (own_fk c) (pinv_CartToJnt svd c) c (nr_make c maxiter epsp) (pinv_make c eps k) q g qo = Ret (E_NOERROR, q', s', w') /\
      joints_within rho q' q0 /\ pose_within epsp (tip c q') g.
Proof.
  intros Hok Hq Hn Hrho He Hl Hb Hst Hsvd.
  destruct (pinv_velocity_solver svd c q0 rho eps k low Hok Hq Hn Hrho He Hl Hst Hsvd) as (rho1 & Hrho1 & Hik).
  destruct (nr_local pinv (own_fk c) (pinv_CartToJnt svd c) (pinv_ready c eps k) c q0 rho1 (INR (ch_nj c) / eps) 0 beta Hok Hq) as (delta & Hd & H); auto.
  { lra. } { unfold Rdiv. apply Rmult_le_pos; [apply pos_INR|left; apply Rinv_0_lt_compat; exact He]. } { lra. } { lra. } { apply own_forward, Hok. }
  exists delta. split; [exact Hd|]. intros m maxiter epsp q g qo Hep Hm Hmax Lqo Wq Hg Fq.
  destruct (H (nr_make c maxiter epsp) m (pinv_make c eps k) q g qo) as (q' & s' & w' & R1 & _ & Wq' & Pq'); auto.
  { apply repeat_length. } { apply pinv_make_ready. }
  exists q', s', w'. split; [exact R1|]. split; [|exact Pq'].
  destruct Wq' as (W1 & W2). split; [exact W1|]. intros i Hi. eapply Rle_trans; [apply W2; exact Hi|apply Hrho1].
Qed.
Lemma nrjl_pinv svd c q0 rho eps k low beta :
  chain_ok c -> length q0 = ch_nj c -> (Z.of_nat (ch_nj c) < 2 ^ 32)%Z -> 0 < rho -> 0 < eps -> eps * eps < low -> 1 <= beta ->
  stretches (ch_nj c) 6 low (transposed (tip_jacobian c q0)) ->
  (forall q, joints_within rho q q0 -> let d := svd k (mkM 6 (ch_nj c) (tip_jacobian c q)) in dc_rc d = 0%Z /\ svd_of 6 (ch_nj c) (tip_jacobian c q) d) ->
  exists delta, 0 < delta /\ forall m maxiter epsp lo hi q g qo,
    0 < epsp <= / 2 -> 1 <= beta ^ m * epsp -> ((m + 1) * (m + 1) <= maxiter)%nat -> length qo = ch_nj c ->
    length lo = ch_nj c -> length hi = ch_nj c -> (forall i, (i < ch_nj c)%nat -> nth i lo 0 + rho <= nth i q0 0 <= nth i hi 0 - rho) ->
    joints_within delta q q0 -> rigid g -> f_close (tip c q0) g delta ->
    exists q' s' w', nrjl_CartToJnt (own_fk c) (pinv_CartToJnt svd c) c (nrjl_make c lo hi maxiter epsp) (pinv_make c eps k) q g qo = Ret (E_NOERROR, q', s', w') /\
      joints_within rho q' q0 /\ pose_within epsp (tip c q') g.
Proof.
  intros Hok Hq Hn Hrho He Hl Hb Hst Hsvd.
  destruct (pinv_velocity_solver svd c q0 rho eps k low Hok Hq Hn Hrho He Hl Hst Hsvd) as (rho1 & Hrho1 & Hik).
  destruct (nrjl_local pinv (own_fk c) (pinv_CartToJnt svd c) (pinv_ready c eps k) c q0 rho1 (INR (ch_nj c) / eps) 0 beta Hok Hq) as (delta & Hd & H); auto.
  { lra. } { unfold Rdiv. apply Rmult_le_pos; [apply pos_INR|left; apply Rinv_0_lt_compat; exact He]. } { lra. } { lra. } { apply own_forward, Hok. }
  exists delta. split; [exact Hd|]. intros m maxiter epsp lo hi q g qo Hep Hm Hmax Lqo Llo Lhi Lim Wq Hg Fq.
  destruct (H (nrjl_make c lo hi maxiter epsp) m (pinv_make c eps k) q g qo) as (q' & s' & w' & R1 & _ & Wq' & Pq'); auto.
  { apply repeat_length. } { apply pinv_make_ready. } { intros i Hi. specialize (Lim i Hi). cbn [nrjl_make nj_min nj_max]. lra. }
  exists q', s', w'. split; [exact R1|]. split; [|exact Pq'].
  destruct Wq' as (W1 & W2). split; [exact W1|]. intros i Hi. eapply Rle_trans; [apply W2; exact Hi|apply Hrho1].
Qed.
