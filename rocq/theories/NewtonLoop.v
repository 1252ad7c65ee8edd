(** Convergence of the loops of ChainIkSolverPos_NR and ChainIkSolverPos_NR_JL. *)
From Coq Require Import Reals String List ZArith Bool Arith Lia Lra Psatz.
From Verif Require Import FramesModel FramesSpec FramesProofs FrameOpsProofs Outcome InertiaModel DualModel KinModel KinSpec DerivProofs KinProofs JacProofs JacDotProofs JntModel
  LinModel LinSpec SumProofs IkModel IkSpec IkProofs IkGeoProofs VelIkModel VelIkSpec VelIkWitness RotNear LipProofs TaylorProofs NewtonSpec NewtonProofs.
Import ListNotations.
Local Open Scope R_scope.

Lemma jnt_plus_line q d : length d = length q -> jnt_plus q d = Ret (line q d 1).
Proof.
  intros H. unfold jnt_plus, line. rewrite H, Nat.eqb_refl. f_equal. apply map_ext. intros [a b]. cbn [fst snd]. ring.
Qed.
Lemma rn_entries r e : rn r < e -> Rabs (r0 r) < e /\ Rabs (r1 r) < e /\ Rabs (r2 r) < e /\ Rabs (r3 r) < e /\ Rabs (r4 r) < e /\
  Rabs (r5 r) < e /\ Rabs (r6 r) < e /\ Rabs (r7 r) < e /\ Rabs (r8 r) < e.
Proof.
  unfold rn. pose proof (Rabs_pos (r0 r)). pose proof (Rabs_pos (r1 r)). pose proof (Rabs_pos (r2 r)). pose proof (Rabs_pos (r3 r)).
  pose proof (Rabs_pos (r4 r)). pose proof (Rabs_pos (r5 r)). pose proof (Rabs_pos (r6 r)). pose proof (Rabs_pos (r7 r)). pose proof (Rabs_pos (r8 r)).
  intros. repeat split; lra.
Qed.
Lemma perr_close g f e : perr g f < e -> v_close (fp f) (fp g) e.
Proof.
  unfold perr, vn, v_sub; cbn [vx vy vz]. intros H. unfold v_close, close.
  rewrite (Rabs_minus_sym (vx (fp f))), (Rabs_minus_sym (vy (fp f))), (Rabs_minus_sym (vz (fp f))).
  pose proof (Rabs_pos (vx (fp g) - vx (fp f))). pose proof (Rabs_pos (vy (fp g) - vy (fp f))). pose proof (Rabs_pos (vz (fp g) - vz (fp f))).
  repeat split; lra.
Qed.
Lemma rerr_close g f e : rerr g f < e -> r_close (fM f) (fM g) e.
Proof.
  unfold rerr. intros H. apply rn_entries in H. unfold r_minus in H; cbn [r0 r1 r2 r3 r4 r5 r6 r7 r8] in H.
  unfold r_close, close. rewrite (Rabs_minus_sym (r0 (fM f))), (Rabs_minus_sym (r1 (fM f))), (Rabs_minus_sym (r2 (fM f))), (Rabs_minus_sym (r3 (fM f))),
    (Rabs_minus_sym (r4 (fM f))), (Rabs_minus_sym (r5 (fM f))), (Rabs_minus_sym (r6 (fM f))), (Rabs_minus_sym (r7 (fM f))), (Rabs_minus_sym (r8 (fM f))). tauto.
Qed.
Lemma r_close_step a b g e1 e2 : rn (r_minus b a) < e2 -> r_close a g e1 -> r_close b g (e1 + e2).
Proof.
  intros H. apply rn_entries in H. unfold r_minus in H; cbn [r0 r1 r2 r3 r4 r5 r6 r7 r8] in H. unfold r_close, close. intros G.
  assert (K : forall x y z, Rabs (y - x) < e2 -> Rabs (x - z) < e1 -> Rabs (y - z) < e1 + e2).
  { intros x y z A C. replace (y - z) with ((y - x) + (x - z)) by ring. eapply Rle_lt_trans; [apply Rabs_triang|]. lra. }
  decompose [and] H. decompose [and] G. repeat split; eapply K; eassumption.
Qed.
Lemma t_Equal_small t eps : t_Equal t t_zero eps = true -> tn t < 6 * eps.
Proof.
  intros T. apply t_Equal_close in T. destruct T as [(P1 & P2 & P3) (Q1 & Q2 & Q3)]. unfold close, t_zero, v_zero in *. cbn [tvel trot vx vy vz] in *.
  rewrite Rminus_0_r in *. unfold tn, vn. lra.
Qed.
Lemma t_Equal_big t eps : t_Equal t t_zero eps = false -> eps <= tn t.
Proof.
  intros T. apply Rnot_lt_le. intros L. assert (t_Equal t t_zero eps = true); [|congruence].
  apply t_Equal_close. unfold t_close, v_close, close, t_zero, v_zero. cbn [tvel trot vx vy vz]. rewrite !Rminus_0_r. unfold tn, vn in L.
  pose proof (Rabs_pos (vx (tvel t))). pose proof (Rabs_pos (vy (tvel t))). pose proof (Rabs_pos (vz (tvel t))).
  pose proof (Rabs_pos (vx (trot t))). pose proof (Rabs_pos (vy (trot t))). pose proof (Rabs_pos (vz (trot t))). repeat split; lra.
Qed.
Lemma vn_v_zero : vn v_zero = 0. Proof. unfold vn, v_zero; cbn [vx vy vz]. rewrite Rabs_R0. ring. Qed.
Lemma rotation_dropped f g eps : rigid f -> rigid g -> 0 < eps <= / 2 -> r_diff (fM f) (fM g) 1 = v_zero -> r_close (fM f) (fM g) (2 * (eps + kdl_epsilon)).
Proof.
  intros Hf Hg He E. apply (diff_small (mkF (fM f) (fp g)) g eps); auto; [lra|].
  apply t_Equal_close. unfold f_diff; cbn [fM fp]. rewrite E. unfold t_close, v_close, close, v_diff, v_div, v_sub, t_zero, v_zero; cbn [tvel trot vx vy vz].
  replace ((vx (fp g) - vx (fp g)) / 1 - 0) with 0 by field. replace ((vy (fp g) - vy (fp g)) / 1 - 0) with 0 by field.
  replace ((vz (fp g) - vz (fp g)) / 1 - 0) with 0 by field. rewrite Rminus_0_r, Rabs_R0. tauto.
Qed.

Section Loop.
Variable c : Chain.
Variable q0 : list R.
Hypothesis Hok : chain_ok c.
Hypothesis Hq0 : length q0 = ch_nj c.
Context {W : Type}.
Variable fk : W -> list R -> outcome (Z * Frame * W).
Variable ikv : W -> list R -> Twist -> list R -> outcome (Z * list R * W).
Variable Inv : W -> Prop.
Variables rho B r beta e : R.
Hypothesis HB : 0 <= B.
Hypothesis Hbeta : 1 <= beta.
Hypothesis Hfk : forward_solver c Inv fk.
Hypothesis Hik : velocity_solver c q0 rho B r Inv ikv.
Hypothesis He : 0 < e <= rho.
Let k := / (36 * beta).
Hypothesis Hstep : e <= / 30 /\ forall g q d, rigid g -> length q = length q0 -> length d = length q0 -> d1 q q0 <= e ->
    perr g (tip c q) + rerr g (tip c q) <= e ->
    let t := f_diff (tip c q) g 1 in let q' := line q d 1 in
    s1 d <= B * tn t -> (forall i, (i < 6)%nat -> Rabs (image (ch_nj c) (tip_jacobian c q) d i - t_at t i) <= r * tn t) ->
    tn t <= 9 * (perr g (tip c q) + rerr g (tip c q)) /\ vn (tvel t) = perr g (tip c q) /\
    perr g (tip c q') <= k * tn t /\
    (rerr g (tip c q') <= k * tn t \/ trot t = v_zero /\ rn (r_minus (fM (tip c q')) (fM (tip c q))) <= k * tn t).
Variable g : Frame.
Hypothesis Hg : rigid g.
Variable eps : R.
Hypothesis Heps : 0 < eps <= / 2.

Definition err q := perr g (tip c q) + rerr g (tip c q).
Definition near q := length q = length q0 /\ d1 q q0 + 18 * B * err q <= e /\ err q <= e.
Lemma err_nn q : 0 <= perr g (tip c q) <= err q.
Proof. unfold err, perr, rerr. pose proof (vn_nn (v_sub (fp g) (fp (tip c q)))). pose proof (rn_nn (r_minus (fM g) (fM (tip c q)))). lra. Qed.
Lemma k_small : 0 < k <= / 36 /\ 36 * k * beta = 1.
Proof.
  unfold k. split; [split|].
  - apply Rinv_0_lt_compat. lra.
  - apply Rinv_le_contravar; lra.
  - field. lra.
Qed.
Lemma near_within q : near q -> joints_within rho q q0.
Proof. intros (L & D & _). apply d1_within; [exact L|]. pose proof (err_nn q). assert (0 <= 18 * B * err q) by (apply Rmult_le_pos; lra). lra. Qed.

Lemma step_progress w q d : Inv w -> near q -> length d = ch_nj c ->
  let t := f_diff (tip c q) g 1 in
  exists dq w', ikv w q t d = Ret (E_NOERROR, dq, w') /\ Inv w' /\ length dq = ch_nj c /\
    jnt_plus q dq = Ret (line q dq 1) /\ near (line q dq 1) /\
    (err (line q dq 1) <= err q / beta /\ tn t <= 9 * err q \/
     tn t = perr g (tip c q) /\ perr g (tip c (line q dq 1)) <= perr g (tip c q) / beta /\ err (line q dq 1) <= err q) /\
    (t_Equal t t_zero eps = true -> pose_within eps (tip c (line q dq 1)) g).
Proof.
  intros Iw Nq Ld t. pose proof (near_within q Nq) as Wq. destruct Nq as (Lq & Dq & Eq).
  destruct (Hik w q t d Iw Wq Ld) as (dq & w' & R1 & Iw' & Ldq & Sz & Res). rewrite twist_size_tn in Sz, Res.
  rewrite <- Ldq in Sz at 1. rewrite size_s1 in Sz.
  exists dq, w'. split; [exact R1|]. split; [exact Iw'|]. split; [exact Ldq|]. split; [apply jnt_plus_line; lia|].
  destruct Hstep as (E30 & Hst). pose proof (err_nn q) as En. pose proof k_small as ((K0 & K1) & K2).
  assert (Dq' : d1 q q0 <= e) by (assert (0 <= 18 * B * err q) by (apply Rmult_le_pos; lra); lra).
  destruct (Hst g q dq Hg Lq ltac:(lia) Dq' Eq Sz Res) as (T1 & T2 & T3 & T4). clear Hst.
  change (f_diff (tip c q) g 1) with t in T1, T2, T3, T4. fold (err q) in T1. set (q' := line q dq 1) in *.
  pose proof (tn_nn t) as Tn. pose proof (err_nn q') as En'.
  assert (Lq' : length q' = length q0) by (unfold q'; rewrite line_length; lia).
  assert (Dm : d1 q' q = s1 dq) by (unfold q'; rewrite line_d1, Rabs_R1 by lia; ring).
  assert (Dt : d1 q' q0 <= s1 dq + d1 q q0) by (rewrite <- Dm; apply d1_tri; lia).
  assert (Kt : k * tn t <= tn t / 36) by nra.
  assert (Bk : forall x y : R, 36 * (k * x) <= 2 * y -> 0 <= y -> 18 * (k * x) <= y) by (intros; lra).
  assert (Div : forall x y : R, x * beta <= y -> x <= y / beta).
  { intros x y H. apply Rmult_le_reg_r with beta; [lra|]. unfold Rdiv. rewrite Rmult_assoc, Rinv_l by lra. lra. }
  assert (Dec : err q' <= err q - tn t / 18 ->
     near q').
  { intros Dc. split; [exact Lq'|]. split; [|lra].
    assert (18 * B * err q' <= 18 * B * (err q - tn t / 18)) by (apply Rmult_le_compat_l; lra). lra. }
  destruct T4 as [T4|(T4 & T5)].
  - assert (Ee : err q' <= 2 * (k * tn t)) by (unfold err; lra).
    split; [apply Dec; lra|]. split.
    + left. split; [|exact T1]. apply Div.
      apply Rle_trans with (2 * (k * (9 * err q)) * beta); [|nra].
      apply Rmult_le_compat_r; [lra|]. assert (k * tn t <= k * (9 * err q)) by (apply Rmult_le_compat_l; lra). lra.
    + intros TE. apply t_Equal_small in TE. split; [apply perr_close; lra|apply rerr_close]. unfold kdl_epsilon. lra.
  - assert (Et : tn t = perr g (tip c q)) by (unfold tn; rewrite T4, vn_v_zero, T2; ring).
    assert (Ee : err q' <= err q - tn t / 18).
    { unfold err. assert (rerr g (tip c q') <= rerr g (tip c q) + k * tn t); [|lra].
      unfold rerr. pose proof (rn_minus_triangle (fM g) (fM (tip c q)) (fM (tip c q'))) as Tr.
      assert (Sy : rn (r_minus (fM (tip c q)) (fM (tip c q'))) = rn (r_minus (fM (tip c q')) (fM (tip c q)))).
      { unfold rn, r_minus; cbn [r0 r1 r2 r3 r4 r5 r6 r7 r8].
        rewrite (Rabs_minus_sym (r0 (fM (tip c q)))), (Rabs_minus_sym (r1 (fM (tip c q)))), (Rabs_minus_sym (r2 (fM (tip c q)))), (Rabs_minus_sym (r3 (fM (tip c q)))),
          (Rabs_minus_sym (r4 (fM (tip c q)))), (Rabs_minus_sym (r5 (fM (tip c q)))), (Rabs_minus_sym (r6 (fM (tip c q)))), (Rabs_minus_sym (r7 (fM (tip c q)))), (Rabs_minus_sym (r8 (fM (tip c q)))). reflexivity. }
      lra. }
    split; [apply Dec; lra|]. split.
    + right. split; [exact Et|]. split; [|lra]. apply Div.
      apply Rle_trans with ((k * tn t) * beta); [apply Rmult_le_compat_r; lra|]. rewrite <- Et.
      replace (k * tn t * beta) with ((36 * k * beta) * tn t / 36) by field. rewrite K2. lra.
    + intros TE. apply t_Equal_small in TE. split; [apply perr_close; lra|].
      replace (2 * (eps + kdl_epsilon)) with (2 * (eps / 2 + kdl_epsilon) + eps) by field.
      apply (r_close_step (fM (tip c q))); [lra|]. apply rotation_dropped; [apply tip_frame_rigid; exact Hok|exact Hg|lra|exact T4].
Qed.

Variable m : nat.
Hypothesis Hm : 1 <= beta ^ m * eps.

(** [a] bounds the number of steps that still see a rotation error, [b] the steps until the next such one. *)
Lemma nr_converges : forall n a b w q d, (a * (m + 1) + b + 1 <= n)%nat -> Inv w -> near q -> length d = ch_nj c ->
  9 * err q < beta ^ a * eps -> perr g (tip c q) < beta ^ b * eps ->
  exists q' d' w', nr_loop fk ikv n eps g w q d = Ret (Converged false, q', d', w') /\ Inv w' /\ length d' = ch_nj c /\
    length q' = length q0 /\ joints_within rho q' q0 /\ pose_within eps (tip c q') g.
Proof.
  induction n as [|n IH]; intros a b w q d Hn Iw Nq Ld Ha Hb; [lia|]. cbn [nr_loop].
  destruct (Hfk w q Iw) as (w1 & -> & Iw1); [rewrite <- Hq0; apply Nq|]. cbn [obind].
  change (E_NOERROR <? E_NOERROR)%Z with false. cbv iota.
  destruct (step_progress w1 q d Iw1 Nq Ld) as (dq & w2 & -> & Iw2 & Ldq & JP & Nq' & Pr & Fin). cbn [obind].
  change (E_NOERROR <? E_NOERROR)%Z with false. cbv iota. rewrite JP. cbn [obind].
  destruct (t_Equal (f_diff (tip c q) g 1) t_zero eps) eqn:TE.
  - do 3 eexists. split; [reflexivity|]. split; [exact Iw2|]. split; [exact Ldq|]. split; [apply Nq'|]. split; [apply near_within, Nq'|apply Fin; reflexivity].
  - apply t_Equal_big in TE.
    assert (Pos : forall j, 0 < beta ^ j) by (intros j; apply pow_lt; lra).
    assert (Div : forall x y : R, x < beta * y -> x / beta < y).
    { intros x y H. apply Rmult_lt_reg_r with beta; [lra|]. unfold Rdiv. rewrite Rmult_assoc, Rinv_l by lra. lra. }
    destruct Pr as [(P1 & P2)|(P1 & P2 & P3)].
    + destruct a as [|a]; [cbn [pow] in Ha; lra|]. apply (IH a m); auto.
      * lia.
      * cbn [pow] in Ha. assert (9 * err q / beta < beta ^ a * eps) by (apply Div; lra). unfold Rdiv in *. lra.
      * pose proof (err_nn (line q dq 1)). destruct Nq' as (_ & _ & Q). destruct Hstep as (E30 & _). lra.
    + destruct b as [|b]; [cbn [pow] in Hb; lra|]. apply (IH a b); auto; [lia|lra|].
      cbn [pow] in Hb. eapply Rle_lt_trans; [exact P2|]. apply Div. lra.
Qed.

Lemma clamp_inside lo hi q : length lo = length q -> length hi = length q ->
  (forall i, (i < length q)%nat -> nth i lo 0 <= nth i q 0 <= nth i hi 0) -> clamp_low lo q = Ret q /\ clamp_high hi q = Ret q.
Proof.
  intros Hlo Hhi H. split.
  - destruct (clamp_low_ok lo q Hlo) as (q' & -> & L & V). f_equal. apply nth_ext with (d := 0) (d' := 0); [exact L|].
    intros i Hi. rewrite V by lia. apply Rmax_left. apply H. lia.
  - destruct (clamp_high_ok hi q Hhi) as (q' & -> & L & V). f_equal. apply nth_ext with (d := 0) (d' := 0); [exact L|].
    intros i Hi. rewrite V by lia. apply Rmin_left. apply H. lia.
Qed.
Lemma nrjl_converges s : nj_eps s = eps -> length (nj_min s) = length q0 -> length (nj_max s) = length q0 ->
  (forall i, (i < length q0)%nat -> nth i (nj_min s) 0 + rho <= nth i q0 0 <= nth i (nj_max s) 0 - rho) ->
  forall n a b w q d, (a * (m + 1) + b + 1 <= n)%nat -> Inv w -> near q -> length d = ch_nj c ->
  9 * err q < beta ^ a * eps -> perr g (tip c q) < beta ^ b * eps ->
  exists q' d' w', nrjl_loop fk ikv n s g w q d = Ret (Broke, q', d', w') /\ Inv w' /\ length d' = ch_nj c /\
    length q' = length q0 /\ joints_within rho q' q0 /\ pose_within eps (tip c q') g.
Proof.
  intros Es Lo Hi Lim. induction n as [|n IH]; intros a b w q d Hn Iw Nq Ld Ha Hb; [lia|]. cbn [nrjl_loop]. rewrite Es.
  destruct (Hfk w q Iw) as (w1 & -> & Iw1); [rewrite <- Hq0; apply Nq|]. cbn [obind].
  change (E_NOERROR <? 0)%Z with false. cbv iota.
  destruct (t_Equal (f_diff (tip c q) g 1) t_zero eps) eqn:TE.
  - do 3 eexists. split; [reflexivity|]. split; [exact Iw1|]. split; [exact Ld|]. split; [apply Nq|]. split; [apply near_within, Nq|].
    apply diff_small; auto; [apply tip_frame_rigid; exact Hok|lra].
  - destruct (step_progress w1 q d Iw1 Nq Ld) as (dq & w2 & -> & Iw2 & Ldq & JP & Nq' & Pr & Fin). cbn [obind].
    change (E_NOERROR <? 0)%Z with false. cbv iota. rewrite JP. cbn [obind]. set (q1 := line q dq 1) in *.
    destruct (near_within q1 Nq') as (L1 & W1).
    destruct (clamp_inside (nj_min s) (nj_max s) q1) as (C1 & C2).
    { lia. } { lia. }
    { intros i Hi'. rewrite L1 in Hi'. specialize (W1 i Hi'). specialize (Lim i Hi'). pose proof (Rle_abs (nth i q1 0 - nth i q0 0)). pose proof (Rle_abs (- (nth i q1 0 - nth i q0 0))) as N1. rewrite Rabs_Ropp in N1. lra. }
    rewrite C1. cbn [obind]. rewrite C2. cbn [obind].
    apply t_Equal_big in TE.
    assert (Pos : forall j, 0 < beta ^ j) by (intros j; apply pow_lt; lra).
    assert (Div : forall x y : R, x < beta * y -> x / beta < y).
    { intros x y H. apply Rmult_lt_reg_r with beta; [lra|]. unfold Rdiv. rewrite Rmult_assoc, Rinv_l by lra. lra. }
    destruct Pr as [(P1 & P2)|(P1 & P2 & P3)].
    + destruct a as [|a]; [cbn [pow] in Ha; lra|]. apply (IH a m); auto.
      * lia.
      * cbn [pow] in Ha. assert (9 * err q / beta < beta ^ a * eps) by (apply Div; lra). unfold Rdiv in *. lra.
      * pose proof (err_nn q1). destruct Nq' as (_ & _ & Q). destruct Hstep as (E30 & _). lra.
    + destruct b as [|b]; [cbn [pow] in Hb; lra|]. apply (IH a b); auto; [lia|lra|].
      cbn [pow] in Hb. eapply Rle_lt_trans; [exact P2|]. apply Div. lra.
Qed.
End Loop.
