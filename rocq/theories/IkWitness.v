(** Concrete runs of the Newton-Raphson solvers on a one-joint slide. *)
From Coq Require Import Reals String List ZArith Bool Arith Lia Lra.
From Verif Require Import FramesModel FramesSpec FramesProofs Outcome LoopProofs InertiaModel DualModel KinModel KinSpec JntModel
  LinModel LinSpec SumProofs IkModel IkSpec IkGeoProofs KinProofs PathProofs3 IkProofs IkProofs2.
Import ListNotations.
Local Open Scope list_scope.
Local Open Scope R_scope.

(** A single prismatic joint along x. *)
Definition slide : Chain :=
  chain_addSegment chain_empty
    (mkS "carriage"%string (mkJ "rail"%string TransX 1 0 0 0 0 v_zero v_zero) rb_zero f_id).
Definition at_x (x : R) : Frame := mkF r_id (mkV x 0 0).
(** The exact velocity solver of this chain. *)
Definition slide_ik : unit -> list R -> Twist -> list R -> outcome (Z * list R * unit) :=
  fun w q t d => Ret (0%Z, [vx (tvel t)], w).

Lemma slide_ok : chain_ok slide.
Proof.
  split; [split; reflexivity|]. constructor; [|constructor]. split.
  - intros H; discriminate.
  - apply is_rotation_id.
Qed.
Lemma slide_fk w x : kdl_fk slide w [x] = Ret (0%Z, at_x x, w).
Proof.
  unfold kdl_fk. rewrite (fk_result slide [x] (-1) 1 (proj1 slide_ok)) by (left; split; [lia|reflexivity]).
  cbn [length ch_nj slide chain_addSegment chain_empty Nat.eqb Nat.leb obind].
  replace (tip_frame slide [x] 1) with (at_x x); [reflexivity|].
  unfold at_x, tip_frame, slide; cbn. unfold f_mul, f_id, r_mul, r_app, v_add, r_id; cbn.
  f_equal; f_equal; ring.
Qed.
Lemma slide_diff x y : f_diff (at_x x) (at_x y) 1 = mkT (mkV (y - x) 0 0) (mkV 0 0 0).
Proof.
  unfold f_diff, at_x, r_diff; psimp. replace (r_mul (r_inv r_id) r_id) with r_id by geo.
  unfold r_GetRot. rewrite angle_id.
  unfold v_diff, v_div, v_sub, v_scale, r_app, r_id; cbn. f_equal; f_equal; field.
Qed.

Lemma slide_far x y eps : eps <= Rabs (y - x) -> t_Equal (f_diff (at_x x) (at_x y) 1) t_zero eps = false.
Proof.
  intros H. destruct (t_Equal _ _ _) eqn:E; [|reflexivity]. exfalso.
  apply FrameOpsProofs.t_Equal_close in E. rewrite slide_diff in E.
  destruct E as [(E & _) _]. unfold close, t_zero, v_zero in E. cbn [tvel vx] in E. rewrite Rminus_0_r in E. lra.
Qed.
Lemma slide_near x y eps : Rabs (y - x) < eps -> t_Equal (f_diff (at_x x) (at_x y) 1) t_zero eps = true.
Proof.
  intros H. apply FrameOpsProofs.t_Equal_close. rewrite slide_diff.
  assert (0 < eps) by (eapply Rle_lt_trans; [apply Rabs_pos|exact H]).
  unfold t_close, v_close, close, t_zero, v_zero. cbn [tvel trot vx vy vz]. rewrite !Rminus_0_r, Rabs_R0. repeat split; lra.
Qed.

Lemma dbl_min_pos : 0 < dbl_min.
Proof. unfold dbl_min. apply Rinv_0_lt_compat. apply pow_lt. lra. Qed.
Lemma dbl_max_pos : 1 <= dbl_max.
Proof.
  unfold dbl_max. assert (1 <= 2 ^ 1023) by (apply pow_R1_Rle; lra).
  assert (1 <= 2 ^ 52) by (apply pow_R1_Rle; lra).
  assert (/ 2 ^ 52 <= 1) by (rewrite <- Rinv_1; apply Rinv_le_contravar; lra).
  generalize dependent (2 ^ 1023). generalize dependent (/ 2 ^ 52). intros; nra.
Qed.

Lemma clamp_low1 m x : clamp_low [m] [x] = Ret [if Rlt_dec x m then m else x].
Proof. unfold clamp_low. cbn. destruct (Rlt_dec x m); reflexivity. Qed.
Lemma clamp_high1 m x : clamp_high [m] [x] = Ret [if Rgt_dec x m then m else x].
Proof. unfold clamp_high. cbn. destruct (Rgt_dec x m); reflexivity. Qed.

(** The constructor without limits: the exact step to a negative position is
    always undone, so the target at -1 is never reached. *)
Lemma nolimits_stuck n eps : 0 < eps <= 1 -> forall w d x, 0 <= x -> exists y d',
  nrjl_loop (kdl_fk slide) slide_ik n (nrjl_make_nolimits slide n eps) (at_x (-1)) w [x] d = Ret (Exhausted, [y], d', w) /\ 0 <= y.
Proof.
  intros [H0 H1]. generalize n at 2. intros m. pose proof dbl_min_pos as DP. pose proof dbl_max_pos as DM.
  induction n as [|n IH]; intros w d x Hx; cbn [nrjl_loop]; [eauto|].
  rewrite slide_fk. cbn [obind]. change (0 <? 0)%Z with false. cbn match.
  cbn [nj_eps nrjl_make_nolimits].
  rewrite slide_far by (rewrite Rabs_left by lra; lra).
  unfold slide_ik at 1. cbn [obind]. change (0 <? 0)%Z with false. cbn match.
  rewrite slide_diff. cbn [tvel vx]. unfold jnt_plus. cbn [length Nat.eqb combine map fst snd obind].
  change (nj_min (nrjl_make_nolimits slide m eps)) with [dbl_min].
  change (nj_max (nrjl_make_nolimits slide m eps)) with [dbl_max].
  rewrite clamp_low1. cbn [obind]. destruct (Rlt_dec (x + (-1 - x)) dbl_min) as [L|L]; [|exfalso; lra].
  rewrite clamp_high1. cbn [obind]. destruct (Rgt_dec dbl_min dbl_max); apply IH; lra.
Qed.

(** * Findings and examples for the property file *)

Lemma nolimits_forbids_negative : forall maxiter eps, 0 < eps <= 1 ->
  (exists q s', nrjl_CartToJnt (kdl_fk slide) slide_ik slide (nrjl_make_nolimits slide maxiter eps) tt [0] (at_x (-1)) [0]
     = Ret (E_MAX_ITERATIONS_EXCEEDED, q, s', tt)) /\
  pose_within eps (tip_frame slide [-1] 1) (at_x (-1)).
Proof.
  intros n eps He. split.
  - destruct (nolimits_stuck n eps He tt (jnt_make 1) 0 (Rle_refl 0)) as (y & d' & E & _).
    unfold nrjl_CartToJnt. do 2 match goal with |- context [if ?b then _ else _] => change b with false; cbn match end.
    change (nj_maxiter (nrjl_make_nolimits slide n eps)) with n.
    change (nj_delta (nrjl_make_nolimits slide n eps)) with (jnt_make 1). rewrite E.
    cbn [obind]. eauto.
  - assert (E : tip_frame slide [-1] 1 = at_x (-1)).
    { symmetry. apply (kdl_fk_correct slide (proj1 slide_ok) tt [-1] 0%Z _ tt (slide_fk tt (-1))); [lia|reflexivity]. }
    rewrite E. assert (0 < kdl_epsilon) by (unfold kdl_epsilon; lra).
    assert (K : forall x, Rabs (x - x) = 0) by (intros; unfold Rminus; rewrite Rplus_opp_r; apply Rabs_R0).
    split; unfold v_close, r_close, close; rewrite !K; repeat split; lra.
Qed.

Lemma limits_reach : exists s', nrjl_CartToJnt (kdl_fk slide) slide_ik slide
     (nrjl_make slide [-10] [10] 2 (1 / 100)) tt [0] (at_x (-1)) [0] = Ret (E_NOERROR, [-1], s', tt).
Proof.
  unfold nrjl_CartToJnt. cbn [nj_nj nrjl_make nj_min nj_max nj_maxiter nj_delta nj_eps length].
  change (ch_nj slide) with 1%nat. cbn [Nat.eqb negb orb length nrjl_loop].
  rewrite slide_fk. cbn [obind]. change (0 <? 0)%Z with false. cbn match. cbn [nj_eps nrjl_make].
  rewrite slide_far by (rewrite Rabs_left by lra; lra).
  unfold slide_ik at 1. cbn [obind]. change (0 <? 0)%Z with false. cbn match.
  rewrite slide_diff. cbn [tvel vx]. unfold jnt_plus. cbn [length Nat.eqb combine map fst snd obind nj_min nj_max nrjl_make].
  rewrite clamp_low1. cbn [obind]. destruct (Rlt_dec _ _) as [L|L]; [exfalso; lra|].
  rewrite clamp_high1. cbn [obind]. destruct (Rgt_dec _ _) as [G|G]; [exfalso; lra|].
  replace (0 + (-1 - 0)) with (-1) by ring.
  rewrite slide_fk. cbn [obind]. change (0 <? 0)%Z with false. cbn match.
  rewrite slide_near by (unfold Rminus; rewrite Rplus_opp_r, Rabs_R0; lra).
  cbn [obind]. eauto.
Qed.

(** A start that already satisfies the target but not the limits is returned as it is. *)
Lemma start_outside_limits : exists s', nrjl_CartToJnt (kdl_fk slide) slide_ik slide
     (nrjl_make slide [0] [1] 5 (1 / 100)) tt [2] (at_x 2) [0] = Ret (E_NOERROR, [2], s', tt) /\ ~ within [0] [1] [2].
Proof.
  unfold nrjl_CartToJnt. cbn [nj_nj nrjl_make nj_min nj_max nj_maxiter nj_delta nj_eps length].
  change (ch_nj slide) with 1%nat. cbn [Nat.eqb negb orb length nrjl_loop].
  rewrite slide_fk. cbn [obind]. change (0 <? 0)%Z with false. cbn match. cbn [nj_eps nrjl_make].
  rewrite slide_near by (unfold Rminus; rewrite Rplus_opp_r, Rabs_R0; lra).
  cbn [obind]. eexists. split; [reflexivity|]. intros (_ & _ & H). specialize (H 0%nat (Nat.lt_0_succ _)). cbn in H. lra.
Qed.

(** ChainIkSolverPos_NR: a failed call followed by a successful one leaves the
    old code in getError(). *)
Lemma nr_stale_error :
  let s0 := nr_make slide 1 (1 / 100) in
  exists s1 s2 q1, nr_CartToJnt (kdl_fk slide) slide_ik slide s0 tt [5] (at_x 0) [0] = Ret (E_MAX_ITERATIONS_EXCEEDED, q1, s1, tt) /\
    nr_CartToJnt (kdl_fk slide) slide_ik slide s1 tt [0] (at_x 0) [0] = Ret (E_NOERROR, [0], s2, tt) /\
    nr_error s2 = E_MAX_ITERATIONS_EXCEEDED.
Proof.
  unfold nr_CartToJnt. cbn [nr_nj nr_make nr_maxiter nr_delta nr_eps length].
  change (ch_nj slide) with 1%nat. cbn [Nat.eqb negb orb length nr_loop].
  rewrite slide_fk. cbn [obind]. change (0 <? E_NOERROR)%Z with false. cbn match.
  unfold slide_ik at 1. cbn [obind]. change (0 <? E_NOERROR)%Z with false. cbn match.
  rewrite slide_far by (rewrite Rabs_left by lra; lra).
  rewrite slide_diff. cbn [tvel vx]. unfold jnt_plus at 1. cbn [length Nat.eqb combine map fst snd obind].
  do 3 eexists. split; [reflexivity|]. cbn [nr_nj nr_maxiter nr_delta nr_eps Nat.eqb negb orb nr_loop].
  rewrite slide_fk. cbn [obind]. change (0 <? E_NOERROR)%Z with false. cbn match.
  unfold slide_ik at 1. cbn [obind]. change (0 <? E_NOERROR)%Z with false. cbn match.
  rewrite slide_near by (unfold Rminus; rewrite Rplus_opp_r, Rabs_R0; lra).
  rewrite slide_diff. cbn [tvel vx]. unfold jnt_plus. cbn [length Nat.eqb combine map fst snd obind].
  change (E_NOERROR <? 0)%Z with false. replace (0 + (0 - 0)) with 0 by ring. split; reflexivity.
Qed.

(** The pose it tested is not the pose of q_out. *)
Definition pushing_ik : unit -> list R -> Twist -> list R -> outcome (Z * list R * unit) :=
  fun w q t d => Ret (0%Z, [1], w).
Lemma nr_untested : exists s', nr_CartToJnt (kdl_fk slide) pushing_ik slide (nr_make slide 5 (1 / 100)) tt [0] (at_x 0) [0]
   = Ret (E_NOERROR, [1], s', tt) /\ ~ pose_within (1 / 100) (tip_frame slide [1] 1) (at_x 0).
Proof.
  unfold nr_CartToJnt. cbn [nr_nj nr_make nr_maxiter nr_delta nr_eps length].
  change (ch_nj slide) with 1%nat. cbn [Nat.eqb negb orb length nr_loop].
  rewrite slide_fk. cbn [obind]. change (0 <? E_NOERROR)%Z with false. cbn match.
  unfold pushing_ik at 1. cbn [obind]. change (0 <? E_NOERROR)%Z with false. cbn match.
  rewrite slide_near by (unfold Rminus; rewrite Rplus_opp_r, Rabs_R0; lra).
  unfold jnt_plus at 1. cbn [length Nat.eqb combine map fst snd obind].
  change (E_NOERROR <? 0)%Z with false. replace (0 + 1) with 1 by ring. eexists. split; [reflexivity|].
  assert (E : tip_frame slide [1] 1 = at_x 1).
  { symmetry. apply (kdl_fk_correct slide (proj1 slide_ok) tt [1] 0%Z _ tt (slide_fk tt 1)); [lia|reflexivity]. }
  rewrite E. intros ((H & _) & _). unfold close, at_x in H. cbn in H. rewrite Rminus_0_r, Rabs_R1 in H. lra.
Qed.
