(** Error of the velocity forward kinematics in rounded arithmetic. *)
From Coq Require Import Reals String List ZArith Bool Arith Lia Lra Psatz.
From Verif Require Import FramesModel FramesSpec FramesProofs FrameOpsProofs Outcome LoopProofs InertiaModel DualModel KinModel KinSpec DerivProofs KinProofs
  RotNear LipProofs FlModel FlSpec FlProofs FlJoint FlChain FlJacModel FlJacSpec FlJacProofs FlJacCols FlVelModel FlVelSpec.
Import ListNotations.
Local Open Scope R_scope.

(** The joint with another ratio. *)
Definition regear (s : Segment) (x : R) : Segment :=
  let j := sjoint s in
  mkS (sname s) (mkJ (jname j) (jtype j) (jscale j * x) (joffset j) (jinertia j) (jdamping j) (jstiffness j) (jaxis j) (jorigin j)) (sI s) (sf_tip s).

Section Vel.
Variables (eps A D B : R) (rnd fsin fcos : R -> R).
Hypothesis HA : 1 <= A.
Hypothesis HD : 1 <= D.
Hypothesis HB : 1 <= B.
Hypothesis He : 0 <= eps.
Let k := eps * A.
Hypothesis Hrnd : rounds eps rnd.
Hypothesis Hsin : computes eps fsin sin.
Hypothesis Hcos : computes eps fcos cos.

Lemma speed_err s' s xd : k <= / 2500 -> stored eps s' s -> v_near 1 (jaxis (sjoint s)) v_zero -> speed_within B (s, xd) ->
  let t' := fl_joint_twist rnd (sjoint s') xd in let t := joint_twist (sjoint s) xd in
  en (v_sub (tvel t') (tvel t)) <= 11 * (k * B) /\ en (v_sub (trot t') (trot t)) <= 11 * (k * B) /\
  en (tvel t) <= 2 * B /\ en (trot t) <= 2 * B.
Proof.
  intros Hk (E1 & E2 & E3 & E4) Hax Hs.
  assert (Q : stored eps (regear s' xd) (regear s xd)) by (unfold stored, regear; cbn; rewrite E2; auto).
  pose proof (twist_err eps A B rnd HA HB He Hrnd (regear s' xd) (regear s xd) Hk Q Hax Hs) as T. cbv zeta in T |- *.
  unfold fl_joint_twist, joint_twist, regear in T |- *. cbn [sjoint jtype jscale jaxis] in T. rewrite !Rmult_1_r in T. exact T.
Qed.

Lemma segspeed_err s' s q xd : k <= / 2500 -> segment_ok s -> stored eps s' s -> moves_within A D (s, q) -> speed_within B (s, xd) ->
  let t' := fl_segment_twist rnd fsin fcos s' q xd in let t := segment_twist s q xd in
  en (v_sub (tvel t') (tvel t)) <= 750 * (k * (B * D)) /\ en (v_sub (trot t') (trot t)) <= 11 * (k * B) /\
  en (tvel t) <= 6 * (B * D) /\ en (trot t) <= 2 * B.
Proof.
  intros Hk (Hj & Ht) Hst Hmv Hg.
  pose proof (joint_err eps A D rnd fsin fcos HA HD He Hk Hrnd Hsin Hcos s' s q Hst Hmv) as (Nr & _ & _).
  pose proof (speed_err s' s xd Hk Hst (proj1 (proj2 Hmv)) Hg) as (Tv & Tr & Bv & Br). cbv zeta in Tv, Tr, Bv, Br.
  destruct Hst as (_ & _ & _ & _ & _ & _ & Tp). destruct Hmv as (_ & _ & _ & Bt). cbn [fst snd] in *.
  cbv zeta. unfold fl_segment_twist, segment_twist. set (J' := fl_joint_pose rnd fsin fcos (sjoint s') q) in *. set (J := joint_pose (sjoint s) q) in *.
  set (u' := fl_joint_twist rnd (sjoint s') xd) in *. set (u := joint_twist (sjoint s) xd) in *.
  pose proof (joint_pose_rigid (sjoint s) q Hj) as RJ. fold J in RJ. unfold rigid in RJ.
  assert (Ek : eps <= k) by (unfold k; nra). assert (K0 : 0 <= k) by lra. assert (e1 : 0 <= eps <= / 100) by lra. fold k in Nr.
  apply opb_near in Nr; [|lra]. apply en_near in Tp; [|lra]. apply en_near0 in Bt; [|lra].
  replace (3 * (34 * k)) with (102 * k) in Nr by ring.
  set (y' := fp (sf_tip s')) in *. set (y := fp (sf_tip s)) in *.
  assert (KD : 0 <= k * D) by nra. assert (ekD : eps <= k * D) by nra. assert (KB : 0 <= k * B) by nra. assert (kk : k * k <= / 2500 * k) by nra.
  pose proof (opb_shift _ _ _ _ (opb_rot _ RJ) Nr) as P1. pose proof (en_shift _ _ _ Tp) as Y1. pose proof (en_nn y) as Y0. pose proof (en_nn y') as Y0'.
  assert (Y2 : en y' <= 201 / 100 * D) by lra.
  pose proof (fl_app_err eps rnd e1 Hrnd _ _ _ _ P1 Y2) as E1. set (d' := fl_r_app rnd (fM J') y') in *.
  assert (Pm : (1 + 102 * k) * (201 / 100 * D) <= 21 / 10 * D) by nra.
  assert (Pm0 : 0 <= (1 + 102 * k) * (201 / 100 * D)) by (apply Rmult_le_pos; lra).
  assert (E1' : 2 * (eps * (9 * ((1 + 102 * k) * (201 / 100 * D)) + 6)) <= 50 * (k * D)).
  { assert (eps * (9 * ((1 + 102 * k) * (201 / 100 * D)) + 6) <= eps * (25 * D)) by (apply Rmult_le_compat_l; lra). assert (eps * (25 * D) <= 25 * (k * D)) by nra. lra. }
  assert (E2 : en (v_sub (r_app (fM J') y') (r_app (fM J) y)) <= 102 * k * (201 / 100 * D) + 2 * eps).
  { replace (v_sub (r_app (fM J') y') (r_app (fM J) y)) with (v_add (r_app (r_minus (fM J') (fM J)) y') (r_app (fM J) (v_sub y' y))).
    2:{ destruct (fM J'), (fM J), y', y. unfold v_add, v_sub, r_app, r_minus; cbn. f_equal; ring. }
    eapply Rle_trans; [apply en_add|]. pose proof (Nr y') as Q1. pose proof (opb_rot _ RJ (v_sub y' y)) as Q2.
    assert (102 * k * en y' <= 102 * k * (201 / 100 * D)) by (apply Rmult_le_compat_l; lra). lra. }
  set (d := r_app (fM J) y) in *.
  assert (E3 : en (v_sub d' d) <= 260 * (k * D)).
  { replace (v_sub d' d) with (v_add (v_sub d' (r_app (fM J') y')) (v_sub (r_app (fM J') y') d)).
    2:{ destruct d', (r_app (fM J') y'), d. unfold v_add, v_sub; cbn. f_equal; ring. }
    eapply Rle_trans; [apply en_add|]. lra. }
  assert (Bd : en d <= 2 * D) by (pose proof (opb_rot _ RJ y) as Q; fold d in Q; lra).
  pose proof (en_shift _ _ _ E3) as Bd'. pose proof (en_nn d) as Nd. pose proof (en_nn d') as Nd'.
  assert (kD : k * D <= / 2500 * D) by (apply Rmult_le_compat_r; lra). assert (kB : k * B <= / 2500 * B) by (apply Rmult_le_compat_r; lra).
  pose proof (en_shift _ _ _ Tv) as Bv'. pose proof (en_shift _ _ _ Tr) as Br'.
  assert (BD : B <= B * D) by nra. assert (BD1 : 1 <= B * D) by nra. set (w := B * D) in *. assert (KW : 0 <= k * w) by nra.
  assert (ekw : eps * w <= k * w) by (apply Rmult_le_compat_r; lra).
  unfold fl_t_RefPoint at 2. unfold t_RefPoint at 2 4. cbn [trot]. split; [|split; [exact Tr|split; [|exact Br]]].
  - assert (X1 : en (tvel u') <= 21 / 10 * w) by lra.
    assert (X2 : en (trot u') * en d' <= 48 / 10 * w).
    { assert (en (trot u') * en d' <= (201 / 100 * B) * (22 / 10 * D)) by (pose proof (en_nn (trot u')); apply Rmult_le_compat; lra). unfold w in *. lra. }
    pose proof (fl_RefPoint_err eps rnd e1 Hrnd u' d' _ _ X1 X2) as E4.
    pose proof (cross_pert (trot u') (trot u) d' d _ _ Tr E3) as E5.
    assert (E6 : 11 * (k * B) * (en d + 260 * (k * D)) + en (trot u) * (260 * (k * D)) <= 545 * (k * w)).
    { assert (11 * (k * B) * (en d + 260 * (k * D)) <= 11 * (k * B) * (22 / 10 * D)) by (apply Rmult_le_compat_l; lra).
      assert (en (trot u) * (260 * (k * D)) <= 2 * B * (260 * (k * D))) by (apply Rmult_le_compat_r; lra). unfold w in *. lra. }
    replace (v_sub (tvel (fl_t_RefPoint rnd u' d')) (tvel (t_RefPoint u d))) with
      (v_add (v_sub (tvel (fl_t_RefPoint rnd u' d')) (tvel (t_RefPoint u' d'))) (v_add (v_sub (tvel u') (tvel u)) (v_sub (v_cross (trot u') d') (v_cross (trot u) d)))).
    2:{ unfold t_RefPoint; cbn [tvel]. destruct (tvel (fl_t_RefPoint rnd u' d')), (tvel u'), (tvel u), (v_cross (trot u') d'), (v_cross (trot u) d). unfold v_add, v_sub; cbn. f_equal; ring. }
    eapply Rle_trans; [apply en_add|]. eapply Rle_trans; [apply Rplus_le_compat_l, en_add|].
    assert (eps * (2 * (21 / 10 * w) + 13 * (48 / 10 * w) + 11) <= eps * (80 * w)) by (apply Rmult_le_compat_l; lra).
    assert (k * B <= k * w) by (apply Rmult_le_compat_l; lra). lra.
  - unfold t_RefPoint; cbn [tvel]. eapply Rle_trans; [apply en_add|]. pose proof (en_cross (trot u) d).
    assert (en (trot u) * en d <= 2 * B * (2 * D)) by (pose proof (en_nn (trot u)); apply Rmult_le_compat; lra). unfold w in *. lra.
Qed.

End Vel.
