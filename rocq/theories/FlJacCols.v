(** Error of the Jacobian in rounded arithmetic: joint and segment twists, and one step of the columns. *)
From Coq Require Import Reals String List ZArith Bool Arith Lia Lra Psatz.
From Verif Require Import FramesModel FramesSpec FramesProofs FrameOpsProofs Outcome LoopProofs InertiaModel DualModel KinModel KinSpec DerivProofs KinProofs
  RotNear LipProofs FlModel FlSpec FlProofs FlJoint FlChain FlJacModel FlJacSpec FlJacProofs.
Import ListNotations.
Local Open Scope R_scope.

Section Cols.
Variables (eps A D B : R) (rnd fsin fcos : R -> R).
Hypothesis HA : 1 <= A.
Hypothesis HD : 1 <= D.
Hypothesis HB : 1 <= B.
Hypothesis He : 0 <= eps.
Let k := eps * A.
Hypothesis Hrnd : rounds eps rnd.
Hypothesis Hsin : computes eps fsin sin.
Hypothesis Hcos : computes eps fcos cos.

Lemma ek : eps <= k. Proof. unfold k. nra. Qed.
Lemma k0 : 0 <= k. Proof. pose proof ek. lra. Qed.

Lemma twist_err s' s : k <= / 2500 -> stored eps s' s -> v_near 1 (jaxis (sjoint s)) v_zero -> geared_within B s ->
  let t' := fl_joint_twist rnd (sjoint s') 1 in let t := joint_twist (sjoint s) 1 in
  en (v_sub (tvel t') (tvel t)) <= 11 * (k * B) /\ en (v_sub (trot t') (trot t)) <= 11 * (k * B) /\
  en (tvel t) <= 2 * B /\ en (trot t) <= 2 * B.
Proof.
  intros Hk (Et & Es & _ & Nax & _) Bax Hg. unfold geared_within in Hg. cbv zeta. pose proof ek as Ek. pose proof k0 as K0.
  assert (KB : 0 <= k * B) by nra. assert (e1 : 0 <= eps <= / 100) by lra. assert (eB : eps * B <= k * B) by nra. assert (eB0 : 0 <= eps * B) by nra.
  assert (eB2 : eps * B <= / 2500 * B) by nra. assert (e2 : eps <= eps * B) by nra.
  unfold fl_joint_twist, joint_twist. rewrite Et, Es. set (s0 := jscale (sjoint s)) in *. rewrite !Rmult_1_r.
  pose proof (rnd_bound eps rnd e1 Hrnd _ _ Hg) as E0. set (s1 := rnd s0) in *.
  assert (E1 : Rabs (s1 - s0) <= 2 * (eps * B)) by lra. clear E0.
  assert (B1 : Rabs s1 <= 11 / 10 * B) by (apply abs_split in E1, Hg; apply abs_join; lra).
  assert (Go : forall u' u, Rabs (u' - u) <= eps -> Rabs u <= 1 -> Rabs (rnd (u' * s1) - u * s0) <= 55 / 10 * (k * B) /\ Rabs (u * s0) <= B).
  { intros u' u Hu Bu. split; [|pose proof (abs_mul _ _ _ _ Bu Hg); lra].
    assert (Bu' : Rabs u' <= 101 / 100) by (apply abs_split in Hu, Bu; apply abs_join; lra).
    assert (P : Rabs (u' * s1) <= 12 / 10 * B) by (pose proof (abs_mul _ _ _ _ Bu' B1); lra).
    pose proof (rnd_bound eps rnd e1 Hrnd _ _ P) as R1. pose proof (abs_mul _ _ _ _ Hu B1) as M1. pose proof (abs_mul _ _ _ _ Bu E1) as M2.
    replace (rnd (u' * s1) - u * s0) with ((rnd (u' * s1) - u' * s1) + ((u' - u) * s1 + u * (s1 - s0))) by ring.
    eapply Rle_trans; [apply Rabs_triang|]. pose proof (Rabs_triang ((u' - u) * s1) (u * (s1 - s0))). lra. }
  assert (Z1 : forall x, 0 <= x -> en (v_sub v_zero v_zero) <= x) by (intros; rewrite en_self; assumption).
  assert (Z2 : en v_zero <= 2 * B) by (rewrite en_zero; lra).
  change (mkV 0 0 0) with v_zero.
  assert (Ax : en (v_sub (fl_v_scale rnd (jaxis (sjoint s')) s1) (v_scale (jaxis (sjoint s)) s0)) <= 11 * (k * B) /\ en (v_scale (jaxis (sjoint s)) s0) <= 2 * B).
  { destruct Nax as (X & Y & Z), Bax as (BX & BY & BZ). cbn [v_zero vx vy vz] in BX, BY, BZ. rewrite Rminus_0_r in BX, BY, BZ.
    destruct (Go _ _ X BX), (Go _ _ Y BY), (Go _ _ Z BZ). split.
    - replace (11 * (k * B)) with (2 * (55 / 10 * (k * B))) by field. apply en_near; [lra|]. unfold v_near, fl_v_scale, v_scale; cbn [vx vy vz]. auto.
    - apply en_near0; [lra|]. unfold v_near, v_scale; cbn [v_zero vx vy vz]. rewrite !Rminus_0_r. auto. }
  assert (Sx : forall w' w, (w' = mkV s1 0 0 /\ w = mkV s0 0 0) \/ (w' = mkV 0 s1 0 /\ w = mkV 0 s0 0) \/ (w' = mkV 0 0 s1 /\ w = mkV 0 0 s0) ->
    en (v_sub w' w) <= 11 * (k * B) /\ en w <= 2 * B).
  { intros w' w Hw. split.
    - eapply Rle_trans; [apply (en_near (2 * (eps * B))); [lra|]|lra].
      destruct Hw as [(-> & ->)|[(-> & ->)|(-> & ->)]]; unfold v_near; cbn [vx vy vz]; rewrite ?Rminus_0_r, ?Rabs_R0; repeat split; lra.
    - apply en_near0; [lra|]. destruct Hw as [(-> & ->)|[(-> & ->)|(-> & ->)]]; unfold v_near; cbn [v_zero vx vy vz]; rewrite ?Rminus_0_r, ?Rabs_R0; repeat split; lra. }
  destruct (jtype (sjoint s)); cbn [tvel trot t_zero].
  - destruct Ax. repeat split; auto. apply Z1; lra.
  - destruct (Sx (mkV s1 0 0) (mkV s0 0 0)); auto. repeat split; auto. apply Z1; lra.
  - destruct (Sx (mkV 0 s1 0) (mkV 0 s0 0)); auto. repeat split; auto. apply Z1; lra.
  - destruct (Sx (mkV 0 0 s1) (mkV 0 0 s0)); auto. repeat split; auto. apply Z1; lra.
  - destruct Ax. repeat split; auto. apply Z1; lra.
  - destruct (Sx (mkV s1 0 0) (mkV s0 0 0)); auto. repeat split; auto. apply Z1; lra.
  - destruct (Sx (mkV 0 s1 0) (mkV 0 s0 0)); auto. repeat split; auto. apply Z1; lra.
  - destruct (Sx (mkV 0 0 s1) (mkV 0 0 s0)); auto. repeat split; auto. apply Z1; lra.
  - repeat split; auto; apply Z1; lra.
Qed.

Lemma segtwist_err s' s q : k <= / 2500 -> segment_ok s -> stored eps s' s -> moves_within A D (s, q) -> geared_within B s ->
  let t' := fl_segment_twist rnd fsin fcos s' q 1 in let t := segment_twist s q 1 in
  en (v_sub (tvel t') (tvel t)) <= 750 * (k * (B * D)) /\ en (v_sub (trot t') (trot t)) <= 11 * (k * B) /\
  en (tvel t) <= 6 * (B * D) /\ en (trot t) <= 2 * B.
Proof.
  intros Hk (Hj & Ht) Hst Hmv Hg.
  pose proof (joint_err eps A D rnd fsin fcos HA HD He Hk Hrnd Hsin Hcos s' s q Hst Hmv) as (Nr & _ & _).
  pose proof (twist_err s' s Hk Hst (proj1 (proj2 Hmv)) Hg) as (Tv & Tr & Bv & Br). cbv zeta in Tv, Tr, Bv, Br.
  destruct Hst as (_ & _ & _ & _ & _ & _ & Tp). destruct Hmv as (_ & _ & _ & Bt). cbn [fst snd] in *.
  cbv zeta. unfold fl_segment_twist, segment_twist. set (J' := fl_joint_pose rnd fsin fcos (sjoint s') q) in *. set (J := joint_pose (sjoint s) q) in *.
  set (u' := fl_joint_twist rnd (sjoint s') 1) in *. set (u := joint_twist (sjoint s) 1) in *.
  pose proof (joint_pose_rigid (sjoint s) q Hj) as RJ. fold J in RJ. unfold rigid in RJ.
  pose proof ek as Ek. pose proof k0 as K0. assert (e1 : 0 <= eps <= / 100) by lra. fold k in Nr.
  apply opb_near in Nr; [|lra]. apply en_near in Tp; [|lra]. apply en_near0 in Bt; [|lra].
  replace (3 * (34 * k)) with (102 * k) in Nr by ring.
  set (y' := fp (sf_tip s')) in *. set (y := fp (sf_tip s)) in *.
  assert (KD : 0 <= k * D) by nra. assert (ekD : eps <= k * D) by nra. assert (KB : 0 <= k * B) by nra. assert (kk : k * k <= / 2500 * k) by nra.
  pose proof (opb_shift _ _ _ _ (opb_rot _ RJ) Nr) as P1. pose proof (en_shift _ _ _ Tp) as Y1. pose proof (en_nn y) as Y0. pose proof (en_nn y') as Y0'.
  assert (Y2 : en y' <= 201 / 100 * D) by lra.
  pose proof (fl_app_err eps rnd e1 Hrnd _ _ _ _ P1 Y2) as E1. set (d' := fl_r_app rnd (fM J') y') in *.
  assert (Pm : (1 + 102 * k) * (201 / 100 * D) <= 21 / 10 * D) by nra.
  assert (Pm0 : 0 <= (1 + 102 * k) * (201 / 100 * D)) by (apply Rmult_le_pos; lra).
  assert (E1' : 2 * (eps * (9 * ((1 + 102 * k) * (201 / 100 * D)) + 6)) <= 50 * (k * D)).
  { assert (eps * (9 * ((1 + 102 * k) * (201 / 100 * D)) + 6) <= eps * (25 * D)) by (apply Rmult_le_compat_l; lra). assert (eps * (25 * D) <= 25 * (k * D)) by nra. lra. }
  assert (E2 : en (v_sub (r_app (fM J') y') (r_app (fM J) y)) <= 102 * k * (201 / 100 * D) + 2 * eps).
  { replace (v_sub (r_app (fM J') y') (r_app (fM J) y)) with (v_add (r_app (r_minus (fM J') (fM J)) y') (r_app (fM J) (v_sub y' y))).
    2:{ destruct (fM J'), (fM J), y', y. unfold v_add, v_sub, r_app, r_minus; cbn. f_equal; ring. }
    eapply Rle_trans; [apply en_add|]. pose proof (Nr y') as Q1. pose proof (opb_rot _ RJ (v_sub y' y)) as Q2.
    assert (102 * k * en y' <= 102 * k * (201 / 100 * D)) by (apply Rmult_le_compat_l; lra). lra. }
  set (d := r_app (fM J) y) in *.
  assert (E3 : en (v_sub d' d) <= 260 * (k * D)).
  { replace (v_sub d' d) with (v_add (v_sub d' (r_app (fM J') y')) (v_sub (r_app (fM J') y') d)).
    2:{ destruct d', (r_app (fM J') y'), d. unfold v_add, v_sub; cbn. f_equal; ring. }
    eapply Rle_trans; [apply en_add|]. lra. }
  assert (Bd : en d <= 2 * D) by (pose proof (opb_rot _ RJ y) as Q; fold d in Q; lra).
  pose proof (en_shift _ _ _ E3) as Bd'. pose proof (en_nn d) as Nd. pose proof (en_nn d') as Nd'.
  assert (kD : k * D <= / 2500 * D) by (apply Rmult_le_compat_r; lra). assert (kB : k * B <= / 2500 * B) by (apply Rmult_le_compat_r; lra).
  pose proof (en_shift _ _ _ Tv) as Bv'. pose proof (en_shift _ _ _ Tr) as Br'.
  assert (BD : B <= B * D) by nra. assert (BD1 : 1 <= B * D) by nra. set (w := B * D) in *. assert (KW : 0 <= k * w) by nra.
  assert (ekw : eps * w <= k * w) by (apply Rmult_le_compat_r; lra).
  unfold fl_t_RefPoint at 2. unfold t_RefPoint at 2 4. cbn [trot]. split; [|split; [exact Tr|split; [|exact Br]]].
  - assert (X1 : en (tvel u') <= 21 / 10 * w) by lra.
    assert (X2 : en (trot u') * en d' <= 48 / 10 * w).
    { assert (en (trot u') * en d' <= (201 / 100 * B) * (22 / 10 * D)) by (pose proof (en_nn (trot u')); apply Rmult_le_compat; lra). unfold w in *. lra. }
    pose proof (fl_RefPoint_err eps rnd e1 Hrnd u' d' _ _ X1 X2) as E4.
    pose proof (cross_pert (trot u') (trot u) d' d _ _ Tr E3) as E5.
    assert (E6 : 11 * (k * B) * (en d + 260 * (k * D)) + en (trot u) * (260 * (k * D)) <= 545 * (k * w)).
    { assert (11 * (k * B) * (en d + 260 * (k * D)) <= 11 * (k * B) * (22 / 10 * D)) by (apply Rmult_le_compat_l; lra).
      assert (en (trot u) * (260 * (k * D)) <= 2 * B * (260 * (k * D))) by (apply Rmult_le_compat_r; lra). unfold w in *. lra. }
    replace (v_sub (tvel (fl_t_RefPoint rnd u' d')) (tvel (t_RefPoint u d))) with
      (v_add (v_sub (tvel (fl_t_RefPoint rnd u' d')) (tvel (t_RefPoint u' d'))) (v_add (v_sub (tvel u') (tvel u)) (v_sub (v_cross (trot u') d') (v_cross (trot u) d)))).
    2:{ unfold t_RefPoint; cbn [tvel]. destruct (tvel (fl_t_RefPoint rnd u' d')), (tvel u'), (tvel u), (v_cross (trot u') d'), (v_cross (trot u) d). unfold v_add, v_sub; cbn. f_equal; ring. }
    eapply Rle_trans; [apply en_add|]. eapply Rle_trans; [apply Rplus_le_compat_l, en_add|].
    assert (eps * (2 * (21 / 10 * w) + 13 * (48 / 10 * w) + 11) <= eps * (80 * w)) by (apply Rmult_le_compat_l; lra).
    assert (k * B <= k * w) by (apply Rmult_le_compat_l; lra). lra.
  - unfold t_RefPoint; cbn [tvel]. eapply Rle_trans; [apply en_add|]. pose proof (en_cross (trot u) d).
    assert (en (trot u) * en d <= 2 * B * (2 * D)) by (pose proof (en_nn (trot u)); apply Rmult_le_compat; lra). unfold w in *. lra.
Qed.

(** The linear velocity of the point of the body that is at the origin of the base: no change of the
    reference point changes it. *)
Definition at_base (u : Twist) (p : Vector) : Vector := v_sub (tvel u) (v_cross (trot u) p).
Lemma at_base_RefPoint u a b : at_base (t_RefPoint u (v_sub b a)) b = at_base u a.
Proof. destruct u as [[? ? ?] [? ? ?]], a, b. unfold at_base, t_RefPoint, v_sub, v_add, v_cross; cbn. f_equal; ring. Qed.

Definition col_ok (n i : nat) (p' p : Vector) (u' u : Twist) : Prop :=
  en (v_sub (trot u') (trot u)) <= 510 * INR n * (k * B) /\ en (trot u) <= 2 * B /\
  en (v_sub (at_base u' p') (at_base u p)) <= (9500 * INR n + 560 * INR i) * (k * (INR n * (B * D))) /\
  en (at_base u p) <= 18 * (INR n * (B * D)).
(** A point of the chain after at most n segments. *)
Definition pt_ok (n : nat) (p' p : Vector) : Prop := en (v_sub p' p) <= 1850 * INR n * INR n * (k * D) /\ en p <= 6 * INR n * D.
Lemma run_pt n i T' T : (i <= n)%nat -> run_ok eps A D n i T' T -> pt_ok n (fp T') (fp T).
Proof.
  intros Hi (_ & _ & E & P). apply le_INR in Hi. pose proof (pos_INR i). pose proof k0. unfold pt_ok. fold k in E. split.
  - eapply Rle_trans; [exact E|]. apply Rmult_le_compat_r; [nra|]. apply Rmult_le_compat_r; lra.
  - eapply Rle_trans; [exact P|]. apply Rmult_le_compat_r; lra.
Qed.
Lemma pt_bound n p' p : 2500 * INR n * k <= 1 -> pt_ok n p' p -> en p' <= 674 / 100 * (INR n * D).
Proof.
  intros Hn (E & P). pose proof (en_shift _ _ _ E) as H. pose proof (pos_INR n).
  assert (1850 * INR n * INR n * (k * D) <= 74 / 100 * (INR n * D)).
  { replace (1850 * INR n * INR n * (k * D)) with (1850 * (INR n * k) * (INR n * D)) by ring. apply Rmult_le_compat_r; [nra|lra]. }
  lra.
Qed.
Lemma col_cross n p' p u' u : (1 <= n)%nat -> 2500 * INR n * k <= 1 -> pt_ok n p' p ->
  en (v_sub (trot u') (trot u)) <= 510 * INR n * (k * B) -> en (trot u) <= 2 * B ->
  en (v_sub (v_cross (trot u') p') (v_cross (trot u) p)) <= 7138 * INR n * (k * (INR n * (B * D))) /\ en (trot u') <= 221 / 100 * B.
Proof.
  intros H1 Hn Hp Er Br. pose proof (pt_bound n p' p Hn Hp) as Bp'. destruct Hp as (Ep & Bp). pose proof k0. apply (le_INR 1) in H1. cbn [INR] in H1.
  set (N := INR n) in *. assert (Nk : 0 <= N * k <= / 2500) by nra. assert (ND : 0 <= N * D) by nra.
  pose proof (en_shift _ _ _ Er) as Br'. assert (R1 : 510 * N * (k * B) <= 204 / 1000 * B) by (replace (510 * N * (k * B)) with (510 * (N * k) * B) by ring; apply Rmult_le_compat_r; lra).
  split; [|lra].
  replace (v_sub (v_cross (trot u') p') (v_cross (trot u) p)) with (v_add (v_cross (v_sub (trot u') (trot u)) p') (v_cross (trot u) (v_sub p' p))).
  2:{ destruct (trot u'), (trot u), p', p. unfold v_add, v_sub, v_cross; cbn. f_equal; ring. }
  eapply Rle_trans; [apply en_add|]. pose proof (en_cross (v_sub (trot u') (trot u)) p'). pose proof (en_cross (trot u) (v_sub p' p)).
  assert (en (v_sub (trot u') (trot u)) * en p' <= 510 * N * (k * B) * (674 / 100 * (N * D))) by (apply Rmult_le_compat; auto using en_nn).
  assert (en (trot u) * en (v_sub p' p) <= 2 * B * (1850 * N * N * (k * D))) by (apply Rmult_le_compat; auto using en_nn).
  assert (0 <= (N * k) * (N * (B * D))) by (apply Rmult_le_pos; nra). nra.
Qed.

(** A new column. *)
Lemma col_new n i T' T p' p s' s q : (i < n)%nat -> 2500 * INR n * k <= 1 -> segment_ok s -> stored eps s' s -> moves_within A D (s, q) -> geared_within B s ->
  run_ok eps A D n i T' T -> pt_ok n p' p ->
  col_ok n (S i) p' p (fl_r_app_t rnd (fM T') (fl_segment_twist rnd fsin fcos s' q 1)) (r_app_t (fM T) (segment_twist s q 1)).
Proof.
  intros Hi Hn Hok Hst Hmv Hg Hrun Hp. assert (H1 : (1 <= n)%nat) by lia. pose proof (le_INR _ _ H1) as N1. cbn [INR] in N1.
  assert (Li : INR i <= INR n) by (apply le_INR; lia). pose proof (pos_INR i) as I0. pose proof k0 as K0. pose proof ek as Ek.
  assert (Hk : k <= / 2500) by nra.
  destruct (segtwist_err s' s q Hk Hok Hst Hmv Hg) as (Ev & Er & Bv & Br). destruct Hrun as (RT & OT & _ & _). unfold rigid in RT. fold k in OT.
  set (u' := fl_segment_twist rnd fsin fcos s' q 1) in *. set (u := segment_twist s q 1) in *.
  set (N := INR n) in *. set (x := INR i) in *. assert (e1 : 0 <= eps <= / 100) by lra.
  assert (Nk : 0 <= N * k <= / 2500) by nra. assert (xk : 0 <= x * k <= N * k) by (split; [nra|apply Rmult_le_compat_r; lra]).
  set (w := B * D) in *. assert (Bw : B <= w) by (unfold w; nra). assert (kw : 0 <= k * w <= / 2500 * w) by nra. assert (kB : 0 <= k * B <= / 2500 * B) by nra.
  assert (OT' : opb (r_minus (fM T') (fM T)) (220 * (N * k))) by (eapply opb_weaken; [exact OT|lra]). clear OT.
  pose proof (opb_shift _ _ _ _ (opb_rot _ RT) OT') as P1.
  assert (App : forall v' v X e, en (v_sub v' v) <= e -> en v + e <= X ->
    en (v_sub (fl_r_app rnd (fM T') v') (r_app (fM T) v)) <= 2 * (eps * (9 * (1088 / 1000 * X) + 6)) + 220 * (N * k) * X + e).
  { intros v' v X e H2 H3. pose proof (en_shift _ _ _ H2) as B1. assert (B2 : en v' <= X) by lra. pose proof (en_nn v') as V0.
    pose proof (fl_app_err eps rnd e1 Hrnd _ _ _ _ P1 B2) as Q1.
    assert (Q2 : 2 * (eps * (9 * ((1 + 220 * (N * k)) * X) + 6)) <= 2 * (eps * (9 * (1088 / 1000 * X) + 6))).
    { apply Rmult_le_compat_l; [lra|]. apply Rmult_le_compat_l; [lra|]. assert ((1 + 220 * (N * k)) * X <= 1088 / 1000 * X) by (apply Rmult_le_compat_r; lra). lra. }
    replace (v_sub (fl_r_app rnd (fM T') v') (r_app (fM T) v)) with
      (v_add (v_sub (fl_r_app rnd (fM T') v') (r_app (fM T') v')) (v_add (r_app (r_minus (fM T') (fM T)) v') (r_app (fM T) (v_sub v' v)))).
    2:{ destruct (fl_r_app rnd (fM T') v'), (fM T'), (fM T), v', v. unfold v_add, v_sub, r_app, r_minus; cbn. f_equal; ring. }
    eapply Rle_trans; [apply en_add|]. eapply Rle_trans; [apply Rplus_le_compat_l, en_add|].
    pose proof (OT' v') as Q3. pose proof (opb_rot _ RT (v_sub v' v)) as Q4.
    assert (220 * (N * k) * en v' <= 220 * (N * k) * X) by (apply Rmult_le_compat_l; lra). lra. }
  pose proof (App (tvel u') (tvel u) (63 / 10 * w) _ Ev ltac:(lra)) as Fv. pose proof (App (trot u') (trot u) (201 / 100 * B) _ Er ltac:(lra)) as Fr. clear App.
  unfold fl_r_app_t, r_app_t. set (U' := mkT (fl_r_app rnd (fM T') (tvel u')) (fl_r_app rnd (fM T') (trot u'))). set (U := mkT (r_app (fM T) (tvel u)) (r_app (fM T) (trot u))).
  assert (NkB : k * B <= N * k * B) by nra. assert (Nkw : k * w <= N * k * w) by nra.
  assert (eB : eps * B <= k * B) by (apply Rmult_le_compat_r; lra). assert (ew : eps * w <= k * w) by (apply Rmult_le_compat_r; lra).
  assert (e_B : eps <= eps * B) by nra. assert (e_w : eps <= eps * w) by nra.
  assert (Er' : en (v_sub (trot U') (trot U)) <= 510 * N * (k * B)) by (unfold U', U; cbn [trot]; eapply Rle_trans; [exact Fr|]; lra).
  assert (Ev' : en (v_sub (tvel U') (tvel U)) <= 2280 * N * (k * w)) by (unfold U', U; cbn [tvel]; eapply Rle_trans; [exact Fv|]; lra).
  assert (Br' : en (trot U) <= 2 * B) by (unfold U; cbn [trot]; pose proof (opb_rot _ RT (trot u)); lra).
  assert (Bv' : en (tvel U) <= 6 * w) by (unfold U; cbn [tvel]; pose proof (opb_rot _ RT (tvel u)); lra).
  destruct (col_cross n p' p U' U H1 Hn Hp Er' Br') as (Ec & _). fold N in Ec. fold w in Ec.
  unfold col_ok. fold N. fold w. split; [exact Er'|]. split; [exact Br'|].
  assert (NW : w <= N * w) by nra. assert (kNW : N * (k * w) <= N * (k * (N * w))) by (apply Rmult_le_compat_l; nra). split.
  - unfold at_base. replace (v_sub (v_sub (tvel U') (v_cross (trot U') p')) (v_sub (tvel U) (v_cross (trot U) p))) with
      (v_sub (v_sub (tvel U') (tvel U)) (v_sub (v_cross (trot U') p') (v_cross (trot U) p))).
    2:{ destruct (tvel U'), (tvel U), (v_cross (trot U') p'), (v_cross (trot U) p). unfold v_sub; cbn. f_equal; ring. }
    eapply Rle_trans; [apply en_sub|]. rewrite S_INR. fold x. assert (0 <= x * (k * (N * w))) by (apply Rmult_le_pos; nra). assert (0 <= k * (N * w)) by nra. lra.
  - unfold at_base. eapply Rle_trans; [apply en_sub|]. pose proof (en_cross (trot U) p) as C. destruct Hp as (_ & Bp). fold N in Bp.
    assert (en (trot U) * en p <= 2 * B * (6 * N * D)) by (apply Rmult_le_compat; auto using en_nn). replace (2 * B * (6 * N * D)) with (12 * (N * w)) in * by (unfold w; ring). lra.
Qed.

(** A column that moves on to the next tip. *)
Lemma col_step n i a' a b' b u' u : (i < n)%nat -> 2500 * INR n * k <= 1 -> pt_ok n a' a -> pt_ok n b' b -> col_ok n i a' a u' u ->
  col_ok n (S i) b' b (fl_t_RefPoint rnd u' (fl_v_sub rnd b' a')) (t_RefPoint u (v_sub b a)).
Proof.
  intros Hi Hn Ha Hb (Er & Br & Ew & Bw). assert (H1 : (1 <= n)%nat) by lia.
  destruct (col_cross n a' a u' u H1 Hn Ha Er Br) as (_ & Br').
  pose proof (pt_bound n _ _ Hn Ha) as Ba'. pose proof (pt_bound n _ _ Hn Hb) as Bb'.
  assert (Li : INR i <= INR n) by (apply le_INR; lia). pose proof (pos_INR i) as I0. pose proof k0 as K0. pose proof ek as Ek.
  apply (le_INR 1) in H1. cbn [INR] in H1. set (N := INR n) in *. set (x := INR i) in *. set (w := B * D) in *.
  assert (Nk : 0 <= N * k <= / 2500) by nra. assert (Hk : k <= / 2500) by nra. assert (e1 : 0 <= eps <= / 100) by lra.
  assert (w1 : 1 <= w) by (unfold w; nra). assert (W1 : 1 <= N * w) by nra. assert (ND : 1 <= N * D) by nra.
  assert (Ew' : (9500 * N + 560 * x) * (k * (N * w)) <= 403 / 100 * (N * w)).
  { replace ((9500 * N + 560 * x) * (k * (N * w))) with ((9500 * (N * k) + 560 * (x * k)) * (N * w)) by ring. apply Rmult_le_compat_r; [lra|].
    assert (x * k <= N * k) by (apply Rmult_le_compat_r; lra). lra. }
  assert (D1 : en (v_sub b' a') <= 1348 / 100 * (N * D)) by (eapply Rle_trans; [apply en_sub|lra]).
  pose proof (fl_sub_err eps rnd e1 Hrnd _ _ _ D1) as E1. set (d' := fl_v_sub rnd b' a') in *.
  assert (E2 : 2 * (eps * (1348 / 100 * (N * D) + 1)) <= 29 * (eps * (N * D))).
  { assert (eps <= eps * (N * D)) by nra. lra. }
  assert (E3 : eps * (N * D) <= / 2500 * (N * D)) by (apply Rmult_le_compat_r; lra).
  pose proof (en_shift _ _ _ E1) as Bd'. assert (Bd : en d' <= 135 / 10 * (N * D)) by lra.
  assert (Bvel : en (tvel u') <= 37 * (N * w)).
  { replace (tvel u') with (v_add (at_base u' a') (v_cross (trot u') a')).
    2:{ unfold at_base. destruct (tvel u'), (v_cross (trot u') a'). unfold v_add, v_sub; cbn. f_equal; ring. }
    eapply Rle_trans; [apply en_add|]. pose proof (en_shift _ _ _ Ew). pose proof (en_cross (trot u') a').
    assert (en (trot u') * en a' <= 221 / 100 * B * (674 / 100 * (N * D))) by (apply Rmult_le_compat; auto using en_nn).
    replace (221 / 100 * B * (674 / 100 * (N * D))) with (221 / 100 * (674 / 100) * (N * w)) in * by (unfold w; ring). lra. }
  assert (Y1 : en (trot u') * en d' <= 29835 / 1000 * (N * w)).
  { assert (en (trot u') * en d' <= 221 / 100 * B * (135 / 10 * (N * D))) by (apply Rmult_le_compat; auto using en_nn).
    replace (221 / 100 * B * (135 / 10 * (N * D))) with (29835 / 1000 * (N * w)) in * by (unfold w; field). lra. }
  pose proof (fl_RefPoint_err eps rnd e1 Hrnd u' d' _ _ Bvel Y1) as E4.
  unfold col_ok. fold N. fold w. rewrite at_base_RefPoint. unfold fl_t_RefPoint at 1. unfold t_RefPoint at 1 2. cbn [trot].
  split; [exact Er|]. split; [exact Br|]. split; [|exact Bw].
  replace (v_sub (at_base (fl_t_RefPoint rnd u' d') b') (at_base u a)) with
    (v_add (v_sub (tvel (fl_t_RefPoint rnd u' d')) (tvel (t_RefPoint u' d'))) (v_add (v_cross (trot u') (v_sub d' (v_sub b' a'))) (v_sub (at_base u' a') (at_base u a)))).
  2:{ unfold at_base, t_RefPoint, fl_t_RefPoint; cbn [tvel trot].
      destruct (fl_v_add rnd (tvel u') (fl_v_cross rnd (trot u') d')), (tvel u'), (tvel u), (trot u'), (v_cross (trot u) a), d', b', a'.
      unfold v_add, v_sub, v_cross; cbn. f_equal; ring. }
  eapply Rle_trans; [apply en_add|]. eapply Rle_trans; [apply Rplus_le_compat_l, en_add|].
  pose proof (en_cross (trot u') (v_sub d' (v_sub b' a'))) as C.
  assert (C2 : en (trot u') * en (v_sub d' (v_sub b' a')) <= 221 / 100 * B * (29 * (eps * (N * D)))) by (apply Rmult_le_compat; auto using en_nn; lra).
  replace (221 / 100 * B * (29 * (eps * (N * D)))) with (6409 / 100 * (eps * (N * w))) in C2 by (unfold w; field).
  assert (G : eps * (2 * (37 * (N * w)) + 13 * (29835 / 1000 * (N * w)) + 11) <= eps * (473 * (N * w))) by (apply Rmult_le_compat_l; lra).
  assert (G2 : eps * (N * w) <= k * (N * w)) by (apply Rmult_le_compat_r; lra). assert (G3 : 0 <= k * (N * w)) by nra.
  rewrite S_INR. fold x. replace ((9500 * N + 560 * (x + 1)) * (k * (N * w))) with ((9500 * N + 560 * x) * (k * (N * w)) + 560 * (k * (N * w))) by ring. lra.
Qed.

(** Columns that have not been set yet, and what the caller sees. *)
Lemma col_zero n : col_ok n 0 v_zero v_zero t_zero t_zero.
Proof.
  pose proof k0. pose proof (pos_INR n). assert (0 <= B * D) by nra. assert (0 <= INR n * (B * D)) by nra. assert (0 <= k * B) by nra.
  assert (Z : at_base t_zero v_zero = v_zero) by (unfold at_base, t_zero, v_zero, v_sub, v_cross; cbn; f_equal; ring).
  unfold col_ok. rewrite Z. cbn [trot t_zero INR]. change (mkV 0 0 0) with v_zero. rewrite en_self, en_zero. repeat split; try nra.
  apply Rmult_le_pos; nra.
Qed.
Lemma col_near n p' p u' u : (1 <= n)%nat -> 2500 * INR n * k <= 1 -> pt_ok n p' p -> col_ok n n p' p u' u ->
  t_near (17200 * INR n * INR n * (k * (B * D))) (510 * INR n * (k * B)) u' u.
Proof.
  intros H1 Hn Hp (Er & Br & Ew & _). destruct (col_cross n p' p u' u H1 Hn Hp Er Br) as (Ec & _). split; [|apply near_en; exact Er].
  apply near_en. replace (v_sub (tvel u') (tvel u)) with (v_add (v_sub (at_base u' p') (at_base u p)) (v_sub (v_cross (trot u') p') (v_cross (trot u) p))).
  2:{ unfold at_base. destruct (tvel u'), (tvel u), (v_cross (trot u') p'), (v_cross (trot u) p). unfold v_add, v_sub; cbn. f_equal; ring. }
  eapply Rle_trans; [apply en_add|]. pose proof k0. pose proof (pos_INR n). assert (0 <= INR n * INR n * (k * (B * D))) by (apply Rmult_le_pos; [nra|]; apply Rmult_le_pos; [lra|]; nra). lra.
Qed.
End Cols.
