(** A decomposition that meets the specification, and concrete runs on the slide. *)
From Coq Require Import Reals String List ZArith Bool Arith Lia Lra.
From Verif Require Import FramesModel FramesSpec FramesProofs Outcome LoopProofs InertiaModel DualModel KinModel KinSpec KinProofs JacProofs
  LinModel LinSpec SumProofs IkSpec IkProofs2 IkWitness LmaModel LmaSpec LmaProofs LmaProofs2.
Import ListNotations.
Local Open Scope list_scope.
Local Open Scope R_scope.

Definition ex : Twist := mkT (mkV 1 0 0) (mkV 0 0 0).
(** The decomposition of a single column. *)
Definition svd1 (J : list Twist) : Svd :=
  let c := nth 0 J t_zero in let n := norm6 c in
  if Req_EM_T n 0 then mkSvd [ex] [0] [[1]] else mkSvd [t_scale c (/ n)] [n] [[1]].

Lemma svd1_correct : svd_correct 1 svd1.
Proof.
  intros J LJ. destruct J as [|c [|? ?]]; try discriminate. unfold svd1. cbn [nth].
  assert (N : norm6 c * norm6 c = t_dot6 c c) by (apply sqrt_def, t_dot6_pos).
  assert (NP : 0 <= norm6 c) by apply sqrt_pos.
  assert (D1 : delta 0 0 = 1) by reflexivity.
  destruct (Req_EM_T (norm6 c) 0) as [Z|Z].
  - rewrite Z in N. assert (C0 : forall e, t_dot6 c e = 0).
    { intros e. pose proof (Rle_0_sqr (vx (tvel c))). pose proof (Rle_0_sqr (vy (tvel c))). pose proof (Rle_0_sqr (vz (tvel c))).
      pose proof (Rle_0_sqr (vx (trot c))). pose proof (Rle_0_sqr (vy (trot c))). pose proof (Rle_0_sqr (vz (trot c))).
      unfold Rsqr, t_dot6 in *.
      assert (vx (tvel c) = 0) by (apply Rsqr_eq_0; unfold Rsqr; lra). assert (vy (tvel c) = 0) by (apply Rsqr_eq_0; unfold Rsqr; lra).
      assert (vz (tvel c) = 0) by (apply Rsqr_eq_0; unfold Rsqr; lra). assert (vx (trot c) = 0) by (apply Rsqr_eq_0; unfold Rsqr; lra).
      assert (vy (trot c) = 0) by (apply Rsqr_eq_0; unfold Rsqr; lra). assert (vz (trot c) = 0) by (apply Rsqr_eq_0; unfold Rsqr; lra).
      repeat match goal with H : _ = 0 |- _ => rewrite H; clear H end. ring. }
    unfold is_svd. cbn [svd_U svd_S svd_V length]. split; [reflexivity|]. split; [reflexivity|]. split.
    { intros [|i] Hi; [reflexivity|lia]. } split.
    { intros [|m] e Hm; [|lia]. cbn. rewrite C0. ring. } split.
    { intros [|i] [|j] Hi Hj; try lia. rewrite D1. cbn. unfold t_dot6, ex; cbn. split; ring. }
    intros [|i] Hi; [cbn; lra|lia].
  - unfold is_svd. cbn [svd_U svd_S svd_V length]. split; [reflexivity|]. split; [reflexivity|]. split.
    { intros [|i] Hi; [reflexivity|lia]. } split.
    { intros [|m] e Hm; [|lia]. cbn. rewrite t_dot6_scale. field. exact Z. } split.
    { intros [|i] [|j] Hi Hj; try lia. rewrite D1. cbn. rewrite t_dot6_scale, t_dot6_sym, t_dot6_scale, <- N. split; field; exact Z. }
    intros [|i] Hi; [cbn; exact NP|lia].
Qed.

Lemma slide_tip x : tip_frame slide [x] 1 = at_x x.
Proof. symmetry. apply (kdl_fk_correct slide (proj1 slide_ok) tt [x] 0%Z _ tt (slide_fk tt x)); [lia|reflexivity]. Qed.
Lemma slide_pose_error x y : pose_error slide (at_x y) [x] = mkT (mkV (y - x) 0 0) (mkV 0 0 0).
Proof. unfold pose_error. change (length (ch_segs slide)) with 1%nat. rewrite slide_tip. apply slide_diff. Qed.
Lemma slide_weighted L x y : 0 <= vx (tvel L) -> weighted_error L slide (at_x y) [x] = vx (tvel L) * Rabs (y - x).
Proof.
  intros H. unfold weighted_error. rewrite slide_pose_error. cbn [tvel trot vx vy vz].
  replace (_ + _ + _ + _ + _ + _) with (Rsqr (vx (tvel L) * (y - x))) by (unfold Rsqr; ring).
  rewrite sqrt_Rsqr_abs, Rabs_mult, (Rabs_right (vx (tvel L))) by lra. reflexivity.
Qed.
Lemma slide_jac x : jacobian_at slide (-1) [x] = [ex].
Proof.
  unfold jacobian_at.
  rewrite (jac_result slide (jacsolver_make slide) [x] (jac_make (ch_nj slide)) (-1) (length (ch_segs slide)) slide_ok) by (left; split; [lia|reflexivity]).
  cbn. unfold t_RefPoint, r_app_t, segment_twist, ex. cbn. f_equal. unfold v_add, v_sub, v_cross, v_scale, r_app, v_zero; cbn.
  f_equal; f_equal; ring.
Qed.

Definition half : Twist := mkT (mkV (1 / 2) (1 / 2) (1 / 2)) (mkV (1 / 2) (1 / 2) (1 / 2)).

(** A step of the solver that succeeds: from 0 towards 1 with accuracy 0.95 *)
Definition lma_demo : lma := lma_make slide (mkT (mkV 1 1 1) (mkV 1 1 1)) (95 / 100) 1 (1 / 1000).
Lemma lma_reach : exists s', lma_CartToJnt svd1 slide lma_demo [0] (at_x 1) [0] = Ret (E_NOERROR, [1 / 11], s') /\
  weighted_error (la_L lma_demo) slide (at_x 1) [1 / 11] = 10 / 11.
Proof.
  set (L := mkT (mkV 1 1 1) (mkV 1 1 1)).
  assert (SZ : lma_sized slide lma_demo) by apply lma_make_sized.
  pose proof SZ as (_ & Z1 & Z2 & Z3).
  assert (W : forall x, x <= 1 -> weighted_error L slide (at_x 1) [x] = 1 - x).
  { intros x Hx. rewrite slide_weighted by (cbn; lra). cbn. rewrite Rabs_right by lra. ring. }
  destruct (lma_fwd slide [0] (la_roots lma_demo) (la_tips lma_demo) (proj1 slide_ok) eq_refl Z2 Z3) as (r1 & t1 & F1 & LR1 & LT1 & FP1).
  unfold lma_CartToJnt. cbn [la_nj lma_demo lma_make]. change (ch_nj slide) with 1%nat in *. cbn [length Nat.eqb negb orb].
  fold lma_demo. cbn [la_roots la_tips la_L la_eps la_maxiter la_epsj la_jac lma_demo lma_make] in *.
  change (ch_nj slide) with 1%nat in *. rewrite F1. cbn [obind].
  change (f_diff (tip_frame slide [0] (length (ch_segs slide))) (at_x 1) 1) with (pose_error slide (at_x 1) [0]).
  rewrite weigh_norm. fold L. rewrite W by lra.
  destruct (Rlt_dec (1 - 0) (95 / 100)) as [A|_]; [lra|].
  rewrite (lma_jac slide [0] r1 t1 (repeat t_zero 1) slide_ok eq_refl Z1 FP1). cbn [obind].
  rewrite slide_jac, slide_pose_error. cbn [map].
  assert (WX : weigh L ex = ex) by (unfold weigh, L, ex; cbn; f_equal; f_equal; ring). rewrite WX.
  assert (WE : weigh L (mkT (mkV (1 - 0) 0 0) (mkV 0 0 0)) = ex) by (unfold weigh, L, ex; cbn; f_equal; f_equal; ring). rewrite WE.
  assert (N6 : norm6 ex = 1) by (unfold norm6, t_dot6, ex; cbn; replace (_ + _ + _ + _ + _ + _) with 1 by ring; apply sqrt_1).
  cbn [lma_loop]. unfold lma_step, svd1. cbn [nth]. rewrite N6. destruct (Req_EM_T 1 0) as [?|_]; [lra|].
  cbn [svd_U svd_S svd_V lma_damped]. unfold rdiv at 1. destruct (Req_EM_T (1 * 1 + 10) 0) as [?|_]; [lra|]. cbn [obind].
  assert (TX : t_dot6 (t_scale ex (/ 1)) ex = 1) by (unfold t_dot6, t_scale, ex, v_scale; cbn; field). rewrite TX.
  assert (CT : cols_times (la_nj lma_demo) [[1]] [1 / (1 * 1 + 10) * 1] = [1 / 11]) by (cbn; f_equal; field). rewrite CT.
  assert (XX : t_dot6 ex ex = 1) by (unfold t_dot6, ex; cbn; ring). cbn [map]. rewrite XX.
  unfold max_norm. change (la_epsj lma_demo) with (1 / 1000). change (la_eps lma_demo) with (95 / 100). change (la_L lma_demo) with L. cbn [fold_right]. rewrite (Rabs_right (1 / 11)) by lra. rewrite Rmax_left by lra.
  destruct (Rlt_dec (1 / 11) (1 / 1000)) as [?|_]; [lra|].
  unfold vdot at 1. cbn [combine map fst snd fold_right].
  destruct (Rlt_dec (1 * 1 + 0) (1 / 1000 * (1 / 1000))) as [?|_]; [lra|].
  unfold vplus at 1. cbn [combine map fst snd].
  destruct (lma_fwd slide [0 + 1 / 11] r1 t1 (proj1 slide_ok) eq_refl LR1 LT1) as (r2 & t2 & F2 & LR2 & LT2 & FP2).
  rewrite F2. cbn [obind].
  change (f_diff (tip_frame slide [0 + 1 / 11] (length (ch_segs slide))) (at_x 1) 1) with (pose_error slide (at_x 1) [0 + 1 / 11]).
  rewrite weigh_norm. rewrite W by lra.
  unfold vdot, vplus. cbn [combine map fst snd fold_right].
  unfold rdiv. destruct (Req_EM_T (1 / 11 * (10 * (1 / 11) + 1) + 0) 0) as [?|_]; [lra|]. cbn [obind].
  destruct (Rgt_dec _ 0) as [_|G].
  2:{ contradiction G. apply Rlt_gt. apply Rdiv_lt_0_compat; lra. }
  destruct (Rlt_dec (1 - (0 + 1 / 11)) (95 / 100)) as [_|G]; [|lra].
  cbn [obind le_code le_q]. replace (0 + 1 / 11) with (1 / 11) by ring.
  eexists. split; [reflexivity|]. unfold lma_demo, lma_make. cbn [la_L]. fold L. rewrite W by lra. field.
Qed.

(** lastDifference after a call that needed no step is the unweighted error. *)
Lemma lma_diff_unweighted : exists s', lma_CartToJnt svd1 slide (lma_make slide half (1 / 10) 10 (1 / 1000)) [0] (at_x (1 / 100)) [0]
    = Ret (E_NOERROR, [0], s') /\ la_diff s' = 1 / 100 /\ weighted_error half slide (at_x (1 / 100)) [0] = 1 / 200.
Proof.
  assert (W : weighted_error half slide (at_x (1 / 100)) [0] = 1 / 200).
  { rewrite slide_weighted by (cbn; lra). cbn. rewrite Rabs_right by lra. field. }
  assert (SZ : lma_sized slide (lma_make slide half (1 / 10) 10 (1 / 1000))) by apply lma_make_sized.
  pose proof SZ as (_ & Z1 & Z2 & Z3).
  destruct (lma_fwd slide [0] _ _ (proj1 slide_ok) eq_refl Z2 Z3) as (r1 & t1 & F1 & _).
  unfold lma_CartToJnt. cbn [la_nj lma_make]. change (ch_nj slide) with 1%nat in *. cbn [length Nat.eqb negb orb].
  cbn [la_roots la_tips la_L la_eps la_maxiter la_epsj la_jac lma_make] in *.
  change (ch_nj slide) with 1%nat in *. rewrite F1. cbn [obind].
  change (f_diff (tip_frame slide [0] (length (ch_segs slide))) (at_x (1 / 100)) 1) with (pose_error slide (at_x (1 / 100)) [0]).
  rewrite weigh_norm, W. destruct (Rlt_dec (1 / 200) (1 / 10)) as [_|?]; [|lra].
  cbn [obind le_code le_q]. eexists. split; [reflexivity|]. cbn [la_diff le_diff]. split; [|reflexivity].
  rewrite slide_pose_error. unfold norm6, t_dot6. cbn [tvel trot vx vy vz].
  replace (_ + _ + _ + _ + _ + _) with (Rsqr (1 / 100)) by (unfold Rsqr; field). rewrite sqrt_Rsqr by lra. reflexivity.
Qed.
(** lastTransDiff is weighted when the iterations are used up. *)
Lemma lma_trans_weighted : exists s', lma_CartToJnt svd1 slide (lma_make slide half (1 / 10) 0 (1 / 1000)) [0] (at_x 1) [0]
    = Ret (E_MAX_ITERATIONS_EXCEEDED, [0], s') /\ la_trans s' = 1 / 2 /\ norm3 (tvel (pose_error slide (at_x 1) [0])) = 1.
Proof.
  assert (W : weighted_error half slide (at_x 1) [0] = 1 / 2).
  { rewrite slide_weighted by (cbn; lra). cbn. rewrite Rabs_right by lra. field. }
  assert (SZ : lma_sized slide (lma_make slide half (1 / 10) 0 (1 / 1000))) by apply lma_make_sized.
  pose proof SZ as (_ & Z1 & Z2 & Z3).
  destruct (lma_fwd slide [0] _ _ (proj1 slide_ok) eq_refl Z2 Z3) as (r1 & t1 & F1 & _ & _ & FP).
  unfold lma_CartToJnt. cbn [la_nj lma_make]. change (ch_nj slide) with 1%nat in *. cbn [length Nat.eqb negb orb].
  cbn [la_roots la_tips la_L la_eps la_maxiter la_epsj la_jac lma_make] in *.
  change (ch_nj slide) with 1%nat in *. rewrite F1. cbn [obind].
  change (f_diff (tip_frame slide [0] (length (ch_segs slide))) (at_x 1) 1) with (pose_error slide (at_x 1) [0]).
  rewrite weigh_norm, W. destruct (Rlt_dec (1 / 2) (1 / 10)) as [?|_]; [lra|].
  rewrite (lma_jac slide [0] r1 t1 (repeat t_zero 1) slide_ok eq_refl Z1 FP). cbn [obind lma_loop le_code le_q].
  rewrite slide_pose_error. eexists. split; [reflexivity|]. cbn [la_trans le_trans]. unfold norm3, half, weigh. cbn [tvel trot vx vy vz].
  split.
  - replace (_ + _ + _) with (Rsqr (1 / 2)) by (unfold Rsqr; field). rewrite sqrt_Rsqr by lra. reflexivity.
  - replace (_ + _ + _) with 1 by ring. apply sqrt_1.
Qed.
