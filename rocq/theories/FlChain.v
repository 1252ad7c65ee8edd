(** Error of forward kinematics in rounded arithmetic. *)
From Coq Require Import Reals String List ZArith Bool Arith Lia Lra Psatz.
From Verif Require Import FramesModel FramesSpec FramesProofs FrameOpsProofs Outcome LoopProofs InertiaModel DualModel KinModel KinSpec DerivProofs KinProofs
  RotNear LipProofs FlModel FlSpec FlProofs FlJoint.
Import ListNotations.
Local Open Scope R_scope.

Lemma en_near0 e v : 0 <= e -> v_near e v v_zero -> en v <= 2 * e.
Proof. intros He H. replace v with (v_sub v v_zero) by (destruct v; unfold v_sub; cbn; f_equal; ring). apply en_near; assumption. Qed.

Section Chain.
Variables (eps A D : R) (rnd fsin fcos : R -> R).
Hypothesis HA : 1 <= A.
Hypothesis HD : 1 <= D.
Hypothesis He : 0 <= eps.
Let k := eps * A.
Hypothesis Hrnd : rounds eps rnd.
Hypothesis Hsin : computes eps fsin sin.
Hypothesis Hcos : computes eps fcos cos.

Lemma segment_err s' s q : k <= / 2500 -> segment_ok s -> stored eps s' s -> moves_within A D (s, q) ->
  let f' := fl_segment_pose rnd fsin fcos s' q in let f := segment_pose s q in
  opb (r_minus (fM f') (fM f)) (155 * k) /\ en (v_sub (fp f') (fp f)) <= 300 * (k * D) /\ en (fp f) <= 6 * D.
Proof.
  intros Hk (Hj & Ht) Hst Hmv. pose proof (joint_err eps A D rnd fsin fcos HA HD He Hk Hrnd Hsin Hcos s' s q Hst Hmv) as (Nr & Nv & Bv).
  destruct Hst as (_ & _ & _ & _ & _ & Tr & Tp). destruct Hmv as (_ & _ & _ & Bt). cbn [fst snd] in *.
  cbv zeta. unfold fl_segment_pose, segment_pose. set (J' := fl_joint_pose rnd fsin fcos (sjoint s') q) in *. set (J := joint_pose (sjoint s) q) in *.
  pose proof (joint_pose_rigid (sjoint s) q Hj) as RJ. fold J in RJ.
  assert (K0 : 0 <= k) by (unfold k; nra). assert (ek : eps <= k) by (unfold k; nra). assert (KD : 0 <= k * D) by nra. assert (ekD : eps <= k * D) by nra.
  assert (ek2 : eps <= / 2500) by lra. fold k in Nr, Nv.
  apply opb_near in Nr; [|lra]. apply opb_near in Tr; [|lra]. apply en_near in Nv; [|lra]. apply en_near in Tp; [|lra].
  apply en_near0 in Bv; [|lra]. apply en_near0 in Bt; [|lra].
  assert (Nr' : opb (r_minus (fM J') (fM J)) (102 * k)) by (eapply opb_weaken; [exact Nr|lra]). clear Nr.
  assert (Tr' : opb (r_minus (fM (sf_tip s')) (fM (sf_tip s))) (3 * k)) by (eapply opb_weaken; [exact Tr|lra]). clear Tr.
  unfold fl_f_mul, f_mul; cbn [fM fp]. split; [|split].
  - eapply opb_weaken; [apply (mul_pert eps A rnd HA He Hk Hrnd _ _ _ _ _ _ RJ Ht Nr' Tr')|].
    assert (k * k <= / 2500 * k) by nra. assert (eps * k <= / 2500 * k) by nra. assert (eps * (k * k) <= / 2500 * k) by nra. nra.
  - eapply Rle_trans; [apply (app_pert eps A rnd HA He Hk Hrnd _ _ _ _ _ _ _ _ _ RJ Nr' Tp Nv)|]. cbv zeta.
    set (t := en (fp (sf_tip s))) in *. assert (T0 : 0 <= t) by apply en_nn. set (o := en (fp J)) in *. assert (O0 : 0 <= o) by apply en_nn.
    set (m := (1 + 102 * k) * (t + 2 * eps)).
    assert (M : m <= 209 / 100 * D). { unfold m. assert ((1 + 102 * k) * (t + 2 * eps) <= (1 + 102 * / 2500) * (2 * D + 2 * / 2500)) by (apply Rmult_le_compat; lra). lra. }
    assert (R1 : eps * (9 * m + 6) <= eps * (25 * D)) by (apply Rmult_le_compat_l; lra). assert (R2 : eps * (25 * D) <= 25 * (k * D)) by nra.
    assert (R3 : 25 * (k * D) <= / 100 * D) by nra.
    assert (R4 : eps * (m + 2 * (eps * (9 * m + 6)) + (o + 2 * (13 * (k * D))) + 1) <= eps * (75 / 10 * D)) by (apply Rmult_le_compat_l; nra).
    assert (R5 : eps * (75 / 10 * D) <= 75 / 10 * (k * D)) by nra.
    assert (R6 : 102 * k * (t + 2 * eps) <= 102 * k * (2 * D + 2 / 2500 * D)) by (apply Rmult_le_compat_l; lra).
    lra.
  - eapply Rle_trans; [apply en_add|]. pose proof (opb_rot _ RJ (fp (sf_tip s))). lra.
Qed.

(** The invariant after i segments. *)
Definition run_ok (n i : nat) (p' p : Frame) : Prop :=
  rigid p /\ opb (r_minus (fM p') (fM p)) (220 * INR i * k) /\
  en (v_sub (fp p') (fp p)) <= 1850 * INR i * INR n * (k * D) /\ en (fp p) <= 6 * INR i * D.
Lemma run_step n i p' p s' s q : (i < n)%nat -> 2500 * INR n * k <= 1 -> segment_ok s -> stored eps s' s -> moves_within A D (s, q) ->
  run_ok n i p' p -> run_ok n (S i) (fl_f_mul rnd p' (fl_segment_pose rnd fsin fcos s' q)) (f_mul p (segment_pose s q)).
Proof.
  intros Hi Hn Hok Hst Hmv (Rp & Op & Ep & Bp).
  assert (K0 : 0 <= k) by (unfold k; nra). assert (ek : eps <= k) by (unfold k; nra).
  pose proof (lt_INR i n Hi) as Li. pose proof (pos_INR i) as I0. assert (N1 : 1 <= INR n) by (apply (le_INR 1); lia).
  assert (I1 : INR i + 1 <= INR n) by (rewrite <- S_INR; apply le_INR; lia).
  assert (Hk : k <= / 2500) by nra.
  destruct (segment_err s' s q Hk Hok Hst Hmv) as (Os & Es & Bs). pose proof (segment_pose_rigid s q Hok) as Rs.
  set (S' := fl_segment_pose rnd fsin fcos s' q) in *. set (S0 := segment_pose s q) in *. unfold run_ok. rewrite S_INR.
  set (N := INR n) in *. set (x := INR i) in *.
  assert (KD : 0 <= k * D) by nra. assert (ekD : eps <= k * D) by nra. assert (NK : N * k <= / 2500) by lra.
  assert (Nk0 : 0 <= N * k) by nra. assert (xk : 0 <= x * k <= N * k) by (split; [nra|apply Rmult_le_compat_r; lra]).
  unfold fl_f_mul, f_mul; cbn [fM fp]. split; [exact (is_rotation_mul _ _ Rp Rs)|]. split; [|split].
  - eapply opb_weaken; [apply (mul_pert eps A rnd HA He Hk Hrnd _ _ _ _ _ _ Rp Rs Op Os)|].
    set (a := 220 * x * k). assert (Ba : 0 <= a <= 88 / 1000) by (unfold a; lra).
    assert (P1 : (1 + a) * (1 + 155 * k) <= (1 + 88 / 1000) * (1 + 155 / 2500)) by (apply Rmult_le_compat; lra).
    assert (P0 : 0 <= (1 + a) * (1 + 155 * k)) by (apply Rmult_le_pos; lra).
    assert (P2 : eps * (9 * ((1 + a) * (1 + 155 * k)) + 6) <= k * (165 / 10)) by (apply Rmult_le_compat; lra).
    assert (P3 : a * (155 * k) <= 88 / 1000 * (155 * k)) by (apply Rmult_le_compat_r; lra).
    replace (220 * (x + 1) * k) with (a + 220 * k) by (unfold a; ring). lra.
  - eapply Rle_trans; [apply (app_pert eps A rnd HA He Hk Hrnd _ _ _ _ _ _ _ _ _ Rp Op Es Ep)|]. cbv zeta.
    set (a := 220 * x * k). assert (Ba : 0 <= a <= 88 / 1000) by (unfold a; lra).
    set (t := en (fp S0)) in *. assert (T0 : 0 <= t) by apply en_nn. set (o := en (fp p)) in *. assert (O0 : 0 <= o) by apply en_nn.
    assert (kD : k * D <= / 2500 * D) by (apply Rmult_le_compat_r; lra).
    set (m := (1 + a) * (t + 300 * (k * D))).
    assert (M0 : 0 <= m) by (unfold m; apply Rmult_le_pos; lra).
    assert (M : m <= 67 / 10 * D). { unfold m. assert ((1 + a) * (t + 300 * (k * D)) <= (1 + 88 / 1000) * (6 * D + 300 * (/ 2500 * D))) by (apply Rmult_le_compat; lra). lra. }
    set (c := 1850 * x * N * (k * D)).
    assert (ND : D <= N * D) by nra.
    assert (C1 : 0 <= c <= 75 / 100 * (N * D)).
    { unfold c. replace (1850 * x * N * (k * D)) with (1850 * (x * k) * (N * D)) by ring. split; [apply Rmult_le_pos; [lra|nra]|]. apply Rmult_le_compat_r; lra. }
    set (rho := 2 * (eps * (9 * m + 6))). assert (E0 : 0 <= eps * (9 * m + 6)) by (apply Rmult_le_pos; lra).
    assert (R1 : rho <= 134 * (k * D)).
    { unfold rho. assert (eps * (9 * m + 6) <= eps * (67 * D)) by (apply Rmult_le_compat_l; lra). assert (eps * (67 * D) <= 67 * (k * D)) by nra. lra. }
    assert (xD : x * D <= N * D - D) by nra.
    assert (R4 : eps * (m + rho + (o + c) + 1) <= eps * (10 * (N * D))) by (apply Rmult_le_compat_l; [lra|]; lra).
    assert (NkD : k * D <= N * (k * D)) by nra.
    assert (R5 : eps * (10 * (N * D)) <= 10 * (N * (k * D))) by (replace (10 * (N * (k * D))) with (k * (10 * (N * D))) by ring; apply Rmult_le_compat_r; nra).
    assert (R6 : a * (t + 300 * (k * D)) <= 1347 * (N * (k * D))).
    { assert (a * (t + 300 * (k * D)) <= 220 * (N * k) * (612 / 100 * D)) by (apply Rmult_le_compat; unfold a; lra). lra. }
    replace (1850 * (x + 1) * N * (k * D)) with (c + 1850 * (N * (k * D))) by (unfold c; ring). lra.
  - eapply Rle_trans; [apply en_add|]. pose proof (opb_rot _ Rp (fp S0)). lra.
Qed.
Lemma run_start n : run_ok n 0 f_id f_id.
Proof.
  unfold run_ok. cbn [fM fp f_id INR]. split; [apply is_rotation_id|]. split; [|split].
  - intros v. replace (r_app (r_minus r_id r_id) v) with v_zero by (destruct v; unfold r_app, r_minus, r_id, v_zero; cbn; f_equal; ring).
    assert (E : en v_zero <= 0) by (apply en_le; cbn; lra). lra.
  - apply en_le; cbn; lra.
  - apply en_le; cbn; lra.
Qed.

Lemma assign_in : forall segs q i s x, nth_error segs i = Some s -> length q = count_moving segs ->
  (if moving s then nth_error q (count_moving (firstn i segs)) = Some x else x = 0) -> In (s, x) (assign segs q).
Proof.
  induction segs as [|s0 segs IH]; intros q i s x Hi Hl Hx; [destruct i; discriminate|].
  destruct i as [|i].
  - injection Hi as ->. cbn [assign firstn] in *. unfold count_moving in Hx; cbn in Hx. unfold count_moving in Hl. cbn in Hl. destruct (moving s).
    + destruct q as [|y q]; [discriminate|]. injection Hx as ->. left. reflexivity.
    + subst x. left. reflexivity.
  - cbn [nth_error assign firstn] in *. unfold count_moving in Hx, Hl; cbn in Hx, Hl. fold (count_moving segs) in *. destruct (moving s0) eqn:M0.
    + destruct q as [|y q]; [discriminate|]. right. apply (IH q i s x Hi); [cbn in Hl; unfold count_moving; lia|]. exact Hx.
    + right. apply (IH q i s x Hi Hl Hx).
Qed.
Lemma stored_moving s' s : stored eps s' s -> moving s' = moving s.
Proof. intros (E & _). unfold moving. rewrite E. reflexivity. Qed.
Lemma Forall2_nth {X Y} (P : X -> Y -> Prop) l1 l2 : Forall2 P l1 l2 -> forall i x, nth_error l1 i = Some x -> exists y, nth_error l2 i = Some y /\ P x y.
Proof. induction 1 as [|a b l1 l2 H F IH]; intros i x Hi; [destruct i; discriminate|]. destruct i as [|i]; [injection Hi as <-; exists b; auto|]. apply IH, Hi. Qed.
Lemma stored_count l1 l2 : Forall2 (stored eps) l1 l2 -> forall i, count_moving (firstn i l1) = count_moving (firstn i l2).
Proof.
  induction 1 as [|a b l1 l2 H F IH]; intros i; [destruct i; reflexivity|]. destruct i as [|i]; [reflexivity|].
  cbn [firstn]. unfold count_moving in *. cbn. rewrite (stored_moving _ _ H). destruct (moving b); cbn; rewrite IH; reflexivity.
Qed.
Lemma stored_len l1 l2 : Forall2 (stored eps) l1 l2 -> length l1 = length l2. Proof. induction 1; cbn; congruence. Qed.
Lemma stored_wf c' c : chain_stored eps c' c -> chain_wf c -> chain_wf c'.
Proof.
  intros (E1 & E2 & F) (W1 & W2). split; [rewrite E1, W1; symmetry; apply stored_len, F|].
  rewrite E2, W2. pose proof (stored_count _ _ F (length (ch_segs c))) as H. rewrite firstn_all in H. rewrite <- (stored_len _ _ F), firstn_all in H. congruence.
Qed.

Lemma fl_fk_error c' c q z n : chain_ok c -> chain_stored eps c' c -> length q = ch_nj c -> denotes c z n -> (n <= length (ch_segs c))%nat ->
  Forall (moves_within A D) (assign (ch_segs c) q) -> 2500 * INR n * (eps * A) <= 1 ->
  exists p, fl_fk_JntToCart rnd fsin fcos c' q z = Ret (E_NOERROR, p) /\
    r_near (220 * INR n * (eps * A)) (fM p) (fM (tip_frame c q n)) /\
    v_near (1850 * INR n * INR n * (eps * A * D)) (fp p) (fp (tip_frame c q n)).
Proof.
  intros Hok Hst Hq Hd Hn Hmv Hsm. pose proof (proj1 Hok) as Hw. pose proof (stored_wf _ _ Hst Hw) as Hw'.
  destruct Hst as (Es & Ej & F). pose proof (stored_len _ _ F) as Hl.
  assert (Hnr : segment_nr c' z = n). { apply (denotes_segment_nr _ _ _ Hw'). unfold denotes in *. rewrite Hl. exact Hd. }
  unfold fl_fk_JntToCart. rewrite Hnr. cbv zeta. rewrite Ej, Hq, Nat.eqb_refl. cbn [negb].
  assert (Hlt : Nat.ltb (ch_ns c') n = false) by (apply Nat.ltb_ge; rewrite (proj1 Hw'); lia). rewrite Hlt.
  destruct (for_loop_inv (fun i st => fst st = count_moving (firstn i (ch_segs c)) /\ run_ok n i (snd st) (tip_frame c q i))
    (fl_fk_body rnd fsin fcos c' q) n 0 (0%nat, f_id)) as (st & E & H1 & H2).
  - intros i [j p] Hi (J1 & J2). cbn [fst snd] in *. unfold fl_fk_body.
    destruct (chain_lookup c q i Hw Hq ltac:(rewrite (proj1 Hw); lia)) as (s & x & En & _ & Hle & Hx & Ha & Hc).
    destruct (chain_lookup c' q i Hw' ltac:(congruence) ltac:(rewrite (proj1 Hw'); lia)) as (s' & x' & En' & Eg & _).
    destruct (Forall2_nth _ _ _ F i s' En') as (s1 & En1 & St). rewrite En in En1. injection En1 as <-.
    rewrite Eg. cbn [obind]. rewrite (stored_moving _ _ St).
    assert (Sok : segment_ok s) by (pose proof (proj2 Hok) as FF; rewrite Forall_forall in FF; apply FF; eapply nth_error_In, En).
    assert (Mv : moves_within A D (s, x)). { rewrite Forall_forall in Hmv. apply Hmv. apply (assign_in _ _ i); [exact En|rewrite Hq; apply (proj2 Hw)|exact Hx]. }
    pose proof (run_step n i p (tip_frame c q i) s' s x ltac:(lia) Hsm Sok St Mv J2) as Rn.
    rewrite (tip_frame_S c q i s x Hle En Hx). destruct (moving s).
    + rewrite J1, (Ha eq_refl). cbn [obind]. eexists; split; [reflexivity|]. cbn [fst snd]. split; [lia|exact Rn].
    + subst x. eexists; split; [reflexivity|]. cbn [fst snd]. split; [lia|exact Rn].
  - split; [reflexivity|apply run_start].
  - rewrite E. cbn [obind]. destruct st as [j p]. cbn [fst snd] in *. destruct H2 as (_ & Op & Ep & _). exists p. split; [reflexivity|]. split.
    + apply near_opb. exact Op.
    + apply near_en. exact Ep.
Qed.
End Chain.
