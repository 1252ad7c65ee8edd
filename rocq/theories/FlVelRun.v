(** Error of the velocity forward kinematics in rounded arithmetic: the whole solver. *)
From Coq Require Import Reals String List ZArith Bool Arith Lia Lra Psatz FunctionalExtensionality.
From Flocq Require Import Core.
From Verif Require Import FramesModel FramesSpec FramesProofs FrameOpsProofs Outcome LoopProofs InertiaModel DualModel KinModel KinSpec DerivProofs KinProofs JacProofs
  SvdRound RotNear LipProofs FlModel FlSpec FlProofs FlJoint FlChain FlWitness FlJacModel FlJacSpec FlJacProofs FlJacCols FlJacRun FlVelModel FlVelSpec FlVelSeg FlVelProofs.
Import ListNotations.
Local Open Scope list_scope.
Local Open Scope R_scope.

Lemma fl_vel_error eps A D B rnd fsin fcos c' c q qd z n : 1 <= A -> 1 <= D -> 1 <= B -> 0 <= eps ->
  rounds eps rnd -> computes eps fsin sin -> computes eps fcos cos ->
  chain_ok c -> chain_stored eps c' c -> length q = ch_nj c -> length qd = ch_nj c -> denotes c z n -> (n <= length (ch_segs c))%nat ->
  Forall (moves_within A D) (assign (ch_segs c) q) -> Forall (speed_within B) (assign (ch_segs c) qd) -> 2500 * INR n * (eps * A) <= 1 ->
  exists V' V, fl_fkvel_JntToCart rnd fsin fcos c' q qd z = Ret (E_NOERROR, V') /\ fkvel_JntToCart c q qd z = Ret (E_NOERROR, V) /\
    fv_near (220 * INR n * (eps * A)) (1850 * INR n * INR n * (eps * A * D))
      (520 * INR n * INR n * (eps * A * B)) (9700 * INR n * INR n * INR n * (eps * A * (B * D))) V' V.
Proof.
  intros HA HD HB He Hrnd Hsin Hcos Hok Hst Hq Hqd Hd Hn Hmv Hsp Hsm. pose proof (proj1 Hok) as Hw. pose proof (stored_wf _ _ _ Hst Hw) as Hw'.
  pose proof (fkvel_result c q qd z n Hok Hd) as ER. rewrite Hq, Hqd, !Nat.eqb_refl in ER. cbn [negb andb] in ER. rewrite (proj2 (Nat.leb_le _ _) Hn) in ER.
  destruct Hst as (Es & Ej & F). pose proof (stored_len _ _ _ F) as Hl.
  assert (Hnr : segment_nr c' z = n). { apply (denotes_segment_nr _ _ _ Hw'). unfold denotes in *. rewrite Hl. exact Hd. }
  unfold fl_fkvel_JntToCart. rewrite Hnr. cbv zeta. rewrite Ej, Hq, Hqd, !Nat.eqb_refl. cbn [negb andb].
  assert (Hlt : Nat.ltb (ch_ns c') n = false) by (apply Nat.ltb_ge; rewrite (proj1 Hw'); lia). rewrite Hlt.
  destruct (for_loop_inv (fun i st => fst st = count_moving (firstn i (ch_segs c)) /\ vel_ok eps A D B n i (snd st) (tip_vel c q qd i))
    (fl_fkvel_body rnd fsin fcos c' q qd) n 0 (0%nat, fv_id)) as (st & E & H1 & H2).
  - intros i [j p] Hi (J1 & J2). cbn [fst snd] in *. unfold fl_fkvel_body.
    destruct (chain_lookup c q i Hw Hq ltac:(rewrite (proj1 Hw); lia)) as (s & x & En & _ & Hle & Hx & Ha & Hc).
    destruct (chain_lookup c qd i Hw Hqd ltac:(rewrite (proj1 Hw); lia)) as (s2 & xd & En2 & _ & _ & Hxd & Had & _). rewrite En in En2. injection En2 as <-.
    destruct (chain_lookup c' q i Hw' ltac:(congruence) ltac:(rewrite (proj1 Hw'); lia)) as (s' & x' & En' & Eg & _).
    destruct (Forall2_nth _ _ _ F i s' En') as (s1 & En1 & St). rewrite En in En1. injection En1 as <-.
    rewrite Eg. cbn [obind]. rewrite (stored_moving _ _ _ St).
    assert (Sok : segment_ok s) by (pose proof (proj2 Hok) as FF; rewrite Forall_forall in FF; apply FF; eapply nth_error_In, En).
    assert (Mv : moves_within A D (s, x)). { rewrite Forall_forall in Hmv. apply Hmv. apply (assign_in _ _ i); [exact En|rewrite Hq; apply (proj2 Hw)|exact Hx]. }
    assert (Sp : speed_within B (s, xd)). { rewrite Forall_forall in Hsp. apply Hsp. apply (assign_in _ _ i); [exact En|rewrite Hqd; apply (proj2 Hw)|exact Hxd]. }
    pose proof (vel_step eps A D B rnd fsin fcos HA HD HB He Hrnd Hsin Hcos n i p (tip_vel c q qd i) s' s x xd ltac:(lia) Hsm Sok St Mv Sp J2) as Rn.
    rewrite (tip_vel_S c q qd i s x xd Hok Hle En Hx Hxd). destruct (moving s).
    + rewrite J1, (Ha eq_refl), (Had eq_refl). cbn [obind]. eexists; split; [reflexivity|]. cbn [fst snd]. split; [lia|exact Rn].
    + subst x xd. eexists; split; [reflexivity|]. cbn [fst snd]. split; [lia|exact Rn].
  - split; [reflexivity|]. unfold tip_vel. cbn [firstn]. apply vel_start; assumption.
  - rewrite E. cbn [obind]. destruct st as [j p]. cbn [fst snd] in *. destruct H2 as ((_ & Op & Ep & _) & Ew & _ & Ev & _). exists p, (tip_vel c q qd n).
    split; [reflexivity|]. split; [exact ER|]. cbn [Nat.add] in *. split; [|split; [|split]].
    + apply near_opb. exact Op.
    + apply near_en. exact Ep.
    + apply near_en. exact Ew.
    + apply near_en. eapply Rle_trans; [exact Ev|]. right. ring.
Qed.

Lemma fl_vel_double fsin fcos c' c q qd z n : computes ulp1 fsin sin -> computes ulp1 fcos cos ->
  chain_ok c -> chain_stored ulp1 c' c -> length q = ch_nj c -> length qd = ch_nj c -> denotes c z n -> (n <= length (ch_segs c))%nat -> (n <= 20)%nat ->
  Forall (moves_within 10 2) (assign (ch_segs c) q) -> Forall (speed_within 1) (assign (ch_segs c) qd) ->
  exists V' V, fl_fkvel_JntToCart double fsin fcos c' q qd z = Ret (E_NOERROR, V') /\ fkvel_JntToCart c q qd z = Ret (E_NOERROR, V) /\
    fv_near (1 / 10 ^ 10) (1 / 10 ^ 8) (1 / 10 ^ 9) (1 / 10 ^ 6) V' V.
Proof.
  intros Hs Hc Hok Hst Hq Hqd Hd Hn H20 Hmv Hsp. assert (U : 0 <= ulp1) by (rewrite ulp1_eq; lra).
  assert (N20 : INR n <= 20) by (apply le_INR in H20; cbn in H20; lra). pose proof (pos_INR n) as N0.
  destruct (fl_vel_error ulp1 10 2 1 double fsin fcos c' c q qd z n ltac:(lra) ltac:(lra) ltac:(lra) U double_rounds_fl Hs Hc Hok Hst Hq Hqd Hd Hn Hmv Hsp) as (V' & V & E1 & E2 & F1 & F2 & F3 & F4).
  - rewrite ulp1_eq. lra.
  - exists V', V. split; [exact E1|]. split; [exact E2|]. assert (NN : INR n * INR n <= 400) by nra.
    assert (NNN : INR n * INR n * INR n <= 8000) by (assert (0 <= INR n * INR n) by nra; nra).
    split; [|split; [|split]].
    + eapply rnear_weaken; [exact F1|]. rewrite ulp1_eq. lra.
    + eapply vnear_weaken; [exact F2|]. rewrite ulp1_eq. lra.
    + eapply vnear_weaken; [exact F3|]. rewrite ulp1_eq. lra.
    + eapply vnear_weaken; [exact F4|]. rewrite ulp1_eq. lra.
Qed.

(** Against the derivative of the exact pose. *)
Lemma fl_vel_derivative eps A D B rnd fsin fcos c' c q t qd z n : 1 <= A -> 1 <= D -> 1 <= B -> 0 <= eps ->
  rounds eps rnd -> computes eps fsin sin -> computes eps fcos cos ->
  chain_ok c -> chain_stored eps c' c -> joint_motion (ch_nj c) q t qd -> denotes c z n -> (n <= length (ch_segs c))%nat ->
  Forall (moves_within A D) (assign (ch_segs c) (q t)) -> Forall (speed_within B) (assign (ch_segs c) qd) -> 2500 * INR n * (eps * A) <= 1 ->
  exists V' u, fl_fkvel_JntToCart rnd fsin fcos c' (q t) qd z = Ret (E_NOERROR, V') /\
    frame_velocity (fun s => tip_frame c (q s) n) t u /\
    t_near (9700 * INR n * INR n * INR n * (eps * A * (B * D))) (520 * INR n * INR n * (eps * A * B)) (fv_GetTwist V') u.
Proof.
  intros HA HD HB He Hrnd Hsin Hcos Hok Hst Hm Hd Hn Hmv Hsp Hsm. pose proof Hm as (Hl & Hld & _).
  destruct (fl_vel_error eps A D B rnd fsin fcos c' c (q t) qd z n HA HD HB He Hrnd Hsin Hcos Hok Hst (Hl t) Hld Hd Hn Hmv Hsp Hsm) as (V' & V & E1 & E2 & _ & _ & Fw & Fv).
  destruct (fkvel_derivative c z n q t qd Hok Hd Hn Hm) as (V1 & p & E3 & _ & _ & Vel). rewrite E2 in E3. injection E3 as <-.
  exists V', (fv_GetTwist V). split; [exact E1|]. split; [|split; assumption].
  replace (fun s => tip_frame c (q s) n) with (fun s => match fk_JntToCart c (q s) z with Ret (_, f) => f | Undef => f_id end); [exact Vel|].
  apply functional_extensionality. intros s. rewrite (fk_result c (q s) z n (proj1 Hok) Hd), (Hl s), Nat.eqb_refl, (proj2 (Nat.leb_le _ _) Hn). reflexivity.
Qed.

(** The pose is, operation by operation, the one of the position solver. *)
Lemma fl_vel_pose rnd fsin fcos c q qd z code p : length qd = ch_nj c -> fl_fk_JntToCart rnd fsin fcos c q z = Ret (code, p) ->
  exists V, fl_fkvel_JntToCart rnd fsin fcos c q qd z = Ret (code, V) /\ fv_GetFrame V = p.
Proof.
  intros Hqd. unfold fl_fk_JntToCart, fl_fkvel_JntToCart. cbv zeta. rewrite Hqd, Nat.eqb_refl, andb_true_r.
  destruct (Nat.eqb_spec (length q) (ch_nj c)) as [Hq|Hq]; cbn [negb].
  2:{ intros H. injection H as <- <-. eexists. split; reflexivity. }
  destruct (Nat.ltb (ch_ns c) (segment_nr c z)); [intros H; injection H as <- <-; eexists; split; reflexivity|].
  destruct (for_loop (segment_nr c z) 0 (fl_fk_body rnd fsin fcos c q) (0%nat, f_id)) as [st|] eqn:EF; [|discriminate]. cbn [obind]. intros H. injection H as <- <-.
  destruct (for_loop_rel (fun i (s1 : nat * FrameVel) (s2 : nat * Frame) => fst s1 = fst s2 /\ fv_GetFrame (snd s1) = snd s2)
    (fl_fkvel_body rnd fsin fcos c q qd) (fl_fk_body rnd fsin fcos c q) (segment_nr c z) 0 (0%nat, fv_id) (0%nat, f_id) st) as (st' & E' & _ & G).
  - intros k [j1 V1] [j2 p2] v2 _ (G1 & G2) Eb. cbn [fst snd] in *. subst j2 p2. unfold fl_fk_body in Eb. unfold fl_fkvel_body.
    destruct (chain_getSegment c k) as [s|]; [|discriminate]. cbn [obind] in *. destruct (moving s).
    + destruct (aget q j1) as [x|] eqn:Ex; [|discriminate]. cbn [obind] in *. injection Eb as <-.
      assert (L : (j1 < length qd)%nat). { unfold aget in Ex. destruct (nth_error q j1) eqn:En; [|discriminate]. assert (j1 < length q)%nat by (apply nth_error_Some; congruence). lia. }
      destruct (aget_ret qd j1 L) as (xd & -> & _). cbn [obind]. eexists. split; [reflexivity|]. split; reflexivity.
    + injection Eb as <-. eexists. split; [reflexivity|]. split; reflexivity.
  - split; reflexivity.
  - exact EF.
  - rewrite E'. cbn [obind]. eexists. split; [reflexivity|exact G].
Qed.

(** Rounding does not change the return code. *)
Lemma fl_vel_code rnd fsin fcos c q qd z : chain_ok c ->
  exists code V' V, fl_fkvel_JntToCart rnd fsin fcos c q qd z = Ret (code, V') /\ fkvel_JntToCart c q qd z = Ret (code, V).
Proof.
  intros Hok. pose proof (proj1 Hok) as Hw. set (n := segment_nr c z). assert (Hd : denotes c z n) by (apply denotes_segment_nr; [exact Hw|reflexivity]).
  pose proof (fkvel_result c q qd z n Hok Hd) as ER. revert ER. unfold fkvel_JntToCart, fl_fkvel_JntToCart. fold n. cbv zeta.
  destruct (Nat.eqb_spec (length q) (ch_nj c)) as [Hq|]; cbn [negb andb]; [|intros _; do 3 eexists; split; reflexivity].
  destruct (Nat.eqb_spec (length qd) (ch_nj c)) as [Hqd|]; cbn [negb andb]; [|intros _; do 3 eexists; split; reflexivity].
  destruct (Nat.ltb_spec (ch_ns c) n); [intros _; do 3 eexists; split; reflexivity|].
  destruct (for_loop n 0 (fkvel_body c q qd) (0%nat, fv_id)) as [st|] eqn:EF; [|discriminate]. intros _. cbn [obind].
  destruct (for_loop_rel (fun i (s1 s2 : nat * FrameVel) => fst s1 = fst s2)
    (fl_fkvel_body rnd fsin fcos c q qd) (fkvel_body c q qd) n 0 (0%nat, fv_id) (0%nat, fv_id) st) as (st' & E' & _).
  - intros k [j1 V1] [j2 V2] v2 _ G Eb. cbn [fst] in G. subst j2. unfold fkvel_body in Eb. unfold fl_fkvel_body.
    destruct (chain_getSegment c k) as [s|]; [|discriminate]. cbn [obind] in *. destruct (moving s).
    + destruct (aget q j1) as [x|]; [|discriminate]. cbn [obind] in *. destruct (aget qd j1) as [xd|]; [|discriminate]. cbn [obind] in *. injection Eb as <-. eexists. split; reflexivity.
    + injection Eb as <-. eexists. split; reflexivity.
  - reflexivity.
  - exact EF.
  - rewrite E'. cbn [obind]. do 3 eexists. split; reflexivity.
Qed.

(** The arm of C71. *)
Lemma arm_vel a b c x y w : Rabs a <= 10 -> Rabs b <= 10 -> Rabs c <= 10 -> Rabs x <= 1 -> Rabs y <= 1 -> Rabs w <= 1 ->
  exists V' V, fl_fkvel_JntToCart double (fun x => double (sin x)) (fun x => double (cos x)) (arm double) [a; b; c] [x; y; w] (-1)%Z = Ret (E_NOERROR, V') /\
    fkvel_JntToCart (arm (fun x => x)) [a; b; c] [x; y; w] (-1)%Z = Ret (E_NOERROR, V) /\ fv_near (1 / 10 ^ 10) (1 / 10 ^ 8) (1 / 10 ^ 9) (1 / 10 ^ 6) V' V.
Proof.
  intros Ha Hb Hc Hx Hy Hw. apply (fl_vel_double _ _ _ _ _ _ _ 3 libm_sin libm_cos arm_ok arm_stored); try reflexivity; try (cbn; lia).
  - left. split; [lia|reflexivity].
  - apply arm_moves; assumption.
  - cbn [arm ch_segs assign]. change (moving (tilted (fun x => x))) with true. cbv iota.
    assert (H : forall u, Rabs u <= 1 -> speed_within 1 (tilted (fun x => x), u)) by (intros u Hu; unfold speed_within; cbn; rewrite Rmult_1_l; exact Hu). auto.
Qed.
