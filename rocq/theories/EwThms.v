(** Consequences for the external wrench estimator: what the estimates mean. *)
From Coq Require Import Reals List Arith Lia Lra ZArith Bool.
From Verif Require Import FramesModel FramesSpec FramesProofs FrameOpsProofs Outcome InertiaModel InertiaSpec InertiaProofs DualModel KinModel KinSpec KinProofs JacProofs SpatialProofs JacDotProofs
  LinModel LinSpec SumProofs DynModel DynSpec RneProofs MassProofs DynProofs FdProofs LmaModel LmaSpec LmaProofs VelIkModel VelIkSpec VelIkLin VelIkProofs
  EwModel EwSpec EwProofs EwHist EwConv.
Import ListNotations.
Local Open Scope list_scope.
Local Open Scope R_scope.

(** ** Square matrices with orthonormal columns have orthonormal rows *)
Lemma rows_orthonormal n V : (forall i k, (i < n)%nat -> (k < n)%nat -> sumn n (fun j => V j i * V j k) = delta i k) ->
  forall j r, (j < n)%nat -> (r < n)%nat -> sumn n (fun i => V j i * V r i) = delta j r.
Proof.
  intros H. set (res := fun j r => delta j r - sumn n (fun i => V j i * V r i)).
  assert (D : forall j, (j < n)%nat -> sumn n (fun r => delta j r * delta j r) = 1).
  { intros j Hj. rewrite (sumn_delta' n j (fun r => delta j r) Hj). unfold delta. rewrite Nat.eqb_refl. reflexivity. }
  assert (E : forall j, (j < n)%nat -> sumn n (fun r => res j r * res j r) = 1 - sumn n (fun i => V j i * V j i)).
  { intros j Hj.
    rewrite (sumn_ext n _ (fun r => delta j r * delta j r - 2 * (delta j r * sumn n (fun i => V j i * V r i)) + sumn n (fun i => sumn n (fun k => V j i * V j k * (V r i * V r k))))).
    2:{ intros r Hr. unfold res.
        assert (Sq : sumn n (fun i => sumn n (fun k => V j i * V j k * (V r i * V r k))) = sumn n (fun i => V j i * V r i) * sumn n (fun i => V j i * V r i)).
        { rewrite <- sumn_scale_r. apply sumn_ext. intros i Hi. rewrite <- sumn_scale. apply sumn_ext. intros k Hk. ring. }
        rewrite Sq. ring. }
    rewrite sumn_add, sumn_sub, D, sumn_scale by exact Hj. rewrite (sumn_delta' n j (fun r => sumn n (fun i => V j i * V r i)) Hj).
    rewrite sumn_swap. rewrite (sumn_ext n (fun i => sumn n _) (fun i => V j i * V j i)); [ring|].
    intros i Hi. rewrite sumn_swap. rewrite (sumn_ext n _ (fun k => delta i k * (V j i * V j k))).
    - apply (sumn_delta' n i (fun k => V j i * V j k) Hi).
    - intros k Hk. rewrite sumn_scale, H by assumption. ring. }
  assert (T : sumn n (fun j => sumn n (fun r => res j r * res j r)) = 0).
  { rewrite (sumn_ext n _ (fun j => 1 - sumn n (fun i => V j i * V j i))) by exact E. rewrite sumn_sub, sumn_swap.
    rewrite (sumn_ext n (fun i => sumn n (fun j => V j i * V j i)) (fun _ => 1)); [ring|].
    intros i Hi. rewrite H by assumption. unfold delta. rewrite Nat.eqb_refl. reflexivity. }
  assert (Nz : forall f, (forall j, (j < n)%nat -> 0 <= f j) -> sumn n f = 0 -> forall j, (j < n)%nat -> f j = 0).
  { clear. induction n as [|n IH]; intros f Hp H0 j Hj; [lia|]. cbn in H0. pose proof (Hp n (Nat.lt_succ_diag_r _)).
    assert (0 <= sumn n f) by (apply sumn_nonneg; intros; apply Hp; lia).
    destruct (Nat.eq_dec j n) as [->|]; [lra|]. apply IH; [intros; apply Hp; lia|lra|lia]. }
  intros j r Hj Hr.
  assert (Z := Nz (fun j => sumn n (fun r => res j r * res j r)) (fun j _ => sumn_nonneg n _ (fun r _ => Rle_0_sqr (res j r))) T j Hj). cbv beta in Z.
  assert (Z2 := Nz (fun r => res j r * res j r) (fun r _ => Rle_0_sqr (res j r)) Z r Hr). cbv beta in Z2.
  apply Rmult_integral in Z2. unfold res in Z2. lra.
Qed.
(** ** The pseudo-inverse with all singular values at least eps *)
Lemma pinv_exact m n A eps d x : 0 < eps -> svd_of m n A d -> (forall i, (i < n)%nat -> eps <= Rabs (dc_S d i)) -> length x = n ->
  forall b, vsub n (pinv_sol m n eps d b) x = pinv_sol m n eps d (fun r => b r - image n A x r).
Proof.
  intros He (HA & HV & HU) HS Lx b. unfold vsub. apply vlist_ext. intros j Hj.
  assert (F : forall i, (i < n)%nat -> inv_factor eps d i = / dc_S d i /\ dc_S d i <> 0).
  { intros i Hi. specialize (HS i Hi). unfold inv_factor. destruct (Rlt_dec (Rabs (dc_S d i)) eps) as [|N]; [lra|].
    split; [reflexivity|]. apply (not_small eps); assumption. }
  assert (X : nth j x 0 = sumn n (fun i => dc_V d j i * sumn n (fun r => dc_V d r i * nth r x 0))).
  { rewrite (sumn_ext n _ (fun i => sumn n (fun r => dc_V d j i * dc_V d r i * nth r x 0))) by (intros; rewrite <- sumn_scale; apply sumn_ext; intros; ring).
    rewrite sumn_swap. rewrite (sumn_ext n _ (fun r => delta j r * nth r x 0)); [symmetry; apply (sumn_delta' n j (fun r => nth r x 0) Hj)|].
    intros r Hr. rewrite sumn_scale_r. rewrite (rows_orthonormal n (dc_V d) HV j r Hj Hr). reflexivity. }
  unfold pinv_sol, sol. rewrite vlist_nth by exact Hj. rewrite X, <- sumn_sub. apply sumn_ext. intros i Hi. destruct (F i Hi) as [-> Nz].
  assert (B := image_back m n A (dc_U d) (dc_S d) (dc_V d) HA HU x i Hi).
  assert (B' : sumn m (fun r => dc_U d r i * image n A x r) = dc_S d i * sumn n (fun r => dc_V d r i * nth r x 0)).
  { apply (Rmult_eq_reg_l (dc_S d i)); [|exact Nz]. rewrite B. unfold part. ring. }
  replace (coef m (fun r => b r - image n A x r) (dc_U d) i) with (coef m b (dc_U d) i - sumn m (fun r => dc_U d r i * image n A x r)).
  - rewrite B'. field. exact Nz.
  - unfold coef. rewrite <- sumn_sub. apply sumn_ext. intros; ring.
Qed.
Lemma pinv_error m n A eps d x b : 0 < eps -> svd_of m n A d -> (forall i, (i < n)%nat -> eps <= Rabs (dc_S d i)) -> length x = n ->
  eps * eps * norm2 n (vsub n (pinv_sol m n eps d b) x) <= sumn m (fun r => (b r - image n A x r) * (b r - image n A x r)).
Proof. intros He Sv HS Lx. rewrite (pinv_exact m n A eps d x He Sv HS Lx). apply (pinv_sol_bound m n A eps d _ He Sv). Qed.

(** ** A load on the tip loads the joints through the transposed Jacobian *)
Lemma tw_dot_sum t w : tw_dot t w = sumn 6 (fun r => t_at t r * w_at w r).
Proof. destruct t as [[a b c] [d e f]], w as [[a' b' c'] [d' e' f']]. unfold tw_dot, w_at, t_at, v_dot. cbn. ring. Qed.
Lemma tip_segment c q : chain_ok c -> length q = ch_nj c -> (0 < ch_ns c)%nat ->
  link_pose c q (ch_ns c - 1) = tip_at c (-1) q /\ link_jacobian c q (ch_ns c - 1) = jacobian_at c (-1) q.
Proof.
  intros Hok Hq Hn. pose proof (proj1 Hok) as Hw. pose proof Hw as [Hs _].
  assert (D : denotes c (-1) (length (ch_segs c))) by (left; split; [lia|reflexivity]).
  rewrite link_pose_tip, link_jacobian_closed by (auto; lia). replace (S (ch_ns c - 1)) with (ch_ns c) by lia. split.
  - rewrite (tip_at_eq c (-1) _ q Hw D (le_n _) Hq), <- Hs. reflexivity.
  - unfold jacobian_at. rewrite (jac_result c _ q _ _ _ Hok D). unfold jacsolver_make, jac_make. rewrite !repeat_length, Hq, Nat.eqb_refl, Nat.leb_refl.
    cbn. rewrite <- Hs. reflexivity.
Qed.
Lemma tip_load_torque c q w j : chain_ok c -> length q = ch_nj c -> (j < ch_nj c)%nat ->
  external_torque c q (tip_load c w) j = image 6 (tip_axes_jacobian c q) (w_list w) j.
Proof.
  intros Hok Hq Hj.
  assert (Hn : (0 < ch_ns c)%nat) by (destruct (joint_segment c j (proj1 Hok) Hj) as (i & Hi & _); lia).
  destruct (tip_segment c q Hok Hq Hn) as [E1 E2]. unfold external_torque.
  rewrite (sumn_one (ch_ns c) (ch_ns c - 1)); [|lia|].
  - rewrite E1, E2. unfold tip_load. rewrite app_nth2 by (rewrite repeat_length; lia). rewrite repeat_length, Nat.sub_diag. cbn [nth].
    rewrite <- r_power_back. 2:{ rewrite <- E1. apply link_pose_rigid; auto. lia. }
    rewrite tw_dot_sum. unfold image. apply sumn_ext. intros r Hr. rewrite w_list_nth by exact Hr. reflexivity.
  - intros k Hk Nk. unfold tip_load. rewrite app_nth1 by (rewrite repeat_length; lia).
    rewrite nth_repeat_lt by lia. replace (r_app_w (fM (link_pose c q k)) w_zero) with w_zero by (generalize (fM (link_pose c q k)); clear; intros; unfold w_zero; geo).
    apply tw_dot_zero_r.
Qed.

(** ** The input of the reference is the external torque *)
Lemma apparent_is_external c g dt q' qd' q qd tau ext j : dt <> 0 ->
  sumn (ch_nj c) (fun m => mass_at c g q' j m * (nth m qd 0 - nth m qd' 0)) = dt * (nth j tau 0 + ext - gravity_at c g q j - coriolis_at c g q qd j) ->
  apparent c g dt (Some (q', qd')) q qd tau j = ext.
Proof.
  intros Hd E. unfold apparent, momentum_at. rewrite <- sumn_sub.
  rewrite (sumn_ext _ _ (fun m => mass_at c g q' j m * (nth m qd 0 - nth m qd' 0))) by (intros; ring). rewrite E. field. exact Hd.
Qed.
Lemma moves_run c g K dt f ext j : dt <> 0 -> (j < ch_nj c)%nat -> forall l last x, moves_under c g dt ext last l ->
  snd (ref_run c g K dt f (Some last, x) l) j = observer K dt f (x j) (repeat (ext j) (length l)).
Proof.
  intros Hd Hj. induction l as [|e l IH]; intros last x H; [reflexivity|]. destruct e as [q qd tau| | | |]; try contradiction.
  destruct H as [H1 H2]. cbn [ref_run fold_left ref_do length repeat observer fst snd].
  etransitivity; [apply (IH (q, qd) (fun j => observer_step K dt f (apparent c g dt (Some last) q qd tau j) (x j)) H2)|]. cbv beta.
  destruct last as [q' qd']. rewrite (apparent_is_external c g dt q' qd' q qd tau (ext j) j Hd (H1 j Hj)). reflexivity.
Qed.
Lemma ref_run_app c g K dt f l1 l2 r : ref_run c g K dt f r (l1 ++ l2) = ref_run c g K dt f (ref_run c g K dt f r l1) l2.
Proof. apply fold_left_app. Qed.

(** ** Tracking: after any history, a constant external torque is found at a geometric rate *)
Theorem ew_tracks K freq f : freq <> 0 -> -1 < f < 1 -> 0 < K * (1 / freq) -> K * (1 / freq) * (1 - f) < 2 * (1 + f) ->
  exists rho, 0 < rho < 1 /\
  forall svd c g eps n w, chain_ok c -> inertias_symmetric c -> 0 < eps ->
  forall before q qd tau ext, Forall (fits (ch_nj c)) (before ++ [Sample q qd tau]) ->
  exists D, forall after, Forall (fits (ch_nj c)) after -> moves_under c g (1 / freq) ext (q, qd) after ->
  exists s0 codes w' s T, ew_make c g freq K f eps n = Ret s0 /\ ew_run svd c w s0 (before ++ [Sample q qd tau] ++ after) = Ret (codes, w', s) /\
    (forall out, length out = ch_nj c -> ew_getEstimatedJntTorque s out = Ret T) /\ length T = ch_nj c /\
    forall j, (j < ch_nj c)%nat -> Rabs (nth j T 0 - ext j) <= D * rho ^ length after.
Proof.
  intros Hfr Hf Ha Hs. destruct (observer_converges K (1 / freq) f Hf Ha Hs) as (rho & B & Hrho & HB & HC).
  exists rho. split; [exact Hrho|]. intros svd c g eps n w Hok Sy He before q qd tau ext HF.
  assert (Hdt : 1 / freq <> 0) by (unfold Rdiv; rewrite Rmult_1_l; apply Rinv_neq_0_compat, Hfr).
  set (r := ref_run c g K (1 / freq) f ref_start (before ++ [Sample q qd tau])).
  exists (B * sumn (ch_nj c) (fun j => Rabs (fst (snd r j) - ext j) + Rabs (snd (snd r j) - ext j))).
  intros after HA HM.
  destruct (ew_reference svd c g freq K f eps n (before ++ [Sample q qd tau] ++ after) w Hok Sy Hfr He) as (s0 & codes & w' & s & T & E0 & E & _ & _ & ET & LT & HT).
  { rewrite app_assoc. apply Forall_app. split; assumption. }
  exists s0, codes, w', s, T. split; [exact E0|]. split; [exact E|]. split; [exact ET|]. split; [exact LT|].
  intros j Hj. rewrite (HT j Hj). rewrite app_assoc, ref_run_app. fold r.
  assert (Er : r = (Some (q, qd), snd r)) by (unfold r; rewrite ref_run_app; reflexivity).
  rewrite Er. rewrite (moves_run c g K (1 / freq) f ext j Hdt Hj after (q, qd) (snd r) HM).
  eapply Rle_trans; [apply HC|].
  set (h := fun j => Rabs (fst (snd r j) - ext j) + Rabs (snd (snd r j) - ext j)).
  assert (H0 : forall i, 0 <= h i) by (intros i; unfold h; pose proof (Rabs_pos (fst (snd r i) - ext i)); pose proof (Rabs_pos (snd (snd r i) - ext i)); lra).
  assert (Hh : h j <= sumn (ch_nj c) h).
  { rewrite (sumn_split3 (ch_nj c) j h Hj). pose proof (sumn_nonneg j h (fun i _ => H0 i)). pose proof (sumn_nonneg (ch_nj c - S j) (fun t => h (S j + t)%nat) (fun i _ => H0 _)). lra. }
  change (Rabs (fst (snd r j) - ext j) + Rabs (snd (snd r j) - ext j)) with (h j).
  assert (P : 0 <= B * rho ^ length after) by (apply Rmult_le_pos; [lra|apply pow_le; lra]).
  eapply Rle_trans; [exact (Rmult_le_compat_l _ _ _ P Hh)|]. apply Req_le. unfold h. cbn [snd]. ring.
Qed.

(** ** The wrench of a load on the tip *)
Lemma calls_keep svd c g K dt f : chain_ok c -> inertias_symmetric c -> dt <> 0 -> forall l s r w, Forall (fits (ch_nj c)) l -> Forall is_call l -> ew_follows c g K dt f s r ->
  forall codes w' s', ew_run svd c w s l = Ret (codes, w', s') -> ew_eps s' = ew_eps s /\ ew_maxiter s' = ew_maxiter s.
Proof.
  intros Hok Sy Hdt. induction l as [|e l IH]; intros s r w HF HC H codes w' s' E; cbn [ew_run] in E.
  - injection E as <- <- <-. split; reflexivity.
  - inversion HF as [|? ? Fe Fl]; subst. inversion HC as [|? ? Ce Cl]; subst.
    assert (Z : exists code w1 s1, ew_do svd c w s e = Ret (code, w1, s1) /\ ew_follows c g K dt f s1 (ref_do c g K dt f r e) /\ ew_eps s1 = ew_eps s /\ ew_maxiter s1 = ew_maxiter s).
    { destruct e as [q qd tau|q qd| | |]; try contradiction.
      - destruct Fe as (L1 & L2 & L3). destruct (follows_sample svd c g K dt f s r q qd tau w Hok Sy Hdt H L1 L2 L3) as (code & w1 & s1 & E1 & F1 & M1 & P1 & _).
        exists code, w1, s1. auto.
      - destruct Fe as (L1 & L2). destruct (follows_start c g K dt f s r q qd Hok Sy H L1 L2) as (s1 & E1 & F1 & M1 & P1). cbn [ew_do]. rewrite E1. cbn [obind].
        do 3 eexists. split; [reflexivity|]. auto. }
    destruct Z as (code & w1 & s1 & E1 & F1 & P1 & M1). rewrite E1 in E. cbn [obind] in E.
    destruct (ew_run svd c w1 s1 l) as [[[codes2 w2] s2]|] eqn:E2; [|discriminate]. cbn [obind] in E. injection E as <- <- <-.
    destruct (IH s1 _ w1 Fl Cl F1 _ _ _ E2) as [I1 I2]. split; congruence.
Qed.

(** After any history of calls, one more call on an arm with the load: the error of the wrench is at most the error of the joint torques divided by eps *)
Theorem ew_wrench_error svd c g freq K f eps n before w q qd tau load : chain_ok c -> inertias_symmetric c -> freq <> 0 -> 0 < eps ->
  Forall (fits (ch_nj c)) (before ++ [Sample q qd tau]) -> Forall is_call before ->
  let d := svd n (ew_matrix c q) in
  dc_rc d = 0%Z -> svd_of (ch_nj c) 6 (tip_axes_jacobian c q) d -> (forall i, (i < 6)%nat -> eps <= Rabs (dc_S d i)) ->
  exists s0 codes w' s T, ew_make c g freq K f eps n = Ret s0 /\ ew_run svd c w s0 (before ++ [Sample q qd tau]) = Ret (codes, w', s) /\
    last codes 0%Z = E_NOERROR /\ (forall out, length out = ch_nj c -> ew_getEstimatedJntTorque s out = Ret T) /\ length T = ch_nj c /\
    eps * eps * sumn 6 (fun i => (w_at w' i - w_at load i) * (w_at w' i - w_at load i)) <=
    sumn (ch_nj c) (fun j => (nth j T 0 - external_torque c q (tip_load c load) j) * (nth j T 0 - external_torque c q (tip_load c load) j)).
Proof.
  intros Hok Sy Hfr He HF HC d D0 Sv HS. destruct (follows_make c g freq K f eps n Hfr He) as (s0 & E0 & F0 & Mx0 & Ep0).
  assert (Hdt : 1 / freq <> 0) by (unfold Rdiv; rewrite Rmult_1_l; apply Rinv_neq_0_compat, Hfr).
  apply Forall_app in HF. destruct HF as [HF1 HF2]. inversion HF2 as [|? ? FS _]. cbn [fits] in FS. destruct FS as (L1 & L2 & L3).
  destruct (follows_run svd c g K (1 / freq) f before Hok Sy Hdt HF1 s0 ref_start w F0) as (codes & w1 & s1 & E1 & F1 & _).
  destruct (calls_keep svd c g K (1 / freq) f Hok Sy Hdt before s0 ref_start w HF1 HC F0 codes w1 s1 E1) as [Ep1 Mx1].
  destruct (follows_sample svd c g K (1 / freq) f s1 _ q qd tau w1 Hok Sy Hdt F1 L1 L2 L3) as (code & w' & s' & ES & F' & _ & _ & _ & W1 & _).
  cbv zeta in W1. rewrite Mx1, Mx0, Ep1, Ep0 in W1. fold d in W1. destruct (W1 D0) as [-> EW].
  exists s0, (codes ++ [E_NOERROR]), w', s', (ew_filt s'). split; [exact E0|]. split. { rewrite run_app, E1. cbn [obind ew_run ew_do]. rewrite ES. reflexivity. }
  split; [apply last_last|].
  destruct F' as (Z & [C1 C2] & _). destruct Z as (Z1 & Z2 & Z3 & Z4 & Z5 & _).
  split. { intros out Ho. unfold ew_getEstimatedJntTorque. rewrite Ho, Z5, C1, Nat.eqb_refl. reflexivity. }
  split; [congruence|].
  pose proof (pinv_error (ch_nj c) 6 (tip_axes_jacobian c q) eps d (w_list load) (fun j => nth j (ew_filt s') 0) He Sv HS eq_refl) as PE.
  rewrite <- EW in PE.
  replace (norm2 6 (vsub 6 (w_list w') (w_list load))) with (sumn 6 (fun i => (w_at w' i - w_at load i) * (w_at w' i - w_at load i))) in PE.
  2:{ apply sumn_ext. intros i Hi. unfold vsub. rewrite vlist_nth by exact Hi. rewrite !w_list_nth by exact Hi. reflexivity. }
  eapply Rle_trans; [exact PE|]. apply Req_le, sumn_ext. intros j Hj. rewrite (tip_load_torque c q load j Hok L1 Hj). reflexivity.
Qed.

(** ** An arm that is held still *)
Lemma coriolis_at_rest c g q j : chain_ok c -> length q = ch_nj c -> (j < ch_nj c)%nat -> coriolis_at c g q (repeat 0 (ch_nj c)) j = 0.
Proof.
  intros Hok Hq Hj. unfold coriolis_at.
  destruct (coriolis_result g c (dyn_make c g) q (repeat 0 (ch_nj c)) (repeat 0 (ch_nj c)) Hok (dyn_r_make g c) (conj eq_refl eq_refl) Hq (repeat_length _ _) (repeat_length _ _)) as (C & -> & LC & HC).
  destruct (joint_segment c j (proj1 Hok) Hj) as (i & Hi & Mi & <-). rewrite HC by auto. apply tau_bias_zero. intros k. apply nth_repeat.
Qed.
Lemma moves_still c g dt q tau ext n : chain_ok c -> length q = ch_nj c ->
  (forall j, (j < ch_nj c)%nat -> nth j tau 0 = gravity_at c g q j - ext j) ->
  moves_under c g dt ext (q, repeat 0 (ch_nj c)) (repeat (Sample q (repeat 0 (ch_nj c)) tau) n).
Proof.
  intros Hok Hq Ht. induction n as [|n IH]; [exact I|]. cbn [repeat moves_under]. split; [|exact IH].
  intros j Hj. rewrite sumn_zero by (intros; cbn [fst snd]; ring). rewrite coriolis_at_rest, Ht by auto. ring.
Qed.
Theorem ew_static K freq f : freq <> 0 -> -1 < f < 1 -> 0 < K * (1 / freq) -> K * (1 / freq) * (1 - f) < 2 * (1 + f) ->
  exists rho, 0 < rho < 1 /\
  forall svd c g eps n w, chain_ok c -> inertias_symmetric c -> 0 < eps ->
  forall before q tau load, Forall (fits (ch_nj c)) before -> Forall is_call before -> length q = ch_nj c -> length tau = ch_nj c ->
  (forall j, (j < ch_nj c)%nat -> nth j tau 0 = gravity_at c g q j - external_torque c q (tip_load c load) j) ->
  let d := svd n (ew_matrix c q) in
  dc_rc d = 0%Z -> svd_of (ch_nj c) 6 (tip_axes_jacobian c q) d -> (forall i, (i < 6)%nat -> eps <= Rabs (dc_S d i)) ->
  exists D, forall k, exists s0 codes w' s, ew_make c g freq K f eps n = Ret s0 /\
    ew_run svd c w s0 (before ++ repeat (Sample q (repeat 0 (ch_nj c)) tau) (S k)) = Ret (codes, w', s) /\ last codes 0%Z = E_NOERROR /\
    forall i, (i < 6)%nat -> Rabs (w_at w' i - w_at load i) <= D * rho ^ k.
Proof.
  intros Hfr Hf Ha Hs. destruct (ew_tracks K freq f Hfr Hf Ha Hs) as (rho & Hrho & HT). exists rho. split; [exact Hrho|].
  intros svd c g eps n w Hok Sy He before q tau load HF HC Hq Ht HB d D0 Sv HS.
  set (x := Sample q (repeat 0 (ch_nj c)) tau). set (ext := external_torque c q (tip_load c load)).
  assert (Fx : fits (ch_nj c) x) by (repeat split; [exact Hq|apply repeat_length|exact Ht]).
  destruct (HT svd c g eps n w Hok Sy He before q (repeat 0 (ch_nj c)) tau ext) as (D & HD). { apply Forall_app. split; [exact HF|constructor; [exact Fx|constructor]]. }
  exists (D * sqrt (INR (ch_nj c)) / eps). intros k.
  assert (FA : Forall (fits (ch_nj c)) (repeat x k)) by (apply Forall_forall; intros e Hin; apply repeat_spec in Hin; subst; exact Fx).
  destruct (HD (repeat x k) FA) as (s0 & codes & w' & s & T & E0 & E & ET & LT & HTj). { apply moves_still; auto. }
  rewrite repeat_length in HTj.
  assert (EL : before ++ [x] ++ repeat x k = (before ++ repeat x k) ++ [x]) by (rewrite <- app_assoc; f_equal; cbn [app]; apply repeat_cons).
  assert (ES : before ++ repeat x (S k) = (before ++ repeat x k) ++ [x]) by (rewrite <- EL; reflexivity).
  destruct (ew_wrench_error svd c g freq K f eps n (before ++ repeat x k) w q (repeat 0 (ch_nj c)) tau load Hok Sy Hfr He) as (s0' & codes' & w'' & s' & T' & E0' & E' & EC & ET' & LT' & HW).
  { apply Forall_app. split; [apply Forall_app; split; assumption|constructor; [exact Fx|constructor]]. }
  { apply Forall_app. split; [exact HC|]. apply Forall_forall. intros e Hin. apply repeat_spec in Hin. subst. exact I. }
  { exact D0. } { exact Sv. } { exact HS. }
  fold x in E'. rewrite E0 in E0'. injection E0' as <-. fold x in E. rewrite EL in E. rewrite E in E'. injection E' as <- <- <-.
  assert (T' = T) as -> by (specialize (ET (repeat 0 (ch_nj c)) (repeat_length _ _)); specialize (ET' (repeat 0 (ch_nj c)) (repeat_length _ _)); congruence).
  exists s0, codes, w', s. split; [exact E0|]. split; [rewrite ES; exact E|]. split; [exact EC|].
  intros i Hi. fold ext in HW. cbv zeta in HW.
  set (a := D * rho ^ k) in *.
  assert (Bd : forall m h, (forall j, (j < m)%nat -> Rabs (h j) <= a) -> sumn m (fun j => h j * h j) <= INR m * (a * a)).
  { clear. induction m as [|m IH]; intros h H; [cbn; lra|]. rewrite S_INR. cbn [sumn]. pose proof (IH h (fun j Hj => H j (Nat.lt_lt_succ_r _ _ Hj))).
    pose proof (H m (Nat.lt_succ_diag_r _)) as Q. assert (h m * h m <= a * a); [|lra].
    replace (h m * h m) with (Rabs (h m) * Rabs (h m)) by (rewrite <- Rabs_mult; apply Rabs_right, Rle_ge, Rle_0_sqr). apply Rmult_le_compat; try apply Rabs_pos; exact Q. }
  pose proof (Bd (ch_nj c) (fun j => nth j T 0 - ext j) HTj) as B1. cbv beta in B1.
  assert (Hnj : (0 < ch_nj c)%nat \/ ch_nj c = 0%nat) by lia.
  assert (A0 : 0 <= a \/ ch_nj c = 0%nat). { destruct Hnj as [Hn|Hn]; [left|right; exact Hn]. eapply Rle_trans; [apply Rabs_pos|apply (HTj 0%nat Hn)]. }
  assert (W2 : eps * eps * ((w_at w' i - w_at load i) * (w_at w' i - w_at load i)) <= INR (ch_nj c) * (a * a)).
  { eapply Rle_trans; [|eapply Rle_trans; [exact HW|exact B1]]. apply Rmult_le_compat_l; [apply Rle_0_sqr|].
    set (h := fun i => (w_at w' i - w_at load i) * (w_at w' i - w_at load i)). change (h i <= sumn 6 h).
    rewrite (sumn_split3 6 i h Hi). pose proof (sumn_nonneg i h (fun i _ => Rle_0_sqr _)). pose proof (sumn_nonneg (6 - S i) (fun t => h (S i + t)%nat) (fun i _ => Rle_0_sqr _)). lra. }
  replace (D * sqrt (INR (ch_nj c)) / eps * rho ^ k) with (sqrt (INR (ch_nj c)) * a / eps) by (unfold a; field; lra).
  assert (P1 : 0 <= sqrt (INR (ch_nj c)) * a). { destruct A0 as [A0|A0]; [apply Rmult_le_pos; [apply sqrt_pos|exact A0]|rewrite A0; cbn; rewrite sqrt_0; lra]. }
  apply (Rmult_le_reg_l eps); [exact He|]. replace (eps * (sqrt (INR (ch_nj c)) * a / eps)) with (sqrt (INR (ch_nj c)) * a) by (field; lra).
  apply Rsqr_incr_0_var; [|exact P1]. unfold Rsqr.
  replace (sqrt (INR (ch_nj c)) * a * (sqrt (INR (ch_nj c)) * a)) with (sqrt (INR (ch_nj c)) * sqrt (INR (ch_nj c)) * (a * a)) by ring. rewrite sqrt_sqrt by apply pos_INR.
  set (z := w_at w' i - w_at load i) in *.
  replace (eps * Rabs z * (eps * Rabs z)) with (eps * eps * (Rabs z * Rabs z)) by ring.
  rewrite <- Rabs_mult, (Rabs_right (z * z)) by apply Rle_ge, Rle_0_sqr. exact W2.
Qed.
