(** Levenberg-Marquardt near a position where the Jacobian has full row rank: what one iteration does. *)
From Coq Require Import Reals String List ZArith Bool Arith Lia Lra Psatz.
From Verif Require Import FramesModel FramesSpec FramesProofs FrameOpsProofs Outcome InertiaModel DualModel KinModel KinSpec DerivProofs KinProofs JacProofs JacDotProofs JntModel
  LinModel LinSpec SumProofs LmaModel LmaSpec LmaProofs LmaProofs2 IkModel IkSpec IkProofs IkGeoProofs VelIkModel VelIkSpec VelIkWitness GivensSpec RotNear LipProofs TaylorProofs
  NewtonSpec NewtonProofs NewtonLoop NewtonPinv NewtonThms LmaConv1 LmaConv2.
Import ListNotations.
Local Open Scope R_scope.

(** ** Weights *)
Definition weights_between (wl wh : R) (L : Twist) : Prop := forall i, (i < 6)%nat -> wl <= Rabs (t_at L i) <= wh.
Lemma weights_bounds L : (forall i, (i < 6)%nat -> t_at L i <> 0) -> exists wl wh, 0 < wl <= wh /\ weights_between wl wh L.
Proof.
  intros H.
  assert (G : forall n, (n <= 6)%nat -> exists wl wh, 0 < wl <= wh /\ forall i, (i < n)%nat -> wl <= Rabs (t_at L i) <= wh).
  { induction n as [|n IH]; intros Hn.
    - exists 1, 1. split; [lra|]. intros; lia.
    - destruct (IH ltac:(lia)) as (wl & wh & P & B). pose proof (Rabs_pos_lt _ (H n ltac:(lia))) as A.
      exists (Rmin wl (Rabs (t_at L n))), (Rmax wh (Rabs (t_at L n))).
      pose proof (Rmin_l wl (Rabs (t_at L n))). pose proof (Rmin_r wl (Rabs (t_at L n))). pose proof (Rmax_l wh (Rabs (t_at L n))). pose proof (Rmax_r wh (Rabs (t_at L n))).
      split; [split; [apply Rmin_glb_lt; lra|lra]|]. intros i Hi. destruct (Nat.eq_dec i n) as [->|N]; [lra|]. specialize (B i ltac:(lia)). lra. }
  destruct (G 6%nat ltac:(lia)) as (wl & wh & P & B). exists wl, wh. split; assumption.
Qed.
Lemma tn_weigh_up wl wh L a : weights_between wl wh L -> tn (weigh L a) <= wh * tn a.
Proof.
  intros H. pose proof (H 0%nat ltac:(lia)). pose proof (H 1%nat ltac:(lia)). pose proof (H 2%nat ltac:(lia)). pose proof (H 3%nat ltac:(lia)). pose proof (H 4%nat ltac:(lia)). pose proof (H 5%nat ltac:(lia)).
  cbn [t_at] in *. unfold tn, vn, weigh; cbn [tvel trot vx vy vz]. rewrite !Rabs_mult.
  assert (K : forall x y, wl <= x <= wh -> x * Rabs y <= wh * Rabs y) by (intros; apply Rmult_le_compat_r; [apply Rabs_pos|lra]).
  pose proof (K _ (vx (tvel a)) H0). pose proof (K _ (vy (tvel a)) H1). pose proof (K _ (vz (tvel a)) H2).
  pose proof (K _ (vx (trot a)) H3). pose proof (K _ (vy (trot a)) H4). pose proof (K _ (vz (trot a)) H5). lra.
Qed.
Lemma tn_weigh_down wl wh L a : weights_between wl wh L -> wl * tn a <= 6 * norm6 (weigh L a).
Proof.
  intros H. pose proof (H 0%nat ltac:(lia)). pose proof (H 1%nat ltac:(lia)). pose proof (H 2%nat ltac:(lia)). pose proof (H 3%nat ltac:(lia)). pose proof (H 4%nat ltac:(lia)). pose proof (H 5%nat ltac:(lia)).
  destruct (entries_norm6 (weigh L a)) as (A0 & A1 & A2 & A3 & A4 & A5).
  cbn [t_at] in *. set (N := norm6 (weigh L a)) in *. unfold tn, vn. unfold weigh in A0, A1, A2, A3, A4, A5. cbn [tvel trot vx vy vz] in *. rewrite Rabs_mult in A0, A1, A2, A3, A4, A5.
  assert (K : forall x y, wl <= x <= wh -> wl * Rabs y <= x * Rabs y) by (intros; apply Rmult_le_compat_r; [apply Rabs_pos|lra]).
  pose proof (K _ (vx (tvel a)) H0). pose proof (K _ (vy (tvel a)) H1). pose proof (K _ (vz (tvel a)) H2).
  pose proof (K _ (vx (trot a)) H3). pose proof (K _ (vy (trot a)) H4). pose proof (K _ (vz (trot a)) H5). lra.
Qed.
Lemma dot6_weigh L a b : t_dot6 (weigh L a) b = t_dot6 a (weigh L b).
Proof. unfold t_dot6, weigh; cbn [tvel trot vx vy vz]. ring. Qed.
Lemma weigh_sub L a b : weigh L (t_sub a b) = t_sub (weigh L a) (weigh L b).
Proof. unfold weigh, t_sub, v_sub; cbn [tvel trot vx vy vz]. f_equal; f_equal; ring. Qed.
Lemma weigh_add L a b : weigh L (t_add a b) = t_add (weigh L a) (weigh L b).
Proof. unfold weigh, t_add, v_add; cbn [tvel trot vx vy vz]. f_equal; f_equal; ring. Qed.
Lemma weigh_scale L a x : weigh L (t_scale a x) = t_scale (weigh L a) x.
Proof. unfold weigh, t_scale, v_scale; cbn [tvel trot vx vy vz]. f_equal; f_equal; ring. Qed.
Lemma weigh_zero L : weigh L t_zero = t_zero.
Proof. unfold weigh, t_zero, v_zero; cbn [tvel trot vx vy vz]. f_equal; f_equal; ring. Qed.
Lemma weigh_jac_mul L J d : weigh L (jac_mul J d) = jac_mul (map (weigh L) J) d.
Proof.
  revert d; induction J as [|c J IH]; intros [|x d]; cbn [jac_mul map]; try apply weigh_zero.
  rewrite weigh_add, weigh_scale, IH. reflexivity.
Qed.
Lemma dot6_weigh_low wl wh L y : 0 <= wl -> weights_between wl wh L -> wl * wl * t_dot6 y y <= t_dot6 (weigh L y) (weigh L y).
Proof.
  intros P H. assert (K : forall i, (i < 6)%nat -> wl * wl <= t_at L i * t_at L i).
  { intros i Hi. specialize (H i Hi). replace (t_at L i * t_at L i) with (Rabs (t_at L i) * Rabs (t_at L i)) by (rewrite <- Rabs_mult; apply Rabs_pos_eq, Rle_0_sqr).
    apply Rmult_le_compat; lra. }
  assert (M : forall i y, (i < 6)%nat -> wl * wl * (y * y) <= t_at L i * y * (t_at L i * y)).
  { intros i z Hi. replace (t_at L i * z * (t_at L i * z)) with (t_at L i * t_at L i * (z * z)) by ring. apply Rmult_le_compat_r; [apply Rle_0_sqr|apply K, Hi]. }
  pose proof (M 0%nat (vx (tvel y)) ltac:(lia)). pose proof (M 1%nat (vy (tvel y)) ltac:(lia)). pose proof (M 2%nat (vz (tvel y)) ltac:(lia)).
  pose proof (M 3%nat (vx (trot y)) ltac:(lia)). pose proof (M 4%nat (vy (trot y)) ltac:(lia)). pose proof (M 5%nat (vz (trot y)) ltac:(lia)).
  cbn [t_at] in *. unfold t_dot6, weigh; cbn [tvel trot vx vy vz]. lra.
Qed.
(** The rows of the weighted Jacobian. *)
Lemma weighted_rows wl wh L c q low : 0 <= wl -> 0 <= low -> weights_between wl wh L -> chain_ok c -> length q = ch_nj c ->
  stretches (ch_nj c) 6 low (transposed (tip_jacobian c q)) ->
  forall y, low * (wl * wl) * t_dot6 y y <= sumn (ch_nj c) (fun m => t_dot6 (nth m (weighted_jacobian L c q) t_zero) y * t_dot6 (nth m (weighted_jacobian L c q) t_zero) y).
Proof.
  intros P P2 H Hok Hq ST y. specialize (ST (t_at (weigh L y))).
  assert (E1 : sq 6 (t_at (weigh L y)) = t_dot6 (weigh L y) (weigh L y)) by (unfold sq, t_dot6; cbn [sumn t_at]; ring).
  rewrite E1 in ST. pose proof (dot6_weigh_low wl wh L y P H) as D.
  apply Rle_trans with (low * t_dot6 (weigh L y) (weigh L y)); [rewrite Rmult_assoc; apply Rmult_le_compat_l; assumption|].
  eapply Rle_trans; [exact ST|]. right. unfold sq. apply sumn_ext. intros m Hm.
  assert (LJ : length (jacobian_at c (-1) q) = ch_nj c) by (apply jacobian_at_length; assumption).
  assert (E2 : nth m (weighted_jacobian L c q) t_zero = weigh L (nth m (jacobian_at c (-1) q) t_zero)).
  { unfold weighted_jacobian. rewrite (nth_indep _ t_zero (weigh L t_zero)) by (rewrite map_length; lia). apply map_nth. }
  assert (E3 : mv 6 (transposed (tip_jacobian c q)) (t_at (weigh L y)) m = t_dot6 (nth m (weighted_jacobian L c q) t_zero) y).
  { rewrite E2, dot6_weigh. unfold mv, transposed, tip_jacobian, t_dot6. cbn [sumn]. cbn [t_at]. ring. }
  rewrite E3. reflexivity.
Qed.

Lemma vplus_line q d : length d = length q -> vplus q d = line q d 1.
Proof.
  intros H. apply nth_ext_R.
  - rewrite vplus_length, line_length by lia. reflexivity.
  - intros i _. rewrite vplus_nth, line_nth by lia. ring.
Qed.

Lemma sumn_ge n f i : (forall j, (j < n)%nat -> 0 <= f j) -> (i < n)%nat -> f i <= sumn n f.
Proof.
  intros H Hi. rewrite (sumn_split3 n i f Hi).
  assert (0 <= sumn i f) by (apply sumn_nonneg; intros; apply H; lia).
  assert (0 <= sumn (n - S i) (fun t => f (S i + t)%nat)) by (apply sumn_nonneg; intros; apply H; lia). lra.
Qed.
Lemma entries_bounded (A : nat -> nat -> R) n : exists M, 0 <= M /\ forall r j, (r < 6)%nat -> (j < n)%nat -> Rabs (A r j) <= M.
Proof.
  exists (sumn 6 (fun r => sumn n (fun j => Rabs (A r j)))). split.
  - apply sumn_nonneg. intros. apply sumn_nonneg. intros. apply Rabs_pos.
  - intros r j Hr Hj. eapply Rle_trans; [apply (sumn_ge n (fun j => Rabs (A r j)) j); [intros; apply Rabs_pos|exact Hj]|].
    apply (sumn_ge 6 (fun r => sumn n (fun j => Rabs (A r j))) r); [intros; apply sumn_nonneg; intros; apply Rabs_pos|exact Hr].
Qed.
Lemma tn_entries t M : (forall r, (r < 6)%nat -> Rabs (t_at t r) <= M) -> tn t <= 6 * M.
Proof.
  intros H. pose proof (H 0%nat ltac:(lia)). pose proof (H 1%nat ltac:(lia)). pose proof (H 2%nat ltac:(lia)). pose proof (H 3%nat ltac:(lia)). pose proof (H 4%nat ltac:(lia)). pose proof (H 5%nat ltac:(lia)).
  cbn [t_at] in *. unfold tn, vn. lra.
Qed.

(** The new error in terms of the linear model. *)
Lemma new_error wl wh L t t' V x y : weights_between wl wh L -> 0 <= wh -> 0 <= y ->
  vn (v_sub (tvel t') (v_sub (tvel t) (tvel V))) <= x ->
  (trot t' = v_zero \/ vn (v_sub (trot t') (v_sub (trot t) (trot V))) <= y) ->
  norm6 (weigh L t') <= norm6 (t_sub (weigh L t) (weigh L V)) + wh * (x + y).
Proof.
  intros W Hw Hy Hx [Z|Hr].
  - set (r := weigh L (mkT (v_sub (tvel t) (tvel V)) v_zero)). set (dl := mkT (v_sub (tvel t') (v_sub (tvel t) (tvel V))) v_zero).
    assert (E : weigh L t' = t_add r (weigh L dl)).
    { unfold r, dl, weigh, t_add, v_add, v_sub, v_zero; cbn [tvel trot vx vy vz]. rewrite Z. unfold v_zero; cbn [vx vy vz]. f_equal; f_equal; ring. }
    rewrite E. eapply Rle_trans; [apply norm6_add|]. apply Rplus_le_compat.
    + unfold norm6. apply sqrt_le_1; [apply t_dot6_pos|apply t_dot6_pos|].
      unfold r, t_dot6, weigh, t_sub, v_sub, v_zero; cbn [tvel trot vx vy vz].
      pose proof (Rle_0_sqr (vx (trot L) * vx (trot t) - vx (trot L) * vx (trot V))) as S1.
      pose proof (Rle_0_sqr (vy (trot L) * vy (trot t) - vy (trot L) * vy (trot V))) as S2.
      pose proof (Rle_0_sqr (vz (trot L) * vz (trot t) - vz (trot L) * vz (trot V))) as S3. unfold Rsqr in *. lra.
    + eapply Rle_trans; [apply norm6_tn|]. eapply Rle_trans; [apply (tn_weigh_up wl wh L dl W)|]. apply Rmult_le_compat_l; [exact Hw|].
      unfold tn, dl; cbn [tvel trot]. assert (vn v_zero = 0) as -> by (unfold vn, v_zero; cbn [vx vy vz]; rewrite Rabs_R0; ring). lra.
  - set (r := t_sub (weigh L t) (weigh L V)). set (dl := mkT (v_sub (tvel t') (v_sub (tvel t) (tvel V))) (v_sub (trot t') (v_sub (trot t) (trot V)))).
    assert (E : weigh L t' = t_add r (weigh L dl)).
    { unfold r, dl, weigh, t_sub, t_add, v_add, v_sub; cbn [tvel trot vx vy vz]. f_equal; f_equal; ring. }
    rewrite E. eapply Rle_trans; [apply norm6_add|]. apply Rplus_le_compat_l.
    eapply Rle_trans; [apply norm6_tn|]. eapply Rle_trans; [apply (tn_weigh_up wl wh L dl W)|]. apply Rmult_le_compat_l; [exact Hw|].
    unfold tn, dl; cbn [tvel trot]. lra.
Qed.

Lemma norm6_split a b : norm6 a <= norm6 (t_sub a b) + norm6 b.
Proof.
  assert (E : t_add (t_sub a b) b = a).
  { destruct a as [[a1 a2 a3] [a4 a5 a6]]. unfold t_add, t_sub, v_add, v_sub; cbn [tvel trot vx vy vz]. f_equal; f_equal; ring. }
  pose proof (norm6_add (t_sub a b) b) as H. rewrite E in H. exact H.
Qed.

Section Near.
Variables (L : Twist) (c : Chain) (q0 : list R) (low : R).
Hypothesis Hok : chain_ok c.
Hypothesis Hq0 : length q0 = ch_nj c.
Hypothesis Hlow : 0 < low.
Hypothesis ST : stretches (ch_nj c) 6 low (transposed (tip_jacobian c q0)).
Hypothesis HL : forall i, (i < 6)%nat -> t_at L i <> 0.

Lemma lma_near : exists eta A th ka C M mm wh, 0 < eta <= / 60 /\ 0 < A /\ 0 <= th < 1 /\ 0 < ka < 1 /\ 0 < C /\ 0 < M /\ 0 < mm /\ 0 < wh /\
  forall g q, rigid g -> length q = ch_nj c -> d1 q q0 <= eta -> perr g (tip c q) + rerr g (tip c q) <= eta ->
    weighted_error L c g q <= wh * (9 * (perr g (tip c q) + rerr g (tip c q))) /\
    (C * kdl_epsilon <= weighted_error L c g q -> forall lambda d, 0 < lambda <= 10 -> length d = ch_nj c ->
       let J := weighted_jacobian L c q in let e := weigh L (pose_error c g q) in let E := weighted_error L c g q in let E' := weighted_error L c g (line q d 1) in
       (forall m, (m < ch_nj c)%nat -> t_dot6 (nth m J t_zero) (jac_mul J d) + lambda * nth m d 0 = t_dot6 (nth m J t_zero) e) ->
       s1 d <= A * E /\
       (t_dot6 (jac_mul J d) (jac_mul J d) + 2 * lambda * sumn (ch_nj c) (fun m => nth m d 0 * nth m d 0)) / 2 <= E * E - E' * E' /\
       E' <= ka * E /\ (1 - th) * E <= M * s1 d /\
       mm * (E * E) <= sumn (ch_nj c) (fun m => t_dot6 (nth m J t_zero) e * t_dot6 (nth m J t_zero) e)).
Proof.
  destruct (weights_bounds L HL) as (wl & wh & (Wl & Wlh) & W). assert (Wh : 0 < wh) by lra.
  destruct (stretches_near 6 (ch_nj c) low (low / 2) (tip_jacobian c q0) ltac:(lra) ST) as (eJ & HeJ & SN).
  destruct (jac_lip c q0 Hok Hq0) as (LJ & HLJ & JL).
  destruct (entries_bounded (tip_jacobian c q0) (ch_nj c)) as (Mx & HMx & MX).
  set (n := ch_nj c) in *.
  set (mm := low / 2 * (wl * wl)). assert (Hmm : 0 < mm) by (unfold mm; apply Rmult_lt_0_compat; nra).
  set (th2 := 10 / (10 + 2 * mm)).
  assert (Th2 : 0 < th2 < 1).
  { unfold th2. split; [apply Rdiv_lt_0_compat; lra|]. apply Rmult_lt_reg_r with (10 + 2 * mm); [lra|]. unfold Rdiv. rewrite Rmult_assoc, Rinv_l by lra. lra. }
  set (th := sqrt th2). assert (Th : 0 <= th < 1). { unfold th. split; [apply sqrt_pos|]. apply Rlt_le_trans with (sqrt 1); [apply sqrt_lt_1; lra|rewrite sqrt_1; lra]. }
  set (ka := sqrt ((1 + th2) / 2)). assert (Ka : 0 < ka < 1). { unfold ka. split; [apply sqrt_lt_R0; lra|]. apply Rlt_le_trans with (sqrt 1); [apply sqrt_lt_1; lra|rewrite sqrt_1; lra]. }
  set (sm := sqrt mm). assert (Sm : 0 < sm) by (apply sqrt_lt_R0; exact Hmm). assert (Sm2 : sm * sm = mm) by (apply sqrt_sqrt; lra).
  pose proof (pos_INR n) as Nn.
  set (A := (INR n + 1) / sm). assert (HA : 0 < A) by (apply Rdiv_lt_0_compat; lra).
  set (k := wl * (1 - th2) / (144 * wh)). assert (Hk : 0 < k). { unfold k. apply Rdiv_lt_0_compat; [apply Rmult_lt_0_compat; lra|lra]. }
  destruct (error_after c q0 Hok Hq0 (A * wh) k ltac:(apply Rmult_le_pos; lra) Hk) as (eta0 & (He0 & He60) & EA).
  set (eta := Rmin eta0 (eJ / (LJ + 1))). assert (HeJL : 0 < eJ / (LJ + 1)) by (apply Rdiv_lt_0_compat; lra).
  assert (Heta : 0 < eta) by (apply Rmin_glb_lt; assumption). assert (Eta0 : eta <= eta0) by apply Rmin_l.
  assert (EtaJ : LJ * eta <= eJ).
  { apply Rle_trans with ((LJ + 1) * (eJ / (LJ + 1))); [|right; field; lra]. apply Rmult_le_compat; [exact HLJ|lra|lra|apply Rmin_r]. }
  set (M := wh * (6 * (Mx + LJ + 1))). assert (HM : 0 < M) by (apply Rmult_lt_0_compat; lra).
  exists eta, A, th, ka, (27216 * wh / (1 - th2)), M, mm, wh.
  split; [lra|]. split; [exact HA|]. split; [exact Th|]. split; [exact Ka|]. split; [apply Rdiv_lt_0_compat; lra|]. split; [exact HM|]. split; [exact Hmm|]. split; [exact Wh|].
  intros g q Hg Hq Nq Ne.
  assert (EE : weighted_error L c g q = norm6 (weigh L (f_diff (tip c q) g 1))) by (symmetry; apply weigh_norm).
  assert (ET : weighted_error L c g q <= wh * tn (f_diff (tip c q) g 1)).
  { rewrite EE. eapply Rle_trans; [apply norm6_tn|]. apply (tn_weigh_up wl wh L _ W). }
  split.
  - destruct (EA g q (repeat 0 n) Hg ltac:(lia) ltac:(rewrite repeat_length; lia) ltac:(lra) ltac:(lra)) as (T & _).
    + assert (Z : s1 (repeat 0 n) = 0). { clear. induction n as [|m IH]; [reflexivity|]. cbn [repeat]. rewrite s1_cons, IH, Rabs_R0. ring. }
      rewrite Z. apply Rmult_le_pos; [apply Rmult_le_pos; lra|apply tn_nn].
    + eapply Rle_trans; [exact ET|]. apply Rmult_le_compat_l; lra.
  - intros HC lambda d Hlam Ld J e E E' ND.
    set (t := f_diff (tip c q) g 1) in *. change (weighted_error L c g q) with E in HC, ET, EE.
    assert (HE : 0 <= E) by apply weighted_error_pos.
    assert (E2 : E * E = t_dot6 e e) by (rewrite EE; apply norm6_sq).
    assert (LJn : length J = n).
    { unfold J, weighted_jacobian. rewrite map_length. apply jacobian_at_length; assumption. }
    assert (STq : stretches n 6 (low / 2) (transposed (tip_jacobian c q))).
    { apply SN. intros r j Hr Hj. eapply Rle_trans; [apply JL; lia || lra|]. pose proof (d1_nn q q0). apply Rle_trans with (LJ * eta); [apply Rmult_le_compat_l; lra|exact EtaJ]. }
    assert (ROW : forall y, mm * t_dot6 y y <= sumn n (fun m => t_dot6 (nth m J t_zero) y * t_dot6 (nth m J t_zero) y)).
    { apply (weighted_rows wl wh L c q (low / 2)); auto; lra. }
    destruct Hlam as (Hl0 & Hl10).
    pose proof (rest_small n J e lambda mm d LJn Ld Hl0 ND ROW) as RS.
    pose proof (step_small n J e lambda mm d LJn Ld Hl0 Hmm ND ROW) as SS.
    pose proof (e_split n J e lambda d LJn Ld ND) as ES.
    set (V := jac_mul J d) in *. set (r := t_sub e V) in *.
    assert (S1 : s1 d <= A * E).
    { eapply Rle_trans; [apply (s1_root d (E / sm))|].
      - apply Rmult_le_pos; [exact HE|left; apply Rinv_0_lt_compat; exact Sm].
      - apply Rmult_le_reg_l with mm; [exact Hmm|]. eapply Rle_trans; [exact SS|]. rewrite <- E2, <- Sm2. right. field. lra.
      - rewrite Ld. unfold A, Rdiv. assert (0 <= E * / sm) by (apply Rmult_le_pos; [exact HE|left; apply Rinv_0_lt_compat; exact Sm]).
        apply Rle_trans with ((INR n + 1) * (E * / sm)); [apply Rmult_le_compat_r; [assumption|unfold n; lra]|right; ring]. }
    assert (RT : t_dot6 r r <= th2 * (E * E)).
    { pose proof (t_dot6_pos r) as R0. rewrite E2. pose proof (t_dot6_pos e) as E0.
      apply Rmult_le_reg_l with (10 + 2 * mm); [lra|]. replace ((10 + 2 * mm) * (th2 * t_dot6 e e)) with (10 * t_dot6 e e) by (unfold th2; field; lra).
      assert (2 * mm * t_dot6 r r <= lambda * (t_dot6 e e - t_dot6 r r)) by lra.
      assert (RE : t_dot6 r r <= t_dot6 e e). { pose proof (t_dot6_pos V). assert (0 <= 2 * lambda * sqn d) by (pose proof (sqn_nn d); nra). lra. }
      assert (lambda * (t_dot6 e e - t_dot6 r r) <= 10 * (t_dot6 e e - t_dot6 r r)) by (apply Rmult_le_compat_r; lra). lra. }
    assert (NR : norm6 r <= th * E).
    { apply Rsqr_incr_0_var; [|apply Rmult_le_pos; lra]. unfold Rsqr. rewrite norm6_sq. replace (th * E * (th * E)) with (th * th * (E * E)) by ring.
      unfold th. rewrite sqrt_sqrt by lra. exact RT. }
    destruct (EA g q d Hg ltac:(lia) ltac:(lia) ltac:(lra) ltac:(lra)) as (_ & PV & PR).
    { fold t. eapply Rle_trans; [exact S1|]. rewrite Rmult_assoc. apply Rmult_le_compat_l; lra. }
    fold t in PV, PR. set (t' := f_diff (tip c (line q d 1)) g 1) in *. set (V0 := jac_mul (jacl (ch_segs c) q) d) in *.
    assert (EV : weigh L V0 = V).
    { unfold V0, V, J, weighted_jacobian. rewrite weigh_jac_mul, jac_is_jacl by assumption. reflexivity. }
    assert (TD : wl * tn t <= 6 * E) by (rewrite EE; apply (tn_weigh_down wl wh L t W)).
    pose proof (tn_nn t) as Tn0.
    assert (KE : 0 < kdl_epsilon) by (unfold kdl_epsilon; lra).
    assert (NE : E' <= norm6 r + wh * (k * tn t + (k * tn t + 2268 * kdl_epsilon))).
    { unfold E'. rewrite <- weigh_norm. change (pose_error c g (line q d 1)) with t'. unfold r. rewrite <- EV. change e with (weigh L t).
      apply (new_error wl wh L t t' V0); [exact W|lra| |exact PV|exact PR]. assert (0 <= k * tn t) by (apply Rmult_le_pos; lra). lra. }
    assert (KT : wh * (k * tn t) <= (1 - th2) / 24 * E).
    { replace (wh * (k * tn t)) with ((1 - th2) / 144 * (wl * tn t)) by (unfold k; field; lra).
      apply Rle_trans with ((1 - th2) / 144 * (6 * E)); [apply Rmult_le_compat_l; lra|lra]. }
    assert (KK : wh * (2268 * kdl_epsilon) <= (1 - th2) / 12 * E).
    { apply Rle_trans with ((1 - th2) / 12 * (27216 * wh / (1 - th2) * kdl_epsilon)); [right; field; lra|]. apply Rmult_le_compat_l; lra. }
    assert (NE2 : E' <= norm6 r + (1 - th2) / 6 * E) by lra.
    pose proof (norm6_nn r) as Nr. pose proof (norm6_sq r) as Nr2.
    assert (HE' : 0 <= E') by apply weighted_error_pos.
    assert (NrE : norm6 r <= E) by (assert (th * E <= 1 * E) by (apply Rmult_le_compat_r; lra); lra).
    assert (E'2 : E' * E' <= t_dot6 r r + (1 - th2) / 2 * (E * E)).
    { apply Rle_trans with ((norm6 r + (1 - th2) / 6 * E) * (norm6 r + (1 - th2) / 6 * E)); [apply Rmult_le_compat; lra|].
      replace ((norm6 r + (1 - th2) / 6 * E) * (norm6 r + (1 - th2) / 6 * E)) with (norm6 r * norm6 r + (1 - th2) / 6 * (2 * (norm6 r * E) + (1 - th2) / 6 * (E * E))) by ring.
      rewrite Nr2. assert (0 <= E * E) by apply Rle_0_sqr. assert (norm6 r * E <= E * E) by (apply Rmult_le_compat_r; lra).
      assert ((1 - th2) / 6 * (E * E) <= 1 * (E * E)) by (apply Rmult_le_compat_r; lra).
      assert ((1 - th2) / 6 * (2 * (norm6 r * E) + (1 - th2) / 6 * (E * E)) <= (1 - th2) / 6 * (3 * (E * E))) by (apply Rmult_le_compat_l; lra). lra. }
    assert (SQ : sqn d = sumn n (fun m => nth m d 0 * nth m d 0)) by (unfold sqn; rewrite Ld; reflexivity).
    split; [exact S1|]. split; [|split; [|split]].
    + rewrite <- SQ. rewrite E2 in *. lra.
    + apply Rsqr_incr_0_var; [|apply Rmult_le_pos; lra]. unfold Rsqr. replace (ka * E * (ka * E)) with (ka * ka * (E * E)) by ring.
      unfold ka. rewrite sqrt_sqrt by lra. lra.
    + assert (EN : E <= norm6 r + norm6 V).
      { rewrite EE. apply (norm6_split e V). }
      assert (norm6 V <= M * s1 d); [|lra].
      eapply Rle_trans; [apply norm6_tn|]. apply jac_mul_size; [lra|]. intros m Hm.
      assert (LJ0 : length (jacobian_at c (-1) q) = n) by (apply jacobian_at_length; assumption).
      assert (E3 : nth m J t_zero = weigh L (nth m (jacobian_at c (-1) q) t_zero)).
      { unfold J, weighted_jacobian. rewrite (nth_indep _ t_zero (weigh L t_zero)) by (rewrite map_length; lia). apply map_nth. }
      rewrite E3. eapply Rle_trans; [apply (tn_weigh_up wl wh L _ W)|]. unfold M. apply Rmult_le_compat_l; [lra|]. apply tn_entries.
      intros r' Hr'. change (t_at (nth m (jacobian_at c (-1) q) t_zero) r') with (tip_jacobian c q r' m).
      pose proof (JL q r' m ltac:(lia) ltac:(lra) Hr' ltac:(lia)) as J1. pose proof (MX r' m Hr' ltac:(lia)) as J2.
      assert (LJ * d1 q q0 <= LJ * 1) by (apply Rmult_le_compat_l; lra).
      replace (tip_jacobian c q r' m) with ((tip_jacobian c q r' m - tip_jacobian c q0 r' m) + tip_jacobian c q0 r' m) by ring.
      eapply Rle_trans; [apply Rabs_triang|]. lra.
    + rewrite E2. apply ROW.
Qed.
End Near.
