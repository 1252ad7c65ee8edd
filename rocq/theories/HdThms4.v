(** Proofs about the hybrid dynamics solver, part 5: torques, Gauss' principle, definedness. *)
From Coq Require Import String Reals List Arith Lia Lra ZArith Bool.
From Verif Require Import FramesModel FramesSpec FramesProofs FrameOpsProofs RotationProofs Outcome LoopProofs InertiaModel InertiaSpec
  InertiaProofs DualModel KinModel KinSpec KinProofs JacProofs LinModel LinSpec SumProofs DynModel DynSpec SpatialProofs RneProofs DynProofs FdProofs EnergyProofs
  LmaModel LmaSpec LmaProofs VelIkModel VelIkSpec VelIkLin HdModel HdSpec HdAbs HdLoops HdBridge HdProofs HdMotion HdThms HdThms2 HdThms3.
Import ListNotations.
Local Open Scope R_scope.

(** * Energy as work of the torques at rest *)
Definition inert c q x i := bil c q (only i) (jv c x) + jinertia (sjoint (seg c i)) * jv c x i.
Lemma zeros_nth k j : nth j (repeat 0 k) 0 = 0.
Proof. revert j. induction k as [|k IH]; intros [|j]; cbn; auto. Qed.
Lemma ltau_at_rest c q x f i : chain_ok c -> (i < ch_ns c)%nat -> ltau c t_zero q (repeat 0 (ch_nj c)) x f i = inert c q x i - tau_ext c q f i.
Proof.
  intros Hok Hi. rewrite ltau_split by auto. rewrite tau_bias_zero, tau_grav_zero by (intros; apply zeros_nth). unfold inert. ring.
Qed.
Lemma kinetic_bil c q x : chain_ok c -> length q = ch_nj c -> length x = ch_nj c ->
  2 * kinetic c q x = bil c q (jv c x) (jv c x) + sumn (ch_ns c) (fun i => jinertia (sjoint (seg c i)) * (jv c x i * jv c x i)).
Proof.
  intros Hok Hq Hx. pose proof Hok as [Hw _].
  rewrite (sumn_ext (ch_ns c) (fun i => jinertia (sjoint (seg c i)) * (jv c x i * jv c x i)) (fun i => if mv c i then rotor c (kidx c i) * (nth (kidx c i) x 0 * nth (kidx c i) x 0) else 0)).
  2:{ intros i Hi. unfold jv. destruct (mv c i) eqn:Mi; [rewrite rotor_seg by auto; reflexivity|ring]. }
  rewrite (sum_joints c (fun j => rotor c j * (nth j x 0 * nth j x 0)) Hw).
  unfold kinetic, bil. rewrite Rmult_plus_distr_l, <- !sumn_scale. f_equal.
  - apply sumn_ext. intros k Hk. rewrite link_twist_lvel, link_inertia_seg by auto. unfold lvel. field.
  - apply sumn_ext. intros j Hj. field.
Qed.
Lemma kinetic_work c q x : chain_ok c -> inertias_symmetric c -> all_moving c -> length q = ch_nj c -> length x = ch_nj c ->
  2 * kinetic c q x = sumn (ch_ns c) (fun i => nth i x 0 * inert c q x i).
Proof.
  intros Hok Hs Hmv Hq Hx. pose proof Hok as [Hw _]. rewrite kinetic_bil by auto.
  rewrite bil_expand, <- sumn_add. apply sumn_ext. intros i Hi. unfold inert. rewrite (bil_sym c q (only i)) by exact Hs. rewrite (jv_moving c x i) by auto. ring.
Qed.
Lemma loads_none c q : forall k, nth k (loads c q (repeat w_zero (ch_ns c)) w_zero) w_zero = w_zero.
Proof.
  intros k. destruct (lt_dec k (ch_ns c)) as [L|L].
  - unfold loads. rewrite nth_mseq by exact L.
    assert (Z : nth k (repeat w_zero (ch_ns c)) w_zero = w_zero) by (generalize (ch_ns c); clear; induction k as [|k IH]; intros [|m]; cbn; auto).
    rewrite Z. destruct (Nat.eqb _ _); generalize (fM (link_pose c q k)); clear; geo.
  - apply nth_overflow. rewrite loads_length. lia.
Qed.
Lemma rest_tau_none c q nc alfa x i : chain_ok c -> (i < ch_ns c)%nat -> rest_tau c q alfa x (repeat 0 nc) i = inert c q x i.
Proof.
  intros Hok Hi. unfold rest_tau. rewrite wrench_zeros, w_neg_zero, ltau_at_rest, tau_ext_zero by (auto; apply loads_none). ring.
Qed.
Lemma lvel_still c q x k : chain_ok c -> all_moving c -> (k <= ch_ns c)%nat -> (forall i, (i < k)%nat -> nth i x 0 = 0) -> lvel c q x k = t_zero.
Proof. intros Hok Hmv Hk H. apply bt_zero. intros i Hi. rewrite jv_moving by (auto; try apply Hok; lia). apply H, Hi. Qed.
Lemma sum_zeros nc f : sumn nc (fun i => f i * nth i (repeat 0 nc) 0) = 0.
Proof. apply sumn_zero. intros i _. rewrite zeros_nth. ring. Qed.

(** the pivot of joint m is the inertia felt at it *)
Section Felt.
Variables (c : Chain) (q qd : list R) (fext : list Wrench) (nc : nat) (alfa : list Twist) (ff : list R) (a : nat -> siA) (res : list seginfo) (m : nat).
Hypothesis Hok : chain_ok c.
Hypothesis Hmv : all_moving c.
Hypothesis Hsym : inertias_symmetric c.
Hypothesis Hal : length alfa = nc.
Hypothesis Hq : length q = ch_nj c.
Hypothesis Ha : forall m : nat, (m < ch_ns c)%nat -> a (S m) = SA c q qd fext m.
Hypothesis Hm : (m < ch_ns c)%nat.
Hypothesis Hsw : swept c nc alfa ff a (tip_frame c q (ch_ns c)) (S m) res.
Let D := aD (LX c q) (LA c q) (bJ c) (bPT res) m.
Lemma felt_exists : exists x, length x = ch_nj c /\ (forall i, (i < m)%nat -> nth i x 0 = 0) /\ nth m x 0 = 1 /\
  (forall i, (m < i < ch_ns c)%nat -> inert c q x i = 0) /\ inert c q x m = D.
Proof.
  destruct (response_exists c q nc alfa (S m) res Hok Hmv Hal Hq ltac:(lia) (fun i => if Nat.eqb i m then 1 else 0) (repeat 0 nc)) as (x & Lx & X0 & Sv).
  exists x. split; [exact Lx|].
  assert (Z : forall i, (i < m)%nat -> nth i x 0 = 0) by (intros i Hi; rewrite X0 by lia; destruct (Nat.eqb_spec i m); [lia|reflexivity]).
  assert (O : nth m x 0 = 1) by (rewrite X0 by lia; rewrite Nat.eqb_refl; reflexivity).
  split; [exact Z|]. split; [exact O|].
  assert (F : forall i, (m < i < ch_ns c)%nat -> rest_tau c q alfa x (repeat 0 nc) i = 0).
  { intros i Hi. apply (rest_solved c q qd fext nc alfa ff a (S m) res); auto; try lia. apply repeat_length. }
  split; [intros i Hi; rewrite <- (rest_tau_none c q nc alfa) by (auto; lia); apply F; exact Hi|].
  rewrite <- (rest_tau_none c q nc alfa) by auto.
  rewrite (rest_torque c q qd fext nc alfa ff a (S m) res) by (auto; apply repeat_length). rewrite O, sum_zeros, lvel_still, tw_dot_zero_l by (auto; lia). unfold D. ring.
Qed.
Lemma felt_unique x : (forall i, (i < m)%nat -> nth i x 0 = 0) -> nth m x 0 = 1 -> (forall i, (m < i < ch_ns c)%nat -> inert c q x i = 0) -> inert c q x m = D.
Proof.
  intros Z O F. rewrite <- (rest_tau_none c q nc alfa) by auto.
  rewrite (rest_torque c q qd fext nc alfa ff a (S m) res); auto; try apply repeat_length.
  - rewrite O, sum_zeros, lvel_still, tw_dot_zero_l by (auto; lia). unfold D. ring.
  - intros i Hi. rewrite rest_tau_none by (auto; lia). apply F, Hi.
Qed.
Lemma felt_massive : massive c q -> D <> 0.
Proof.
  intros Hma. destruct felt_exists as (x & Lx & Z & O & F & E).
  pose proof (nj_moving c (proj1 Hok) Hmv) as Nj.
  assert (P : 0 < kinetic c q x) by (apply Hma; [exact Lx|exists m; split; [lia|lra]]).
  pose proof (kinetic_work c q x Hok Hsym Hmv Hq Lx) as K.
  rewrite (sumn_one (ch_ns c) m) in K; [|exact Hm|].
  - rewrite O, E in K. lra.
  - intros i Hi Ne. destruct (lt_dec i m) as [L|L]; [rewrite Z by exact L; ring|]. rewrite F by lia. ring.
Qed.
End Felt.
Lemma swept_weaken c nc alfa ff a Ft lo lo' res : (lo <= lo')%nat -> swept c nc alfa ff a Ft lo res -> swept c nc alfa ff a Ft lo' res.
Proof.
  intros L (H1 & H2 & H3 & H4). split; [exact H1|]. split; [intros; apply H2; lia|]. split; [intros; apply H3; lia|]. intros; apply H4; lia.
Qed.

(** * The total torque and the constraint torque *)
Lemma length_of n (y : nat -> R) : exists l, length l = n /\ forall i, (i < n)%nat -> y i = nth i l 0.
Proof. destruct (list_of_fun n y) as (l & L & H). exists l. split; [exact L|]. intros; symmetry; auto. Qed.
Theorem hd_total_torque svd acc nc c s q qd qdd alfa beta fext ff ct qdd' ct' s' t0 : chain_ok c -> inertias_symmetric c ->
  hd_reach svd acc nc c s -> hd_current c s -> length t0 = ch_nj c ->
  hd_CartToJnt svd c s q qd qdd alfa beta fext ff ct = Ret (E_NOERROR, qdd', ct', s') ->
  exists total, hd_getTotalTorque s' t0 = Ret total /\ length total = ch_nj c /\
    forall j, (j < ch_nj c)%nat -> (exists D, felt_inertia c q j D) /\ forall D, felt_inertia c q j D -> nth j total 0 = D * nth j qdd' 0.
Proof.
  intros Hok Hsym Hr Hc Lt HE.
  pose proof (run_moving _ _ _ _ _ _ _ _ _ _ _ _ _ _ Hok HE) as Hmv. pose proof (nj_moving c (proj1 Hok) Hmv) as Nj.
  destruct (run_facts _ _ _ _ _ _ _ _ _ _ _ _ _ _ _ _ Hok Hr Hc HE) as (a & res & HF).
  destruct (run_sizes _ _ _ _ _ _ _ _ _ _ _ _ _ _ _ _ Hr HE) as (Lq & Lqd & Lqdd & Lff & Lct & Lfe & Lal & Lbe).
  pose proof HF as (Ha & Sw & _).
  assert (Ltot : length (hd_total s') = ch_nj c) by apply HF.
  unfold hd_getTotalTorque. rewrite Ltot, Lt, Nat.eqb_refl. cbn [negb]. eexists. split; [reflexivity|]. split; [exact Ltot|].
  intros j Hj. pose proof (swept_weaken _ _ _ _ _ _ 0 (S j) _ ltac:(lia) Sw) as Sj. rewrite Nj in Hj.
  rewrite (run_total svd acc nc c s q qd qdd alfa beta fext ff ct qdd' ct' s' Hok Hsym Hr HE a res HF j Hj). split.
  - destruct (felt_exists c q qd fext nc alfa ff a res j) as (x & Lx & Z & O & F & E); auto.
    destruct (length_of (ch_nj c) (inert c q x)) as (tau & Ltau & Ht). exists (nth j tau 0), x, tau. split; [exact Lx|]. split; [exact Z|]. split; [exact O|].
    split; [apply rest_iff; auto; split; [exact Ltau|]; intros i Hi; rewrite ltau_at_rest, tau_ext_zero by (auto; apply loads_none); rewrite Rminus_0_r; apply Ht; lia|].
    split; [|reflexivity]. intros i Hi. rewrite <- Ht by lia. apply F. lia.
  - intros D (x & tau & Lx & Z & O & T & F & ->). apply rest_iff in T; auto. destruct T as [Ltau T].
    assert (I : forall i, (i < ch_ns c)%nat -> inert c q x i = nth i tau 0).
    { intros i Hi. rewrite <- T by exact Hi. rewrite ltau_at_rest, tau_ext_zero by (auto; apply loads_none). ring. }
    f_equal. rewrite <- I by exact Hj. symmetry. apply (felt_unique c q qd fext nc alfa ff a res j); auto. intros i Hi. rewrite I by lia. apply F. lia.
Qed.
Theorem hd_constraint_torque svd acc nc c s q qd qdd alfa beta fext ff ct qdd' ct' s' nu0 : chain_ok c -> inertias_symmetric c ->
  hd_reach svd acc nc c s -> hd_current c s -> length nu0 = nc ->
  hd_CartToJnt svd c s q qd qdd alfa beta fext ff ct = Ret (E_NOERROR, qdd', ct', s') ->
  exists nu, hd_getContraintForceMagnitude s' nu0 = Ret nu /\ length ct' = ch_nj c /\
    forall j, (j < ch_nj c)%nat -> (exists r, holding_torque c q (w_neg (constraint_wrench alfa nu)) j r) /\
      forall r, holding_torque c q (w_neg (constraint_wrench alfa nu)) j r -> nth j ct' 0 = - r.
Proof.
  intros Hok Hsym Hr Hc Ln0 HE.
  pose proof (run_moving _ _ _ _ _ _ _ _ _ _ _ _ _ _ Hok HE) as Hmv. pose proof (nj_moving c (proj1 Hok) Hmv) as Nj.
  destruct (run_facts _ _ _ _ _ _ _ _ _ _ _ _ _ _ _ _ Hok Hr Hc HE) as (a & res & HF).
  destruct (run_sizes _ _ _ _ _ _ _ _ _ _ _ _ _ _ _ _ Hr HE) as (Lq & Lqd & Lqdd & Lff & Lct & Lfe & Lal & Lbe).
  pose proof HF as (Ha & Sw & _).
  assert (Lnu : length (hd_nu s') = nc) by (eapply run_nu_len; eauto).
  unfold hd_getContraintForceMagnitude. rewrite Lnu, Ln0, Nat.eqb_refl. cbn [negb]. eexists. split; [reflexivity|].
  split; [apply HF|].
  intros j Hj. pose proof (swept_weaken _ _ _ _ _ _ 0 (S j) _ ltac:(lia) Sw) as Sj. rewrite Nj in Hj.
  rewrite (run_ct svd acc nc c s q qd qdd alfa beta fext ff ct qdd' ct' s' Hr HE a res HF j Hj).
  assert (K : forall x, (forall i, (i <= j)%nat -> nth i x 0 = 0) -> (forall i, (j < i < ch_ns c)%nat -> rest_tau c q alfa x (hd_nu s') i = 0) ->
     rest_tau c q alfa x (hd_nu s') j = sumn nc (fun i => aEZ (LX c q) (LA c q) (bET res) j i * nth i (hd_nu s') 0)).
  { intros x Z F. rewrite (rest_torque c q qd fext nc alfa ff a (S j) res) by auto. rewrite Z, lvel_still, tw_dot_zero_l by (auto; try lia; intros; apply Z; lia). ring. }
  split.
  - destruct (response_exists c q nc alfa (S j) res Hok Hmv Lal Lq ltac:(lia) (fun i => 0) (hd_nu s')) as (x & Lx & X0 & Sv).
    destruct (length_of (ch_nj c) (rest_tau c q alfa x (hd_nu s'))) as (tau & Ltau & Ht). exists (nth j tau 0), x, tau. split; [exact Lx|].
    split; [intros i Hi; apply X0; lia|].
    split; [apply (rest_tau_iff c q nc alfa); auto; split; [exact Ltau|intros; apply Ht; lia]|]. split; [|reflexivity].
    intros i Hi. rewrite <- Ht by lia. apply (rest_solved c q qd fext nc alfa ff a (S j) res); auto; lia.
  - intros r (x & tau & Lx & Z & T & F & ->). apply (rest_tau_iff c q nc alfa) in T; auto. destruct T as [Ltau T].
    f_equal. rewrite <- K with (x := x); [apply T; exact Hj|exact Z|]. intros i Hi. rewrite T by lia. apply F. lia.
Qed.

(** * Inverse dynamics at the computed accelerations *)
Lemma tw_dot_wrench t alfa : forall nu, length nu = length alfa ->
  tw_dot t (constraint_wrench alfa nu) = sumn (length alfa) (fun i => nth i nu 0 * component (nth i alfa t_zero) t).
Proof.
  induction alfa as [|b alfa IH]; intros [|y nu] E; try discriminate E; [apply tw_dot_zero_r|].
  cbn [length]. rewrite sumn_head. cbn [constraint_wrench nth]. injection E as E. rewrite tw_dot_wadd, tw_dot_wscale, (IH nu E). f_equal.
  unfold component, tw_dot. destruct b as [b1 b2], t as [t1 t2]. cbn [tvel trot wforce wtorque]. clear. revert b1 b2 t1 t2. geo.
Qed.
Lemma r_app_w_back M w : is_rotation M -> r_app_w M (r_invapp_w M w) = w.
Proof. intros H. destruct w as [f t]. unfold r_app_w, r_invapp_w. cbn [wforce wtorque]. rewrite !r_app_invapp by exact H. reflexivity. Qed.
Lemma tw_dot_wneg t w : tw_dot t (w_neg w) = - tw_dot t w. Proof. geo. Qed.
Lemma tau_ext_loads c q f alfa nu i : chain_ok c -> all_moving c -> length q = ch_nj c -> length nu = length alfa -> (i < ch_ns c)%nat ->
  tau_ext c q (loads c q f (w_neg (constraint_wrench alfa nu))) i = tau_ext c q (loads c q f w_zero) i -
    sumn (length alfa) (fun k => nth k nu 0 * component (nth k alfa t_zero) (nth i (link_jacobian c q (ch_ns c - 1)) t_zero)).
Proof.
  intros Hok Hmv Hq Ln Hi. pose proof Hok as [Hw _].
  rewrite <- tw_dot_wrench by exact Ln. unfold Rminus. rewrite <- tw_dot_wneg. set (w := w_neg (constraint_wrench alfa nu)). unfold tau_ext.
  replace (tw_dot (nth i (link_jacobian c q (ch_ns c - 1)) t_zero) w) with
    (sumn (ch_ns c) (fun k => if Nat.eqb (S k) (ch_ns c) then tw_dot (bt (LX c q) (LA c q) (only i) (S k)) (r_invapp_w (fM (link_pose c q k)) w) else 0)).
  - rewrite <- sumn_add. apply sumn_ext. intros k Hk. unfold loads. rewrite !nth_mseq by exact Hk. destruct (Nat.eqb_spec (S k) (ch_ns c)) as [E|E]; [|ring].
    rewrite <- tw_dot_wadd, w_add_0_r, <- r_invapp_w_add. reflexivity.
  - rewrite (sumn_one (ch_ns c) (ch_ns c - 1)) by first [lia | intros k Hk Ne; destruct (Nat.eqb_spec (S k) (ch_ns c)); [lia|reflexivity]].
    replace (Nat.eqb (S (ch_ns c - 1)) (ch_ns c)) with true by (symmetry; apply Nat.eqb_eq; lia).
    rewrite bt_only_column by (auto; lia). rewrite kidx_moving by (auto; lia).
    pose proof (link_pose_rigid c q (ch_ns c - 1) Hok Hq ltac:(lia)) as Ri. rewrite r_power_back by exact Ri. rewrite r_app_w_back by exact Ri. reflexivity.
Qed.
Theorem hd_inverse g svd nc c s q qd qdd alfa beta fext ff ct qdd' ct' s' rs tau0 nu0 : chain_ok c -> inertias_symmetric c ->
  hd_reach svd (t_neg (mkT g v_zero)) nc c s -> hd_current c s -> rne_reach g c rs -> rne_current c rs -> length tau0 = ch_nj c -> length nu0 = nc ->
  hd_CartToJnt svd c s q qd qdd alfa beta fext ff ct = Ret (E_NOERROR, qdd', ct', s') ->
  exists nu tau, hd_getContraintForceMagnitude s' nu0 = Ret nu /\ rne_CartToJnt c rs q qd qdd' (loads c q fext w_zero) tau0 = Ret (E_NOERROR, tau) /\
    forall j, (j < ch_nj c)%nat -> nth j tau 0 = nth j ff 0 -
      sumn nc (fun i => nth i nu 0 * component (nth i alfa t_zero) (nth j (link_jacobian c q (ch_ns c - 1)) t_zero)).
Proof.
  intros Hok Hsym Hr Hc Rr Rc Lt Ln0 HE.
  pose proof (run_moving _ _ _ _ _ _ _ _ _ _ _ _ _ _ Hok HE) as Hmv. pose proof (nj_moving c (proj1 Hok) Hmv) as Nj.
  destruct (run_facts _ _ _ _ _ _ _ _ _ _ _ _ _ _ _ _ Hok Hr Hc HE) as (a & res & HF).
  destruct (run_sizes _ _ _ _ _ _ _ _ _ _ _ _ _ _ _ _ Hr HE) as (Lq & Lqd & Lqdd & Lff & Lct & Lfe & Lal & Lbe).
  pose proof HF as (_ & _ & _ & _ & _ & _ & _ & Lq' & _).
  assert (Lnu : length (hd_nu s') = nc) by (eapply run_nu_len; eauto).
  destruct (length_of (ch_nj c) (ltau c (rn_ag rs) q qd qdd' (loads c q fext w_zero))) as (tau & Ltau & Ht).
  exists (hd_nu s'), tau. split; [unfold hd_getContraintForceMagnitude; rewrite Lnu, Ln0, Nat.eqb_refl; reflexivity|].
  split; [apply rne_iff; auto using loads_length; split; [exact Ltau|intros; apply Ht; lia]|].
  intros j Hj. rewrite <- Ht by exact Hj. rewrite Nj in Hj.
  pose proof (run_torques svd (t_neg (mkT g v_zero)) nc c s q qd qdd alfa beta fext ff ct qdd' ct' s' Hok Hsym Hr HE a res HF j Hj) as T.
  rewrite (rne_reach_ag g c rs Rr). rewrite ltau_split in T |- * by auto. rewrite tau_ext_loads in T by (auto; congruence). rewrite Lal in T. lra.
Qed.

(** * Gauss' principle *)
Lemma inert_minus c q x y i : length x = length y -> inert c q (minus x y) i = inert c q x i - inert c q y i.
Proof.
  intros L. unfold inert. rewrite (bil_ext_r c q (only i) (jv c (minus x y)) (fun k => jv c x k + jv c y k * -1)).
  - assert (B : bil c q (only i) (fun k => jv c x k + jv c y k * -1) = bil c q (only i) (jv c x) + -1 * bil c q (only i) (jv c y)).
    { unfold bil. rewrite <- sumn_scale, <- sumn_add. apply sumn_ext. intros k Hk. rewrite bt_add, bt_scale, rb_app_tadd, rb_app_tscale_r, tw_dot_wadd, tw_dot_wscale. ring. }
    rewrite B. unfold jv. destruct (mv c i); [rewrite minus_nth by exact L|]; ring.
  - intros k Hk. unfold jv. destruct (mv c k); [rewrite minus_nth by exact L|]; ring.
Qed.
Lemma work_sym c q x y : chain_ok c -> all_moving c -> inertias_symmetric c ->
  sumn (ch_ns c) (fun i => nth i x 0 * inert c q y i) = sumn (ch_ns c) (fun i => nth i y 0 * inert c q x i).
Proof.
  intros [Hw _] Hmv Hs.
  assert (G : forall u v, sumn (ch_ns c) (fun i => nth i u 0 * inert c q v i) = bil c q (jv c v) (jv c u) + sumn (ch_ns c) (fun i => jinertia (sjoint (seg c i)) * (nth i u 0 * nth i v 0))).
  { intros u v. rewrite bil_expand, <- sumn_add. apply sumn_ext. intros i Hi. unfold inert. rewrite (bil_sym c q (only i)) by exact Hs. rewrite (jv_moving c v i), (jv_moving c u i) by auto. ring. }
  rewrite !G, (bil_sym c q (jv c y)) by exact Hs. f_equal. apply sumn_ext. intros; ring.
Qed.
Lemma sum_minus n (x y : list R) f : length x = length y -> sumn n (fun i => nth i (minus x y) 0 * f i) = sumn n (fun i => nth i x 0 * f i) - sumn n (fun i => nth i y 0 * f i).
Proof. intros L. rewrite <- sumn_sub. apply sumn_ext. intros i Hi. rewrite minus_nth by exact L. ring. Qed.
Lemma component_jac a J x : length J = length x -> component a (jac_mul J x) = sumn (length x) (fun j => component a (nth j J t_zero) * nth j x 0).
Proof.
  revert x. induction J as [|b J IH]; intros [|y x] L; try discriminate L.
  - cbn [jac_mul length sumn]. unfold component. destruct a as [a1 a2]. generalize a1 a2. clear. geo.
  - injection L as L. cbn [length]. rewrite sumn_head. cbn [jac_mul nth]. rewrite <- IH by exact L. rewrite component_add. f_equal. unfold component. destruct a as [a1 a2], b as [b1 b2]. cbn [t_scale tvel trot]. generalize a1 a2 b1 b2 y. clear. geo.
Qed.
Theorem hd_gauss g svd nc c s q qd qdd alfa beta fext ff ct qdd' ct' s' rs tau0 free x : chain_ok c -> inertias_symmetric c ->
  (forall y, length y = ch_nj c -> 0 <= kinetic c q y) ->
  hd_reach svd (t_neg (mkT g v_zero)) nc c s -> hd_current c s -> rne_reach g c rs -> rne_current c rs -> length tau0 = ch_nj c ->
  hd_CartToJnt svd c s q qd qdd alfa beta fext ff ct = Ret (E_NOERROR, qdd', ct', s') ->
  length free = ch_nj c -> rne_CartToJnt c rs q qd free (loads c q fext w_zero) tau0 = Ret (E_NOERROR, ff) ->
  length x = ch_nj c -> (forall i, (i < nc)%nat -> component (nth i alfa t_zero) (tip_rate c q x) = component (nth i alfa t_zero) (tip_rate c q qdd')) ->
  kinetic c q (minus qdd' free) <= kinetic c q (minus x free).
Proof.
  intros Hok Hsym Hpos Hr Hc Rr Rc Lt HE Lf Tf Lx Hx.
  pose proof (run_moving _ _ _ _ _ _ _ _ _ _ _ _ _ _ Hok HE) as Hmv. pose proof (nj_moving c (proj1 Hok) Hmv) as Nj.
  destruct (run_facts _ _ _ _ _ _ _ _ _ _ _ _ _ _ _ _ Hok Hr Hc HE) as (a & res & HF).
  destruct (run_sizes _ _ _ _ _ _ _ _ _ _ _ _ _ _ _ _ Hr HE) as (Lq & Lqd & Lqdd & Lff & Lct & Lfe & Lal & Lbe).
  pose proof HF as (_ & _ & _ & _ & _ & _ & _ & Lq' & _).
  assert (Lnu : length (hd_nu s') = nc) by (eapply run_nu_len; eauto).
  apply rne_iff in Tf; auto using loads_length. destruct Tf as [_ Tf]. rewrite (rne_reach_ag g c rs Rr) in Tf.
  set (F := fun j => sumn nc (fun i => nth i (hd_nu s') 0 * component (nth i alfa t_zero) (nth j (link_jacobian c q (ch_ns c - 1)) t_zero))).
  assert (D : forall j, (j < ch_ns c)%nat -> inert c q (minus qdd' free) j = - F j).
  { intros j Hj. rewrite inert_minus by congruence.
    pose proof (run_torques svd (t_neg (mkT g v_zero)) nc c s q qd qdd alfa beta fext ff ct qdd' ct' s' Hok Hsym Hr HE a res HF j Hj) as T.
    specialize (Tf j Hj). rewrite ltau_split in T, Tf by auto. rewrite tau_ext_loads in T by (auto; congruence). rewrite Lal in T. unfold inert, F. lra. }
  (* the work of the constraint forces on a motion the constraints allow *)
  assert (W : sumn (ch_ns c) (fun j => nth j (minus x qdd') 0 * inert c q (minus qdd' free) j) = 0).
  { destruct (Nat.eq_dec (ch_ns c) 0) as [Z|Z]; [rewrite Z; reflexivity|].
    rewrite (sumn_ext (ch_ns c) _ (fun j => - (sumn nc (fun i => nth i (hd_nu s') 0 * (component (nth i alfa t_zero) (nth j (link_jacobian c q (ch_ns c - 1)) t_zero) * nth j (minus x qdd') 0))))).
    2:{ intros j Hj. rewrite D by exact Hj. unfold F. rewrite Ropp_mult_distr_r_reverse, <- sumn_scale. f_equal. apply sumn_ext. intros; ring. }
    rewrite sumn_opp, sumn_swap. rewrite sumn_zero; [ring|]. intros i Hi. rewrite sumn_scale.
    assert (LJ : length (link_jacobian c q (ch_ns c - 1)) = ch_nj c).
    { apply link_jacobian_length; auto. lia. }
    specialize (Hx i Hi). unfold tip_rate in Hx. rewrite !component_jac in Hx by congruence.
    rewrite (sumn_ext (ch_ns c) _ (fun j => nth j (minus x qdd') 0 * component (nth i alfa t_zero) (nth j (link_jacobian c q (ch_ns c - 1)) t_zero))) by (intros; ring).
    rewrite sum_minus by congruence. rewrite Lx, Lq', Nj in Hx.
    rewrite (sumn_ext (ch_ns c) (fun j => nth j x 0 * _) (fun j => component (nth i alfa t_zero) (nth j (link_jacobian c q (ch_ns c - 1)) t_zero) * nth j x 0)) by (intros; ring).
    rewrite (sumn_ext (ch_ns c) (fun j => nth j qdd' 0 * _) (fun j => component (nth i alfa t_zero) (nth j (link_jacobian c q (ch_ns c - 1)) t_zero) * nth j qdd' 0)) by (intros; ring).
    rewrite Hx. ring. }
  pose proof (Hpos (minus x qdd') ltac:(apply minus_length; auto)) as P.
  pose proof (kinetic_work c q (minus x qdd') Hok Hsym Hmv Lq ltac:(apply minus_length; auto)) as K1.
  pose proof (kinetic_work c q (minus x free) Hok Hsym Hmv Lq ltac:(apply minus_length; auto)) as K2.
  pose proof (kinetic_work c q (minus qdd' free) Hok Hsym Hmv Lq ltac:(apply minus_length; auto)) as K3.
  assert (E : sumn (ch_ns c) (fun i => nth i (minus x free) 0 * inert c q (minus x free) i) =
     sumn (ch_ns c) (fun i => nth i (minus x qdd') 0 * inert c q (minus x qdd') i) +
     sumn (ch_ns c) (fun i => nth i (minus qdd' free) 0 * inert c q (minus qdd' free) i) +
     sumn (ch_ns c) (fun i => nth i (minus x qdd') 0 * inert c q (minus qdd' free) i) +
     sumn (ch_ns c) (fun i => nth i (minus qdd' free) 0 * inert c q (minus x qdd') i)).
  { rewrite <- !sumn_add. apply sumn_ext. intros i Hi. rewrite !inert_minus, !minus_nth by congruence. ring. }
  rewrite (work_sym c q (minus qdd' free) (minus x qdd')) in E by auto. rewrite W in E. lra.
Qed.

(** * The call returns for every arm with mass *)
Lemma no_fixed_moving c : chain_wf c -> no_fixed c <-> all_moving c.
Proof.
  intros [Hn _]. unfold no_fixed, all_moving, mv, seg. rewrite Forall_forall. split; intros H.
  - intros i Hi. apply H, nth_In. lia.
  - intros x Hx. destruct (In_nth _ _ seg0 Hx) as (i & Hi & <-). apply H. lia.
Qed.
Theorem hd_needs_moving svd acc nc c s q qd qdd alfa beta fext ff ct : chain_ok c -> ~ no_fixed c ->
  hd_reach svd acc nc c s -> hd_current c s -> hd_sizes c nc q qd qdd alfa beta fext ff ct ->
  hd_CartToJnt svd c s q qd qdd alfa beta fext ff ct = Undef.
Proof.
  intros Hok Hf Hr [Ens _] Hs. destruct (hd_reach_inv _ _ _ _ _ Hr) as (_ & Enc & _).
  destruct (all_moving_dec c (proj1 Hok)) as [H|(i & Hi & F)]; [exfalso; apply Hf, no_fixed_moving; auto; apply Hok|].
  rewrite <- Enc in Hs. exact (hd_fixed svd c s q qd qdd alfa beta fext ff ct i Hok Ens Hs Hi F).
Qed.
Theorem hd_defined svd acc nc c s q qd qdd alfa beta fext ff ct : chain_ok c -> inertias_symmetric c -> massive c q -> no_fixed c ->
  hd_reach svd acc nc c s -> hd_current c s -> hd_sizes c nc q qd qdd alfa beta fext ff ct ->
  exists qdd' ct' s', hd_CartToJnt svd c s q qd qdd alfa beta fext ff ct = Ret (E_NOERROR, qdd', ct', s') /\
    length qdd' = ch_nj c /\ length ct' = ch_nj c /\ hd_current c s'.
Proof.
  intros Hok Hsym Hma Hnf Hr Hc Hs. pose proof (proj1 (no_fixed_moving c (proj1 Hok)) Hnf) as Hmv. destruct (hd_reach_inv _ _ _ _ _ Hr) as (Eacc & Enc & Lr). pose proof Hc as [Ens Et].
  pose proof Hs as (Lq & Lqd & Lqdd & Lff & Lct & Lfe & Lal & Lbe).
  destruct (hd_init c (hd_acc s) q qd fext Hok Hmv Lq Lqd Lfe (hd_res s)) as (res1 & E1 & L1 & Ha); [lia|].
  set (a := fun i => si_a (rget res1 i)).
  destruct (hd_down_total c q qd fext Hok Hmv Lq Lqd Lfe nc alfa ff Lff a (tip_frame c q (ch_ns c)) res1 L1 ltac:(intros; reflexivity)) as (j & res2 & E2).
  { intros lo rs Hlo Lrs Sw. rewrite (b_D c q qd fext) with (lo := S lo) (a := a) (Ft := tip_frame c q (ch_ns c)) (nc := nc) (alfa := alfa) (ff := ff); auto; try lia.
    apply (felt_massive c q qd fext nc alfa ff a rs lo); auto. }
  rewrite <- Enc in *.
  destruct (hd_finish svd c s q qd qdd alfa beta fext ff ct res1 j res2 Hok Hmv Hc Hs Lr E1 L1 Ha E2) as (q' & c' & s' & a' & E & HF).
  exists q', c', s'. split; [exact E|]. split; [apply HF|]. split; [apply HF|]. split; apply HF.
Qed.
(** an object built on a chain with as many segments and fewer joints *)
Theorem hd_stale svd acc nc c0 c q qd qdd alfa beta fext ff ct : chain_ok c -> ch_ns c0 = ch_ns c -> (ch_nj c0 < ch_nj c)%nat ->
  hd_sizes c nc q qd qdd alfa beta fext ff ct -> hd_CartToJnt svd c (hd_make c0 acc nc) q qd qdd alfa beta fext ff ct = Undef.
Proof.
  intros Hok En Hj Hs. set (s := hd_make c0 acc nc).
  destruct (hd_CartToJnt svd c s q qd qdd alfa beta fext ff ct) as [[[[code q'] c'] s']|] eqn:E; [|reflexivity]. exfalso.
  assert (Hs' : hd_sizes c (hd_nc s) q qd qdd alfa beta fext ff ct) by exact Hs. pose proof E as E0.
  rewrite (hd_sized svd c s q qd qdd alfa beta fext ff ct En Hs') in E.
  apply obind_Ret_inv in E. destruct E as ([[j1 Ft] res1] & E1 & E). apply obind_Ret_inv in E. destruct E as ([j2 res2] & E2 & E).
  apply obind_Ret_inv in E. destruct E as (s0 & E3 & E). cbv zeta in E. apply obind_Ret_inv in E. destruct E as ([[[[j res3] qq] cc] tt] & E4 & E). injection E as <- <- <- <-.
  pose proof (hd_moving svd c s q qd qdd alfa beta fext ff ct _ _ _ Hok E0) as Hmv. pose proof (nj_moving c (proj1 Hok) Hmv) as Nj.
  assert (K : let '(j, _, _, _, tot) := (j, res3, qq, cc, tt) in (S j = 1 + ch_ns c)%nat /\ length tot = ch_nj c0 /\ (j <= ch_nj c0)%nat).
  { refine (for_loop_pinv (fun k (st : nat * list seginfo * list R * list R * list R) => let '(j, _, _, _, tot) := st in (S j = k)%nat /\ length tot = ch_nj c0 /\ (j <= ch_nj c0)%nat) _ _ _ _ _ _ _ E4).
    2:{ cbn [s hd_make hd_total]. rewrite repeat_length. lia. }
    intros k [[[[ji ri] qi] ci] ti] st' Hk (Ej & Lt & Lj) Eb. unfold hd_final_body in Eb. cbv zeta in Eb.
    repeat (apply obind_Ret_inv in Eb; let x := fresh "x" in let H := fresh "H" in destruct Eb as (x & H & Eb)). injection Eb as <-.
    match goal with K : aset ti _ _ = Ret _ |- _ => apply aset_Ret_inv in K; destruct K as [KL ->] end.
    match goal with K : chain_getSegment c _ = Ret ?g |- _ => rewrite seg_get in K by (try apply Hok; lia); injection K as <- end.
    change (moving (seg c (k - 1))) with (mv c (k - 1)). rewrite Hmv by lia. rewrite upd_length. lia. }
  destruct K as (K1 & _ & K3). lia.
Qed.
