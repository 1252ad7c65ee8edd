(** A concrete arm for the hybrid dynamics theorems: two sliders in series along x. *)
From Coq Require Import String Reals List Arith Lia Lra ZArith Bool.
From Verif Require Import FramesModel FramesSpec FramesProofs FrameOpsProofs RotationProofs Outcome LoopProofs InertiaModel InertiaSpec
  InertiaProofs DualModel KinModel KinSpec KinProofs JacProofs LinModel LinSpec SumProofs DynModel DynSpec SpatialProofs RneProofs DynProofs FdProofs EnergyProofs
  LmaModel LmaSpec LmaProofs VelIkModel VelIkSpec VelIkLin HdModel HdSpec HdAbs HdLoops HdBridge HdProofs HdMotion HdThms HdThms2 HdThms3 HdThms4.
Import ListNotations.
Local Open Scope R_scope.

(** a unit mass at the origin of the link *)
Definition hwI : RigidBodyInertia := mkRB 1 v_zero (mkRI (mkR 1 0 0 0 1 0 0 0 1)).
Definition hws (n : string) : Segment := mkS n (mkJ n TransX 1 0 0 0 0 v_zero v_zero) hwI f_id.
Definition hwc : Chain := chain_addSegment (chain_addSegment chain_empty (hws "a")) (hws "b").
Definition z2 : list R := [0; 0].
(** one constraint: the tip's acceleration along x *)
Definition hwa : list Twist := [mkT (mkV 1 0 0) v_zero].
(** the decomposition of 1 x 1 matrices: a = sign(a) |a| 1 *)
Definition svd1 (k : Z) (A : Mat) : Decomp :=
  mkD 0 (fun _ _ => if Rlt_dec (mentry A 0 0) 0 then -1 else 1) (fun _ => Rabs (mentry A 0 0)) (fun _ _ => 1).

Lemma svd1_right : svd_right 1 svd1.
Proof.
  intros A _ _. split; [|intros; apply Rabs_pos]. split; [|split].
  - intros r j Hr Hj. replace r with 0%nat by lia. replace j with 0%nat by lia. cbn [sumn svd1 dc_U dc_S dc_V].
    destruct (Rlt_dec (mentry A 0 0) 0) as [L|L]; [rewrite Rabs_left by exact L|rewrite Rabs_right by lra]; ring.
  - intros i k Hi Hk. replace i with 0%nat by lia. replace k with 0%nat by lia. cbn. ring.
  - intros i k Hi Hk _ _. replace i with 0%nat by lia. replace k with 0%nat by lia. unfold delta. cbn [sumn svd1 dc_U Nat.eqb]. destruct (Rlt_dec (mentry A 0 0) 0); ring.
Qed.
Lemma hwc_ok : chain_ok hwc.
Proof.
  split; [split; reflexivity|]. unfold hwc, chain_addSegment. cbn [ch_segs chain_empty app].
  repeat (constructor; [split; [intros E; discriminate E|apply is_rotation_id]|]). constructor.
Qed.
Lemma hwc_sym : inertias_symmetric hwc.
Proof.
  unfold inertias_symmetric, hwc, chain_addSegment. cbn [ch_segs chain_empty app].
  repeat (constructor; [apply rb_symmetric_data; repeat split; reflexivity|]). constructor.
Qed.
Lemma hwc_nofixed : no_fixed hwc.
Proof. unfold no_fixed, hwc, chain_addSegment. cbn [ch_segs chain_empty app]. repeat (constructor; [reflexivity|]). constructor. Qed.
Lemma hwc_moving : all_moving hwc. Proof. apply no_fixed_moving; [apply hwc_ok|apply hwc_nofixed]. Qed.

Lemma hw_seg k : (k < 2)%nat -> seg hwc k = hws (match k with O => "a" | _ => "b" end)%string.
Proof. intros H. destruct k as [|[|k]]; [reflexivity|reflexivity|lia]. Qed.
Lemma hw_jv x k : (k < 2)%nat -> jv hwc x k = nth k x 0.
Proof. intros H. apply jv_moving; [apply hwc_ok|apply hwc_moving|exact H]. Qed.
Lemma hw_X k : (k < 2)%nat -> LX hwc z2 k = f_id.
Proof.
  intros H. unfold LX. rewrite hw_jv, hw_seg by exact H. replace (nth k z2 0) with 0 by (destruct k as [|[|[|k]]]; reflexivity).
  unfold segment_pose, hws. cbn. geo.
Qed.
Lemma hw_A k : (k < 2)%nat -> LA hwc z2 k = mkT (mkV 1 0 0) v_zero.
Proof.
  intros H. unfold LA. rewrite hw_X by exact H. rewrite hw_jv, hw_seg by exact H. unfold segment_twist, hws. cbn. geo.
Qed.
Lemma hw_bt d k : (k <= 2)%nat -> bt (LX hwc z2) (LA hwc z2) d k = mkT (mkV (sumn k d) 0 0) v_zero.
Proof.
  induction k as [|k IH]; intros H; [reflexivity|]. cbn [bt sumn]. rewrite IH by lia. rewrite hw_X, hw_A by lia. generalize (sumn k d) (d k). clear. geo.
Qed.
Lemma hw_inert x : inert hwc z2 x 0 = 2 * nth 0 x 0 + nth 1 x 0 /\ inert hwc z2 x 1 = nth 0 x 0 + nth 1 x 0.
Proof.
  assert (M : forall a b, tw_dot (mkT (mkV a 0 0) v_zero) (rb_app hwI (mkT (mkV b 0 0) v_zero)) = a * b) by (unfold hwI; ine).
  unfold inert, bil. change (ch_ns hwc) with 2%nat. cbn [sumn].
  rewrite !(hw_bt _ 1), !(hw_bt _ 2) by lia. rewrite !hw_seg by lia. cbn [hws sI sjoint jinertia]. rewrite !M.
  rewrite (hw_jv x 0), (hw_jv x 1) by lia. cbn [sumn]. rewrite (hw_jv x 0), (hw_jv x 1) by lia. unfold only. cbn [Nat.eqb]. split; ring.
Qed.
Lemma hw_massive : massive hwc z2.
Proof.
  intros x Lx (j & Hj & Nz). change (ch_nj hwc) with 2%nat in *.
  pose proof (kinetic_work hwc z2 x hwc_ok hwc_sym hwc_moving eq_refl Lx) as K. change (ch_ns hwc) with 2%nat in K. cbn [sumn] in K.
  destruct (hw_inert x) as [-> ->] in K.
  assert (P : 2 * kinetic hwc z2 x = nth 0 x 0 * nth 0 x 0 + (nth 0 x 0 + nth 1 x 0) * (nth 0 x 0 + nth 1 x 0)) by (rewrite K; ring).
  pose proof (Rle_0_sqr (nth 0 x 0)) as S1. pose proof (Rle_0_sqr (nth 0 x 0 + nth 1 x 0)) as S2. unfold Rsqr in *.
  destruct (Req_dec (nth 0 x 0) 0) as [Z|Z].
  - destruct j as [|[|j]]; [contradiction| |lia]. rewrite Z in *. pose proof (Rsqr_pos_lt _ Nz) as Q. unfold Rsqr in Q. lra.
  - pose proof (Rsqr_pos_lt _ Z) as Q. unfold Rsqr in Q. lra.
Qed.
Lemma hw_tip x : length x = 2%nat -> component (nth 0 hwa t_zero) (tip_rate hwc z2 x) = nth 0 x 0 + nth 1 x 0.
Proof.
  intros Lx. rewrite tip_rate_lvel by first [apply hwc_ok | reflexivity | exact Lx | (change (ch_ns hwc) with 2%nat; lia)].
  unfold lvel. change (ch_ns hwc) with 2%nat. rewrite hw_bt by lia. cbn [sumn]. rewrite (hw_jv x 0), (hw_jv x 1) by lia.
  assert (T : tip_frame hwc z2 2 = f_id).
  { rewrite !(tip_S hwc z2) by first [apply hwc_ok | reflexivity | (change (ch_ns hwc) with 2%nat; lia)]. rewrite !hw_X by lia. change (tip_frame hwc z2 0) with f_id. geo. }
  rewrite T. unfold component, hwa. cbn [nth tvel trot]. generalize (nth 0 x 0) (nth 1 x 0). clear. geo.
Qed.
Lemma hw_ext nu i : (i < 2)%nat -> tau_ext hwc z2 (loads hwc z2 (repeat w_zero 2) (w_neg (constraint_wrench hwa [nu]))) i = - nu.
Proof.
  intros Hi. pose proof (tau_ext_loads hwc z2 (repeat w_zero 2) hwa [nu] i hwc_ok hwc_moving eq_refl eq_refl Hi) as E. rewrite E.
  rewrite tau_ext_zero by (apply (loads_none hwc z2)). change (length hwa) with 1%nat. cbn [sumn].
  assert (J : component (nth 0 hwa t_zero) (nth i (link_jacobian hwc z2 1) t_zero) = 1).
  { pose proof (hw_tip (unit_rate 2 i) (unit_rate_length 2 i)) as T. unfold tip_rate in T. change (ch_ns hwc - 1)%nat with 1%nat in T.
    rewrite (jac_mul_unit (link_jacobian hwc z2 1) (unit_rate 2 i) i) in T.
    - rewrite T. destruct i as [|[|i]]; [| |lia]; cbn; ring.
    - rewrite unit_rate_length, link_jacobian_length by first [apply hwc_ok | reflexivity | (change (ch_ns hwc) with 2%nat; lia)]. reflexivity.
    - rewrite link_jacobian_length by first [apply hwc_ok | reflexivity | (change (ch_ns hwc) with 2%nat; lia)]. exact Hi.
    - intros k Hk. rewrite link_jacobian_length in Hk by first [apply hwc_ok | reflexivity | (change (ch_ns hwc) with 2%nat; lia)]. apply unit_rate_nth. exact Hk. }
  change (ch_ns hwc - 1)%nat with 1%nat. rewrite J. cbn [nth]. ring.
Qed.
(** inverse dynamics at rest *)
Lemma hw_rest x nu tau : length x = 2%nat -> rest_torques hwc z2 x (w_neg (constraint_wrench hwa [nu])) tau <->
  tau = [2 * nth 0 x 0 + nth 1 x 0 + nu; nth 0 x 0 + nth 1 x 0 + nu].
Proof.
  intros Lx. rewrite rest_iff by first [apply hwc_ok | apply hwc_moving | reflexivity | exact Lx]. change (ch_nj hwc) with 2%nat. change (ch_ns hwc) with 2%nat.
  destruct (hw_inert x) as [I0 I1].
  assert (T : forall m, (m < 2)%nat -> ltau hwc t_zero z2 (repeat 0 2) x (loads hwc z2 (repeat w_zero 2) (w_neg (constraint_wrench hwa [nu]))) m = inert hwc z2 x m + nu).
  { intros m Hm. rewrite (ltau_at_rest hwc z2 x _ m hwc_ok Hm), hw_ext by exact Hm. ring. }
  split.
  - intros [L H]. destruct tau as [|t0 [|t1 [|]]]; try discriminate L. f_equal; [|f_equal].
    + rewrite <- I0, <- T by lia. symmetry. apply (H 0%nat). lia.
    + rewrite <- I1, <- T by lia. symmetry. apply (H 1%nat). lia.
  - intros ->. split; [reflexivity|]. intros m Hm. rewrite T by exact Hm. destruct m as [|[|m]]; [rewrite I0|rewrite I1|lia]; reflexivity.
Qed.
Lemma hw_mobile : constraints_mobile hwc z2 hwa (/ 100000000000000).
Proof.
  intros nu x Ln (Lx & T). destruct nu as [|nu [|]]; try discriminate Ln. change (ch_nj hwc) with 2%nat in Lx. apply hw_rest in T; [|exact Lx].
  change (repeat 0 (ch_nj hwc)) with [0; 0] in T. injection T as T0 T1. change (length hwa) with 1%nat. cbn [sumn]. rewrite (hw_tip x Lx). cbn [nth].
  assert (E : nth 0 x 0 + nth 1 x 0 = - nu) by lra. rewrite E. pose proof (Rle_0_sqr nu) as Q. unfold Rsqr in Q. lra.
Qed.

(** * What the solver does on it *)
Definition hw_s : hd := hd_make hwc (t_neg (mkT v_zero v_zero)) 1.
Definition hw_call (beta : R) := hd_CartToJnt svd1 hwc hw_s z2 z2 z2 hwa [beta] (repeat w_zero 2) z2 z2.
Lemma hw_sizes beta : hd_sizes hwc 1 z2 z2 z2 hwa [beta] (repeat w_zero 2) z2 z2.
Proof. repeat (split; [reflexivity|]). reflexivity. Qed.
Lemma hw_runs beta : exists s', hw_call beta = Ret (E_NOERROR, [0; beta], [0; beta], s') /\ hd_getContraintForceMagnitude s' [0] = Ret [- beta].
Proof.
  destruct (hd_defined svd1 (t_neg (mkT v_zero v_zero)) 1 hwc hw_s z2 z2 z2 hwa [beta] (repeat w_zero 2) z2 z2 hwc_ok hwc_sym hw_massive hwc_nofixed
     (hd_r_make _ _ _ _) (conj eq_refl eq_refl) (hw_sizes beta)) as (x & ct' & s' & E & Lx & Lc & _). change (ch_nj hwc) with 2%nat in *.
  exists s'.
  destruct (hd_motion v_zero svd1 1 hwc hw_s z2 z2 z2 hwa [beta] (repeat w_zero 2) z2 z2 x ct' s' (rne_make hwc v_zero) z2 [0] hwc_ok hwc_sym
     (hd_r_make _ _ _ _) (conj eq_refl eq_refl) (rne_r_make _ _) (conj eq_refl eq_refl) eq_refl eq_refl E) as (nu & En & Ln & M).
  destruct (hd_constraint_torque svd1 (t_neg (mkT v_zero v_zero)) 1 hwc hw_s z2 z2 z2 hwa [beta] (repeat w_zero 2) z2 z2 x ct' s' [0] hwc_ok hwc_sym
     (hd_r_make _ _ _ _) (conj eq_refl eq_refl) eq_refl E) as (nu2 & En2 & _ & CT). rewrite En in En2. injection En2 as <-.
  destruct (hd_met svd1 (t_neg (mkT v_zero v_zero)) 1 hwc hw_s z2 z2 z2 hwa [beta] (repeat w_zero 2) z2 z2 x ct' s' (repeat t_zero 3) hwc_ok hwc_sym
     (hd_r_make _ _ _ _) (conj eq_refl eq_refl) eq_refl svd1_right hw_mobile E) as (xs & Exs & Met).
  destruct (hd_last svd1 (t_neg (mkT v_zero v_zero)) 1 hwc hw_s z2 z2 z2 hwa [beta] (repeat w_zero 2) z2 z2 x ct' s' (repeat t_zero 3) hwc_ok
     (hd_r_make _ _ _ _) (conj eq_refl eq_refl) E eq_refl) as (xs2 & Exs2 & Lst). rewrite Exs in Exs2. injection Exs2 as <-.
  specialize (Met 0%nat ltac:(lia)). rewrite Lst in Met. cbn [nth] in Met.
  destruct nu as [|nu [|]]; try discriminate Ln.
  (* the motion *)
  assert (T : rest_torques hwc z2 x (w_neg (constraint_wrench hwa [nu])) z2) by (apply (M x Lx); reflexivity).
  apply hw_rest in T; [|exact Lx]. unfold z2 in T. injection T as T0 T1.
  (* the tip *)
  assert (C : component (nth 0 hwa t_zero) (tipX hwc (t_neg (mkT v_zero v_zero)) z2 z2 x) = nth 0 x 0 + nth 1 x 0).
  { rewrite <- (hw_tip x Lx). rewrite tip_rate_lvel by first [apply hwc_ok | reflexivity | exact Lx | (change (ch_ns hwc) with 2%nat; lia)].
    f_equal. unfold tipX. f_equal. rewrite lacc_split, no_gravity, lgrav_zero, lbias_zero, !t_add_0_r by (intros [|[|[|j]]]; reflexivity). reflexivity. }
  change (mkT (mkV 1 0 0) v_zero) with (nth 0 hwa t_zero) in Met. rewrite C in Met.
  (* the torques *)
  assert (C0 : nth 0 ct' 0 = 0).
  { destruct (CT 0%nat ltac:(change (ch_nj hwc) with 2%nat; lia)) as [_ K]. rewrite (K 0); [ring|]. exists [0; - nu], z2. split; [reflexivity|].
    split; [intros i Hi; replace i with 0%nat by lia; reflexivity|]. split; [apply hw_rest; [reflexivity|]; cbn [nth]; unfold z2; f_equal; [ring|f_equal; ring]|].
    split; [intros [|[|i]] Hi; [lia|reflexivity|]; change (ch_nj hwc) with 2%nat in Hi; lia|reflexivity]. }
  assert (C1 : nth 1 ct' 0 = - nu).
  { destruct (CT 1%nat ltac:(change (ch_nj hwc) with 2%nat; lia)) as [_ K]. apply (K nu). exists [0; 0], [nu; nu]. split; [reflexivity|].
    split; [intros [|[|i]] Hi; [reflexivity|reflexivity|lia]|]. split; [apply hw_rest; [reflexivity|]; cbn [nth]; f_equal; [ring|f_equal; ring]|].
    split; [intros i Hi; change (ch_nj hwc) with 2%nat in Hi; lia|reflexivity]. }
  assert (En' : nu = - beta) by lra. subst nu. split; [|exact En].
  unfold hw_call. rewrite E. f_equal. f_equal. f_equal.
  - f_equal. destruct x as [|x0 [|x1 [|]]]; try discriminate Lx. cbn [nth] in *. f_equal; [lra|f_equal; lra].
  - destruct ct' as [|c0 [|c1 [|]]]; try discriminate Lc. cbn [nth] in *. f_equal; [lra|f_equal; lra].
Qed.
(** inverse dynamics of that motion *)
Lemma hw_inverse w tau beta : rest_torques hwc z2 [0; beta] (w_neg (constraint_wrench hwa [w])) tau <-> tau = [beta + w; beta + w].
Proof.
  rewrite hw_rest by reflexivity. cbn [nth]. split; intros ->; f_equal; try ring; f_equal; ring.
Qed.
(** the documented readings of constraint_torque and of alpha * nu do not hold *)
Lemma hd_command_refuted : ~ (forall g svd nc c s q qd qdd alfa beta fext ff ct qdd' ct' s' rs tau0 tau,
  chain_ok c -> inertias_symmetric c -> massive c q -> no_fixed c -> svd_right nc svd -> constraints_mobile c q alfa (/ 100000000000000) ->
  hd_reach svd (t_neg (mkT g v_zero)) nc c s -> hd_current c s -> rne_reach g c rs -> rne_current c rs ->
  hd_CartToJnt svd c s q qd qdd alfa beta fext ff ct = Ret (E_NOERROR, qdd', ct', s') ->
  rne_CartToJnt c rs q qd qdd' (loads c q fext w_zero) tau0 = Ret (E_NOERROR, tau) ->
  forall j, (j < ch_nj c)%nat -> nth j tau 0 = nth j ff 0 + nth j ct' 0).
Proof.
  intros H. destruct (hw_runs 1) as (s' & E & _).
  pose proof (proj2 (hw_inverse 0 [1 + 0; 1 + 0] 1) eq_refl) as T.
  assert (W : w_neg (constraint_wrench hwa [0]) = w_zero) by (change [0] with (repeat 0 1); rewrite wrench_zeros; geo).
  rewrite W in T. unfold rest_torques in T.
  specialize (H v_zero svd1 1%nat hwc hw_s z2 z2 z2 hwa [1] (repeat w_zero 2) z2 z2 [0; 1] [0; 1] s' (rne_make hwc v_zero) (repeat 0 (ch_nj hwc)) [1 + 0; 1 + 0]
    hwc_ok hwc_sym hw_massive hwc_nofixed svd1_right hw_mobile (hd_r_make _ _ _ _) (conj eq_refl eq_refl) (rne_r_make _ _) (conj eq_refl eq_refl) E T 0%nat ltac:(change (ch_nj hwc) with 2%nat; lia)).
  cbn [nth z2] in H. lra.
Qed.
Lemma hd_force_refuted : ~ (forall g svd nc c s q qd qdd alfa beta fext ff ct qdd' ct' s' rs tau0 nu0 nu,
  chain_ok c -> inertias_symmetric c -> massive c q -> no_fixed c -> svd_right nc svd -> constraints_mobile c q alfa (/ 100000000000000) ->
  hd_reach svd (t_neg (mkT g v_zero)) nc c s -> hd_current c s -> rne_reach g c rs -> rne_current c rs -> length tau0 = ch_nj c ->
  hd_CartToJnt svd c s q qd qdd alfa beta fext ff ct = Ret (E_NOERROR, qdd', ct', s') ->
  hd_getContraintForceMagnitude s' nu0 = Ret nu ->
  rne_CartToJnt c rs q qd qdd' (loads c q fext (constraint_wrench alfa nu)) tau0 = Ret (E_NOERROR, ff)).
Proof.
  intros H. destruct (hw_runs 1) as (s' & E & En).
  specialize (H v_zero svd1 1%nat hwc hw_s z2 z2 z2 hwa [1] (repeat w_zero 2) z2 z2 [0; 1] [0; 1] s' (rne_make hwc v_zero) (repeat 0 (ch_nj hwc)) [0] [- (1)]
    hwc_ok hwc_sym hw_massive hwc_nofixed svd1_right hw_mobile (hd_r_make _ _ _ _) (conj eq_refl eq_refl) (rne_r_make _ _) (conj eq_refl eq_refl) eq_refl E En).
  assert (W : constraint_wrench hwa [- (1)] = w_neg (constraint_wrench hwa [1])) by (unfold hwa; cbn [constraint_wrench tvel trot]; geo).
  rewrite W in H. assert (T : rest_torques hwc z2 [0; 1] (w_neg (constraint_wrench hwa [1])) z2) by exact H. apply hw_inverse in T. unfold z2 in T. injection T as T _. lra.
Qed.
Lemma hd_nonvacuous : chain_ok hwc /\ inertias_symmetric hwc /\ massive hwc z2 /\ no_fixed hwc /\ ch_nj hwc = 2%nat /\ svd_right 1 svd1 /\
  constraints_mobile hwc z2 hwa (/ 100000000000000) /\ (forall y, length y = ch_nj hwc -> 0 <= kinetic hwc z2 y) /\
  forall beta, hd_sizes hwc 1 z2 z2 z2 hwa [beta] (repeat w_zero 2) z2 z2 /\
    exists s s', hd_reach svd1 (t_neg (mkT v_zero v_zero)) 1 hwc s /\ hd_current hwc s /\
      hd_CartToJnt svd1 hwc s z2 z2 z2 hwa [beta] (repeat w_zero 2) z2 z2 = Ret (E_NOERROR, [0; beta], [0; beta], s') /\
      hd_getContraintForceMagnitude s' [0] = Ret [- beta].
Proof.
  split; [apply hwc_ok|]. split; [apply hwc_sym|]. split; [apply hw_massive|]. split; [apply hwc_nofixed|]. split; [reflexivity|]. split; [apply svd1_right|].
  split; [apply hw_mobile|]. split.
  { intros y Ly. change (ch_nj hwc) with 2%nat in Ly.
    pose proof (kinetic_work hwc z2 y hwc_ok hwc_sym hwc_moving eq_refl Ly) as K. change (ch_ns hwc) with 2%nat in K. cbn [sumn] in K.
    destruct (hw_inert y) as [-> ->] in K.
    pose proof (Rle_0_sqr (nth 0 y 0)) as S1. pose proof (Rle_0_sqr (nth 0 y 0 + nth 1 y 0)) as S2. unfold Rsqr in *. lra. }
  intros beta. split; [apply hw_sizes|]. destruct (hw_runs beta) as (s' & E & En). exists hw_s, s'.
  split; [apply hd_r_make|]. split; [split; reflexivity|]. split; [exact E|exact En].
Qed.
