(** Constructors, setters and comparison functions of the configured objects. *)
From Coq Require Import Reals String List ZArith Bool Arith Lia Lra.
From Verif Require Import FramesModel FramesSpec Outcome InertiaModel DualModel KinModel KinSpec JacDotProofs JntModel IkModel ProfModel ProfProofs4 LinModel LinSpec SumProofs LmaModel LmaSpec VelIkModel VelIkSpec.
Import ListNotations.
Local Open Scope list_scope.
Local Open Scope R_scope.

(** ChainIkSolverPos_NR_JL *)
Lemma nrjl_limits s q_min q_max :
  (length q_min = nj_nj s -> length q_max = nj_nj s -> exists s', nrjl_setJointLimits s q_min q_max = (E_NOERROR, s') /\
     nj_min s' = q_min /\ nj_max s' = q_max /\ nj_nj s' = nj_nj s /\ nj_maxiter s' = nj_maxiter s /\ nj_eps s' = nj_eps s /\
     nj_delta s' = nj_delta s /\ nj_error s' = E_NOERROR) /\
  (length q_min <> nj_nj s \/ length q_max <> nj_nj s -> exists s', nrjl_setJointLimits s q_min q_max = (E_SIZE_MISMATCH, s') /\
     nj_min s' = nj_min s /\ nj_max s' = nj_max s /\ nj_nj s' = nj_nj s /\ nj_maxiter s' = nj_maxiter s /\ nj_eps s' = nj_eps s /\
     nj_delta s' = nj_delta s /\ nj_error s' = E_SIZE_MISMATCH).
Proof.
  unfold nrjl_setJointLimits. split.
  - intros -> ->. rewrite Nat.eqb_refl. cbn. eexists. split; [reflexivity | ]. cbn. repeat split.
  - intros H. replace (negb (Nat.eqb (length q_min) (nj_nj s)) || negb (Nat.eqb (length q_max) (nj_nj s))) with true.
    + eexists. split; [reflexivity | ]. cbn. repeat split.
    + destruct (Nat.eqb_spec (length q_min) (nj_nj s)), (Nat.eqb_spec (length q_max) (nj_nj s)); try reflexivity. tauto.
Qed.
Lemma dbl_bounds : dbl_min * 2 ^ 1022 = 1 /\ dbl_max + 2 ^ 971 = 2 ^ 1024.
Proof.
  assert (N : forall n, 2 ^ n <> 0) by (intros n; apply pow_nonzero; lra).
  split.
  - unfold dbl_min. apply Rinv_l, N.
  - unfold dbl_max.
    assert (A : 2 ^ 1023 = 2 ^ 971 * 2 ^ 52) by (rewrite <- pow_add; reflexivity).
    assert (B : 2 ^ 1024 = 2 ^ 1023 * 2) by (change 1024%nat with (S 1023); rewrite <- tech_pow_Rmult; ring).
    rewrite B, A. pose proof (N 52%nat) as Hx. set (x := 2 ^ 52) in *. set (y := 2 ^ 971). clearbody x y. field. exact Hx.
Qed.
Lemma nrjl_constructed c q_min q_max k eps :
  let s := nrjl_make c q_min q_max k eps in let s0 := nrjl_make_nolimits c k eps in
  nj_min s = q_min /\ nj_max s = q_max /\ nj_nj s = ch_nj c /\ nj_maxiter s = k /\ nj_eps s = eps /\ nj_error s = E_NOERROR /\ length (nj_delta s) = ch_nj c /\
  length (nj_min s0) = ch_nj c /\ length (nj_max s0) = ch_nj c /\ (forall x, In x (nj_min s0) -> x = dbl_min) /\ (forall x, In x (nj_max s0) -> x = dbl_max) /\
  nj_nj s0 = ch_nj c /\ nj_maxiter s0 = k /\ nj_eps s0 = eps /\ nj_error s0 = E_NOERROR /\ length (nj_delta s0) = ch_nj c.
Proof.
  cbv zeta. unfold nrjl_make, nrjl_make_nolimits; cbn. unfold jnt_make. rewrite !repeat_length. repeat split; intros x H; apply (repeat_spec _ _ _ H).
Qed.
(** After a chain grew or shrank: limits that still have a joint are kept, new
    joints get the limits of the constructor without limits. *)
Lemma resize_nth {A} (l : list A) n d x i : (i < n)%nat -> nth i (vec_resize l n d) x = if Nat.ltb i (length l) then nth i l x else d.
Proof.
  intros Hi. unfold vec_resize. destruct (Nat.ltb_spec i (length l)) as [L | L].
  - rewrite app_nth1 by (rewrite firstn_length; lia). rewrite <- (firstn_skipn n l) at 2. rewrite app_nth1 by (rewrite firstn_length; lia). reflexivity.
  - rewrite app_nth2 by (rewrite firstn_length; lia).
    rewrite (nth_indep _ x d) by (rewrite repeat_length, firstn_length; lia). apply nth_repeat.
Qed.
Lemma nrjl_updated c s : let s' := nrjl_update c s in
  nj_nj s' = ch_nj c /\ length (nj_min s') = ch_nj c /\ length (nj_max s') = ch_nj c /\ length (nj_delta s') = ch_nj c /\
  nj_maxiter s' = nj_maxiter s /\ nj_eps s' = nj_eps s /\ nj_error s' = nj_error s /\
  forall i, (i < ch_nj c)%nat ->
    nth i (nj_min s') 0 = (if Nat.ltb i (length (nj_min s)) then nth i (nj_min s) 0 else dbl_min) /\
    nth i (nj_max s') 0 = (if Nat.ltb i (length (nj_max s)) then nth i (nj_max s) 0 else dbl_max).
Proof.
  cbv zeta. unfold nrjl_update; cbn. unfold jnt_resize. rewrite !vec_resize_length. do 7 (split; [reflexivity | ]).
  intros i Hi. rewrite !resize_nth by exact Hi. split; reflexivity.
Qed.
(** ChainIkSolverPos_LMA *)
Lemma lma_constructed c L eps k epsj : let s := lma_make c L eps k epsj in
  la_nj s = ch_nj c /\ la_L s = L /\ la_maxiter s = k /\ la_eps s = eps /\ la_epsj s = epsj /\
  la_iter s = 0%nat /\ la_diff s = 0 /\ la_trans s = 0 /\ la_rot s = 0 /\ la_error s = E_NOERROR.
Proof. repeat split. Qed.
Lemma lma_constructed_default c eps k epsj : let s := lma_make_default c eps k epsj in
  la_L s = mkT (mkV 1 1 1) (mkV (1 / 100) (1 / 100) (1 / 100)) /\ s = lma_make c (la_L s) eps k epsj.
Proof. split; reflexivity. Qed.
(** VelocityProfile_Trap before the first SetProfile *)
Lemma trap_unplanned v a : trap_duration (trap_make v a) = 0 /\ tr_maxvel (trap_make v a) = v /\ tr_maxacc (trap_make v a) = a /\
  forall t, trap_pos (trap_make v a) t = 0 /\ trap_vel (trap_make v a) t = 0 /\ trap_acc (trap_make v a) t = 0.
Proof.
  split; [reflexivity | ]. split; [reflexivity | ]. split; [reflexivity | ]. intros t.
  unfold trap_pos, trap_vel, trap_acc, plan_pos, plan_vel, plan_acc, trap_make, ltN; cbn.
  destruct (Rlt_dec t 0) as [ | N]; [auto | ]. cbn. destruct (Rle_dec t 0) as [L | ]; [ | auto]. repeat split; ring.
Qed.
(** A zero duration asks for the fastest motion. *)
Lemma half_duration_zero h hmin p1 p2 : 0 < th_maxvel h -> 0 < th_maxacc h -> p1 <> p2 -> half_setProfile h p1 p2 = Ret hmin ->
  half_setProfileDuration h p1 p2 0 = Ret hmin.
Proof.
  intros Hv Ha N E. destruct (half_set h p1 p2 Hv Ha N) as (E' & _ & _ & HT).
  unfold half_setProfileDuration. rewrite E' in *. injection E as E. cbn [obind th_plan]. destruct (Req_EM_T 0 0) as [_ | ]; [ | contradiction].
  rewrite E. destruct (th_starting h); cbn [half_plan1 half_plan2 pdur];
  match goal with |- context [Rlt_dec 0 ?d] => destruct (Rlt_dec 0 d) as [ | Q]; [reflexivity | exfalso; apply Q; exact HT] end.
Qed.
(** Comparison of Jacobians *)
Lemma jac_Equal_spec a b eps : jac_Equal a b eps = true <->
  length a = length b /\ forall j r, (j < length a)%nat -> (r < 6)%nat -> Rabs (t_at (nth j a t_zero) r - t_at (nth j b t_zero) r) <= eps.
Proof.
  unfold jac_Equal. destruct (Nat.eqb_spec (length a) (length b)) as [E | N]; [ | split; [discriminate | intros [X _]; contradiction]].
  rewrite forallb_forall.
  assert (Z : forall x, entry_isZero eps x = true <-> Rabs x <= eps).
  { intros x. unfold entry_isZero. destruct (Rle_dec (Rabs x) eps); split; auto; discriminate. }
  assert (T : forall u v, twist_isZero eps (t_sub u v) = true <-> forall r, (r < 6)%nat -> Rabs (t_at u r - t_at v r) <= eps).
  { intros [[a1 a2 a3] [a4 a5 a6]] [[b1 b2 b3] [b4 b5 b6]]. unfold twist_isZero, t_sub, v_sub. cbn [tvel trot vx vy vz].
    rewrite !andb_true_iff, !Z. unfold t_at. cbn [tvel trot vx vy vz]. split.
    - intros H r Hr. do 6 (destruct r as [ | r]; [tauto | ]). lia.
    - intros H. pose proof (H 0%nat ltac:(lia)). pose proof (H 1%nat ltac:(lia)). pose proof (H 2%nat ltac:(lia)).
      pose proof (H 3%nat ltac:(lia)). pose proof (H 4%nat ltac:(lia)). pose proof (H 5%nat ltac:(lia)). tauto. }
  assert (L : length (combine a b) = length a) by (rewrite combine_length; lia).
  split.
  - intros H. split; [exact E | ]. intros j r Hj. apply T.
    assert (I : In (nth j a t_zero, nth j b t_zero) (combine a b)) by (rewrite <- combine_nth by exact E; apply nth_In; lia).
    exact (H _ I).
  - intros [_ H] p Hp. apply (In_nth _ _ (t_zero, t_zero)) in Hp. destruct Hp as (j & Hj & <-). rewrite combine_nth by exact E. cbn [fst snd].
    apply T. intros r Hr. apply H; lia.
Qed.
Lemma config_nonvacuous : exists s q_min (q_max : list R), length q_min = nj_nj s /\ length q_max = nj_nj s /\ (0 < nj_nj s)%nat /\ nj_min s <> q_min.
Proof. exists (mkNJ 1 [0] [1] [0] 5 1 0), [-1], [1]. repeat split; cbn; try lia. intros H. injection H. lra. Qed.
