(** Articulated bodies along a serial linkage, abstractly (for the hybrid dynamics
    solver): [X m] is the pose of link m in its predecessor, [A m] its joint axis,
    [jin m] its rotor inertia, [H k] the inertia of body k = 1, ..., n. *)
From Coq Require Import Reals List Arith Lia Lra.
From Verif Require Import FramesModel FramesSpec FramesProofs FrameOpsProofs RotationProofs InertiaModel InertiaSpec
  InertiaProofs KinSpec KinProofs JacProofs LinSpec SumProofs SpatialProofs.
Local Open Scope R_scope.

Lemma w_ext_dot a b : (forall t, tw_dot t a = tw_dot t b) -> a = b.
Proof.
  intros H.
  pose proof (H (mkT (mkV 1 0 0) v_zero)) as H1. pose proof (H (mkT (mkV 0 1 0) v_zero)) as H2. pose proof (H (mkT (mkV 0 0 1) v_zero)) as H3.
  pose proof (H (mkT v_zero (mkV 1 0 0))) as H4. pose proof (H (mkT v_zero (mkV 0 1 0))) as H5. pose proof (H (mkT v_zero (mkV 0 0 1))) as H6.
  clear H. destruct a as [[a1 a2 a3] [a4 a5 a6]], b as [[b1 b2 b3] [b4 b5 b6]].
  cbv [tw_dot v_dot v_zero tvel trot wforce wtorque vx vy vz] in *.
  f_equal; f_equal; lra.
Qed.
Lemma tw_dot_wdiv t w s : tw_dot t (w_div w s) = tw_dot t w / s. Proof. geo. Qed.
Lemma tw_dot_tdiv t w s : tw_dot (t_div t s) w = tw_dot t w / s. Proof. geo. Qed.
Lemma f_app_w_scale F w s : f_app_w F (w_scale w s) = w_scale (f_app_w F w) s. Proof. geo. Qed.
Lemma f_invapp_app_t F t : rigid F -> f_invapp_t F (f_app_t F t) = t.
Proof.
  intros H. destruct F as [M p], t as [v w]. unfold rigid in H. cbn [fM] in H. unfold f_app_t, f_invapp_t. cbn [fM fp tvel trot].
  replace (v_sub (v_add (r_app M v) (v_cross p (r_app M w))) (v_cross p (r_app M w))) with (r_app M v) by (clear; geo).
  rewrite !r_invapp_app by exact H. reflexivity.
Qed.

Fixpoint wsumn (n : nat) (f : nat -> Wrench) : Wrench := match n with O => w_zero | S m => w_add (wsumn m f) (f m) end.
Lemma tw_dot_wsumn t n f : tw_dot t (wsumn n f) = sumn n (fun i => tw_dot t (f i)).
Proof. induction n as [|n IH]; cbn [wsumn sumn]; [apply tw_dot_zero_r|]. rewrite tw_dot_wadd, IH. reflexivity. Qed.
Lemma f_app_w_sumn F n f : f_app_w F (wsumn n f) = wsumn n (fun i => f_app_w F (f i)).
Proof. induction n as [|n IH]; cbn [wsumn]; [apply f_app_w_zero|]. rewrite f_app_w_add, IH. reflexivity. Qed.

Local Arguments f_app_w : simpl never.
Local Arguments f_invapp_t : simpl never.
Local Arguments f_app_t : simpl never.
Local Arguments t_add : simpl never.
Local Arguments t_scale : simpl never.
Local Arguments w_add : simpl never.
Local Arguments tw_dot : simpl never.

Section Abs.
Variables (n nc lo : nat) (X : nat -> Frame) (A : nat -> Twist) (jin : nat -> R).
Hypothesis HX : forall i, rigid (X i).
Variables (H PT : nat -> Twist -> Wrench) (ET : nat -> nat -> Wrench) (MT : nat -> nat -> nat -> R).
Hypothesis PT_add : forall k a b, PT k (t_add a b) = w_add (PT k a) (PT k b).
Hypothesis PT_scale : forall k a s, PT k (t_scale a s) = w_scale (PT k a) s.
Hypothesis PT_sym : forall k a b, (1 <= k)%nat -> (lo <= k)%nat -> (k <= n)%nat -> tw_dot a (PT k b) = tw_dot b (PT k a).

(** the joint axis and the articulated inertia at the joint root *)
Definition aZ m := f_app_t (X m) (A m).
Definition aP m t := f_app_w (X m) (PT (S m) (f_invapp_t (X m) t)).
Definition aPZ m := aP m (aZ m).
Definition aD m := jin m + tw_dot (aZ m) (aPZ m).
Definition aE m c := f_app_w (X m) (ET (S m) c).
Definition aEZ m c := tw_dot (aZ m) (aE m c).
(** the recursion, down to body [lo] *)
Hypothesis PT_leaf : forall t, PT n t = H n t.
Hypothesis PT_in : forall k t, (lo <= k)%nat -> (k < n)%nat ->
  PT k t = w_sub (w_add (H k t) (aP k t)) (w_scale (aPZ k) (tw_dot t (aPZ k) / aD k)).
Hypothesis ET_in : forall k c, (lo <= k)%nat -> (k < n)%nat -> (c < nc)%nat -> ET k c = w_sub (aE k c) (w_scale (aPZ k) (aEZ k c / aD k)).
Hypothesis MT_leaf : forall i j, (i < nc)%nat -> (j < nc)%nat -> MT n i j = 0.
Hypothesis MT_in : forall k i j, (lo <= k)%nat -> (k < n)%nat -> (i < nc)%nat -> (j < nc)%nat -> MT k i j = MT (S k) i j - aEZ k i * aEZ k j / aD k.
Hypothesis D_ok : forall k, (lo <= k)%nat -> (k < n)%nat -> aD k <> 0.

Lemma aP_add m a b : aP m (t_add a b) = w_add (aP m a) (aP m b).
Proof. unfold aP. rewrite f_invapp_t_add, PT_add, f_app_w_add. reflexivity. Qed.
Lemma aP_scale m a s : aP m (t_scale a s) = w_scale (aP m a) s.
Proof. unfold aP. rewrite f_invapp_t_scale, PT_scale, f_app_w_scale. reflexivity. Qed.
Lemma aP_sym m a b : (lo <= S m)%nat -> (m < n)%nat -> tw_dot a (aP m b) = tw_dot b (aP m a).
Proof. intros L Hm. unfold aP. rewrite !power_back by apply HX. apply PT_sym; lia. Qed.

(** a motion: accelerations [a] of the bodies, [x] of the joints; bias forces [U],
    bias accelerations [C], joint torques [ff], constraint magnitudes [nu] *)
Variables (U : nat -> Wrench) (C : nat -> Twist) (ff nu : nat -> R) (RT : nat -> Wrench) (GT : nat -> nat -> R) (a : nat -> Twist) (x : nat -> R).
Definition aR m := f_app_w (X m) (RT (S m)).
Definition ab_ m := - tw_dot (aZ m) (w_add (aR m) (aP m (C m))).
Definition au m := ff m + ab_ m.
Hypothesis RT_leaf : RT n = U n.
Hypothesis RT_in : forall k, (lo <= k)%nat -> (k < n)%nat ->
  RT k = w_add (w_add (w_add (U k) (aR k)) (aP k (C k))) (w_scale (aPZ k) (au k / aD k)).
Hypothesis GT_leaf : forall c, (c < nc)%nat -> GT n c = 0.
Hypothesis GT_in : forall k c, (lo <= k)%nat -> (k < n)%nat -> (c < nc)%nat ->
  GT k c = GT (S k) c + tw_dot (t_add (C k) (t_scale (aZ k) (au k / aD k))) (aE k c).
Hypothesis a_step : forall k, (k < n)%nat -> a (S k) = f_invapp_t (X k) (t_add (t_add (a k) (t_scale (aZ k) (x k))) (C k)).

Definition enu k := wsumn nc (fun c => w_scale (ET k c) (nu c)).
Definition aF m := w_add (w_add (H (S m) (a (S m))) (U (S m))) (if Nat.eqb (S m) n then enu n else w_zero).
Definition atau m := tw_dot (A m) (full n X aF m) + jin m * x m.
Definition solved m := x m = (au m - tw_dot (a m) (aPZ m) - sumn nc (fun c => aEZ m c * nu c)) / aD m.

Lemma root_force m : (m < n)%nat -> full n X aF m = w_add (w_add (PT (S m) (a (S m))) (RT (S m))) (enu (S m)) ->
  gf n X aF m = w_add (w_add (aP m (t_add (t_add (a m) (t_scale (aZ m) (x m))) (C m))) (aR m)) (wsumn nc (fun c => w_scale (aE m c) (nu c))).
Proof.
  intros Hm E. rewrite gf_S by exact Hm. rewrite E, !f_app_w_add. unfold aP, aR, enu. rewrite a_step by exact Hm. f_equal.
  rewrite f_app_w_sumn. clear. induction nc as [|k IH]; cbn [wsumn]; [reflexivity|]. rewrite IH, f_app_w_scale. reflexivity.
Qed.
(** the torque at a joint in terms of the articulated body beyond it *)
Lemma joint_torque m : (lo <= S m)%nat -> (m < n)%nat ->
  full n X aF m = w_add (w_add (PT (S m) (a (S m))) (RT (S m))) (enu (S m)) ->
  atau m = aD m * x m + tw_dot (a m) (aPZ m) + sumn nc (fun c => aEZ m c * nu c) - ab_ m.
Proof.
  intros L Hm E. unfold atau.
  assert (EA : tw_dot (A m) (full n X aF m) = tw_dot (aZ m) (gf n X aF m)).
  { rewrite gf_S by exact Hm. unfold aZ. rewrite f_power by apply HX. reflexivity. }
  rewrite EA, (root_force m Hm E). rewrite !tw_dot_wadd, !aP_add, !tw_dot_wadd, aP_scale, tw_dot_wscale, tw_dot_wsumn.
  unfold ab_, aD, aPZ. rewrite tw_dot_wadd. rewrite (aP_sym m (aZ m) (a m)) by assumption.
  rewrite (sumn_ext nc _ (fun c => aEZ m c * nu c)).
  2:{ intros c _. rewrite tw_dot_wscale. reflexivity. }
  ring.
Qed.
Lemma solved_iff m : (lo <= S m)%nat -> (m < n)%nat -> aD m <> 0 ->
  full n X aF m = w_add (w_add (PT (S m) (a (S m))) (RT (S m))) (enu (S m)) -> (atau m = ff m <-> solved m).
Proof.
  intros L Hm HD E. rewrite (joint_torque m L Hm E). unfold solved, au. split; intros K.
  - apply (Rmult_eq_reg_r (aD m)); [|exact HD]. unfold Rdiv. rewrite Rmult_assoc, Rinv_l, Rmult_1_r by exact HD. lra.
  - rewrite K. field. exact HD.
Qed.
Lemma force_step k : (lo <= k)%nat -> (S k <= n)%nat -> (1 <= k)%nat ->
  full n X aF k = w_add (w_add (PT (S k) (a (S k))) (RT (S k))) (enu (S k)) -> solved k ->
  w_add (aF (k - 1)) (gf n X aF k) = w_add (w_add (PT k (a k)) (RT k)) (enu k).
Proof.
  intros L Hk H1 E Sv. rewrite (root_force k ltac:(lia) E). unfold aF. replace (S (k - 1)) with k by lia.
  destruct (Nat.eqb_spec k n) as [K|_]; [lia|]. rewrite PT_in by lia. rewrite RT_in by lia.
  apply w_ext_dot. intros t. unfold enu.
  rewrite !tw_dot_wadd, !tw_dot_wsub, !aP_add, !tw_dot_wadd, aP_scale, !tw_dot_wscale, !tw_dot_wsumn, !tw_dot_zero_r. fold (aPZ k).
  rewrite (sumn_ext nc (fun i => tw_dot t (w_scale (ET k i) (nu i))) (fun i => tw_dot t (aE k i) * nu i - (tw_dot t (aPZ k) / aD k) * (aEZ k i * nu i))).
  2:{ intros i Hi. rewrite ET_in by (auto; lia). rewrite tw_dot_wscale, tw_dot_wsub, tw_dot_wscale. field. apply D_ok; lia. }
  rewrite sumn_sub, sumn_scale.
  rewrite (sumn_ext nc (fun i => tw_dot t (w_scale (aE k i) (nu i))) (fun i => tw_dot t (aE k i) * nu i)) by (intros; apply tw_dot_wscale).
  rewrite Sv. field. apply D_ok; lia.
Qed.
(** the force across a joint when the joints beyond it have the given torques *)
Lemma force_form : forall d m, (m + S d = n)%nat -> (lo <= S m)%nat -> (forall i, (m < i < n)%nat -> atau i = ff i) ->
  full n X aF m = w_add (w_add (PT (S m) (a (S m))) (RT (S m))) (enu (S m)).
Proof.
  induction d as [|d IH]; intros m Hm L Ht.
  - replace (S m) with n by lia. unfold full. replace (S m) with n by lia. rewrite gf_end, w_add_0_r. unfold aF.
    replace (S m) with n by lia. rewrite Nat.eqb_refl, PT_leaf, RT_leaf. reflexivity.
  - assert (E : full n X aF (S m) = w_add (w_add (PT (S (S m)) (a (S (S m)))) (RT (S (S m)))) (enu (S (S m)))).
    { apply IH; [lia|lia|]. intros i Hi. apply Ht. lia. }
    unfold full at 1. replace m with (S m - 1)%nat at 1 by lia. apply force_step; [lia|lia|lia|exact E|].
    apply (solved_iff (S m)); [lia|lia|apply D_ok; lia|exact E|]. apply Ht. lia.
Qed.
Lemma force_form_s : forall d m, (m + S d = n)%nat -> (lo <= S m)%nat -> (forall i, (m < i < n)%nat -> solved i) ->
  full n X aF m = w_add (w_add (PT (S m) (a (S m))) (RT (S m))) (enu (S m)) /\ (forall i, (m < i < n)%nat -> atau i = ff i).
Proof.
  induction d as [|d IH]; intros m Hm L Ht.
  - split; [|intros i Hi; lia]. apply (force_form 0); [lia|lia|]. intros i Hi. lia.
  - destruct (IH (S m)) as [E T]; [lia|lia|intros i Hi; apply Ht; lia|].
    assert (T' : forall i, (m < i < n)%nat -> atau i = ff i).
    { intros i Hi. destruct (Nat.eq_dec i (S m)) as [->|Ne]; [|apply T; lia].
      apply (solved_iff (S m)); [lia|lia|apply D_ok; lia|exact E|apply Ht; lia]. }
    split; [|exact T']. apply (force_form (S d)); [lia|lia|exact T'].
Qed.
(** torques and solved accelerations are equivalent *)
Lemma solved_all : (forall m, (lo <= m < n)%nat -> solved m) -> forall m, (lo <= m < n)%nat -> atau m = ff m.
Proof.
  intros Sv m Hm. destruct (force_form_s (n - S m) m) as [E _]; [lia|lia|intros i Hi; apply Sv; lia|].
  apply solved_iff; [lia|lia|apply D_ok; lia|exact E|apply Sv, Hm].
Qed.
Lemma all_solved : (forall m, (lo <= m < n)%nat -> atau m = ff m) -> forall m, (lo <= m < n)%nat -> solved m.
Proof.
  intros T m Hm. assert (E := force_form (n - S m) m ltac:(lia) ltac:(lia) ltac:(intros i Hi; apply T; lia)).
  apply solved_iff; [lia|lia|apply D_ok; lia|exact E|apply T, Hm].
Qed.
Lemma torque_at m : (lo <= S m)%nat -> (m < n)%nat -> (forall i, (m < i < n)%nat -> atau i = ff i) ->
  atau m = aD m * x m + tw_dot (a m) (aPZ m) + sumn nc (fun c => aEZ m c * nu c) - ab_ m.
Proof. intros L Hm T. apply joint_torque; [exact L|exact Hm|]. apply (force_form (n - S m)); [lia|exact L|exact T]. Qed.

(** the acceleration of the last body along the constraint directions *)
Lemma constraint_form c : (c < nc)%nat -> (forall m, (lo <= m < n)%nat -> solved m) -> forall d k, (k + d = n)%nat -> (lo <= k)%nat ->
  tw_dot (a n) (ET n c) = tw_dot (a k) (ET k c) + sumn nc (fun j => MT k c j * nu j) + GT k c.
Proof.
  intros Hc Sv. induction d as [|d IH]; intros k Hk L.
  - replace k with n by lia. rewrite GT_leaf by exact Hc. rewrite sumn_zero; [ring|]. intros i Hi. rewrite MT_leaf by auto. ring.
  - rewrite (IH (S k)) by lia. rewrite a_step by lia. rewrite <- power_back by apply HX. fold (aE k c).
    rewrite (ET_in k c) by (auto; lia). rewrite (GT_in k c) by (auto; lia).
    rewrite (sumn_ext nc (fun j => MT k c j * nu j) (fun j => MT (S k) c j * nu j - (aEZ k c / aD k) * (aEZ k j * nu j))).
    2:{ intros j Hj. rewrite (MT_in k c j) by (auto; lia). field. apply D_ok; lia. }
    rewrite sumn_sub, sumn_scale. rewrite !tw_dot_tadd, !tw_dot_tscale, tw_dot_wsub, tw_dot_wscale. fold (aEZ k c).
    rewrite (Sv k) by lia. field. apply D_ok; lia.
Qed.
End Abs.
