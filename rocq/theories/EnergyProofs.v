(** Gravity torques are the gradient of the potential energy (C39); the torques
    computed by inverse dynamics satisfy the energy balance (C58). *)
From Coq Require Import String Reals List Arith Lia Lra ZArith Bool.
From Verif Require Import FramesModel FramesSpec FramesProofs FrameOpsProofs RotationProofs Outcome LoopProofs InertiaModel InertiaSpec
  InertiaProofs DualModel KinModel KinSpec DerivProofs KinProofs JacProofs LinModel LinSpec SumProofs DynModel DynSpec SpatialProofs RneProofs MassProofs DynProofs.
Import ListNotations.
Local Open Scope R_scope.

Lemma sumn_derive n (f : nat -> R -> R) t (d : nat -> R) : (forall i, (i < n)%nat -> derivable_pt_lim (f i) t (d i)) ->
  derivable_pt_lim (fun s => sumn n (fun i => f i s)) t (sumn n d).
Proof.
  induction n as [|n IH]; intros H; cbn [sumn]; [apply derivable_pt_lim_const|].
  apply (derivable_pt_lim_plus (fun s => sumn n (fun i => f i s)) (f n)); auto.
Qed.

(** * Gravity *)
Lemma motion_tip c k q t qd : chain_ok c -> joint_motion (ch_nj c) q t qd -> (k < ch_ns c)%nat ->
  frame_velocity (fun s => link_pose c (q s) k) t (jac_mul (link_jacobian c (q t) k) qd).
Proof.
  intros Hok Hm Hk. pose proof Hok as [Hw Hs]. pose proof Hm as (Hl & Hqd & _).
  eapply frame_velocity_ext; [intros s; symmetry; apply (link_pose_tip c (q s) k Hok (Hl s) Hk)|].
  rewrite link_jacobian_closed, jac_closed_nolock, jac_mul_pad by auto.
  apply (tip_velocity (firstn (S k) (ch_segs c)) (Forall_firstn' _ _ _ Hs) (ch_nj c) q t qd); [|exact Hm].
  destruct Hw as [_ ->]. apply count_moving_firstn.
Qed.
Lemma lgrav_link c g q k : chain_ok c -> length q = ch_nj c -> (k < ch_ns c)%nat ->
  lgrav c (t_neg (mkT g v_zero)) q (S k) = r_invapp_t (fM (link_pose c q k)) (t_neg (mkT g v_zero)).
Proof.
  intros Hok Hq Hk. rewrite link_pose_tip by auto.
  assert (G : forall m, (m <= ch_ns c)%nat -> lgrav c (t_neg (mkT g v_zero)) q m = r_invapp_t (fM (tip_frame c q m)) (t_neg (mkT g v_zero))).
  { pose proof Hok as [Hw _]. induction m as [|m IH]; intros Hm.
    - cbn [lgrav]. unfold tip_frame. cbn [firstn assign pose_product]. geo.
    - cbn [lgrav]. rewrite IH by lia.
      rewrite (tip_frame_S c q m (seg c m) (jv c q m) (kidx_le c m q Hw Hq) (seg_nth c m Hw ltac:(lia)) (jv_spec c q m Hw Hq ltac:(lia))), fM_mul.
      fold (LX c q m). generalize (fM (tip_frame c q m)) (LX c q m). clear. geo. }
  apply G. lia.
Qed.
(** the rate of work against gravity of one link *)
Lemma link_grav_power (I : RigidBodyInertia) M T g : is_rotation M ->
  tw_dot (r_invapp_t M T) (rb_app I (r_invapp_t M (t_neg (mkT g v_zero)))) =
  - v_dot g (v_add (v_scale_l (rb_m I) (tvel T)) (v_cross (trot T) (r_app M (rb_h I)))).
Proof.
  intros H. destruct T as [v w], I as [m h J]. unfold tw_dot, rb_app, r_invapp_t, t_neg. cbn [tvel trot wforce wtorque rb_m rb_h rb_I].
  assert (Z : r_invapp M (v_neg v_zero) = v_zero) by geo. rewrite Z.
  assert (E1 : v_dot (r_invapp M v) (v_sub (v_scale_l m (r_invapp M (v_neg g))) (v_cross h v_zero)) = - (m * v_dot (r_invapp M v) (r_invapp M g))).
  { generalize (r_invapp M v). intros a. assert (N : r_invapp M (v_neg g) = v_neg (r_invapp M g)) by geo. rewrite N. generalize (r_invapp M g). clear. geo. }
  assert (E2 : v_dot (r_invapp M w) (v_add (ri_app J v_zero) (v_cross h (r_invapp M (v_neg g)))) = - v_dot (v_cross (r_invapp M w) h) (r_invapp M g)).
  { assert (N : r_invapp M (v_neg g) = v_neg (r_invapp M g)) by geo. rewrite N. assert (N2 : ri_app J v_zero = v_zero) by ine.
    rewrite N2. generalize (r_invapp M w) (r_invapp M g). clear. geo. }
  rewrite E1, E2.
  assert (D : forall a b, v_dot (r_invapp M a) (r_invapp M b) = v_dot a b).
  { intros a b. rewrite !r_invapp_inv. apply r_app_dot. apply r_inv_rotation. exact H. }
  rewrite D. assert (E3 : v_cross (r_invapp M w) h = r_invapp M (v_cross w (r_app M h))).
  { rewrite r_invapp_cross, r_invapp_app by exact H. reflexivity. }
  rewrite E3, D. generalize (v_cross w (r_app M h)). clear. geo.
Qed.
Lemma point_energy_derive g m h F t T : frame_velocity F t T ->
  derivable_pt_lim (fun s => v_dot g (v_add (v_scale_l m (fp (F s))) (r_app (fM (F s)) h))) t
    (v_dot g (v_add (v_scale_l m (tvel T)) (v_cross (trot T) (r_app (fM (F t)) h)))).
Proof.
  intros H. apply frame_velocity_entries in H. destruct H as [Hp HM].
  eapply dl_eq; [apply (dot_derive (fun _ => g) (fun s => v_add (v_scale_l m (fp (F s))) (r_app (fM (F s)) h)) t v_zero
     (v_add (v_scale_l m (tvel T)) (v_cross (trot T) (r_app (fM (F t)) h))))|].
  - apply v_derive_const.
  - apply (v_derive_add (fun s => v_scale_l m (fp (F s))) (fun s => r_app (fM (F s)) h)).
    + destruct Hp as (Hx & Hy & Hz). repeat split; cbn [v_scale_l vx vy vz]; dl.
    + eapply v_derive_eq; [apply (r_app_derive (fun s => fM (F s)) (fun _ => h) t); [exact HM|apply v_derive_const]|].
      rewrite r_spin_app. generalize (v_cross (trot T) (r_app (fM (F t)) h)) (fM (F t)). clear. geo.
  - cbv beta. generalize (v_add (v_scale_l m (tvel T)) (v_cross (trot T) (r_app (fM (F t)) h))) (v_add (v_scale_l m (fp (F t))) (r_app (fM (F t)) h)). clear. geo.
Qed.
Lemma potential_derive c g q t qd : chain_ok c -> joint_motion (ch_nj c) q t qd ->
  derivable_pt_lim (fun s => potential c g (q s)) t
    (sumn (ch_ns c) (fun k => tw_dot (lvel c (q t) qd (S k)) (rb_app (sI (seg c k)) (lgrav c (t_neg (mkT g v_zero)) (q t) (S k))))).
Proof.
  intros Hok Hm. pose proof Hok as [Hw Hs]. pose proof Hm as (Hl & Hqd & _).
  unfold potential. eapply dl_eq.
  - apply (derivable_pt_lim_opp (fun s => sumn (ch_ns c) (fun k => v_dot g (v_add (v_scale_l (rb_m (link_inertia c k)) (fp (link_pose c (q s) k)))
                                            (r_app (fM (link_pose c (q s) k)) (rb_h (link_inertia c k))))))).
    apply (sumn_derive (ch_ns c) (fun k s => v_dot g (v_add (v_scale_l (rb_m (link_inertia c k)) (fp (link_pose c (q s) k)))
                                            (r_app (fM (link_pose c (q s) k)) (rb_h (link_inertia c k))))) t).
    intros k Hk. apply (point_energy_derive g _ _ (fun s => link_pose c (q s) k) t). apply (motion_tip c k q t qd Hok Hm Hk).
  - rewrite <- sumn_opp. apply sumn_ext. intros k Hk. rewrite lgrav_link by auto. rewrite <- link_twist_lvel by auto. unfold link_twist.
    rewrite <- link_inertia_seg by auto. rewrite link_grav_power by (apply link_pose_rigid; auto). reflexivity.
Qed.

Theorem gravity_gradient g c ds q out : chain_ok c -> dyn_reach g c ds -> dyn_current c ds -> length q = ch_nj c -> length out = ch_nj c ->
  exists G, dyn_JntToGravity c ds q out = Ret (E_NOERROR, G) /\ length G = ch_nj c /\
    (forall j, (j < ch_nj c)%nat -> derivable_pt_lim (fun u => potential c g (upd q j u)) (nth j q 0) (nth j G 0)) /\
    (forall path t qd, joint_motion (ch_nj c) path t qd -> path t = q ->
       derivable_pt_lim (fun s => potential c g (path s)) t (sumn (ch_nj c) (fun j => nth j G 0 * nth j qd 0))).
Proof.
  intros Hok Dr Dc Hq Ho. pose proof Hok as [Hw _].
  destruct (gravity_result g c ds q out Hok Dr Dc Hq Ho) as (G & EG & LG & HG). exists G. split; [exact EG|]. split; [exact LG|].
  assert (P : forall path t qd, joint_motion (ch_nj c) path t qd -> path t = q ->
       derivable_pt_lim (fun s => potential c g (path s)) t (sumn (ch_nj c) (fun j => nth j G 0 * nth j qd 0))).
  { intros path t qd Hm E. eapply dl_eq; [apply (potential_derive c g path t qd Hok Hm)|]. rewrite E.
    rewrite <- (sum_joints c (fun j => nth j G 0 * nth j qd 0) Hw).
    unfold lvel. rewrite <- (vwork (ch_ns c) (LX c q) (LA c q) (fun k => LX_rigid c q k Hok) (jv c qd) (fun k => rb_app (sI (seg c k)) (lgrav c (t_neg (mkT g v_zero)) q (S k)))).
    apply sumn_ext. intros i Hi. unfold jv. destruct (mv c i) eqn:Mi; [|ring].
    rewrite (HG i Hi Mi). unfold tau_grav. rewrite <- (vwork_only (ch_ns c) (LX c q) (LA c q)) by (try (intros; apply LX_rigid, Hok); exact Hi). ring. }
  split; [|exact P]. intros j Hj.
  eapply dl_eq; [apply (P (fun u => upd q j u) (nth j q 0) (unit_rate (ch_nj c) j))|].
  - split; [intros s; rewrite upd_length; exact Hq|]. split; [apply unit_rate_length|]. intros i Hi. rewrite unit_rate_nth by exact Hi.
    destruct (Nat.eqb_spec i j) as [->|Ne].
    + eapply dl_ext; [|apply derivable_pt_lim_id]. intros s. cbv beta. symmetry. apply nth_upd_same. lia.
    + eapply dl_ext; [|apply derivable_pt_lim_const]. intros s. cbv beta. symmetry. apply nth_upd_other. auto.
  - apply nth_ext_R; [apply upd_length|]. rewrite upd_length. intros i Hi. destruct (Nat.eq_dec i j) as [->|]; [apply nth_upd_same; lia|apply nth_upd_other; auto].
  - rewrite (sumn_one (ch_nj c) j); [rewrite unit_rate_nth, Nat.eqb_refl by exact Hj; ring|exact Hj|].
    intros i Hi Ne. rewrite unit_rate_nth by exact Hi. destruct (Nat.eqb_spec i j); [congruence|ring].
Qed.

(** * Kinetic energy *)
Definition t_derive (u : R -> Twist) (t : R) (d : Twist) : Prop :=
  v_derive (fun s => tvel (u s)) t (tvel d) /\ v_derive (fun s => trot (u s)) t (trot d).
Lemma t_derive_eq u t d d' : t_derive u t d -> d = d' -> t_derive u t d'. Proof. intros H <-. exact H. Qed.
Lemma t_derive_add u v t a b : t_derive u t a -> t_derive v t b -> t_derive (fun s => t_add (u s) (v s)) t (t_add a b).
Proof. intros [A1 A2] [B1 B2]. split; cbn [t_add tvel trot]; apply (v_derive_add (fun s => _) (fun s => _)); assumption. Qed.
Lemma t_derive_scale A f t d : derivable_pt_lim f t d -> t_derive (fun s => t_scale A (f s)) t (t_scale A d).
Proof.
  intros H. split; cbn [t_scale tvel trot]; (eapply v_derive_eq; [apply (v_derive_scale (fun _ => _) f t v_zero d); [apply v_derive_const|exact H]|]; geo).
Qed.
Lemma tw_dot_rb_derive I u t d : rb_symmetric I -> t_derive u t d ->
  derivable_pt_lim (fun s => / 2 * tw_dot (u s) (rb_app I (u s))) t (tw_dot (u t) (rb_app I d)).
Proof.
  intros Sy [[A1 [A2 A3]] [A4 [A5 A6]]]. destruct I as [m h [D]]. cbn in *.
  assert (E : tw_dot (u t) (rb_app (mkRB m h (mkRI D)) d) = / 2 * (tw_dot d (rb_app (mkRB m h (mkRI D)) (u t)) + tw_dot (u t) (rb_app (mkRB m h (mkRI D)) d))).
  { rewrite (Sy d (u t)). field. }
  rewrite E. unfold tw_dot, rb_app, ri_app, eig, uneig, m3_app, v_dot, v_cross, v_add, v_sub, v_scale_l. clear E Sy. destruct D as [e0 e1 e2 e3 e4 e5 e6 e7 e8].
  cbn [rb_m rb_h rb_I ri_data vx vy vz tvel trot wforce wtorque r0 r1 r2 r3 r4 r5 r6 r7 r8]. dl.
Qed.

(** derivative of a body-fixed vector *)
Lemma spin_inv w M v : r_app (r_inv (r_spin w M)) v = v_neg (r_app (r_inv M) (v_cross w v)).
Proof. unfold r_spin. geo. Qed.
Lemma r_invapp_derive M t w v dv : r_derive M t (r_spin w (M t)) -> v_derive v t dv ->
  v_derive (fun s => r_invapp (M s) (v s)) t (v_sub (r_invapp (M t) dv) (r_invapp (M t) (v_cross w (v t)))).
Proof.
  intros HM Hv. eapply v_derive_ext; [intros s; symmetry; apply r_invapp_inv|].
  eapply v_derive_eq; [apply (r_app_derive (fun s => r_inv (M s)) v t); [apply r_inv_derive; exact HM|exact Hv]|].
  cbv beta. rewrite spin_inv, <- !r_invapp_inv. generalize (r_invapp (M t) (v_cross w (v t))) (r_invapp (M t) dv). clear. geo.
Qed.
Lemma f_invapp_derive X t T u du : rigid (X t) -> frame_velocity X t T -> t_derive u t du ->
  t_derive (fun s => f_invapp_t (X s) (u s)) t (t_sub (f_invapp_t (X t) du) (t_cross (r_invapp_t (fM (X t)) T) (f_invapp_t (X t) (u t)))).
Proof.
  intros HR HX [U1 U2]. apply frame_velocity_entries in HX. destruct HX as [Hp HM].
  split; unfold f_invapp_t, t_sub, t_cross, r_invapp_t; cbn [tvel trot].
  - eapply v_derive_eq; [apply (r_invapp_derive (fun s => fM (X s)) t (trot T)); [exact HM|]|].
    + apply (v_derive_sub (fun s => tvel (u s)) (fun s => v_cross (fp (X s)) (trot (u s)))); [exact U1|].
      apply (v_derive_cross (fun s => fp (X s)) (fun s => trot (u s))); [exact Hp|exact U2].
    + cbv beta. rewrite <- !r_invapp_cross by exact HR. set (M := fM (X t)). generalize (fp (X t)). intros p. destruct T as [tv tr]. cbn [tvel trot].
      destruct (u t) as [a b], du as [da db]. cbn [tvel trot]. clear. 
      assert (L : forall x y, r_invapp M (v_sub x y) = v_sub (r_invapp M x) (r_invapp M y)) by geo.
      rewrite !L, !r_invapp_add. clear L. generalize (v_cross tr (v_sub a (v_cross p b))) (v_cross tv b) (v_cross p db). clear. geo.
  - eapply v_derive_eq; [apply (r_invapp_derive (fun s => fM (X s)) t (trot T)); [exact HM|exact U2]|].
    cbv beta. rewrite <- !r_invapp_cross by exact HR. reflexivity.
Qed.

(** the joint axis is fixed in the moving body *)
Lemma axis_fixed_joint j x y : joint_ok j -> r_invapp_t (fM (joint_pose j x)) (joint_twist j y) = joint_twist j y.
Proof.
  intros Hj. unfold joint_pose, joint_twist. set (a := jscale j * x + joffset j). set (b := jscale j * y).
  destruct (jtype j) eqn:E; cbn [fM f_of_rot f_of_vec f_id]; try solve [geo].
  - unfold r_invapp_t. cbn [tvel trot]. assert (Z : r_invapp (r_Rot2 (jaxis j) a) (mkV 0 0 0) = mkV 0 0 0) by (generalize (r_Rot2 (jaxis j) a); geo).
    rewrite Z. f_equal. assert (S : forall M v, r_invapp M (v_scale v b) = v_scale (r_invapp M v) b) by geo. rewrite S. f_equal.
    rewrite <- (Rot2_fixes (jaxis j) a (Hj E)) at 2. apply r_invapp_app. apply is_rotation_Rot2. apply Hj, E.
  - unfold r_RotX. geo.
  - unfold r_RotY. geo.
  - unfold r_RotZ. geo.
Qed.
Lemma axis_fixed s x : segment_ok s ->
  r_invapp_t (fM (segment_pose s x)) (segment_twist s x 1) = r_invapp_t (fM (sf_tip s)) (t_RefPoint (joint_twist (sjoint s) 1) (fp (sf_tip s))).
Proof.
  intros [Hj _]. unfold segment_pose, segment_twist. rewrite fM_mul. pose proof (axis_fixed_joint (sjoint s) x 1 Hj) as F.
  pose proof (joint_pose_rigid (sjoint s) x Hj) as HR. unfold rigid in HR.
  destruct (joint_twist (sjoint s) 1) as [v w]. unfold r_invapp_t, t_RefPoint in *. cbn [tvel trot] in *.
  pose proof (f_equal tvel F) as F1. pose proof (f_equal trot F) as F2. cbn [tvel trot] in F1, F2.
  rewrite !r_invapp_mul, r_invapp_add, r_invapp_cross, r_invapp_app by exact HR. rewrite F1, F2. reflexivity.
Qed.
Lemma LA_const c q q' i : chain_ok c -> (i < ch_ns c)%nat -> LA c q i = LA c q' i.
Proof. intros Hok Hi. unfold LA, LX. rewrite !axis_fixed by (apply seg_ok; auto). reflexivity. Qed.

Lemma jv_derive c q t qd i : chain_wf c -> joint_motion (ch_nj c) q t qd -> (i < ch_ns c)%nat -> derivable_pt_lim (fun s => jv c (q s) i) t (jv c qd i).
Proof.
  intros Hw (Hl & Hd & H) Hi. unfold jv. destruct (mv c i) eqn:Mi; [|apply derivable_pt_lim_const]. apply H. apply kidx_lt; auto.
Qed.
Lemma LX_velocity c q t qd i : chain_ok c -> joint_motion (ch_nj c) q t qd -> (i < ch_ns c)%nat ->
  frame_velocity (fun s => LX c (q s) i) t (segment_twist (seg c i) (jv c (q t) i) (jv c qd i)).
Proof. intros Hok Hm Hi. apply (segment_velocity (seg c i) (fun s => jv c (q s) i)); [apply seg_ok; auto|apply jv_derive; auto; apply Hok]. Qed.

(** acceleration of the links *)
Lemma lvel_derive c q qd t qdd k : chain_ok c -> joint_motion (ch_nj c) q t (qd t) -> joint_motion (ch_nj c) qd t qdd -> (k <= ch_ns c)%nat ->
  t_derive (fun s => lvel c (q s) (qd s) k) t (t_add (lvel c (q t) qdd k) (lbias c (q t) (qd t) k)).
Proof.
  intros Hok Hq Hqd. induction k as [|k IH]; intros Hk.
  - unfold lvel. cbn [bt lbias]. split; (eapply v_derive_eq; [apply v_derive_const|geo]).
  - specialize (IH ltac:(lia)).
    eapply t_derive_eq.
    + assert (E : forall s, lvel c (q s) (qd s) (S k) = t_add (f_invapp_t (LX c (q s) k) (lvel c (q s) (qd s) k)) (t_scale (LA c (q t) k) (jv c (qd s) k))).
      { intros s. unfold lvel. cbn [bt]. rewrite (LA_const c (q s) (q t) k Hok) by lia. reflexivity. }
      assert (Ex : forall (f h : R -> Twist) d, (forall s, f s = h s) -> t_derive h t d -> t_derive f t d).
      { intros f h d Efh [A B]. split; (eapply v_derive_ext; [|eassumption]; intros s; cbv beta; rewrite Efh; reflexivity). }
      eapply Ex; [exact E|].
      apply (t_derive_add (fun s => f_invapp_t (LX c (q s) k) (lvel c (q s) (qd s) k)) (fun s => t_scale (LA c (q t) k) (jv c (qd s) k))).
      * apply (f_invapp_derive (fun s => LX c (q s) k) t); [apply LX_rigid, Hok|apply (LX_velocity c q t (qd t) k Hok Hq ltac:(lia))|exact IH].
      * apply t_derive_scale. apply (jv_derive c qd t qdd k (proj1 Hok) Hqd ltac:(lia)).
    + cbv beta. assert (EA : r_invapp_t (fM (LX c (q t) k)) (segment_twist (seg c k) (jv c (q t) k) (jv c (qd t) k)) = t_scale (LA c (q t) k) (jv c (qd t) k)).
      { symmetry. rewrite <- LA_scale. reflexivity. }
      rewrite EA. cbn [lbias]. assert (EV : forall x, lvel c (q t) x (S k) = t_add (f_invapp_t (LX c (q t) k) (lvel c (q t) x k)) (t_scale (LA c (q t) k) (jv c x k))) by reflexivity.
      rewrite !EV, f_invapp_t_add.
      generalize (f_invapp_t (LX c (q t) k) (lvel c (q t) qdd k)) (f_invapp_t (LX c (q t) k) (lbias c (q t) (qd t) k)) (f_invapp_t (LX c (q t) k) (lvel c (q t) (qd t) k))
        (t_scale (LA c (q t) k) (jv c (qd t) k)) (t_scale (LA c (q t) k) (jv c qdd k)). clear. geo.
Qed.

Lemma kinetic_derive c q qd t qdd : chain_ok c -> inertias_symmetric c -> joint_motion (ch_nj c) q t (qd t) -> joint_motion (ch_nj c) qd t qdd ->
  derivable_pt_lim (fun s => kinetic c (q s) (qd s)) t
    (sumn (ch_ns c) (fun k => tw_dot (lvel c (q t) (qd t) (S k)) (rb_app (sI (seg c k)) (t_add (lvel c (q t) qdd (S k)) (lbias c (q t) (qd t) (S k))))) +
     sumn (ch_nj c) (fun j => rotor c j * (nth j (qd t) 0 * nth j qdd 0))).
Proof.
  intros Hok Sy Hq Hqd. pose proof Hok as [Hw _]. pose proof Hq as (Lq & _ & _). pose proof Hqd as (Lqd & _ & Dqd).
  eapply dl_ext with (f := fun s => sumn (ch_ns c) (fun k => / 2 * tw_dot (lvel c (q s) (qd s) (S k)) (rb_app (sI (seg c k)) (lvel c (q s) (qd s) (S k)))) +
     sumn (ch_nj c) (fun j => / 2 * rotor c j * (nth j (qd s) 0 * nth j (qd s) 0))).
  - intros s. unfold kinetic. f_equal. apply sumn_ext. intros k Hk. rewrite link_twist_lvel, link_inertia_seg by auto. reflexivity.
  - apply (derivable_pt_lim_plus (fun s => sumn (ch_ns c) (fun k => / 2 * tw_dot (lvel c (q s) (qd s) (S k)) (rb_app (sI (seg c k)) (lvel c (q s) (qd s) (S k)))))
      (fun s => sumn (ch_nj c) (fun j => / 2 * rotor c j * (nth j (qd s) 0 * nth j (qd s) 0)))).
    + apply (sumn_derive (ch_ns c) (fun k s => / 2 * tw_dot (lvel c (q s) (qd s) (S k)) (rb_app (sI (seg c k)) (lvel c (q s) (qd s) (S k))))).
      intros k Hk. apply (tw_dot_rb_derive (sI (seg c k)) (fun s => lvel c (q s) (qd s) (S k))); [apply seg_symmetric, Sy|apply lvel_derive; auto].
    + apply (sumn_derive (ch_nj c) (fun j s => / 2 * rotor c j * (nth j (qd s) 0 * nth j (qd s) 0))). intros j Hj. pose proof (Dqd j Hj) as D.
      eapply dl_eq; [apply derivable_pt_lim_scal; apply (derivable_pt_lim_mult (fun s => nth j (qd s) 0) (fun s => nth j (qd s) 0)); exact D|]. cbv beta. field.
Qed.

Lemma tw_dot_self_cross v w : tw_dot v (tw_cross v w) = 0. Proof. geo. Qed.

(** power of the torques *)
Lemma torque_power c ag q qd qdd fext : chain_ok c ->
  sumn (ch_ns c) (fun i => jv c qd i * ltau c ag q qd qdd fext i) =
  sumn (ch_ns c) (fun k => tw_dot (lvel c q qd (S k)) (rb_app (sI (seg c k)) (t_add (lvel c q qdd (S k)) (lbias c q qd (S k))))) +
  sumn (ch_ns c) (fun k => tw_dot (lvel c q qd (S k)) (rb_app (sI (seg c k)) (lgrav c ag q (S k)))) -
  sumn (ch_ns c) (fun k => tw_dot (lvel c q qd (S k)) (nth k fext w_zero)) +
  sumn (ch_ns c) (fun i => jinertia (sjoint (seg c i)) * (jv c qd i * jv c qdd i)).
Proof.
  intros Hok. unfold ltau.
  rewrite (sumn_ext (ch_ns c) _ (fun i => jv c qd i * tw_dot (LA c q i) (full (ch_ns c) (LX c q) (lforce c ag q qd qdd fext) i) + jinertia (sjoint (seg c i)) * (jv c qd i * jv c qdd i)))
    by (intros; ring).
  rewrite sumn_add. f_equal. rewrite (vwork (ch_ns c) (LX c q) (LA c q) (fun k => LX_rigid c q k Hok) (jv c qd)). rewrite <- sumn_add, <- sumn_sub.
  apply sumn_ext. intros k Hk. fold (lvel c q qd (S k)). unfold lforce. cbv zeta. rewrite lacc_split, !rb_app_tadd, tw_dot_wsub, !tw_dot_wadd, tw_dot_self_cross. ring.
Qed.

Theorem energy_balance g c rs q qd t qdd fext tau : chain_ok c -> inertias_symmetric c -> rne_reach g c rs -> rne_current c rs ->
  joint_motion (ch_nj c) q t (qd t) -> joint_motion (ch_nj c) qd t qdd -> length fext = ch_ns c -> length tau = ch_nj c ->
  exists T, rne_CartToJnt c rs (q t) (qd t) qdd fext tau = Ret (E_NOERROR, T) /\ length T = ch_nj c /\
    derivable_pt_lim (fun s => kinetic c (q s) (qd s) + potential c g (q s)) t
      (sumn (ch_nj c) (fun j => nth j T 0 * nth j (qd t) 0) + external_power c (q t) (qd t) fext).
Proof.
  intros Hok Sy Rr Rc Hq Hqd Hf Ht. pose proof Hok as [Hw _]. pose proof Hq as (Lq & _ & _). pose proof Hqd as (Lqd & Lqdd & _).
  destruct (rne_result c rs (q t) (qd t) qdd fext tau Hok Rc (Lq t) (Lqd t) Lqdd Ht Hf) as (T & ET & LT & HT). exists T. split; [exact ET|]. split; [exact LT|].
  eapply dl_eq; [apply (derivable_pt_lim_plus (fun s => kinetic c (q s) (qd s)) (fun s => potential c g (q s)));
     [apply kinetic_derive; eassumption|apply (potential_derive c g q t (qd t) Hok Hq)]|].
  rewrite <- (sum_joints c (fun j => nth j T 0 * nth j (qd t) 0) Hw), <- (sum_joints c (fun j => rotor c j * (nth j (qd t) 0 * nth j qdd 0)) Hw).
  rewrite (sumn_ext (ch_ns c) (fun i => if mv c i then nth (kidx c i) T 0 * nth (kidx c i) (qd t) 0 else 0)
     (fun i => jv c (qd t) i * ltau c (t_neg (mkT g v_zero)) (q t) (qd t) qdd fext i)).
  2:{ intros i Hi. unfold jv. destruct (mv c i) eqn:Mi; [|ring]. rewrite (HT i Hi Mi), (rne_reach_ag g c rs Rr). ring. }
  rewrite torque_power by exact Hok. unfold external_power.
  rewrite (sumn_ext (ch_ns c) (fun k => tw_dot (link_twist c (q t) (qd t) k) (nth k fext w_zero)) (fun k => tw_dot (lvel c (q t) (qd t) (S k)) (nth k fext w_zero)))
    by (intros k Hk; rewrite link_twist_lvel by auto; reflexivity).
  rewrite (sumn_ext (ch_ns c) (fun i => if mv c i then rotor c (kidx c i) * (nth (kidx c i) (qd t) 0 * nth (kidx c i) qdd 0) else 0)
     (fun i => jinertia (sjoint (seg c i)) * (jv c (qd t) i * jv c qdd i))).
  2:{ intros i Hi. unfold jv. destruct (mv c i) eqn:Mi; [rewrite rotor_seg by auto; reflexivity|ring]. }
  ring.
Qed.
