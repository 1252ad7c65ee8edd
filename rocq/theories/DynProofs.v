(** Inverse dynamics is affine in the accelerations with the mass matrix as
    coefficient; energy of the mass matrix (C35, C36). *)
From Coq Require Import String Reals List Arith Lia Lra ZArith Bool FunctionalExtensionality.
From Verif Require Import FramesModel FramesSpec FramesProofs FrameOpsProofs RotationProofs Outcome LoopProofs InertiaModel InertiaSpec
  InertiaProofs DualModel KinModel KinSpec KinProofs JacProofs LinModel LinSpec SumProofs DynModel DynSpec SpatialProofs RneProofs MassProofs.
Import ListNotations.
Local Open Scope R_scope.

(** * Link velocities are body Jacobians *)
Lemma r_invapp_add M a b : r_invapp M (v_add a b) = v_add (r_invapp M a) (r_invapp M b). Proof. geo. Qed.
Lemma r_invapp_mul A B v : r_invapp (r_mul A B) v = r_invapp B (r_invapp A v). Proof. geo. Qed.
Lemma r_invapp_cross M a b : is_rotation M -> r_invapp M (v_cross a b) = v_cross (r_invapp M a) (r_invapp M b).
Proof. intros H. rewrite !r_invapp_inv. apply r_app_cross. apply r_inv_rotation. exact H. Qed.
Lemma body_step M X T u : is_rotation M ->
  r_invapp_t (r_mul M (fM X)) (t_add (t_RefPoint T (r_app M (fp X))) (r_app_t M u)) =
  t_add (f_invapp_t X (r_invapp_t M T)) (r_invapp_t (fM X) u).
Proof.
  intros H. destruct T as [v w], u as [a b], X as [N p]. unfold t_RefPoint, r_app_t, t_add, r_invapp_t, f_invapp_t. cbn [tvel trot fM fp].
  rewrite !r_invapp_mul, !r_invapp_add. rewrite !r_invapp_cross, !r_invapp_app by exact H.
  generalize (r_invapp M v) (r_invapp M w). clear. geo.
Qed.

Lemma jv_spec c q i : chain_wf c -> length q = ch_nj c -> (i < ch_ns c)%nat ->
  if moving (seg c i) then nth_error q (kidx c i) = Some (jv c q i) else jv c q i = 0.
Proof.
  intros H Hq Hi. unfold jv, mv. destruct (moving (seg c i)) eqn:E; [|reflexivity].
  apply nth_error_nth'. pose proof (kidx_lt c i H Hi E). lia.
Qed.
Lemma kidx_le c k (q : list R) : chain_wf c -> length q = ch_nj c -> (count_moving (firstn k (ch_segs c)) <= length q)%nat.
Proof. intros [H J] Hq. pose proof (count_moving_firstn k (ch_segs c)). lia. Qed.

Lemma lvel_jac c q qd k : chain_ok c -> length q = ch_nj c -> length qd = ch_nj c -> (k <= ch_ns c)%nat ->
  lvel c q qd k = r_invapp_t (fM (tip_frame c q k)) (jac_mul (jacl (firstn k (ch_segs c)) q) qd).
Proof.
  intros Hok Hq Hqd. pose proof Hok as [Hw _]. induction k as [|k IH]; intros Hk.
  - unfold lvel. cbn [bt]. cbn [firstn jacl jac_mul]. generalize (fM (tip_frame c q 0)). clear. geo.
  - unfold lvel in *. cbn [bt]. rewrite IH by lia.
    pose proof (jv_spec c q k Hw Hq ltac:(lia)) as Jq. pose proof (jv_spec c qd k Hw Hqd ltac:(lia)) as Jd.
    pose proof (seg_nth c k Hw ltac:(lia)) as En.
    pose proof (tip_vel_S c q qd k (seg c k) (jv c q k) (jv c qd k) Hok (kidx_le c k q Hw Hq) En Jq Jd) as T.
    pose proof (f_equal fv_GetTwist T) as T2. rewrite fv_mul_twist in T2. unfold tip_vel in T2. rewrite !fv_make_twist, !fv_make_frame in T2.
    rewrite T2. rewrite (tip_frame_S c q k (seg c k) (jv c q k) (kidx_le c k q Hw Hq) En Jq), fM_mul.
    rewrite body_step by apply (tip_frame_rigid c q k Hok). f_equal.
    rewrite <- LA_scale. reflexivity.
Qed.

Lemma denotes_nat c k : denotes c (Z.of_nat k) k. Proof. right. lia. Qed.
Lemma link_pose_tip c q k : chain_ok c -> length q = ch_nj c -> (k < ch_ns c)%nat -> link_pose c q k = tip_frame c q (S k).
Proof.
  intros [Hw _] Hq Hk. unfold link_pose, tip_at. rewrite (fk_result c q _ (S k) Hw (denotes_nat c (S k))). rewrite Hq, Nat.eqb_refl.
  pose proof Hw as [Hs _]. destruct (Nat.leb_spec (S k) (length (ch_segs c))); [reflexivity|lia].
Qed.
Lemma link_jacobian_closed c q k : chain_ok c -> length q = ch_nj c -> (k < ch_ns c)%nat ->
  link_jacobian c q k = jac_closed c (repeat false (ch_nj c)) q (S k).
Proof.
  intros Hok Hq Hk. pose proof Hok as [Hw _]. unfold link_jacobian, jacobian_at.
  rewrite (jac_result c _ q _ _ (S k) Hok (denotes_nat c (S k))). unfold jacsolver_make, jac_make. rewrite !repeat_length, Hq, Nat.eqb_refl.
  pose proof Hw as [Hs _]. destruct (Nat.leb_spec (S k) (length (ch_segs c))); [reflexivity|lia].
Qed.
Lemma link_jacobian_length c q k : chain_ok c -> length q = ch_nj c -> (k < ch_ns c)%nat -> length (link_jacobian c q k) = ch_nj c.
Proof. intros Hok Hq Hk. rewrite link_jacobian_closed by auto. apply jac_closed_length; [apply Hok|exact Hq]. Qed.
Lemma link_twist_lvel c q qd k : chain_ok c -> length q = ch_nj c -> length qd = ch_nj c -> (k < ch_ns c)%nat ->
  link_twist c q qd k = lvel c q qd (S k).
Proof.
  intros Hok Hq Hqd Hk. unfold link_twist. rewrite link_pose_tip, link_jacobian_closed by auto.
  rewrite jac_closed_nolock by (try apply Hok; auto). rewrite jac_mul_pad. symmetry. apply lvel_jac; auto.
Qed.
Lemma link_inertia_seg c k : chain_wf c -> (k < ch_ns c)%nat -> link_inertia c k = sI (seg c k).
Proof.
  intros [H _] Hk. unfold link_inertia, seg. rewrite (nth_indep _ rb_zero (sI seg0)) by (rewrite map_length; lia). apply map_nth.
Qed.

Lemma nth_filter c i : chain_wf c -> (i < ch_ns c)%nat -> mv c i = true -> nth (kidx c i) (filter moving (ch_segs c)) seg0 = seg c i.
Proof.
  intros H Hi Hm. unfold kidx, seg, mv, count_moving in *. pose proof (seg_nth c i H Hi) as En.
  destruct (nth_error_split3 _ _ _ En) as [E L]. rewrite E at 2. rewrite filter_app. unfold seg in *.
  rewrite app_nth2 by lia. rewrite Nat.sub_diag. cbn [filter]. rewrite Hm. reflexivity.
Qed.
Lemma rotor_seg c i : chain_wf c -> (i < ch_ns c)%nat -> mv c i = true -> rotor c (kidx c i) = jinertia (sjoint (seg c i)).
Proof.
  intros H Hi Hm. unfold rotor. rewrite (nth_indep _ 0 (jinertia (sjoint seg0))).
  - rewrite (map_nth (fun s => jinertia (sjoint s))). rewrite nth_filter by auto. reflexivity.
  - rewrite map_length. pose proof (kidx_lt c i H Hi Hm). destruct H as [_ J]. unfold count_moving in J. lia.
Qed.

(** * Sums over joints and over segments *)
Lemma sum_joints c (f : nat -> R) : chain_wf c ->
  sumn (ch_ns c) (fun i => if mv c i then f (kidx c i) else 0) = sumn (ch_nj c) f.
Proof.
  intros H. rewrite <- (kidx_all c H) at 1.
  assert (G : forall m, (m <= ch_ns c)%nat -> sumn m (fun i => if mv c i then f (kidx c i) else 0) = sumn (kidx c m) f).
  { induction m as [|m IH]; intros Hm; [reflexivity|]. cbn [sumn]. rewrite IH, kidx_S by (auto; lia).
    destruct (mv c m); [rewrite Nat.add_1_r; reflexivity|rewrite Nat.add_0_r; ring]. }
  rewrite (G (ch_ns c) (le_n _)). rewrite (kidx_all c H). reflexivity.
Qed.

(** * The bilinear form of the links' inertias *)
Definition bil c q (d e : nat -> R) : R :=
  sumn (ch_ns c) (fun i => tw_dot (bt (LX c q) (LA c q) d (S i)) (rb_app (sI (seg c i)) (bt (LX c q) (LA c q) e (S i)))).
Lemma bil_ext_r c q d e e' : (forall i, (i < ch_ns c)%nat -> e i = e' i) -> bil c q d e = bil c q d e'.
Proof. intros H. unfold bil. apply sumn_ext. intros i Hi. rewrite (bt_ext _ _ e e' (S i)) by (intros; apply H; lia). reflexivity. Qed.
Lemma bil_step c q d e m : bil c q d (fun i => if Nat.ltb i (S m) then e i else 0) =
  bil c q d (fun i => if Nat.ltb i m then e i else 0) + e m * bil c q d (only m).
Proof.
  unfold bil. rewrite <- sumn_scale, <- sumn_add. apply sumn_ext. intros i Hi.
  rewrite (bt_ext _ _ (fun i => if Nat.ltb i (S m) then e i else 0) (fun i => (if Nat.ltb i m then e i else 0) + only m i * e m) (S i)).
  2:{ intros k Hk. unfold only. destruct (Nat.ltb_spec k (S m)), (Nat.ltb_spec k m), (Nat.eqb_spec k m); try lia; try subst k; ring. }
  rewrite bt_add, bt_scale, rb_app_tadd, rb_app_tscale_r, tw_dot_wadd, tw_dot_wscale. ring.
Qed.
Lemma bil_expand c q d e : bil c q d e = sumn (ch_ns c) (fun m => e m * bil c q d (only m)).
Proof.
  assert (G : forall m, bil c q d (fun i => if Nat.ltb i m then e i else 0) = sumn m (fun m => e m * bil c q d (only m))).
  { induction m as [|m IH].
    - cbn [sumn]. unfold bil. apply sumn_zero. intros i Hi. rewrite (bt_zero _ _ (fun i => if Nat.ltb i 0 then e i else 0) (S i)) by (intros; reflexivity).
      rewrite rb_app_zero_t. apply tw_dot_zero_r.
    - rewrite bil_step, IH. reflexivity. }
  rewrite <- G. apply bil_ext_r. intros i Hi. apply Nat.ltb_lt in Hi. rewrite Hi. reflexivity.
Qed.
Lemma seg_symmetric c i : inertias_symmetric c -> rb_symmetric (sI (seg c i)).
Proof.
  intros H. unfold seg. destruct (lt_dec i (length (ch_segs c))) as [L|L].
  - unfold inertias_symmetric in H. rewrite Forall_forall in H. apply H, nth_In, L.
  - rewrite nth_overflow by lia. intros a b. cbn [seg0 sI]. rewrite !rb_app_zero, !tw_dot_zero_r. reflexivity.
Qed.
Lemma bil_sym c q d e : inertias_symmetric c -> bil c q d e = bil c q e d.
Proof. intros H. unfold bil. apply sumn_ext. intros i Hi. apply seg_symmetric. exact H. Qed.

Lemma lmass_bil c q i l : chain_ok c -> (l < ch_ns c)%nat ->
  lmass c q i l = bil c q (only l) (only i) + if Nat.eqb i l then jinertia (sjoint (seg c i)) else 0.
Proof.
  intros Hok Hl. unfold lmass, ufull. rewrite (vwork_only (ch_ns c) (LX c q) (LA c q)); [reflexivity| |exact Hl].
  intros k. apply LX_rigid, Hok.
Qed.
(** mass matrix entries by segment *)
Lemma mass_entry c st q H H' : chain_ok c -> inertias_symmetric c -> dyn_current c st -> length q = ch_nj c -> mrows H = ch_nj c -> mcols H = ch_nj c ->
  dyn_JntToMass c st q H = Ret (E_NOERROR, H') ->
  mrows H' = ch_nj c /\ mcols H' = ch_nj c /\
  forall i l, (i < ch_ns c)%nat -> (l < ch_ns c)%nat -> mv c i = true -> mv c l = true ->
    mentry H' (kidx c i) (kidx c l) = bil c q (only i) (only l) + if Nat.eqb i l then jinertia (sjoint (seg c i)) else 0.
Proof.
  intros Hok Sy Fr Hq R1 R2 E. destruct (mass_result c st q H Hok Fr Hq R1 R2) as (H2 & E2 & S1 & S2 & S3).
  rewrite E in E2. injection E2 as <-. split; [exact S1|]. split; [exact S2|].
  intros i l Hi Hl Mi Ml. destruct (le_ge_dec l i) as [L|L].
  - rewrite (proj1 (S3 i l ltac:(lia) Mi Ml)), lmass_bil by auto. rewrite (bil_sym c q (only l)) by exact Sy. reflexivity.
  - rewrite (proj2 (S3 l i ltac:(lia) Ml Mi)), lmass_bil by auto. rewrite Nat.eqb_sym.
    destruct (Nat.eqb_spec i l) as [->|]; reflexivity.
Qed.

(** H x, row by row *)
Lemma mass_row c st q H H' x i : chain_ok c -> inertias_symmetric c -> dyn_current c st -> length q = ch_nj c -> mrows H = ch_nj c -> mcols H = ch_nj c ->
  dyn_JntToMass c st q H = Ret (E_NOERROR, H') -> (i < ch_ns c)%nat -> mv c i = true ->
  sumn (ch_nj c) (fun j => mentry H' (kidx c i) j * nth j x 0) = bil c q (only i) (jv c x) + jinertia (sjoint (seg c i)) * jv c x i.
Proof.
  intros Hok Sy Fr Hq R1 R2 E Hi Mi. pose proof Hok as [Hw _].
  destruct (mass_entry c st q H H' Hok Sy Fr Hq R1 R2 E) as (_ & _ & En).
  rewrite <- (sum_joints c (fun j => mentry H' (kidx c i) j * nth j x 0) Hw). rewrite bil_expand.
  rewrite (sumn_ext (ch_ns c) (fun i0 => if mv c i0 then mentry H' (kidx c i) (kidx c i0) * nth (kidx c i0) x 0 else 0)
    (fun l => jv c x l * bil c q (only i) (only l) + (if Nat.eqb i l then jinertia (sjoint (seg c i)) * jv c x l else 0))).
  - rewrite sumn_add. f_equal. rewrite (sumn_one (ch_ns c) i); [rewrite Nat.eqb_refl; reflexivity|exact Hi|].
    intros j _ Hj. destruct (Nat.eqb_spec i j); [congruence|reflexivity].
  - intros l Hl. unfold jv. destruct (mv c l) eqn:Ml; [rewrite (En i l) by auto; destruct (Nat.eqb i l); ring|].
    destruct (Nat.eqb_spec i l) as [->|]; [congruence|ring].
Qed.

(** * Decomposition of the Newton-Euler torques *)
Fixpoint lgrav c ag q (k : nat) : Twist := match k with O => ag | S m => f_invapp_t (LX c q m) (lgrav c ag q m) end.
Fixpoint lbias c q qd (k : nat) : Twist :=
  match k with
  | O => t_zero
  | S m => t_add (f_invapp_t (LX c q m) (lbias c q qd m)) (t_cross (lvel c q qd (S m)) (t_scale (LA c q m) (jv c qd m)))
  end.
Lemma lacc_split c ag q qd qdd k : lacc c ag q qd qdd k = t_add (t_add (lvel c q qdd k) (lgrav c ag q k)) (lbias c q qd k).
Proof.
  induction k as [|k IH].
  - cbn [lacc lgrav lbias]. unfold lvel. cbn [bt]. rewrite t_add_0_l, t_add_0_r. reflexivity.
  - cbn [lacc lgrav lbias]. rewrite IH. unfold lvel at 3. cbn [bt]. fold (lvel c q qdd k). rewrite !f_invapp_t_add.
    generalize (f_invapp_t (LX c q k) (lvel c q qdd k)) (f_invapp_t (LX c q k) (lgrav c ag q k)) (f_invapp_t (LX c q k) (lbias c q qd k))
      (t_scale (LA c q k) (jv c qdd k)) (t_cross (lvel c q qd (S k)) (t_scale (LA c q k) (jv c qd k))). clear. geo.
Qed.
(** the four contributions to the torque of segment i *)
Definition tau_bias c q qd i : R := sumn (ch_ns c) (fun k => tw_dot (bt (LX c q) (LA c q) (only i) (S k))
  (w_add (rb_app (sI (seg c k)) (lbias c q qd (S k))) (tw_cross (lvel c q qd (S k)) (rb_app (sI (seg c k)) (lvel c q qd (S k)))))).
Definition tau_grav c ag q i : R := sumn (ch_ns c) (fun k => tw_dot (bt (LX c q) (LA c q) (only i) (S k)) (rb_app (sI (seg c k)) (lgrav c ag q (S k)))).
Definition tau_ext c q fext i : R := sumn (ch_ns c) (fun k => tw_dot (bt (LX c q) (LA c q) (only i) (S k)) (nth k fext w_zero)).
Lemma ltau_split c ag q qd qdd fext i : chain_ok c -> (i < ch_ns c)%nat ->
  ltau c ag q qd qdd fext i = bil c q (only i) (jv c qdd) + jinertia (sjoint (seg c i)) * jv c qdd i + tau_bias c q qd i + tau_grav c ag q i - tau_ext c q fext i.
Proof.
  intros Hok Hi. unfold ltau. rewrite (vwork_only (ch_ns c) (LX c q) (LA c q)) by (try (intros; apply LX_rigid, Hok); exact Hi).
  unfold bil, tau_bias, tau_grav, tau_ext.
  rewrite (sumn_ext (ch_ns c) _ (fun k => tw_dot (bt (LX c q) (LA c q) (only i) (S k)) (rb_app (sI (seg c k)) (bt (LX c q) (LA c q) (jv c qdd) (S k))) +
     tw_dot (bt (LX c q) (LA c q) (only i) (S k)) (w_add (rb_app (sI (seg c k)) (lbias c q qd (S k))) (tw_cross (lvel c q qd (S k)) (rb_app (sI (seg c k)) (lvel c q qd (S k))))) +
     tw_dot (bt (LX c q) (LA c q) (only i) (S k)) (rb_app (sI (seg c k)) (lgrav c ag q (S k))) -
     tw_dot (bt (LX c q) (LA c q) (only i) (S k)) (nth k fext w_zero))).
  - rewrite sumn_sub, !sumn_add. ring.
  - intros k Hk. unfold lforce. cbv zeta. rewrite lacc_split. rewrite !rb_app_tadd. rewrite tw_dot_wsub, !tw_dot_wadd. unfold lvel. ring.
Qed.

Lemma jv_zero c x i : (forall j, nth j x 0 = 0) -> jv c x i = 0.
Proof. intros H. unfold jv. rewrite H. destruct (mv c i); reflexivity. Qed.
Lemma lvel_zero c q x k : (forall j, nth j x 0 = 0) -> lvel c q x k = t_zero.
Proof. intros H. apply bt_zero. intros i _. apply jv_zero, H. Qed.
Lemma lgrav_zero c q k : lgrav c t_zero q k = t_zero.
Proof. induction k as [|k IH]; cbn [lgrav]; [reflexivity|]. rewrite IH. apply f_invapp_t_zero. Qed.
Lemma t_cross_zero_l a : t_cross t_zero a = t_zero. Proof. geo. Qed.
Lemma lbias_zero c q x k : (forall j, nth j x 0 = 0) -> lbias c q x k = t_zero.
Proof.
  intros H. induction k as [|k IH]; cbn [lbias]; [reflexivity|]. rewrite IH, lvel_zero, f_invapp_t_zero, t_cross_zero_l, t_add_0_l by exact H. reflexivity.
Qed.
Lemma tw_cross_zero_l w : tw_cross t_zero w = w_zero. Proof. geo. Qed.
Lemma tau_bias_zero c q x i : (forall j, nth j x 0 = 0) -> tau_bias c q x i = 0.
Proof.
  intros H. unfold tau_bias. apply sumn_zero. intros k Hk. rewrite lbias_zero, lvel_zero by exact H.
  rewrite !rb_app_zero_t, tw_cross_zero_l, w_add_0_l. apply tw_dot_zero_r.
Qed.
Lemma tau_grav_zero c q i : tau_grav c t_zero q i = 0.
Proof. unfold tau_grav. apply sumn_zero. intros k Hk. rewrite lgrav_zero, rb_app_zero_t. apply tw_dot_zero_r. Qed.
Lemma tau_ext_zero c q f i : (forall k, nth k f w_zero = w_zero) -> tau_ext c q f i = 0.
Proof. intros H. unfold tau_ext. apply sumn_zero. intros k Hk. rewrite H. apply tw_dot_zero_r. Qed.
Lemma bil_zero c q d x : (forall j, nth j x 0 = 0) -> bil c q d (jv c x) = 0.
Proof.
  intros H. unfold bil. apply sumn_zero. intros k Hk. rewrite (bt_zero _ _ (jv c x) (S k)) by (intros; apply jv_zero, H).
  rewrite rb_app_zero_t. apply tw_dot_zero_r.
Qed.

(** the unit rate of joint [kidx i] moves only segment i *)
Lemma jv_unit c i k : chain_wf c -> (i < ch_ns c)%nat -> mv c i = true -> (k < ch_ns c)%nat ->
  jv c (unit_rate (ch_nj c) (kidx c i)) k = only i k.
Proof.
  intros H Hi Mi Hk. unfold jv, only. destruct (mv c k) eqn:Mk.
  - rewrite unit_rate_nth by (apply kidx_lt; auto). destruct (Nat.eqb_spec k i) as [->|Ne]; [rewrite Nat.eqb_refl; reflexivity|].
    destruct (Nat.eqb_spec (kidx c k) (kidx c i)) as [E|]; [|reflexivity]. exfalso. apply Ne. apply (kidx_inj c); auto.
  - destruct (Nat.eqb_spec k i) as [->|]; [congruence|reflexivity].
Qed.
Lemma unit_rate_length n j : length (unit_rate n j) = n.
Proof. unfold unit_rate. rewrite map_length, seq_length. reflexivity. Qed.
(** body Jacobian columns *)
Lemma bt_only_column c q i k : chain_ok c -> length q = ch_nj c -> (i < ch_ns c)%nat -> mv c i = true -> (k < ch_ns c)%nat ->
  bt (LX c q) (LA c q) (only i) (S k) = r_invapp_t (fM (link_pose c q k)) (nth (kidx c i) (link_jacobian c q k) t_zero).
Proof.
  intros Hok Hq Hi Mi Hk. pose proof Hok as [Hw _].
  rewrite (bt_ext _ _ (only i) (jv c (unit_rate (ch_nj c) (kidx c i))) (S k)) by (intros; symmetry; apply jv_unit; auto; lia).
  fold (lvel c q (unit_rate (ch_nj c) (kidx c i)) (S k)). rewrite <- link_twist_lvel by (auto using unit_rate_length).
  unfold link_twist. f_equal. apply jac_mul_unit.
  - rewrite unit_rate_length, link_jacobian_length by auto. reflexivity.
  - rewrite link_jacobian_length by auto. apply kidx_lt; auto.
  - intros j Hj. rewrite link_jacobian_length in Hj by auto. apply unit_rate_nth. exact Hj.
Qed.
Lemma r_power_back M t w : is_rotation M -> tw_dot (r_invapp_t M t) w = tw_dot t (r_app_w M w).
Proof.
  intros H. destruct t as [a b], w as [f g]. unfold r_invapp_t, r_app_w, tw_dot. cbn [tvel trot wforce wtorque]. clear H.
  generalize a b f g M. clear. geo.
Qed.
Lemma link_pose_rigid c q k : chain_ok c -> length q = ch_nj c -> (k < ch_ns c)%nat -> rigid (link_pose c q k).
Proof. intros Hok Hq Hk. rewrite link_pose_tip by auto. apply tip_frame_rigid, Hok. Qed.
Lemma tau_ext_external c q f i : chain_ok c -> length q = ch_nj c -> (i < ch_ns c)%nat -> mv c i = true ->
  tau_ext c q f i = external_torque c q f (kidx c i).
Proof.
  intros Hok Hq Hi Mi. unfold tau_ext, external_torque. apply sumn_ext. intros k Hk.
  rewrite bt_only_column by auto. apply r_power_back. apply link_pose_rigid; auto.
Qed.

(** * C35 *)
Lemma rne_reach_ag g c st : rne_reach g c st -> rn_ag st = t_neg (mkT g v_zero).
Proof. induction 1; auto. Qed.
(** ChainDynParam's embedded solvers stay in step with it *)
Lemma dyn_reach_inv g c st : dyn_reach g c st ->
  rn_ag (dp_coriolis st) = t_zero /\ rn_ag (dp_gravity st) = t_neg (mkT g v_zero) /\
  rn_nj (dp_coriolis st) = dp_nj st /\ rn_ns (dp_coriolis st) = dp_ns st /\
  rn_nj (dp_gravity st) = dp_nj st /\ rn_ns (dp_gravity st) = dp_ns st /\
  length (dp_null st) = dp_nj st /\ length (dp_wnull st) = dp_ns st /\ Forall (fun w => w = w_zero) (dp_wnull st).
Proof.
  assert (Rz : forall n, Forall (fun w => w = w_zero) (repeat w_zero n)).
  { intros n. apply Forall_forall. intros w Hw. apply repeat_spec in Hw. exact Hw. }
  induction 1 as [c|c c' st H IH|c st H (A1 & A2 & A3 & A4 & A5 & A6 & A7 & A8 & A9)].
  - unfold dyn_make, rne_make. cbn. rewrite !repeat_length. repeat (split; [try reflexivity|]); auto. unfold t_zero, t_neg. geo.
  - exact IH.
  - unfold dyn_update, rne_update. cbn. unfold vec_resize. rewrite !app_length, !firstn_length, !repeat_length.
    repeat (split; [first [assumption|reflexivity|lia]|]).
    apply Forall_app. split; [|apply Rz]. apply Forall_firstn'. exact A9.
Qed.
Lemma Forall_wzero l : Forall (fun w => w = w_zero) l -> forall k, nth k l w_zero = w_zero.
Proof.
  intros H k. destruct (lt_dec k (length l)) as [L|L]; [|apply nth_overflow; lia]. rewrite Forall_forall in H. apply H, nth_In, L.
Qed.
Lemma nth_zeros {A} (l : list A) j : nth j (map (fun _ => 0) l) 0 = 0.
Proof. revert j. induction l as [|a l IH]; intros [|j]; cbn; auto. Qed.

Lemma coriolis_result g c st q qd out : chain_ok c -> dyn_reach g c st -> dyn_current c st ->
  length q = ch_nj c -> length qd = ch_nj c -> length out = ch_nj c ->
  exists C, dyn_JntToCoriolis c st q qd out = Ret (E_NOERROR, C) /\ length C = ch_nj c /\
    forall i, (i < ch_ns c)%nat -> mv c i = true -> nth (kidx c i) C 0 = tau_bias c q qd i.
Proof.
  intros Hok Hr [D1 D2] Hq Hqd Ho. destruct (dyn_reach_inv g c st Hr) as (A1 & A2 & A3 & A4 & A5 & A6 & A7 & A8 & A9).
  unfold dyn_JntToCoriolis.
  destruct (rne_result c (dp_coriolis st) q qd (map (fun _ => 0) (dp_null st)) (dp_wnull st) out) as (C & E & L & H);
    [exact Hok|split; congruence|exact Hq|exact Hqd|rewrite map_length; congruence|exact Ho|congruence|].
  exists C. split; [exact E|]. split; [exact L|]. intros i Hi Mi. rewrite (H i Hi Mi), ltau_split by auto. rewrite A1.
  rewrite bil_zero, jv_zero, tau_grav_zero, tau_ext_zero by (try apply Forall_wzero, A9; apply nth_zeros). ring.
Qed.
Lemma gravity_result g c st q out : chain_ok c -> dyn_reach g c st -> dyn_current c st ->
  length q = ch_nj c -> length out = ch_nj c ->
  exists G, dyn_JntToGravity c st q out = Ret (E_NOERROR, G) /\ length G = ch_nj c /\
    forall i, (i < ch_ns c)%nat -> mv c i = true -> nth (kidx c i) G 0 = tau_grav c (t_neg (mkT g v_zero)) q i.
Proof.
  intros Hok Hr [D1 D2] Hq Ho. destruct (dyn_reach_inv g c st Hr) as (A1 & A2 & A3 & A4 & A5 & A6 & A7 & A8 & A9).
  unfold dyn_JntToGravity.
  destruct (rne_result c (dp_gravity st) q (map (fun _ => 0) (dp_null st)) (map (fun _ => 0) (dp_null st)) (dp_wnull st) out) as (C & E & L & H);
    [exact Hok|split; congruence|exact Hq|rewrite map_length; congruence|rewrite map_length; congruence|exact Ho|congruence|].
  exists C. split; [exact E|]. split; [exact L|]. intros i Hi Mi. rewrite (H i Hi Mi), ltau_split by auto. rewrite A2.
  rewrite bil_zero, jv_zero, tau_bias_zero, tau_ext_zero by (try apply Forall_wzero, A9; apply nth_zeros). ring.
Qed.

Theorem rne_affine g c rs ds q qd qdd fext tau H C0 G0 : chain_ok c -> inertias_symmetric c ->
  rne_reach g c rs -> rne_current c rs -> dyn_reach g c ds -> dyn_current c ds ->
  length q = ch_nj c -> length qd = ch_nj c -> length qdd = ch_nj c -> length tau = ch_nj c -> length fext = ch_ns c ->
  mrows H = ch_nj c -> mcols H = ch_nj c -> length C0 = ch_nj c -> length G0 = ch_nj c ->
  exists T M C G,
    rne_CartToJnt c rs q qd qdd fext tau = Ret (E_NOERROR, T) /\ length T = ch_nj c /\
    dyn_JntToMass c ds q H = Ret (E_NOERROR, M) /\ mrows M = ch_nj c /\ mcols M = ch_nj c /\
    dyn_JntToCoriolis c ds q qd C0 = Ret (E_NOERROR, C) /\ length C = ch_nj c /\
    dyn_JntToGravity c ds q G0 = Ret (E_NOERROR, G) /\ length G = ch_nj c /\
    forall j, (j < ch_nj c)%nat ->
      nth j T 0 = sumn (ch_nj c) (fun m => mentry M j m * nth m qdd 0) + nth j C 0 + nth j G 0 - external_torque c q fext j.
Proof.
  intros Hok Sy Rr Rc Dr Dc Hq Hqd Hqdd Ht Hf R1 R2 HC HG. pose proof Hok as [Hw _].
  destruct (rne_result c rs q qd qdd fext tau Hok Rc Hq Hqd Hqdd Ht Hf) as (T & ET & LT & HT).
  destruct (mass_result c ds q H Hok Dc Hq R1 R2) as (M & EM & M1 & M2 & _).
  destruct (coriolis_result g c ds q qd C0 Hok Dr Dc Hq Hqd HC) as (C & EC & LC & HCc).
  destruct (gravity_result g c ds q G0 Hok Dr Dc Hq HG) as (G & EG & LG & HGg).
  exists T, M, C, G. repeat (split; [assumption|]). intros j Hj.
  destruct (joint_segment c j Hw Hj) as (i & Hi & Mi & <-).
  rewrite (HT i Hi Mi), (HCc i Hi Mi), (HGg i Hi Mi). rewrite (mass_row c ds q H M qdd i Hok Sy Dc Hq R1 R2 EM Hi Mi).
  rewrite ltau_split by auto. rewrite (rne_reach_ag g c rs Rr), (tau_ext_external c q fext i) by auto. ring.
Qed.

(** * C36 *)
Lemma sum_joints_jv c (F : nat -> R -> R) x : chain_wf c -> (forall i, F i 0 = 0) ->
  sumn (ch_ns c) (fun i => F i (jv c x i)) = sumn (ch_ns c) (fun i => if mv c i then F i (nth (kidx c i) x 0) else 0).
Proof. intros H Z. apply sumn_ext. intros i Hi. unfold jv. destruct (mv c i); auto. Qed.

Theorem mass_energy g c ds q qd H : chain_ok c -> inertias_symmetric c -> dyn_reach g c ds -> dyn_current c ds ->
  length q = ch_nj c -> length qd = ch_nj c -> mrows H = ch_nj c -> mcols H = ch_nj c ->
  exists M, dyn_JntToMass c ds q H = Ret (E_NOERROR, M) /\ mrows M = ch_nj c /\ mcols M = ch_nj c /\
    symmetric (ch_nj c) (mentry M) /\ quadratic (ch_nj c) (mentry M) (fun j => nth j qd 0) = 2 * kinetic c q qd.
Proof.
  intros Hok Sy Dr Dc Hq Hqd R1 R2. pose proof Hok as [Hw _].
  destruct (mass_result c ds q H Hok Dc Hq R1 R2) as (M & EM & M1 & M2 & M3). exists M. repeat (split; [assumption|]). split.
  - intros a b Ha Hb. destruct (joint_segment c a Hw Ha) as (i & Hi & Mi & <-), (joint_segment c b Hw Hb) as (l & Hl & Ml & <-).
    destruct (le_ge_dec l i) as [L|L].
    + destruct (M3 i l ltac:(lia) Mi Ml) as [-> ->]. reflexivity.
    + destruct (M3 l i ltac:(lia) Ml Mi) as [-> ->]. reflexivity.
  - unfold quadratic.
    rewrite (sumn_ext (ch_nj c) _ (fun i => nth i qd 0 * sumn (ch_nj c) (fun j => mentry M i j * nth j qd 0))).
    2:{ intros i Hi. rewrite <- sumn_scale. apply sumn_ext. intros; ring. }
    rewrite <- (sum_joints c (fun i => nth i qd 0 * sumn (ch_nj c) (fun j => mentry M i j * nth j qd 0)) Hw).
    rewrite (sumn_ext (ch_ns c) _ (fun i => jv c qd i * bil c q (jv c qd) (only i) +
       (if mv c i then rotor c (kidx c i) * (nth (kidx c i) qd 0 * nth (kidx c i) qd 0) else 0))).
    2:{ intros i Hi. destruct (mv c i) eqn:Mi.
        - rewrite (mass_row c ds q H M qd i Hok Sy Dc Hq R1 R2 EM Hi Mi), rotor_seg by auto. rewrite (bil_sym c q (only i)) by exact Sy.
          assert (J : jv c qd i = nth (kidx c i) qd 0) by (unfold jv; rewrite Mi; reflexivity). rewrite J. ring.
        - rewrite jv_fixed by exact Mi. ring. }
    rewrite sumn_add, <- bil_expand. rewrite (sum_joints c (fun j => rotor c j * (nth j qd 0 * nth j qd 0)) Hw).
    unfold kinetic, bil. rewrite Rmult_plus_distr_l, <- !sumn_scale. f_equal.
    + apply sumn_ext. intros k Hk. rewrite link_twist_lvel, link_inertia_seg by auto. unfold lvel. field.
    + apply sumn_ext. intros j Hj. field.
Qed.
