(** The swept arrays of the hybrid dynamics solver and the recursive Newton-Euler solver. *)
From Coq Require Import String Reals List Arith Lia Lra ZArith Bool.
From Verif Require Import FramesModel FramesSpec FramesProofs FrameOpsProofs RotationProofs Outcome LoopProofs InertiaModel InertiaSpec
  InertiaProofs DualModel KinModel KinSpec KinProofs JacProofs LinModel LinSpec SumProofs DynModel DynSpec SpatialProofs RneProofs DynProofs
  LmaModel VelIkModel VelIkSpec VelIkLin HdModel HdSpec HdAbs HdLoops HdBridge HdProofs.
Import ListNotations.
Local Open Scope R_scope.

Lemma nth_mseq {T} (f : nat -> T) d k i : (i < k)%nat -> nth i (map f (seq 0 k)) d = f i.
Proof.
  intros H. rewrite (nth_indep _ d (f 0%nat)) by (rewrite map_length, seq_length; exact H). rewrite map_nth, seq_nth by exact H. reflexivity.
Qed.
Lemma gf_ext n X F G : (forall i, (i < n)%nat -> F i = G i) -> forall i, gf n X F i = gf n X G i.
Proof.
  intros E i. unfold gf. assert (K : forall m, (m <= n)%nat -> tr n X F m = tr n X G m).
  { induction m as [|m IH]; intros Hm; [reflexivity|]. cbn [tr]. rewrite IH, E by lia. reflexivity. }
  apply K. lia.
Qed.
Lemma full_ext n X F G i : (forall i, (i < n)%nat -> F i = G i) -> (i < n)%nat -> full n X F i = full n X G i.
Proof. intros E Hi. unfold full. rewrite (E i Hi), (gf_ext n X F G E). reflexivity. Qed.
Lemma r_inv_app_w M w : r_app_w (r_inv M) w = r_invapp_w M w. Proof. geo. Qed.
Lemma r_invapp_w_add M u v : r_invapp_w M (w_add u v) = w_add (r_invapp_w M u) (r_invapp_w M v). Proof. geo. Qed.
Lemma r_invapp_w_scale M u s : r_invapp_w M (w_scale u s) = w_scale (r_invapp_w M u) s. Proof. geo. Qed.
Lemma r_invapp_w_neg M u : r_invapp_w M (w_neg u) = w_neg (r_invapp_w M u). Proof. geo. Qed.
Lemma r_invapp_w_zero M : r_invapp_w M w_zero = w_zero. Proof. geo. Qed.
Lemma wsumn_head k f : wsumn (S k) f = w_add (f 0%nat) (wsumn k (fun i => f (S i))).
Proof.
  induction k as [|k IH]; [cbn [wsumn]; generalize (f 0%nat); clear; geo|]. change (wsumn (S (S k)) f) with (w_add (wsumn (S k) f) (f (S k))). rewrite IH.
  cbn [wsumn]. generalize (f 0%nat) (wsumn k (fun i => f (S i))) (f (S k)). clear. geo.
Qed.
Lemma wsumn_ext k f g : (forall i, (i < k)%nat -> f i = g i) -> wsumn k f = wsumn k g.
Proof. induction k as [|k IH]; intros E; cbn [wsumn]; [reflexivity|]. rewrite IH, (E k) by (intros; try apply E; lia). reflexivity. Qed.
Lemma constraint_wrench_sum M alfa : forall nu, length nu = length alfa ->
  wsumn (length alfa) (fun i => w_scale (nth i (map (fun t => r_app_w (r_inv M) (mkW (tvel t) (trot t))) alfa) w_zero) (nth i nu 0)) =
  r_invapp_w M (constraint_wrench alfa nu).
Proof.
  induction alfa as [|t alfa IH]; intros [|y nu] E; try discriminate E.
  - cbn [length wsumn constraint_wrench]. symmetry. apply r_invapp_w_zero.
  - injection E as E. cbn [length]. rewrite wsumn_head. cbn [map nth constraint_wrench]. rewrite IH by exact E.
    rewrite r_invapp_w_add, r_invapp_w_scale, r_inv_app_w. reflexivity.
Qed.
Lemma component_dot M t a : is_rotation M -> tw_dot t (r_app_w (r_inv M) (mkW (tvel a) (trot a))) = component a (r_app_t M t).
Proof. intros _. unfold component. destruct a as [a1 a2], t as [t1 t2]. clear. unfold tw_dot, r_app_w, r_app_t. cbn [tvel trot wforce wtorque]. generalize M a1 a2 t1 t2. clear. geo. Qed.

Section Core.
Variables (c : Chain) (q qd : list R) (fext : list Wrench) (nc : nat) (alfa : list Twist) (ff : list R) (a : nat -> siA) (lo : nat) (res : list seginfo).
Hypothesis Hok : chain_ok c.
Hypothesis Hmv : all_moving c.
Hypothesis Hsym : inertias_symmetric c.
Hypothesis Hal : length alfa = nc.
Let n := ch_ns c.
Hypothesis Hq : length q = ch_nj c.
Hypothesis Ha : forall m, (m < n)%nat -> a (S m) = SA c q qd fext m.
Hypothesis Hlo : (lo <= n)%nat.
Hypothesis Hsw : swept c nc alfa ff a (tip_frame c q n) lo res.
Let X := LX c q.
Let A := LA c q.

Lemma load_nth f w m : (m < n)%nat -> nth m (loads c q f w) w_zero =
  w_add (r_invapp_w (fM (tip_frame c q (S m))) (nth m f w_zero)) (if Nat.eqb (S m) n then r_invapp_w (fM (tip_frame c q n)) w else w_zero).
Proof.
  intros Hm. unfold loads. rewrite nth_mseq by exact Hm. fold n. rewrite link_pose_tip by auto.
  destruct (Nat.eqb_spec (S m) n) as [<-|_]; [apply r_invapp_w_add|rewrite w_add_0_r; reflexivity].
Qed.
Lemma enu_tip nu : length nu = nc -> enu nc (bET res) (fun i => nth i nu 0) n = r_invapp_w (fM (tip_frame c q n)) (constraint_wrench alfa nu).
Proof.
  intros Ln. unfold enu, bET. destruct Hsw as (_ & Sl & _). fold n in Sl. rewrite Sl by exact Hlo. cbn [hd_leaf st_E].
  rewrite <- Hal. apply constraint_wrench_sum. lia.
Qed.
Lemma tip_dot t i : (i < nc)%nat -> tw_dot t (bET res n i) = component (nth i alfa t_zero) (r_app_t (fM (tip_frame c q n)) t).
Proof.
  intros Hi. unfold bET. destruct Hsw as (_ & Sl & _). fold n in Sl. rewrite Sl by exact Hlo. cbn [hd_leaf st_E].
  rewrite <- (component_dot (fM (tip_frame c q n)) t (nth i alfa t_zero)) by apply (tip_frame_rigid c q n), Hok. f_equal.
  set (f := fun t0 : Twist => r_app_w (r_inv (fM (tip_frame c q n))) (mkW (tvel t0) (trot t0))).
  rewrite (nth_indep _ w_zero (f t_zero)) by (rewrite map_length; lia). apply (map_nth f).
Qed.

(** ** The motion itself *)
Definition mF acc x nu := aF n nc (bH a) (bET res) (bU a) (fun i => nth i nu 0) (lacc c acc q qd x).
Lemma load_real acc x nu m : length nu = nc -> (m < n)%nat ->
  mF acc x nu m = lforce c acc q qd x (loads c q fext (w_neg (constraint_wrench alfa nu))) m.
Proof.
  intros Ln Hm. unfold mF, aF, lforce. cbv zeta. rewrite load_nth by exact Hm. rewrite (enu_tip nu Ln), r_invapp_w_neg.
  unfold bH, bU. rewrite Ha by exact Hm. unfold SA. cbv zeta. cbn [sa_H sa_U]. rewrite !ab_of_rb_app, r_inv_app_w.
  set (u := rb_app (sI (seg c m)) (lacc c acc q qd x (S m))). set (v := tw_cross _ _). set (w := r_invapp_w (fM (tip_frame c q (S m))) _).
  set (z := r_invapp_w (fM (tip_frame c q n)) _). clearbody u v w z. destruct (Nat.eqb (S m) n); [generalize u v w z|generalize u v w]; clear; geo.
Qed.
Definition mtau acc x nu m := atau n nc X A (bJ c) (bH a) (bET res) (bU a) (fun i => nth i nu 0) (lacc c acc q qd x) (fun i => nth i x 0) m.
Lemma tau_real acc x nu m : length nu = nc -> (m < n)%nat ->
  mtau acc x nu m = ltau c acc q qd x (loads c q fext (w_neg (constraint_wrench alfa nu))) m.
Proof.
  intros Ln Hm. pose proof Hok as [Hw _]. unfold mtau, atau, ltau. rewrite jv_moving by auto. fold n X A. f_equal. f_equal.
  apply full_ext; [|exact Hm]. intros i Hi. apply load_real; assumption.
Qed.
Lemma lacc_step acc x k : (k < n)%nat -> lacc c acc q qd x (S k) =
  f_invapp_t (X k) (t_add (t_add (lacc c acc q qd x k) (t_scale (aZ X A k) (nth k x 0))) (bC a k)).
Proof.
  intros Hk. pose proof Hok as [Hw _]. cbn [lacc]. unfold bC. rewrite Ha by exact Hk. unfold SA. cbv zeta. cbn [sa_C]. unfold aZ. fold X A.
  rewrite !f_invapp_t_add, f_invapp_t_scale, !f_invapp_app_t by (apply LX_rigid, Hok). rewrite jv_moving by auto. reflexivity.
Qed.
Definition msolved acc x nu m := solved nc X A (bJ c) (bPT res) (bET res) (bC a) (fun i => nth i ff 0) (fun i => nth i nu 0) (bRT res) (lacc c acc q qd x) (fun i => nth i x 0) m.

Lemma real_solved acc x nu : length nu = nc -> (forall m, (lo <= m < n)%nat -> msolved acc x nu m) ->
  forall m, (lo <= m < n)%nat -> ltau c acc q qd x (loads c q fext (w_neg (constraint_wrench alfa nu))) m = nth m ff 0.
Proof.
  intros Ln Sv m Hm. rewrite <- (tau_real acc x nu) by (auto; lia). unfold mtau.
  apply (solved_all n nc lo X A (bJ c) (bX c q Hok) (bH a) (bPT res) (bET res)) with (C := bC a) (RT := bRT res) (ff := fun i => nth i ff 0); auto.
  - intros; apply ab_app_tadd.
  - intros; apply ab_app_tscale.
  - intros; eapply b_PT_sym; eauto.
  - intros; eapply b_leaf; eauto.
  - intros; eapply b_PT_in; eauto.
  - intros; eapply b_ET_in; eauto.
  - intros; eapply b_Dok; eauto.
  - eapply b_RT_leaf; eauto.
  - intros; eapply b_RT_in; eauto.
  - intros; apply lacc_step; assumption.
Qed.
Ltac statics :=
  first [ exact (bX c q Hok) | (intros; apply ab_app_tadd) | (intros; apply ab_app_tscale) | (intros; eapply b_PT_sym; eauto; fail)
        | (intros; eapply b_leaf; eauto; fail) | (intros; eapply b_PT_in; eauto; fail) | (intros; eapply b_ET_in; eauto; fail)
        | (intros; eapply b_Dok; eauto; fail) | (intros; eapply b_RT_leaf; eauto; fail) | (intros; eapply b_RT_in; eauto; fail)
        | (intros; eapply b_GT_leaf; eauto; fail) | (intros; eapply b_GT_in; eauto; fail)
        | (intros; eapply b_MT_leaf; eauto; fail) | (intros; eapply b_MT_in; eauto; fail)
        | (intros; apply lacc_step; assumption) ].
Lemma real_all acc x nu : length nu = nc ->
  (forall m, (lo <= m < n)%nat -> ltau c acc q qd x (loads c q fext (w_neg (constraint_wrench alfa nu))) m = nth m ff 0) ->
  forall m, (lo <= m < n)%nat -> msolved acc x nu m.
Proof.
  intros Ln T m Hm. unfold msolved.
  apply (all_solved n nc lo X A (bJ c) (bX c q Hok) (bH a) (bPT res) (bET res)) with (U := bU a); try statics; auto.
  intros k Hk. change (mtau acc x nu k = nth k ff 0). rewrite tau_real by (auto; lia). apply T, Hk.
Qed.
Lemma real_constraint acc x nu i : (i < nc)%nat -> (forall m, (lo <= m < n)%nat -> msolved acc x nu m) ->
  component (nth i alfa t_zero) (r_app_t (fM (tip_frame c q n)) (lacc c acc q qd x n)) =
  tw_dot (lacc c acc q qd x lo) (bET res lo i) + sumn nc (fun j => bMT res lo i j * nth j nu 0) + bGT res lo i.
Proof.
  intros Hi Sv. rewrite <- tip_dot by exact Hi.
  apply (constraint_form n nc lo X A (bJ c)) with (PT := bPT res) (C := bC a) (RT := bRT res) (ff := fun i => nth i ff 0) (nu := fun i => nth i nu 0)
    (x := fun i => nth i x 0) (d := (n - lo)%nat); try statics; auto; lia.
Qed.

(** ** Accelerations from rest *)
Let zs := repeat 0 (ch_nj c).
Lemma zs_nth j : nth j zs 0 = 0. Proof. unfold zs. generalize (ch_nj c). clear. induction j as [|j IH]; intros [|k]; cbn; auto. Qed.
Lemma ws_nth j k : nth j (repeat w_zero k) w_zero = w_zero. Proof. clear. revert j. induction k as [|k IH]; intros [|j]; cbn; auto. Qed.
Lemma lacc_rest x k : lacc c t_zero q zs x k = lvel c q x k.
Proof. rewrite lacc_split, lgrav_zero, lbias_zero by apply zs_nth. rewrite !t_add_0_r. reflexivity. Qed.
Definition rtau x nu m := atau n nc X A (bJ c) (bH a) (bET res) (fun _ => w_zero) (fun i => nth i nu 0) (lvel c q x) (fun i => nth i x 0) m.
Definition rest_tau x nu m := ltau c t_zero q zs x (loads c q (repeat w_zero n) (w_neg (constraint_wrench alfa nu))) m.
Lemma tau_rest x nu m : length nu = nc -> (m < n)%nat -> rest_tau x nu m = rtau x nu m.
Proof.
  intros Ln Hm. pose proof Hok as [Hw _]. unfold rest_tau, rtau, atau, ltau. rewrite jv_moving by auto. fold n X A. f_equal. f_equal.
  apply full_ext; [|exact Hm]. intros i Hi. unfold aF, lforce. cbv zeta. rewrite load_nth by exact Hi. rewrite (enu_tip nu Ln), r_invapp_w_neg, ws_nth, r_invapp_w_zero.
  unfold bH. rewrite Ha by exact Hi. unfold SA. cbv zeta. cbn [sa_H]. rewrite !ab_of_rb_app, lacc_rest, (lvel_zero c q zs), tw_cross_zero_l by apply zs_nth.
  set (u := rb_app (sI (seg c i)) (lvel c q x (S i))). set (z := r_invapp_w (fM (tip_frame c q n)) _). clearbody u z.
  destruct (Nat.eqb (S i) n); [generalize u z|generalize u]; clear; geo.
Qed.
Lemma lvel_step x k : (k < n)%nat -> lvel c q x (S k) = f_invapp_t (X k) (t_add (t_add (lvel c q x k) (t_scale (aZ X A k) (nth k x 0))) t_zero).
Proof.
  intros Hk. pose proof Hok as [Hw _]. unfold lvel. cbn [bt]. fold (lvel c q x k). unfold aZ. fold X A.
  rewrite t_add_0_r, f_invapp_t_add, f_invapp_t_scale, f_invapp_app_t by (apply LX_rigid, Hok). rewrite jv_moving by auto. reflexivity.
Qed.
Definition rsolved x nu m := nth m x 0 = (- tw_dot (lvel c q x m) (aPZ X A (bPT res) m) - sumn nc (fun i => aEZ X A (bET res) m i * nth i nu 0)) / aD X A (bJ c) (bPT res) m.
Lemma aP_zero m : aP X (bPT res) m t_zero = w_zero.
Proof.
  unfold aP, bPT. rewrite f_invapp_t_zero. replace t_zero with (t_scale t_zero 0) by (apply t_scale_0). rewrite ab_app_tscale, f_app_w_scale.
  generalize (f_app_w (X m) (ab_app (st_P (si_t (rget res (S m)))) t_zero)). clear. geo.
Qed.
Lemma ab_rest m : ab_ X A (bPT res) (fun _ => t_zero) (fun _ => w_zero) m = 0.
Proof. unfold ab_, aR. rewrite aP_zero, f_app_w_zero, w_add_0_l, tw_dot_zero_r. ring. Qed.
Lemma au_rest m : au X A (bPT res) (fun _ => t_zero) (fun _ => 0) (fun _ => w_zero) m = 0.
Proof. unfold au. rewrite ab_rest. ring. Qed.
Lemma rsolved_iff x nu m : rsolved x nu m <->
  solved nc X A (bJ c) (bPT res) (bET res) (fun _ => t_zero) (fun _ => 0) (fun i => nth i nu 0) (fun _ => w_zero) (lvel c q x) (fun i => nth i x 0) m.
Proof. unfold rsolved, solved. rewrite au_rest. unfold Rminus. rewrite Rplus_0_l. reflexivity. Qed.
Lemma RT_rest k : w_zero = w_add (w_add (w_add w_zero (aR X (fun _ => w_zero) k)) (aP X (bPT res) k t_zero))
    (w_scale (aPZ X A (bPT res) k) (au X A (bPT res) (fun _ => t_zero) (fun _ => 0) (fun _ => w_zero) k / aD X A (bJ c) (bPT res) k)).
Proof.
  rewrite au_rest, aP_zero. unfold aR. rewrite f_app_w_zero. unfold Rdiv. rewrite Rmult_0_l. generalize (aPZ X A (bPT res) k). clear. geo.
Qed.
Lemma GT_rest k i : 0 = 0 + tw_dot (t_add t_zero (t_scale (aZ X A k) (au X A (bPT res) (fun _ => t_zero) (fun _ => 0) (fun _ => w_zero) k / aD X A (bJ c) (bPT res) k))) (aE X (bET res) k i).
Proof.
  rewrite au_rest. unfold Rdiv. rewrite Rmult_0_l. generalize (aZ X A k) (aE X (bET res) k i). clear. geo.
Qed.
Lemma rest_solved x nu : length nu = nc -> (forall m, (lo <= m < n)%nat -> rsolved x nu m) -> forall m, (lo <= m < n)%nat -> rest_tau x nu m = 0.
Proof.
  intros Ln Sv m Hm. rewrite tau_rest by (auto; lia).
  apply (solved_all n nc lo X A (bJ c) (bX c q Hok) (bH a) (bPT res) (bET res)) with (C := fun _ => t_zero) (RT := fun _ => w_zero) (ff := fun _ => 0); try statics; auto.
  - intros; apply RT_rest.
  - apply lvel_step.
  - intros k Hk. apply rsolved_iff, Sv, Hk.
Qed.
Lemma rest_all x nu : length nu = nc -> (forall m, (lo <= m < n)%nat -> rest_tau x nu m = 0) -> forall m, (lo <= m < n)%nat -> rsolved x nu m.
Proof.
  intros Ln T m Hm. apply rsolved_iff.
  apply (all_solved n nc lo X A (bJ c) (bX c q Hok) (bH a) (bPT res) (bET res)) with (U := fun _ => w_zero); try statics; auto.
  - intros; apply RT_rest.
  - apply lvel_step.
  - intros k Hk. change (rtau x nu k = 0). rewrite <- tau_rest by (auto; lia). apply T, Hk.
Qed.
Lemma rest_torque x nu m : length nu = nc -> (lo <= S m)%nat -> (m < n)%nat -> (forall i, (m < i < n)%nat -> rest_tau x nu i = 0) ->
  rest_tau x nu m = aD X A (bJ c) (bPT res) m * nth m x 0 + tw_dot (lvel c q x m) (aPZ X A (bPT res) m) + sumn nc (fun i => aEZ X A (bET res) m i * nth i nu 0).
Proof.
  intros Ln L Hm T. rewrite tau_rest by auto. unfold rtau.
  rewrite (torque_at n nc lo X A (bJ c) (bX c q Hok) (bH a) (bPT res) (bET res)) with (C := fun _ => t_zero) (RT := fun _ => w_zero) (ff := fun _ => 0); try statics; auto.
  - rewrite ab_rest. ring.
  - intros; apply RT_rest.
  - apply lvel_step.
  - intros k Hk. change (rtau x nu k = 0). rewrite <- tau_rest by (auto; lia). apply T, Hk.
Qed.
Lemma rest_constraint x nu i : (i < nc)%nat -> (forall m, (lo <= m < n)%nat -> rsolved x nu m) ->
  component (nth i alfa t_zero) (r_app_t (fM (tip_frame c q n)) (lvel c q x n)) =
  tw_dot (lvel c q x lo) (bET res lo i) + sumn nc (fun j => bMT res lo i j * nth j nu 0).
Proof.
  intros Hi Sv. rewrite <- tip_dot by exact Hi.
  rewrite (constraint_form n nc lo X A (bJ c)) with (PT := bPT res) (ET := bET res) (MT := bMT res) (GT := fun _ _ => 0) (C := fun _ => t_zero) (RT := fun _ => w_zero) (ff := fun _ => 0) (nu := fun i => nth i nu 0)
    (x := fun i => nth i x 0) (d := (n - lo)%nat) (k := lo); try statics; auto; try lia.
  - ring.
  - intros; apply GT_rest.
  - apply lvel_step.
  - intros k Hk. apply rsolved_iff, Sv, Hk.
Qed.
End Core.

(** joint rates given one after the other from the motion of the links before *)
Lemma bt_rec X A (next : nat -> Twist -> R) : exists y, forall m, y m = next m (bt X A y m).
Proof.
  set (build := fix build (k : nat) : list R := match k with O => [] | S m => build m ++ [next m (bt X A (fun i => nth i (build m) 0) m)] end).
  assert (L : forall k, length (build k) = k).
  { induction k as [|k IH]; [reflexivity|]. cbn [build]. rewrite app_length, IH. cbn [length]. lia. }
  assert (P : forall k i, (i < k)%nat -> nth i (build k) 0 = nth i (build (S i)) 0).
  { induction k as [|k IH]; intros i Hi; [lia|]. destruct (Nat.eq_dec i k) as [->|Ne]; [reflexivity|].
    cbn [build]. fold build. rewrite app_nth1 by (rewrite L; lia). rewrite IH by lia. reflexivity. }
  exists (fun m => nth m (build (S m)) 0). intros m. cbn [build]. fold build. rewrite app_nth2 by (rewrite L; lia). rewrite L, Nat.sub_diag. cbn [nth].
  f_equal. apply bt_ext. intros i Hi. rewrite P by exact Hi. reflexivity.
Qed.
