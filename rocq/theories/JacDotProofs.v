(** Proofs about the time derivative of the Jacobian. *)
From Coq Require Import Reals List ZArith Bool Arith Lia Lra.
From Verif Require Import FramesModel FramesSpec FramesProofs RotationProofs FrameOpsProofs
  Outcome LoopProofs InertiaModel DualModel KinModel KinSpec DerivProofs KinProofs JacProofs.
Import ListNotations.
Local Open Scope R_scope.

Local Arguments segment_pose : simpl never.
Local Arguments segment_twist : simpl never.
Local Arguments f_mul : simpl never.
Local Arguments fM : simpl never.
Local Arguments fp : simpl never.

(** * Derivatives of twists *)
Lemma tw_derive_eq f t d d' : tw_derive f t d -> d = d' -> tw_derive f t d'.
Proof. intros H <-; exact H. Qed.
Lemma tw_derive_ext f g t d : (forall s, f s = g s) -> tw_derive f t d -> tw_derive g t d.
Proof.
  intros E [H1 H2]. split; [eapply v_derive_ext; [|exact H1] | eapply v_derive_ext; [|exact H2]];
    intros s; cbv beta; rewrite E; reflexivity.
Qed.
Lemma tw_derive_const a t : tw_derive (fun _ => a) t t_zero.
Proof. split; apply v_derive_const. Qed.
Lemma tw_derive_rot M f t dM d : r_derive M t dM -> tw_derive f t d ->
  tw_derive (fun s => r_app_t (M s) (f s)) t (t_add (r_app_t dM (f t)) (r_app_t (M t) d)).
Proof. intros HM [H1 H2]. split; cbn [r_app_t t_add tvel trot]; apply r_app_derive; auto. Qed.
Lemma tw_derive_ref f p t d dp : tw_derive f t d -> v_derive p t dp ->
  tw_derive (fun s => t_RefPoint (f s) (p s)) t
    (t_add (t_RefPoint d (p t)) (mkT (v_cross (trot (f t)) dp) v_zero)).
Proof.
  intros [H1 H2] Hp. split; cbn [t_RefPoint t_add tvel trot].
  - eapply v_derive_eq; [apply v_derive_add; [exact H1|]; apply v_derive_cross; [exact H2|exact Hp]|].
    cbv beta. geo.
  - rewrite v_add_0_r. exact H2.
Qed.

(** * Weighted sums over columns *)
Fixpoint wsum (f : nat -> Twist -> Twist) (i : nat) (J : list Twist) (qd : list R) : Twist :=
  match J, qd with
  | c :: J', x :: q' => t_add (t_scale (f i c) x) (wsum f (S i) J' q')
  | _, _ => t_zero
  end.

Lemma wsum_ext f g J : forall i qd, (forall j c, (i <= j)%nat -> In c J -> f j c = g j c) -> wsum f i J qd = wsum g i J qd.
Proof.
  induction J as [|c J IH]; intros i [|x qd] H; simpl; auto.
  rewrite (H i c) by (auto; left; auto). rewrite (IH (S i)); auto.
  intros j c' Hj Hin. apply H; [lia|right; auto].
Qed.

Lemma wsum_linear g J : t_linear g -> forall i qd, wsum (fun _ c => g c) i J qd = g (jac_mul J qd).
Proof.
  intros [H0 H]. induction J as [|c J IH]; intros i [|x qd]; simpl; auto.
  rewrite IH, H. reflexivity.
Qed.
Lemma wsum_id J i qd : wsum (fun _ c => c) i J qd = jac_mul J qd.
Proof. apply (wsum_linear (fun c => c)). split; auto. Qed.
Lemma wsum_comp g f J : t_linear g -> forall i qd, wsum (fun j c => g (f j c)) i J qd = g (wsum f i J qd).
Proof.
  intros [H0 H]. induction J as [|c J IH]; intros i [|x qd]; simpl; auto.
  rewrite IH, H. reflexivity.
Qed.
Lemma wsum_add f g J : forall i qd, wsum (fun j c => t_add (f j c) (g j c)) i J qd = t_add (wsum f i J qd) (wsum g i J qd).
Proof.
  induction J as [|c J IH]; intros i [|x qd]; simpl; try (symmetry; apply t_add_0_l).
  rewrite IH. geo.
Qed.
Lemma wsum_map f g J : forall i qd, wsum f i (map g J) qd = wsum (fun j c => f j (g c)) i J qd.
Proof. induction J as [|c J IH]; intros i [|x qd]; simpl; auto. rewrite IH. reflexivity. Qed.
Lemma wsum_shift f J : forall i qd, wsum f (S i) J qd = wsum (fun j c => f (S j) c) i J qd.
Proof. induction J as [|c J IH]; intros i [|x qd]; simpl; auto. rewrite IH. reflexivity. Qed.
Lemma wsum_ext_nth f g J : forall i qd, (forall j c, nth_error J j = Some c -> f (i + j)%nat c = g (i + j)%nat c) ->
  wsum f i J qd = wsum g i J qd.
Proof.
  induction J as [|c J IH]; intros i [|x qd] H; simpl; auto.
  pose proof (H 0%nat c eq_refl) as H0. rewrite Nat.add_0_r in H0. rewrite H0. f_equal.
  apply IH. intros j c' E. specialize (H (S j) c' E). rewrite Nat.add_succ_r in H. exact H.
Qed.
Lemma wsum_zeros f n : forall i qd, (forall j, (i <= j)%nat -> f j t_zero = t_zero) ->
  wsum f i (repeat t_zero n) qd = t_zero.
Proof.
  induction n as [|n IH]; intros i [|x qd] H; simpl; auto.
  rewrite H, IH, t_scale_zero, t_add_0_l by (auto; intros j Hj; apply H; lia). reflexivity.
Qed.
Lemma wsum_app_zeros f J n : forall i qd, (forall j, (i + length J <= j)%nat -> f j t_zero = t_zero) ->
  wsum f i (J ++ repeat t_zero n) qd = wsum f i J qd.
Proof.
  induction J as [|c J IH]; intros i qd H; simpl.
  - apply wsum_zeros. intros j Hj. apply H. simpl. lia.
  - destruct qd as [|x qd]; auto. rewrite IH; auto. intros j Hj. apply H. simpl. lia.
Qed.

(** * The partial derivatives as pure functions *)
Definition ph (j i : nat) (Jj Ji : Twist) : Twist :=
  if Nat.ltb j i then mkT (v_cross (trot Jj) (tvel Ji)) (v_cross (trot Jj) (trot Ji))
  else if Nat.ltb i j then mkT (v_cross (v_neg (tvel Jj)) (trot Ji)) v_zero
  else mkT (v_cross (trot Ji) (tvel Ji)) v_zero.
Definition pb (j i : nat) (Jj Ji : Twist) : Twist :=
  if Nat.ltb i j then
    t_neg (mkT (v_add (v_cross (trot Jj) (tvel Ji)) (v_cross (tvel Jj) (trot Ji))) (v_cross (trot Jj) (trot Ji)))
  else t_zero.
Definition pi_ (j i : nat) (Jj Ji : Twist) : Twist :=
  if Nat.ltb j i then
    mkT (v_add (v_cross (trot Jj) (tvel Ji)) (v_cross (tvel Jj) (trot Ji))) (v_cross (trot Jj) (trot Ji))
  else t_zero.
Definition pd (rep : Z) (j i : nat) (Jj Ji : Twist) : Twist :=
  if (rep =? HYBRID)%Z then ph j i Jj Ji
  else if (rep =? BODYFIXED)%Z then pb j i Jj Ji
  else if (rep =? INERTIAL)%Z then pi_ j i Jj Ji
  else t_zero.

Lemma partial_derivative_ret rep J j i Jj Ji : nth_error J j = Some Jj -> nth_error J i = Some Ji ->
  partial_derivative J j i rep = Ret (pd rep j i Jj Ji).
Proof.
  intros Ej Ei. unfold partial_derivative, pd, partial_hybrid, partial_bodyfixed, partial_inertial, jac_getColumn.
  rewrite (aget_nth_error _ _ _ Ej), (aget_nth_error _ _ _ Ei). cbn [obind].
  unfold ph, pb, pi_. destruct (rep =? HYBRID)%Z; auto. destruct (rep =? BODYFIXED)%Z.
  - destruct (Nat.ltb i j); auto.
  - destruct (rep =? INERTIAL)%Z; auto. destruct (Nat.ltb j i); auto.
Qed.

Lemma ph_rot r j i a b : is_rotation r -> ph j i (r_app_t r a) (r_app_t r b) = r_app_t r (ph j i a b).
Proof.
  intros H. unfold ph. destruct (Nat.ltb j i); [|destruct (Nat.ltb i j)];
    unfold r_app_t; cbn [tvel trot]; rewrite ?r_app_cross, ?r_app_neg, ?r_app_0 by auto; reflexivity.
Qed.
Lemma pd_zero_l rep j i b : i <> j -> pd rep j i t_zero b = t_zero.
Proof.
  intros H. unfold pd, ph, pb, pi_.
  destruct (rep =? HYBRID)%Z; [|destruct (rep =? BODYFIXED)%Z; [|destruct (rep =? INERTIAL)%Z; [|auto]]];
    destruct (Nat.ltb_spec j i); auto; try geo;
    destruct (Nat.ltb_spec i j); auto; try geo; lia.
Qed.

(** * Derivative of the Jacobian columns (HYBRID) *)
Lemma joint_rot_or_trans j x : v_cross (trot (joint_twist j 1)) (tvel (joint_twist j x)) = v_zero.
Proof. unfold joint_twist. destruct (jtype j); geo. Qed.

Lemma ph_0 J0 : forall j c, (1 <= j)%nat -> ph j 0 c J0 = mkT (v_cross (trot J0) (tvel c)) v_zero.
Proof. intros j c Hj. unfold ph. destruct j as [|j]; [lia|]. simpl. f_equal. geo. Qed.

Lemma cross_linear w : t_linear (fun c => mkT (v_cross w (tvel c)) v_zero). Proof. split; geo. Qed.
Lemma spin_linear_l b : t_linear (fun c => mkT (v_cross (trot c) (tvel b)) (v_cross (trot c) (trot b))).
Proof. split; geo. Qed.

Lemma nth_map_zero (g : Twist -> Twist) J k : g t_zero = t_zero -> nth k (map g J) t_zero = g (nth k J t_zero).
Proof. intros H. rewrite <- H at 1. apply map_nth. Qed.

Lemma jacl_derive segs : Forall segment_ok segs -> forall n q t qd,
  (count_moving segs <= n)%nat -> joint_motion n q t qd ->
  forall k, (k < count_moving segs)%nat ->
  tw_derive (fun s => nth k (jacl segs (q s)) t_zero) t
    (wsum (fun j c => ph j k c (nth k (jacl segs (q t)) t_zero)) 0 (jacl segs (q t)) qd).
Proof.
  induction 1 as [|a l Ha Hl IH]; intros n q t qd Hn Hq k Hk.
  - unfold count_moving in Hk; simpl in Hk; lia.
  - pose proof (tip_velocity (a :: l) (Forall_cons a Ha Hl) n q t qd Hn Hq) as Htip.
    unfold count_moving in Hn, Hk. simpl in Hn, Hk. destruct (moving a) eqn:Em; simpl in Hn, Hk.
    + destruct n as [|n]; [lia|].
      destruct (motion_tail _ _ _ _ Hq) as (x & q' & xd & qd' & Eq & -> & Hx & Hq').
      assert (Hrot : is_rotation (fM (segment_pose a (x t)))) by (apply segment_pose_rigid; auto).
      destruct k as [|k].
      * (* the first column *)
        pose (r := fun s => v_sub (fp (pose_product (assign (a :: l) (q s)))) (fp (joint_pose (sjoint a) (x s)))).
        assert (Hr : v_derive r t
           (v_sub (tvel (jac_mul (jacl (a :: l) (q t)) (xd :: qd'))) (tvel (joint_twist (sjoint a) xd)))).
        { apply v_derive_sub.
          - apply frame_velocity_entries in Htip. apply Htip.
          - pose proof (joint_velocity (sjoint a) x t xd (proj1 Ha) Hx) as Hj.
            apply frame_velocity_entries in Hj. apply Hj. }
        eapply tw_derive_eq.
        -- eapply tw_derive_ext; [|apply (tw_derive_ref (fun _ => joint_twist (sjoint a) 1) r t _ _
                (tw_derive_const _ t) Hr)].
           intros s. cbv beta. rewrite Eq. cbn [jacl]. rewrite Em. cbn [nth].
           unfold segment_twist. rewrite t_RefPoint_RefPoint. f_equal.
           unfold r. rewrite Eq. cbn [assign]. rewrite Em. cbn [pose_product]. unfold segment_pose. geo.
        -- cbv beta. rewrite t_RefPoint_zero, t_add_0_l.
           remember (jacl (a :: l) (q t)) as J eqn:EJ.
           assert (EJ0 : exists Jr, J = nth 0 J t_zero :: Jr).
           { rewrite EJ, Eq. cbn [jacl]. rewrite Em. eexists; reflexivity. }
           assert (Hw : trot (joint_twist (sjoint a) 1) = trot (nth 0 J t_zero)).
           { rewrite EJ, Eq. cbn [jacl]. rewrite Em. reflexivity. }
           assert (Hz : v_cross (trot (joint_twist (sjoint a) 1))
              (v_sub (tvel (jac_mul J (xd :: qd'))) (tvel (joint_twist (sjoint a) xd))) =
              v_cross (trot (nth 0 J t_zero)) (tvel (jac_mul J (xd :: qd')))).
           { rewrite <- Hw. pose proof (joint_rot_or_trans (sjoint a) xd) as Hrt.
             remember (trot (joint_twist (sjoint a) 1)) as w.
             remember (tvel (joint_twist (sjoint a) xd)) as v.
             transitivity (v_sub (v_cross w (tvel (jac_mul J (xd :: qd')))) (v_cross w v)); [geo|].
             rewrite Hrt. geo. }
           rewrite Hz. clear Hz.
           destruct EJ0 as [Jr EJ0]. set (J0 := nth 0 J t_zero) in *.
           transitivity (wsum (fun _ c => mkT (v_cross (trot J0) (tvel c)) v_zero) 0 J (xd :: qd')).
           ++ rewrite wsum_linear by apply cross_linear. reflexivity.
           ++ rewrite EJ0. simpl wsum. f_equal.
              apply wsum_ext. intros j c Hj _. symmetry. apply ph_0. exact Hj.
      * (* a later column *)
        assert (IHk := IH n q' t qd' ltac:(unfold count_moving; lia) Hq' k ltac:(unfold count_moving; lia)).
        pose proof (segment_velocity a x t xd Ha Hx) as Hseg.
        apply frame_velocity_entries in Hseg. destruct Hseg as [_ HsegM].
        eapply tw_derive_eq.
        -- eapply tw_derive_ext; [|apply (tw_derive_rot _ _ t _ _ HsegM IHk)].
           intros s. cbv beta. rewrite Eq. cbn [jacl]. rewrite Em. cbn [nth].
           rewrite nth_map_zero by apply r_app_t_zero. reflexivity.
        -- rewrite Eq. cbn [jacl]. rewrite Em. cbn [nth wsum].
           rewrite nth_map_zero by apply r_app_t_zero.
           set (ck := nth k (jacl l (q' t)) t_zero).
           set (M := fM (segment_pose a (x t))).
           f_equal.
           ++ unfold ph. change (Nat.ltb 0 (S k)) with true. cbv iota.
              unfold r_app_t. cbn [tvel trot]. rewrite !r_spin_app. fold M.
              rewrite (segment_twist_scale a (x t) xd).
              generalize (segment_twist a (x t) 1) as S1. intros S1. clearbody ck M. clear. geo.
           ++ rewrite wsum_shift, wsum_map.
              transitivity (wsum (fun j c => r_app_t M (ph j k c ck)) 0 (jacl l (q' t)) qd').
              ** rewrite wsum_comp by apply r_app_t_linear. reflexivity.
              ** apply wsum_ext. intros j c _ _. symmetry. apply (ph_rot M (S j) (S k) c ck). exact Hrot.
    + (* a fixed joint *)
      assert (Hrot : is_rotation (fM (segment_pose a 0))) by (apply segment_pose_rigid; auto).
      assert (IHk := IH n q t qd ltac:(unfold count_moving; lia) Hq k ltac:(unfold count_moving; lia)).
      eapply tw_derive_eq.
      * eapply tw_derive_ext; [|apply (tw_derive_rot _ _ t _ _ (r_derive_const (fM (segment_pose a 0)) t) IHk)].
        intros s. cbv beta. cbn [jacl]. rewrite Em. rewrite nth_map_zero by apply r_app_t_zero. reflexivity.
      * cbn [jacl]. rewrite Em. rewrite nth_map_zero by apply r_app_t_zero.
        rewrite wsum_map.
        set (ck := nth k (jacl l (q t)) t_zero). set (M := fM (segment_pose a 0)).
        transitivity (wsum (fun j c => r_app_t M (ph j k c ck)) 0 (jacl l (q t)) qd).
        -- rewrite wsum_comp by apply r_app_t_linear. unfold m3_zero.
           generalize (wsum (fun j c => ph j k c ck) 0 (jacl l (q t)) qd) as W. intros W. clearbody ck M. clear. geo.
        -- apply wsum_ext. intros j c _ _. symmetry. apply (ph_rot M j k c ck). exact Hrot.
Qed.

(** * The other representations *)
Lemma r_inv_spin w M c : r_app_t (r_inv (r_spin w M)) c =
  r_app_t (r_inv M) (t_neg (mkT (v_cross w (tvel c)) (v_cross w (trot c)))).
Proof. unfold r_spin. geo. Qed.

Lemma pb_pointwise M j i a b : is_rotation M -> (j = i -> a = b) ->
  t_add (r_app_t (r_inv M) (t_neg (mkT (v_cross (trot a) (tvel b)) (v_cross (trot a) (trot b)))))
        (r_app_t (r_inv M) (ph j i a b)) =
  pb j i (r_app_t (r_inv M) a) (r_app_t (r_inv M) b).
Proof.
  intros HM Hji.
  assert (HI : is_rotation (r_inv M)) by (apply r_inv_rotation; auto).
  assert (E : t_add (t_neg (mkT (v_cross (trot a) (tvel b)) (v_cross (trot a) (trot b)))) (ph j i a b) = pb j i a b).
  { unfold ph, pb. destruct (Nat.ltb_spec j i).
    - destruct (Nat.ltb_spec i j); [lia|]. geo.
    - destruct (Nat.ltb_spec i j); [geo|]. rewrite Hji by lia. geo. }
  transitivity (r_app_t (r_inv M) (pb j i a b)).
  - rewrite <- E. geo.
  - unfold pb. destruct (Nat.ltb i j); [|apply r_app_t_zero].
    unfold r_app_t, t_neg. cbn [tvel trot]. rewrite !r_app_neg, r_app_add, !r_app_cross by auto. reflexivity.
Qed.

Lemma pi_pointwise p j i a b : (j = i -> a = b) ->
  t_add (t_RefPoint (ph j i a b) (v_neg p)) (mkT (v_cross (trot b) (v_neg (tvel a))) v_zero) =
  pi_ j i (t_RefPoint a (v_neg p)) (t_RefPoint b (v_neg p)).
Proof.
  intros Hji. unfold ph, pi_. destruct (Nat.ltb_spec j i).
  - geo.
  - destruct (Nat.ltb_spec i j); [geo|]. rewrite Hji by lia. geo.
Qed.

Definition rep_map (rep : Z) (F : Frame) : Twist -> Twist :=
  if (rep =? HYBRID)%Z then (fun t => t)
  else if (rep =? BODYFIXED)%Z then r_app_t (r_inv (fM F))
  else (fun t => t_RefPoint t (v_neg (fp F))).

Lemma represent_map rep F J : represent rep F J = map (rep_map rep F) J.
Proof.
  unfold represent, rep_map. destruct (rep =? HYBRID)%Z; [symmetry; apply map_id|].
  destruct (rep =? BODYFIXED)%Z; reflexivity.
Qed.
Lemma rep_map_zero rep F : rep_map rep F t_zero = t_zero.
Proof. unfold rep_map. destruct (rep =? HYBRID)%Z; auto. destruct (rep =? BODYFIXED)%Z; [apply r_app_t_zero|apply t_RefPoint_zero]. Qed.

Definition valid_rep (rep : Z) : Prop := rep = HYBRID \/ rep = BODYFIXED \/ rep = INERTIAL.

Lemma represented_derive rep segs n q t qd : valid_rep rep -> Forall segment_ok segs ->
  (count_moving segs <= n)%nat -> joint_motion n q t qd ->
  forall k, (k < count_moving segs)%nat ->
  let F s := pose_product (assign segs (q s)) in
  let J := represent rep (F t) (jacl segs (q t)) in
  tw_derive (fun s => rep_map rep (F s) (nth k (jacl segs (q s)) t_zero)) t
    (wsum (fun j c => pd rep j k c (nth k J t_zero)) 0 J qd).
Proof.
  intros Hrep Hok Hn Hq k Hk F J.
  pose proof (jacl_derive segs Hok n q t qd Hn Hq k Hk) as HD.
  pose proof (tip_velocity segs Hok n q t qd Hn Hq) as HF. fold F in HF.
  apply frame_velocity_entries in HF. destruct HF as [Hp HM].
  pose proof (pose_product_rigid segs (q t) Hok) as HR. fold (F t) in HR.
  assert (HkJ : nth k J t_zero = rep_map rep (F t) (nth k (jacl segs (q t)) t_zero)).
  { unfold J. rewrite represent_map. apply nth_map_zero, rep_map_zero. }
  rewrite HkJ. unfold J. rewrite represent_map, wsum_map. clear HkJ J.
  remember (jacl segs (q t)) as J eqn:EJ. set (ck := nth k J t_zero) in *.
  destruct Hrep as [-> | [-> | ->]].
  - exact HD.
  - change (rep_map BODYFIXED) with (fun F => r_app_t (r_inv (fM F))). cbv beta.
    eapply tw_derive_eq; [apply (tw_derive_rot _ _ t _ _ (r_inv_derive _ _ _ HM) HD)|].
    cbv beta. rewrite <- EJ. fold ck. rewrite r_inv_spin.
    transitivity (t_add
      (wsum (fun _ c => r_app_t (r_inv (fM (F t))) (t_neg (mkT (v_cross (trot c) (tvel ck)) (v_cross (trot c) (trot ck))))) 0 J qd)
      (wsum (fun j c => r_app_t (r_inv (fM (F t))) (ph j k c ck)) 0 J qd)).
    + f_equal.
      * rewrite (wsum_linear (fun c => r_app_t (r_inv (fM (F t))) (t_neg (mkT (v_cross (trot c) (tvel ck)) (v_cross (trot c) (trot ck)))))).
        -- reflexivity.
        -- generalize (r_inv (fM (F t))) as Mi. intros Mi. clearbody ck. clear. split; geo.
      * rewrite wsum_comp by apply r_app_t_linear. reflexivity.
    + rewrite <- wsum_add. apply wsum_ext_nth. intros j c Ec. simpl plus.
      change (pd BODYFIXED) with pb. apply pb_pointwise; auto.
      intros ->. unfold ck. symmetry. apply nth_error_nth; auto.
  - change (rep_map INERTIAL) with (fun F t => t_RefPoint t (v_neg (fp F))). cbv beta.
    eapply tw_derive_eq; [apply (tw_derive_ref _ _ t _ _ HD (v_derive_neg _ _ _ Hp))|].
    cbv beta. rewrite <- EJ. fold ck.
    transitivity (t_add
      (wsum (fun j c => t_RefPoint (ph j k c ck) (v_neg (fp (F t)))) 0 J qd)
      (wsum (fun _ c => mkT (v_cross (trot ck) (v_neg (tvel c))) v_zero) 0 J qd)).
    + f_equal.
      * rewrite (wsum_comp (fun c => t_RefPoint c (v_neg (fp (F t))))) by apply RefPoint_linear. reflexivity.
      * rewrite (wsum_linear (fun c => mkT (v_cross (trot ck) (v_neg (tvel c))) v_zero)); auto.
        clearbody ck. clear. split; geo.
    + rewrite <- wsum_add. apply wsum_ext_nth. intros j c Ec. simpl plus.
      change (pd INERTIAL) with pi_. apply pi_pointwise.
      intros ->. unfold ck. symmetry. apply nth_error_nth; auto.
Qed.

(** * The loops *)
Lemma jd_inner_loop n J qd rep k : length J = n -> length qd = n -> (k < n)%nat -> forall acc,
  for_loop n 0 (jd_inner_body (repeat false n) J qd rep k) acc =
  Ret (t_add acc (wsum (fun j c => pd rep j k c (nth k J t_zero)) 0 J qd)).
Proof.
  intros HJ Hqd Hk.
  pose (f := fun j c => pd rep j k c (nth k J t_zero)).
  assert (G : forall J2 J1 q1 q2 acc, J = J1 ++ J2 -> qd = q1 ++ q2 -> length J1 = length q1 ->
    for_loop (length J2) (length J1) (jd_inner_body (repeat false n) J qd rep k) acc =
    Ret (t_add acc (wsum f (length J1) J2 q2))).
  { induction J2 as [|c J2 IH]; intros J1 q1 q2 acc E1 E2 E3; simpl.
    - rewrite t_add_0_r. reflexivity.
    - assert (Hlen : (length J1 < n)%nat) by (rewrite <- HJ, E1, app_length; simpl; lia).
      destruct q2 as [|x q2].
      { exfalso. rewrite E2, app_nil_r in Hqd. lia. }
      unfold jd_inner_body at 1.
      rewrite (aget_nth_error (repeat false n) (length J1) false).
      2:{ rewrite (nth_error_nth' _ false) by (rewrite repeat_length; auto). f_equal. apply nth_repeat. }
      cbn [obind negb].
      rewrite (partial_derivative_ret rep J (length J1) k c (nth k J t_zero)).
      2:{ rewrite E1, nth_error_app2 by lia. rewrite Nat.sub_diag. reflexivity. }
      2:{ apply nth_error_nth'. lia. }
      cbn [obind].
      assert (Ex : aget qd (length J1) = Ret x) by (rewrite E2; apply aget_app'; auto).
      rewrite Ex. cbn [obind].
      specialize (IH (J1 ++ [c]) (q1 ++ [x]) q2).
      rewrite app_length in IH. simpl in IH. rewrite Nat.add_1_r in IH.
      rewrite IH; [|rewrite <- app_assoc; auto | rewrite <- app_assoc; auto | rewrite !app_length; simpl; lia].
      fold f. rewrite t_add_assoc. reflexivity. }
  intros acc. specialize (G J [] [] qd acc eq_refl eq_refl eq_refl). rewrite HJ in G. exact G.
Qed.

Definition jdot_cols (rep : Z) (J : list Twist) (qd : list R) (m : nat) : list Twist :=
  map (fun k => wsum (fun j c => pd rep j k c (nth k J t_zero)) 0 J qd) (seq 0 m).

Lemma jdot_cols_S rep J qd m : jdot_cols rep J qd (S m) =
  jdot_cols rep J qd m ++ [wsum (fun j c => pd rep j m c (nth m J t_zero)) 0 J qd].
Proof. unfold jdot_cols. rewrite seq_S, map_app. reflexivity. Qed.

Lemma jd_outer_loop c J qd rep n : chain_wf c -> (n <= ch_ns c)%nat ->
  length J = ch_nj c -> length qd = ch_nj c ->
  let m := count_moving (firstn n (ch_segs c)) in
  for_loop n 0 (jd_body c (repeat false (ch_nj c)) J qd rep) (0%nat, t_zero, repeat t_zero (ch_nj c)) =
  Ret (m, t_zero, jdot_cols rep J qd m ++ repeat t_zero (ch_nj c - m)).
Proof.
  intros Hw Hn HJ Hqd m.
  pose (Inv := fun k (st : nat * Twist * list Twist) =>
     let m := count_moving (firstn k (ch_segs c)) in
     st = (m, t_zero, jdot_cols rep J qd m ++ repeat t_zero (ch_nj c - m))).
  destruct (for_loop_inv Inv (jd_body c (repeat false (ch_nj c)) J qd rep) n 0
              (0%nat, t_zero, repeat t_zero (ch_nj c))) as (st & E & HI).
  - intros k st Hk ->. unfold jd_body.
    destruct (chain_lookup c qd k Hw Hqd) as (s & x & En & Es & Hle & Hx & Ha & Hc); [lia|].
    rewrite Es. cbn [obind]. unfold Inv. rewrite Hc. destruct (moving s) eqn:Em.
    + pose proof (mover_index _ _ _ En Em) as Hlt. destruct Hw as [Hs Hnj]. rewrite <- Hnj in Hlt.
      rewrite jd_inner_loop by auto. cbn [obind]. rewrite t_add_0_l.
      destruct (ch_nj c - count_moving (firstn k (ch_segs c)))%nat as [|r] eqn:Er; [lia|]. simpl repeat.
      unfold jac_setColumn.
      rewrite aset_mid' by (unfold jdot_cols; rewrite map_length, seq_length; reflexivity).
      cbn [obind]. eexists; split; [reflexivity|].
      rewrite Nat.add_1_r, jdot_cols_S, <- app_assoc. simpl. repeat f_equal. lia.
    + eexists; split; [reflexivity|]. rewrite Nat.add_0_r. reflexivity.
  - unfold Inv. simpl. rewrite Nat.sub_0_r. reflexivity.
  - rewrite E, HI. reflexivity.
Qed.

(** * Solver states without locked joints *)
Definition jd_clean (m : nat) (st : jdsolver) : Prop :=
  jd_locked st = repeat false m /\ jd_unlocked st = m /\ jd_inner st = repeat false m /\
  length (jd_jac st) = m /\ length (jd_jdot st) = m /\ jd_acc st = t_zero /\ valid_rep (jd_rep st).

Lemma filter_repeat n : length (filter negb (repeat false n)) = n.
Proof. induction n; simpl; auto. Qed.
Lemma firstn_repeat {A} (d : A) n : forall m, firstn n (repeat d m) = repeat d (Nat.min n m).
Proof. induction n as [|n IH]; intros [|m]; simpl; auto. rewrite IH. reflexivity. Qed.
Lemma vec_resize_repeat {A} (d : A) m n : vec_resize (repeat d m) n d = repeat d n.
Proof.
  unfold vec_resize. rewrite repeat_length, firstn_repeat, <- repeat_app. f_equal. lia.
Qed.
Lemma vec_resize_length {A} (l : list A) n d : length (vec_resize l n d) = n.
Proof. unfold vec_resize. rewrite app_length, firstn_length, repeat_length. lia. Qed.

Lemma jd_clean_make c : jd_clean (ch_nj c) (jdsolver_make c).
Proof.
  unfold jd_clean, jdsolver_make, jacsolver_make, jac_make.
  cbn [jd_locked jd_unlocked jd_inner jd_jac jd_jdot jd_acc jd_rep].
  rewrite !repeat_length. repeat split; auto. left; reflexivity.
Qed.
Lemma jd_clean_update c m st : jd_clean m st -> jd_clean (ch_nj c) (jdsolver_update c st).
Proof.
  intros (H1 & H2 & H3 & H4 & H5 & H6 & H7). unfold jd_clean, jdsolver_update, jacsolver_update.
  cbn [jd_locked jd_unlocked jd_inner jd_jac jd_jdot jd_acc jd_rep].
  rewrite H1, H3, !vec_resize_repeat, filter_repeat, !vec_resize_length. repeat split; auto.
Qed.
Lemma jd_clean_rep m st rep : jd_clean m st -> jd_clean m (jdsolver_setRepresentation st rep).
Proof.
  intros (H1 & H2 & H3 & H4 & H5 & H6 & H7). unfold jdsolver_setRepresentation.
  destruct ((rep =? HYBRID)%Z || (rep =? BODYFIXED)%Z || (rep =? INERTIAL)%Z) eqn:E;
    unfold jd_clean; cbn [jd_locked jd_unlocked jd_inner jd_jac jd_jdot jd_acc jd_rep]; repeat split; auto.
  unfold valid_rep. apply orb_prop in E. destruct E as [E|E]; [apply orb_prop in E; destruct E as [E|E]|];
    apply Z.eqb_eq in E; auto.
Qed.

Lemma jac_result_length c mask q jac z code J : chain_ok c ->
  jac_JntToJac c mask q jac z = Ret (code, J) -> length J = length jac.
Proof.
  intros Hok E. rewrite (jac_result c mask q jac z (segment_nr c z) Hok) in E
    by (apply denotes_segment_nr; [apply Hok|reflexivity]).
  destruct (Nat.eqb_spec (length mask) (ch_nj c)); simpl in E; [|injection E as <- <-; auto].
  destruct (Nat.eqb_spec (length q) (ch_nj c)); simpl in E; [|injection E as <- <-; apply map_length].
  destruct (Nat.eqb_spec (length jac) (ch_nj c)); simpl in E; [|injection E as <- <-; apply map_length].
  destruct (Nat.leb _ _); injection E as <- <-; [|apply map_length].
  rewrite jac_closed_length; auto. apply Hok.
Qed.

Lemma jd_loop_partial c locked J qd rep n acc jdot k' acc' jdot' :
  acc = t_zero ->
  for_loop n 0 (jd_body c locked J qd rep) (0%nat, acc, jdot) = Ret (k', acc', jdot') ->
  acc' = t_zero /\ length jdot' = length jdot.
Proof.
  intros Ha E.
  apply (for_loop_pinv (fun _ (st : nat * Twist * list Twist) =>
     snd (fst st) = t_zero /\ length (snd st) = length jdot)) in E; auto.
  intros k [[kk a] jd] st' _ [H1 H2] Eb. cbn [fst snd] in *. unfold jd_body in Eb.
  apply obind_Ret_inv in Eb. destruct Eb as (s & Es & Eb). destruct (moving s).
  - apply obind_Ret_inv in Eb. destruct Eb as (a' & Ea' & Eb).
    apply obind_Ret_inv in Eb. destruct Eb as (jd' & Ejd & Eb). injection Eb as <-.
    cbn [fst snd]. split; auto. unfold jac_setColumn in Ejd. apply aset_Ret_inv in Ejd.
    destruct Ejd as [_ ->]. rewrite upd_length. auto.
  - injection Eb as <-. auto.
Qed.

Lemma jd_call_partial c st q qd jdot z code out st' m : chain_ok c -> jd_clean m st ->
  jd_JntToJacDot c st q qd jdot z = Ret (code, out, st') ->
  jd_clean m st' /\ length out = length jdot.
Proof.
  intros Hok Hcl E. pose proof Hcl as (H1 & H2 & H3 & H4 & H5 & H6 & H7).
  unfold jd_JntToJacDot in E.
  destruct (negb (Nat.eqb (length (jd_locked st)) (ch_nj c))); [injection E as <- <- <-; auto|].
  cbn zeta in E.
  destruct (_ || _)%bool; [injection E as <- <- <-; split; auto; apply map_length|].
  destruct (Nat.ltb _ _); [injection E as <- <- <-; split; auto; apply map_length|].
  apply obind_Ret_inv in E. destruct E as ([c1 J] & EJ & E).
  pose proof (jac_result_length _ _ _ _ _ _ _ Hok EJ) as HJ.
  assert (Hst1 : forall J', length J' = length J ->
     jd_clean m (mkJD (jd_locked st) (jd_unlocked st) (jd_inner st) J' (jd_jdot st) (jd_rep st) (jd_acc st))).
  { intros J' HJ'. unfold jd_clean. cbn [jd_locked jd_unlocked jd_inner jd_jac jd_jdot jd_acc jd_rep].
    repeat split; auto; lia. }
  assert (Hfin : forall J' r, length J' = length J ->
     (let! r' := for_loop (segment_nr c z) 0 (jd_body c (jd_locked st) J' qd (jd_rep st)) (0%nat, jd_acc st, jac_zero jdot) in
      let '(_, acc', jdot') := r' in
      Ret (E_NOERROR, jdot', mkJD (jd_locked st) (jd_unlocked st) (jd_inner st) J' (jd_jdot st) (jd_rep st) acc')) = Ret r ->
     jd_clean m (snd r) /\ length (snd (fst r)) = length jdot).
  { intros J' r HJ' Er. apply obind_Ret_inv in Er. destruct Er as ([[k' acc'] jd'] & El & Er).
    injection Er as <-. cbn [fst snd]. apply jd_loop_partial in El; auto. destruct El as [-> Hl].
    rewrite <- H6. split; [apply Hst1; auto|].
    rewrite Hl. apply map_length. }
  destruct (negb (c1 =? E_NOERROR)%Z); [injection E as <- <- <-; split; [auto|apply map_length]|].
  destruct (negb (jd_rep st =? HYBRID)%Z).
  - apply obind_Ret_inv in E. destruct E as ([c2 F] & EF & E).
    destruct (negb (c2 =? E_NOERROR)%Z); [injection E as <- <- <-; split; [auto|apply map_length]|].
    destruct (jd_rep st =? BODYFIXED)%Z.
    + unfold jac_changeBase in E. rewrite jac_inplace_map in E. cbn [obind] in E.
      apply Hfin in E; [exact E|apply map_length].
    + destruct (jd_rep st =? INERTIAL)%Z.
      * unfold jac_changeRefPoint in E. rewrite jac_inplace_map in E. cbn [obind] in E.
        apply Hfin in E; [exact E|apply map_length].
      * injection E as <- <- <-; split; [auto|apply map_length].
  - apply Hfin in E; auto.
Qed.

Lemma jd_call_twist_partial c st q qd tw z code out st' m : chain_ok c -> jd_clean m st ->
  jd_JntToJacDot_twist c st q qd tw z = Ret (code, out, st') -> jd_clean m st'.
Proof.
  intros Hok Hcl E. unfold jd_JntToJacDot_twist in E. apply obind_Ret_inv in E.
  destruct E as ([[c1 jd] st1] & E1 & E).
  destruct (jd_call_partial _ _ _ _ _ _ _ _ _ _ Hok Hcl E1) as ((H1 & H2 & H3 & H4 & H5 & H6 & H7) & Hlen).
  destruct Hcl as (_ & _ & _ & _ & G5 & _).
  assert (Hst : jd_clean m (mkJD (jd_locked st1) (jd_unlocked st1) (jd_inner st1) (jd_jac st1) jd (jd_rep st1) (jd_acc st1))).
  { unfold jd_clean. cbn [jd_locked jd_unlocked jd_inner jd_jac jd_jdot jd_acc jd_rep].
    repeat split; auto; lia. }
  destruct (negb _).
  - injection E as _ _ <-. exact Hst.
  - apply obind_Ret_inv in E. destruct E as (t & Et & E). injection E as _ _ <-. exact Hst.
Qed.

Lemma chain_ok_add c s : chain_ok c -> segment_ok s -> chain_ok (chain_addSegment c s).
Proof.
  intros [Hw Ho] Hs. rewrite (chain_wf_of c Hw), chain_add_of. split; [apply chain_of_wf|].
  cbn [chain_of ch_segs]. apply Forall_app. auto.
Qed.

Lemma jd_history_clean c st : jd_history c st -> chain_ok c /\ exists m, jd_clean m st.
Proof.
  induction 1 as [c Hc | c st s H [Hc [m Hm]] Hs | c st H [Hc [m Hm]] | c st rep H [Hc [m Hm]]
    | c st q qd jdot z code out st' H [Hc [m Hm]] E | c st q qd tw z code out st' H [Hc [m Hm]] E].
  - split; auto. eexists. apply jd_clean_make.
  - split; eauto. apply chain_ok_add; auto.
  - split; auto. eexists. eapply jd_clean_update; eauto.
  - split; auto. eexists. eapply jd_clean_rep; eauto.
  - split; auto. exists m. eapply jd_call_partial; eauto.
  - split; auto. exists m. eapply jd_call_twist_partial; eauto.
Qed.

(** * Main results *)
Lemma denotes_of_nat c k : denotes c (Z.of_nat k) k. Proof. right. lia. Qed.

Lemma jd_result c st z k q qd jdot : chain_ok c -> jd_clean (ch_nj c) st ->
  denotes c z k -> (k <= length (ch_segs c))%nat -> length q = ch_nj c -> length qd = ch_nj c ->
  length jdot = ch_nj c ->
  let J := represent (jd_rep st) (tip_frame c q k) (jac_closed c (repeat false (ch_nj c)) q k) in
  let m := count_moving (firstn k (ch_segs c)) in
  exists st', jd_clean (ch_nj c) st' /\ jd_rep st' = jd_rep st /\
   jd_JntToJacDot c st q qd jdot z =
     Ret (E_NOERROR, jdot_cols (jd_rep st) J qd m ++ repeat t_zero (ch_nj c - m), st').
Proof.
  intros Hok Hcl Hd Hk Hq Hqd Hjd J m.
  destruct st as [lk un inn jj jdt rp ac].
  destruct Hcl as (H1 & H2 & H3 & H4 & H5 & H6 & H7).
  cbn [jd_locked jd_unlocked jd_inner jd_jac jd_jdot jd_acc jd_rep] in *. subst lk un inn ac.
  pose proof Hok as [Hw _]. pose proof Hw as [Hs Hnj].
  pose proof (proj1 (denotes_segment_nr _ _ _ Hw) Hd) as Hseg.
  assert (HJlen : length J = ch_nj c).
  { unfold J. rewrite represent_map, map_length. apply jac_closed_length; auto. }
  assert (Hend : exists st', jd_clean (ch_nj c) st' /\ jd_rep st' = rp /\
     (let! r' := for_loop k 0 (jd_body c (repeat false (ch_nj c)) J qd rp) (0%nat, t_zero, jac_zero jdot) in
      let '(_, acc', jdot') := r' in
      Ret (E_NOERROR, jdot', mkJD (repeat false (ch_nj c)) (ch_nj c) (repeat false (ch_nj c)) J jdt rp acc')) =
     Ret (E_NOERROR, jdot_cols rp J qd m ++ repeat t_zero (ch_nj c - m), st')).
  { rewrite jac_zero_repeat, Hjd. rewrite jd_outer_loop by (auto; lia). cbn [obind].
    eexists; split; [|split; [|reflexivity]]; [|reflexivity].
    unfold jd_clean. cbn [jd_locked jd_unlocked jd_inner jd_jac jd_jdot jd_acc jd_rep]. repeat split; auto. }
  unfold jd_JntToJacDot. rewrite Hseg. cbn zeta.
  cbn [jd_locked jd_unlocked jd_inner jd_jac jd_jdot jd_acc jd_rep].
  rewrite repeat_length, Nat.eqb_refl. cbn [negb].
  rewrite Hq, Hjd, !Nat.eqb_refl. cbn [negb orb].
  replace (Nat.ltb (ch_ns c) k) with false by (symmetry; apply Nat.ltb_ge; lia).
  rewrite (jac_result _ _ _ _ _ k Hok (denotes_of_nat c k)).
  rewrite repeat_length, Hq, H4, Nat.eqb_refl. cbn [negb andb].
  replace (Nat.leb k (length (ch_segs c))) with true by (symmetry; apply Nat.leb_le; lia).
  cbn [obind]. rewrite Z.eqb_refl. cbn [negb].
  rewrite (fk_result _ _ _ k Hw (denotes_of_nat c k)), Hq, Nat.eqb_refl.
  replace (Nat.leb k (length (ch_segs c))) with true by (symmetry; apply Nat.leb_le; lia).
  cbn [obind]. rewrite Z.eqb_refl. cbn [negb].
  unfold represent in J.
  destruct H7 as [-> | [-> | ->]].
  - exact Hend.
  - change (BODYFIXED =? HYBRID)%Z with false in *. change (BODYFIXED =? BODYFIXED)%Z with true in *. cbn [negb].
    unfold jac_changeBase. rewrite !jac_inplace_map. cbn [obind]. exact Hend.
  - change (INERTIAL =? HYBRID)%Z with false in *. change (INERTIAL =? BODYFIXED)%Z with false in *.
    change (INERTIAL =? INERTIAL)%Z with true in *. cbn [negb].
    unfold jac_changeRefPoint. rewrite !jac_inplace_map. cbn [obind]. exact Hend.
Qed.

Lemma nth_map_seq {A} (f : nat -> A) m i d : (i < m)%nat -> nth i (map f (seq 0 m)) d = f i.
Proof.
  intros H. apply nth_error_nth. rewrite nth_error_map, (nth_error_nth' _ 0%nat) by (rewrite seq_length; auto).
  rewrite seq_nth by auto. reflexivity.
Qed.

Lemma pd_app_wsum rep m J r qd v : (m < length J)%nat ->
  wsum (fun j c => pd rep j m c v) 0 (J ++ repeat t_zero r) qd = wsum (fun j c => pd rep j m c v) 0 J qd.
Proof. intros H. apply wsum_app_zeros. intros j Hj. apply pd_zero_l. lia. Qed.

Lemma jacobian_at_eq c z k q : chain_ok c -> denotes c z k -> (k <= length (ch_segs c))%nat -> length q = ch_nj c ->
  jacobian_at c z q = jac_closed c (repeat false (ch_nj c)) q k.
Proof.
  intros Hok Hd Hk Hq. unfold jacobian_at. rewrite (jac_result _ _ _ _ _ k Hok Hd).
  unfold jacsolver_make, jac_make. rewrite !repeat_length, Hq, Nat.eqb_refl. cbn [negb andb].
  replace (Nat.leb k (length (ch_segs c))) with true by (symmetry; apply Nat.leb_le; lia). reflexivity.
Qed.
Lemma tip_at_eq c z k q : chain_wf c -> denotes c z k -> (k <= length (ch_segs c))%nat -> length q = ch_nj c ->
  tip_at c z q = tip_frame c q k.
Proof.
  intros Hw Hd Hk Hq. unfold tip_at. rewrite (fk_result _ _ _ k Hw Hd), Hq, Nat.eqb_refl.
  replace (Nat.leb k (length (ch_segs c))) with true by (symmetry; apply Nat.leb_le; lia). reflexivity.
Qed.

Lemma jd_cols_exact c z k rep q t qd : chain_ok c -> denotes c z k -> (k <= length (ch_segs c))%nat ->
  valid_rep rep -> joint_motion (ch_nj c) q t qd ->
  let m := count_moving (firstn k (ch_segs c)) in
  jd_exact c z rep q t
    (jdot_cols rep (represent rep (tip_frame c (q t) k) (jac_closed c (repeat false (ch_nj c)) (q t) k)) qd m
       ++ repeat t_zero (ch_nj c - m)).
Proof.
  intros Hok Hd Hk Hrep Hq m. pose proof Hok as [Hw Hseg]. pose proof Hq as (Hlq & Hlqd & _).
  assert (Hm : (m <= ch_nj c)%nat).
  { pose proof Hw as [_ Hnj]. unfold m. rewrite Hnj. apply count_moving_firstn. }
  split.
  { rewrite app_length, repeat_length. unfold jdot_cols. rewrite map_length, seq_length. lia. }
  intros i Hi.
  assert (Hfun : forall s, nth i (represent rep (tip_at c z (q s)) (jacobian_at c z (q s))) t_zero =
     rep_map rep (tip_frame c (q s) k) (nth i (jacl (firstn k (ch_segs c)) (q s) ++ repeat t_zero (ch_nj c - m)) t_zero)).
  { intros s. rewrite (jacobian_at_eq c z k), (tip_at_eq c z k) by auto. rewrite represent_map.
    rewrite nth_map_zero by apply rep_map_zero. rewrite jac_closed_nolock by auto. reflexivity. }
  destruct (Nat.lt_ge_cases i m) as [Him|Him].
  - assert (E : nth i (jdot_cols rep (represent rep (tip_frame c (q t) k) (jac_closed c (repeat false (ch_nj c)) (q t) k)) qd m
       ++ repeat t_zero (ch_nj c - m)) t_zero =
      (let J := represent rep (tip_frame c (q t) k) (jacl (firstn k (ch_segs c)) (q t)) in
       wsum (fun j c => pd rep j i c (nth i J t_zero)) 0 J qd)).
    { rewrite app_nth1 by (unfold jdot_cols; rewrite map_length, seq_length; auto).
      unfold jdot_cols. rewrite nth_map_seq by auto.
      rewrite !represent_map, !jac_closed_nolock by auto. fold m.
      rewrite map_app, repeat_zero_map by apply rep_map_zero. rewrite pd_app_wsum by (rewrite map_length, jacl_length; auto; rewrite Hlq; auto).
      rewrite app_nth1; [reflexivity|]. rewrite map_length, jacl_length; auto.
      rewrite Hlq. auto. }
    rewrite E. cbn zeta.
    eapply tw_derive_ext; [|apply (represented_derive rep (firstn k (ch_segs c)) (ch_nj c) q t qd Hrep
       (Forall_firstn' _ k _ Hseg) Hm Hq i Him)].
    intros s. cbv beta. rewrite Hfun.
    rewrite app_nth1; [reflexivity|]. rewrite jacl_length; auto. rewrite Hlq. auto.
  - rewrite app_nth2 by (unfold jdot_cols; rewrite map_length, seq_length; auto).
    rewrite nth_repeat.
    eapply tw_derive_ext; [|apply (tw_derive_const t_zero t)].
    intros s. cbv beta. rewrite Hfun.
    rewrite app_nth2; [rewrite nth_repeat, rep_map_zero; reflexivity|]. rewrite jacl_length; auto. rewrite Hlq. auto.
Qed.

Lemma jacdot_correct c st z k q t qd jdot : jd_history c st -> length (jd_locked st) = ch_nj c ->
  denotes c z k -> (k <= length (ch_segs c))%nat -> joint_motion (ch_nj c) q t qd -> length jdot = ch_nj c ->
  exists Jd st', jd_JntToJacDot c st (q t) qd jdot z = Ret (E_NOERROR, Jd, st') /\
    jd_exact c z (jd_rep st) q t Jd.
Proof.
  intros Hh Hl Hd Hk Hq Hj. destruct (jd_history_clean c st Hh) as [Hok [m Hm]].
  pose proof Hq as (Hlq & Hlqd & _).
  assert (m = ch_nj c) as ->.
  { destruct Hm as (H1 & _). rewrite H1, repeat_length in Hl. auto. }
  destruct (jd_result c st z k (q t) qd jdot Hok Hm Hd Hk (Hlq t) Hlqd Hj) as (st' & _ & _ & E).
  exists (jdot_cols (jd_rep st) (represent (jd_rep st) (tip_frame c (q t) k) (jac_closed c (repeat false (ch_nj c)) (q t) k)) qd
     (count_moving (firstn k (ch_segs c))) ++ repeat t_zero (ch_nj c - count_moving (firstn k (ch_segs c)))), st'.
  split; [exact E|]. apply jd_cols_exact; auto. apply Hm.
Qed.

Lemma jacdot_twist_correct c st z k q t qd tw : jd_history c st -> length (jd_locked st) = ch_nj c ->
  denotes c z k -> (k <= length (ch_segs c))%nat -> joint_motion (ch_nj c) q t qd ->
  exists Jd st', jd_JntToJacDot_twist c st (q t) qd tw z = Ret (E_NOERROR, jac_mul Jd qd, st') /\
    jd_exact c z (jd_rep st) q t Jd.
Proof.
  intros Hh Hl Hd Hk Hq. destruct (jd_history_clean c st Hh) as [Hok [m Hm]].
  assert (m = ch_nj c) as ->.
  { destruct Hm as (H1 & _). rewrite H1, repeat_length in Hl. auto. }
  assert (Hj : length (jd_jdot st) = ch_nj c) by apply Hm.
  destruct (jacdot_correct c st z k q t qd (jd_jdot st) Hh Hl Hd Hk Hq Hj) as (Jd & st' & E & HJ).
  pose proof Hq as (Hlq & Hlqd & _).
  unfold jd_JntToJacDot_twist. rewrite E. cbn [obind]. rewrite Z.eqb_refl. cbn [negb].
  unfold MultiplyJacobian. destruct HJ as [HJ1 HJ2]. rewrite HJ1, Hlqd, Nat.eqb_refl. cbn [obind].
  eexists Jd, _. split; [reflexivity|]. split; auto.
Qed.

(** * A lock mask makes the column loop leave the matrix *)
Lemma jd_locked_overflow c locked J qd rep jdot : chain_wf c -> (length jdot < ch_nj c)%nat ->
  for_loop (ch_ns c) 0 (jd_body c locked J qd rep) (0%nat, t_zero, jdot) = Undef.
Proof.
  intros Hw Hlt. pose proof Hw as [Hs Hnj].
  destruct (for_loop (ch_ns c) 0 (jd_body c locked J qd rep) (0%nat, t_zero, jdot)) as [[[k' a'] jd']|] eqn:E; auto.
  exfalso.
  apply (for_loop_pinv (fun i (st : nat * Twist * list Twist) =>
     fst (fst st) = count_moving (firstn i (ch_segs c)) /\ length (snd st) = length jdot /\
     (count_moving (firstn i (ch_segs c)) <= length jdot)%nat)) in E.
  - destruct E as (_ & _ & E). simpl in E. rewrite Hs, firstn_all, <- Hnj in E. lia.
  - intros k [[kk a] jd] st' Hk (H1 & H2 & H3) Eb. cbn [fst snd] in *. unfold jd_body in Eb.
    apply obind_Ret_inv in Eb. destruct Eb as (s & Es & Eb).
    assert (En : nth_error (ch_segs c) k = Some s).
    { unfold chain_getSegment, aget in Es. destruct (nth_error (ch_segs c) k); [injection Es as ->; auto|discriminate]. }
    rewrite (firstn_snoc _ _ _ En), count_moving_app. unfold count_moving at 2 4. cbn [filter].
    destruct (moving s) eqn:Em.
    + apply obind_Ret_inv in Eb. destruct Eb as (a2 & Ea2 & Eb).
      apply obind_Ret_inv in Eb. destruct Eb as (jd'' & Ejd & Eb). injection Eb as <-.
      unfold jac_setColumn in Ejd. apply aset_Ret_inv in Ejd. destruct Ejd as [Hb ->].
      cbn [fst snd length]. rewrite upd_length. repeat split; auto; lia.
    + injection Eb as <-. cbn [fst snd length]. repeat split; auto; lia.
  - repeat split; auto. simpl. unfold count_moving; simpl. lia.
Qed.

Lemma jd_locked_undef c st mask q qd jdot z : jd_history c st -> length (jd_locked st) = ch_nj c ->
  denotes c z (length (ch_segs c)) -> length q = ch_nj c -> length mask = ch_nj c -> In true mask ->
  length jdot = length (filter negb mask) ->
  exists st', jdsolver_setLocked st mask = (E_NOERROR, st') /\
    jd_JntToJacDot c st' q qd jdot z = Undef.
Proof.
  intros Hh Hl Hd Hq Hm Hin Hj. destruct (jd_history_clean c st Hh) as [Hok [n Hn]].
  assert (n = ch_nj c) as ->.
  { destruct Hn as (H1 & _). rewrite H1, repeat_length in Hl. auto. }
  unfold jdsolver_setLocked. rewrite Hm, Hl, Nat.eqb_refl. cbn [negb]. eexists; split; [reflexivity|].
  destruct st as [lk un inn jj jdt rp ac].
  destruct Hn as (H1 & H2 & H3 & H4 & H5 & H6 & H7).
  cbn [jd_locked jd_unlocked jd_inner jd_jac jd_jdot jd_acc jd_rep] in *. subst lk un inn ac.
  pose proof Hok as [Hw _]. pose proof Hw as [Hs Hnj].
  pose proof (proj1 (denotes_segment_nr _ _ _ Hw) Hd) as Hseg.
  assert (Hlt : (length (jac_zero jdot) < ch_nj c)%nat).
  { unfold jac_zero. rewrite map_length, Hj, <- Hm. clear -Hin.
    induction mask as [|b m IH]; [destruct Hin|]. destruct b; simpl.
    - apply Nat.lt_succ_r. clear. induction m as [|b m IH]; simpl; auto. destruct b; simpl; lia.
    - destruct Hin as [H|H]; [discriminate|]. specialize (IH H). lia. }
  unfold jd_JntToJacDot. rewrite Hseg. cbn zeta.
  cbn [jd_locked jd_unlocked jd_inner jd_jac jd_jdot jd_acc jd_rep].
  rewrite Hm, Nat.eqb_refl. cbn [negb].
  rewrite Hq, Hj, !Nat.eqb_refl. cbn [negb orb]. rewrite <- Hs.
  rewrite Nat.ltb_irrefl.
  rewrite (jac_result _ _ _ _ _ (ch_ns c) Hok (denotes_of_nat c (ch_ns c))).
  rewrite repeat_length, Hq, H4, Nat.eqb_refl. cbn [negb andb].
  replace (Nat.leb (ch_ns c) (length (ch_segs c))) with true by (symmetry; apply Nat.leb_le; lia).
  cbn [obind]. rewrite Z.eqb_refl. cbn [negb].
  rewrite (fk_result _ _ _ (ch_ns c) Hw (denotes_of_nat c (ch_ns c))), Hq, Nat.eqb_refl.
  replace (Nat.leb (ch_ns c) (length (ch_segs c))) with true by (symmetry; apply Nat.leb_le; lia).
  cbn [obind]. rewrite Z.eqb_refl. cbn [negb].
  destruct H7 as [-> | [-> | ->]].
  - change (HYBRID =? HYBRID)%Z with true. cbn [negb]. rewrite jd_locked_overflow by auto. reflexivity.
  - change (BODYFIXED =? HYBRID)%Z with false. change (BODYFIXED =? BODYFIXED)%Z with true. cbn [negb].
    unfold jac_changeBase. rewrite !jac_inplace_map. cbn [obind]. rewrite jd_locked_overflow by auto. reflexivity.
  - change (INERTIAL =? HYBRID)%Z with false. change (INERTIAL =? BODYFIXED)%Z with false.
    change (INERTIAL =? INERTIAL)%Z with true. cbn [negb].
    unfold jac_changeRefPoint. rewrite !jac_inplace_map. cbn [obind]. rewrite jd_locked_overflow by auto. reflexivity.
Qed.
