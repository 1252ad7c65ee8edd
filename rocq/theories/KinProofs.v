(** Proofs about joints, segments, chains and forward kinematics. *)
From Coq Require Import Reals List ZArith Bool Arith Lia Lra.
From Verif Require Import FramesModel FramesSpec FramesProofs RotationProofs FrameOpsProofs
  Outcome LoopProofs InertiaModel DualModel KinModel KinSpec DerivProofs.
Import ListNotations.
Local Open Scope R_scope.

Lemma rigid_of_rot r : is_rotation r -> rigid (f_of_rot r). Proof. intros H; exact H. Qed.
Lemma rigid_of_vec v : rigid (f_of_vec v). Proof. apply is_rotation_id. Qed.

(** * Joints *)
Lemma joint_pose_rigid j q : joint_ok j -> rigid (joint_pose j q).
Proof.
  intros H. unfold joint_pose. destruct (jtype j) eqn:E;
    try apply rigid_of_vec; try apply rigid_id; try apply rigid_of_rot.
  - apply is_rotation_Rot2. apply H; auto.
  - apply is_rotation_RotX.
  - apply is_rotation_RotY.
  - apply is_rotation_RotZ.
Qed.

Lemma joint_twist_scale j x : joint_twist j x = t_scale (joint_twist j 1) x.
Proof. unfold joint_twist. destruct (jtype j); geo. Qed.

Lemma joint_twist_fixed j x : jtype j = Fixed -> joint_twist j x = t_zero.
Proof. intros E. unfold joint_twist. rewrite E. reflexivity. Qed.

Lemma frame_velocity_rot n a t da p : unit_vector n -> derivable_pt_lim a t da ->
  frame_velocity (fun s => mkF (r_Rot2 n (a s)) p) t (mkT v_zero (v_scale n da)).
Proof.
  intros Hn Ha. apply frame_velocity_entries. cbn [fM fp tvel trot]. split.
  - apply v_derive_const.
  - apply Rot2_derive; auto.
Qed.

Lemma frame_velocity_trans p t dp : v_derive p t dp ->
  frame_velocity (fun s => f_of_vec (p s)) t (mkT dp v_zero).
Proof.
  intros Hp. apply frame_velocity_entries. unfold f_of_vec. cbn [fM fp tvel trot]. split; auto.
  eapply r_derive_eq; [apply r_derive_const|]. unfold r_spin, m3_zero. geo.
Qed.

Lemma unit_e1 : unit_vector (mkV 1 0 0). Proof. unfold unit_vector; psimp; ring. Qed.
Lemma unit_e2 : unit_vector (mkV 0 1 0). Proof. unfold unit_vector; psimp; ring. Qed.
Lemma unit_e3 : unit_vector (mkV 0 0 1). Proof. unfold unit_vector; psimp; ring. Qed.

Lemma joint_velocity j q t qd : joint_ok j -> derivable_pt_lim q t qd ->
  frame_velocity (fun s => joint_pose j (q s)) t (joint_twist j qd).
Proof.
  intros Hj Hq.
  assert (Ha : derivable_pt_lim (fun s => jscale j * q s + joffset j) t (jscale j * qd)) by dl.
  unfold joint_pose, joint_twist. destruct (jtype j) eqn:E; cbn zeta.
  - eapply frame_velocity_eq; [apply frame_velocity_rot; [apply Hj; auto | exact Ha]|]. geo.
  - eapply frame_velocity_eq; [eapply frame_velocity_ext;
      [|apply (frame_velocity_rot _ _ _ _ v_zero unit_e1 Ha)]|].
    + intros s. cbv beta. rewrite RotX_Rot2. reflexivity.
    + geo.
  - eapply frame_velocity_eq; [eapply frame_velocity_ext;
      [|apply (frame_velocity_rot _ _ _ _ v_zero unit_e2 Ha)]|].
    + intros s. cbv beta. rewrite RotY_Rot2. reflexivity.
    + geo.
  - eapply frame_velocity_eq; [eapply frame_velocity_ext;
      [|apply (frame_velocity_rot _ _ _ _ v_zero unit_e3 Ha)]|].
    + intros s. cbv beta. rewrite RotZ_Rot2. reflexivity.
    + geo.
  - eapply frame_velocity_eq; [apply frame_velocity_trans|reflexivity].
    repeat split; cbn [v_add v_scale vx vy vz]; dl.
  - eapply frame_velocity_eq; [apply frame_velocity_trans|reflexivity].
    repeat split; cbn [vx vy vz]; dl.
  - eapply frame_velocity_eq; [apply frame_velocity_trans|reflexivity].
    repeat split; cbn [vx vy vz]; dl.
  - eapply frame_velocity_eq; [apply frame_velocity_trans|reflexivity].
    repeat split; cbn [vx vy vz]; dl.
  - apply frame_velocity_const.
Qed.

(** Constructors give usable joints. *)
Lemma v_div_norm_unit v : kdl_epsilon <= max_abs v -> unit_vector (v_div v (v_norm v)).
Proof.
  intros H. unfold v_norm. rewrite v_norm_eps_exact by (auto using kdl_epsilon_pos).
  assert (Hp : 0 < euclid_norm v).
  { eapply Rlt_le_trans; [apply kdl_epsilon_pos|]. eapply Rle_trans; [exact H|apply max_abs_le_norm]. }
  pose proof (euclid_norm_sq v) as Hs. unfold unit_vector, v_div. psimp.
  set (n := euclid_norm v) in *. 
  replace ((vx v / n) ^ 2 + (vy v / n) ^ 2 + (vz v / n) ^ 2)
    with ((vx v ^ 2 + vy v ^ 2 + vz v ^ 2) / (n * n)) by (field; lra).
  rewrite <- Hs. field. lra.
Qed.

Lemma joint_make_ok name ty sc off i d st j : joint_make name ty sc off i d st = Made j -> joint_ok j.
Proof. unfold joint_make, joint_ok. destruct ty; intros E; try discriminate; injection E as <-; simpl; discriminate. Qed.

Lemma joint_make_axis_ok name o a ty sc off i d st j : kdl_epsilon <= max_abs a ->
  joint_make_axis name o a ty sc off i d st = Made j -> joint_ok j.
Proof.
  intros H. unfold joint_make_axis, joint_ok.
  destruct ty; intros E; try discriminate; injection E as <-; simpl; try discriminate.
  intros _. apply v_div_norm_unit; auto.
Qed.

(** * Segments *)
Lemma segment_pose_rigid s q : segment_ok s -> rigid (segment_pose s q).
Proof. intros [Hj Ht]. apply rigid_mul; auto. apply joint_pose_rigid; auto. Qed.

Lemma segment_velocity s q t qd : segment_ok s -> derivable_pt_lim q t qd ->
  frame_velocity (fun u => segment_pose s (q u)) t (segment_twist s (q t) qd).
Proof.
  intros [Hj Ht] Hq.
  pose proof (frame_velocity_mul (fun u => joint_pose (sjoint s) (q u)) (fun _ => sf_tip s) t _ _
    (joint_pose_rigid _ _ Hj) (joint_velocity _ _ _ _ Hj Hq) (frame_velocity_const _ t)) as H.
  eapply frame_velocity_eq; [exact H|]. unfold segment_twist. geo.
Qed.

Lemma segment_twist_scale s q x : segment_twist s q x = t_scale (segment_twist s q 1) x.
Proof. unfold segment_twist. rewrite (joint_twist_scale _ x). geo. Qed.

Lemma t_RefPoint_zero p : t_RefPoint t_zero p = t_zero. Proof. geo. Qed.
Lemma r_app_t_zero r : r_app_t r t_zero = t_zero. Proof. geo. Qed.

Lemma segment_twist_fixed s q x : moving s = false -> segment_twist s q x = t_zero.
Proof.
  unfold moving, segment_twist, isFixed. intros H. rewrite joint_twist_fixed.
  - apply t_RefPoint_zero.
  - destruct (jtype (sjoint s)); simpl in H; congruence.
Qed.

Lemma joint_pose_fixed j q : isFixed (jtype j) = true -> joint_pose j q = f_id.
Proof. unfold joint_pose. destruct (jtype j); simpl; try discriminate. reflexivity. Qed.

Lemma segment_pose_fixed s q : moving s = false -> segment_pose s q = sf_tip s.
Proof.
  unfold moving, segment_pose. intros H. rewrite joint_pose_fixed, f_mul_id_l; auto.
  destruct (isFixed _); simpl in H; congruence.
Qed.

Lemma segment_tip name j f I : joint_ok j -> let s := segment_make name j f I in
  segment_pose s 0 = f /\ segment_getFrameToTip s = f.
Proof.
  intros Hj. unfold segment_make, segment_pose, segment_getFrameToTip. cbn [sjoint sf_tip].
  rewrite <- f_mul_assoc, f_inv_r, f_mul_id_l; auto. apply joint_pose_rigid; auto.
Qed.

Lemma segment_setTip s f : joint_ok (sjoint s) -> let s' := segment_setFrameToTip s f in
  segment_pose s' 0 = f /\ segment_getFrameToTip s' = f /\ sjoint s' = sjoint s /\ sname s' = sname s /\ sI s' = sI s.
Proof.
  intros Hj. unfold segment_setFrameToTip, segment_pose, segment_getFrameToTip. cbn [sjoint sf_tip sname sI].
  rewrite <- f_mul_assoc, f_inv_r, f_mul_id_l; auto. apply joint_pose_rigid; auto.
Qed.

(** Moving the joint away from zero moves the tip by the joint's own motion. *)
Lemma segment_pose_from_tip name j f I q : joint_ok j ->
  segment_pose (segment_make name j f I) q = f_mul (f_mul (joint_pose j q) (f_inv (joint_pose j 0))) f.
Proof. intros Hj. unfold segment_pose, segment_make. cbn [sjoint sf_tip]. rewrite f_mul_assoc. reflexivity. Qed.

Lemma segment_make_ok name j f I : joint_ok j -> rigid f -> segment_ok (segment_make name j f I).
Proof.
  intros Hj Hf. split; auto. unfold segment_make; cbn [sf_tip]. apply rigid_mul; auto.
  apply rigid_inv, joint_pose_rigid; auto.
Qed.
Lemma segment_copy_id s : segment_copy s = s. Proof. destruct s; reflexivity. Qed.
Lemma segment_assign_id o s : segment_assign o s = s. Proof. destruct s; reflexivity. Qed.

(** * Chains *)
Lemma count_moving_app a b : count_moving (a ++ b) = (count_moving a + count_moving b)%nat.
Proof. unfold count_moving. rewrite filter_app, app_length. reflexivity. Qed.

Lemma count_moving_firstn n l : (count_moving (firstn n l) <= count_moving l)%nat.
Proof. rewrite <- (firstn_skipn n l) at 2. rewrite count_moving_app. lia. Qed.

Lemma add_all (l : list Segment) : forall c,
  fold_left (fun o x => let! st := o in Ret (chain_addSegment st x)) l (Ret c) =
  Ret (mkCh (ch_nj c + count_moving l) (ch_ns c + length l) (ch_segs c ++ l)).
Proof.
  induction l as [|s l IH]; intros c; simpl.
  - rewrite !Nat.add_0_r, app_nil_r. destruct c; reflexivity.
  - rewrite IH. unfold chain_addSegment. cbn [ch_nj ch_ns ch_segs].
    rewrite <- app_assoc. simpl. f_equal. f_equal; [|lia].
    unfold count_moving. simpl. destruct (moving s); simpl; lia.
Qed.

Lemma add_loop c d : chain_wf d ->
  for_loop (ch_ns d) 0 (fun i acc => let! s := chain_getSegment d i in Ret (chain_addSegment acc s)) c =
  Ret (mkCh (ch_nj c + ch_nj d) (ch_ns c + ch_ns d) (ch_segs c ++ ch_segs d)).
Proof.
  intros [Hn Hj]. rewrite Hn, Hj. rewrite <- add_all.
  apply (for_loop_list (ch_segs d) _ (fun x st => Ret (chain_addSegment st x)) []).
  intros p x r st E _. simpl in E. unfold chain_getSegment. rewrite E, aget_app. reflexivity.
Qed.

Definition chain_of (l : list Segment) : Chain := mkCh (count_moving l) (length l) l.

Lemma chain_of_wf l : chain_wf (chain_of l). Proof. split; reflexivity. Qed.
Lemma chain_wf_of c : chain_wf c -> c = chain_of (ch_segs c).
Proof. intros [H1 H2]. destruct c as [a b l]. simpl in *. subst. reflexivity. Qed.

Lemma add_of a b : mkCh (count_moving a + count_moving b) (length a + length b) (a ++ b) = chain_of (a ++ b).
Proof. unfold chain_of. rewrite count_moving_app, app_length. reflexivity. Qed.

Lemma chain_add_of a s : chain_addSegment (chain_of a) s = chain_of (a ++ [s]).
Proof.
  rewrite <- add_of. unfold chain_addSegment, chain_of. cbn [ch_nj ch_ns ch_segs].
  unfold count_moving at 4. simpl. destruct (moving s); simpl; f_equal; lia.
Qed.
Lemma chain_addChain_of a b : chain_addChain (chain_of a) (chain_of b) = Ret (chain_of (a ++ b)).
Proof. unfold chain_addChain. rewrite add_loop by apply chain_of_wf. rewrite <- add_of. reflexivity. Qed.
Lemma chain_copy_of a : chain_copy (chain_of a) = Ret (chain_of a).
Proof. unfold chain_copy. rewrite add_loop by apply chain_of_wf. reflexivity. Qed.
Lemma chain_assign_of c a : chain_assign c (chain_of a) = Ret (chain_of a).
Proof. unfold chain_assign. rewrite add_loop by apply chain_of_wf. reflexivity. Qed.
Lemma chain_setTip_of p s r f :
  chain_setFrameToTip (chain_of (p ++ s :: r)) (length p) f = Ret (chain_of (p ++ segment_setFrameToTip s f :: r)).
Proof.
  unfold chain_setFrameToTip, chain_of. cbn [ch_segs ch_nj ch_ns]. rewrite aget_app. simpl.
  rewrite aset_mid. simpl. f_equal. f_equal.
  - rewrite !count_moving_app. f_equal. unfold count_moving. simpl.
    change (moving (segment_setFrameToTip s f)) with (moving s). destruct (moving s); reflexivity.
  - rewrite !app_length. reflexivity.
Qed.

Lemma built_chain_of c l : built c l -> c = chain_of l.
Proof.
  induction 1 as [| c l s H IH | c l d m e H1 IH1 H2 IH2 E | c l e H IH E | c l d m e H1 IH1 H2 IH2 E
                 | c p s r i f e H IH L E].
  - reflexivity.
  - subst c. apply chain_add_of.
  - subst c d. rewrite chain_addChain_of in E. congruence.
  - subst c. rewrite chain_copy_of in E. congruence.
  - subst c d. rewrite chain_assign_of in E. congruence.
  - subst c i. rewrite chain_setTip_of in E. congruence.
Qed.

Lemma built_facts c l : built c l ->
  ch_ns c = length l /\ ch_nj c = count_moving l /\
  (forall i, (i < length l)%nat -> exists s, nth_error l i = Some s /\ chain_getSegment c i = Ret s).
Proof.
  intros H. apply built_chain_of in H. subst c. repeat split.
  intros i Hi. unfold chain_getSegment. cbn [chain_of ch_segs].
  destruct (aget_ret l i Hi) as (a & E1 & E2). eauto.
Qed.

Lemma built_progress c l d m : built c l -> built d m ->
  (exists e, chain_addChain c d = Ret e) /\ (exists e, chain_copy c = Ret e) /\
  (exists e, chain_assign c d = Ret e) /\
  (forall i f, (i < length l)%nat -> exists e, chain_setFrameToTip c i f = Ret e).
Proof.
  intros H1 H2. apply built_chain_of in H1, H2. subst.
  rewrite chain_addChain_of, chain_copy_of, chain_assign_of.
  repeat split; try (eexists; reflexivity).
  intros i f Hi. destruct (nth_error l i) as [s|] eqn:E; [|apply nth_error_None in E; lia].
  destruct (nth_error_split3 _ _ _ E) as [E1 E2].
  pose proof (chain_setTip_of (firstn i l) s (skipn (S i) l) f) as H. rewrite E2, <- E1 in H. eauto.
Qed.

Lemma chain_self_assign c : chain_assign_self c = Ret chain_empty. Proof. reflexivity. Qed.

Lemma chain_addChain_self_diverges fuel : forall i c, chain_wf c -> (i < ch_ns c)%nat ->
  chain_addChain_self fuel i c = None.
Proof.
  induction fuel as [|f IH]; intros i c Hw Hi; simpl.
  - apply Nat.ltb_lt in Hi. rewrite Hi. reflexivity.
  - pose proof Hi as Hi'. apply Nat.ltb_lt in Hi. rewrite Hi.
    unfold chain_getSegment. destruct (aget_ret (ch_segs c) i) as (s & E & _).
    { destruct Hw; lia. }
    rewrite E. rewrite (chain_wf_of c Hw), chain_add_of. apply IH.
    + apply chain_of_wf.
    + cbn [chain_of ch_ns]. rewrite app_length. simpl. destruct Hw; lia.
Qed.

(** * Forward position kinematics *)
Lemma assign_app l : forall q m,
  (count_moving l <= length q)%nat ->
  assign (l ++ m) q = assign l q ++ assign m (skipn (count_moving l) q).
Proof.
  induction l as [|s l IH]; intros q m H; simpl; auto.
  unfold count_moving in *. simpl in *. destruct (moving s); simpl in *.
  - destruct q as [|x q]; simpl in *; [lia|]. rewrite IH by lia. reflexivity.
  - rewrite IH by lia. reflexivity.
Qed.

Lemma pose_product_app a b : pose_product (a ++ b) = f_mul (pose_product a) (pose_product b).
Proof.
  induction a as [|[s x] a IH]; simpl.
  - rewrite f_mul_id_l. reflexivity.
  - rewrite IH, f_mul_assoc. reflexivity.
Qed.

(** Extending by one segment. *)
Lemma assign_snoc l s q : (count_moving l <= length q)%nat ->
  assign (l ++ [s]) q = assign l q ++
    (if moving s then match nth_error q (count_moving l) with Some x => [(s, x)] | None => [] end else [(s, 0)]).
Proof.
  intros H. rewrite assign_app by auto. f_equal. simpl. destruct (moving s); auto.
  destruct (nth_error q (count_moving l)) as [x|] eqn:E.
  - destruct (nth_error_split3 _ _ _ E) as [E1 E2]. rewrite E1 at 1. rewrite <- E2 at 1.
    rewrite skipn_app, skipn_all, Nat.sub_diag. reflexivity.
  - apply nth_error_None in E. rewrite skipn_all2 by lia. reflexivity.
Qed.

Lemma aget_nth_error {A} (l : list A) i x : nth_error l i = Some x -> aget l i = Ret x.
Proof. intros E. unfold aget. rewrite E. reflexivity. Qed.

Lemma count_snoc k l s : nth_error l k = Some s ->
  count_moving (firstn (S k) l) = (count_moving (firstn k l) + if moving s then 1 else 0)%nat.
Proof.
  intros E. rewrite (firstn_snoc _ _ _ E), count_moving_app. f_equal.
  unfold count_moving. simpl. destruct (moving s); reflexivity.
Qed.

Lemma mover_index segs k s : nth_error segs k = Some s -> moving s = true ->
  (count_moving (firstn k segs) < count_moving segs)%nat.
Proof.
  intros E Hm. pose proof (count_snoc k segs s E) as H. rewrite Hm in H.
  pose proof (count_moving_firstn (S k) segs). lia.
Qed.

Lemma tip_frame_S c q k s x : (count_moving (firstn k (ch_segs c)) <= length q)%nat ->
  nth_error (ch_segs c) k = Some s ->
  (if moving s then nth_error q (count_moving (firstn k (ch_segs c))) = Some x else x = 0) ->
  tip_frame c q (S k) = f_mul (tip_frame c q k) (segment_pose s x).
Proof.
  intros Hle En Hx. unfold tip_frame. rewrite (firstn_snoc _ _ _ En), assign_snoc by lia.
  rewrite pose_product_app. destruct (moving s); [rewrite Hx | subst x]; simpl; rewrite f_mul_id_r; reflexivity.
Qed.

(** At a valid segment index the loop finds the segment and its joint value. *)
Lemma chain_lookup c q k : chain_wf c -> length q = ch_nj c -> (k < ch_ns c)%nat ->
  exists s x, nth_error (ch_segs c) k = Some s /\ chain_getSegment c k = Ret s /\
    (count_moving (firstn k (ch_segs c)) <= length q)%nat /\
    (if moving s then nth_error q (count_moving (firstn k (ch_segs c))) = Some x else x = 0) /\
    ((moving s) = true -> (aget q (count_moving (firstn k (ch_segs c)))) = Ret x) /\
    count_moving (firstn (S k) (ch_segs c)) =
      (count_moving (firstn k (ch_segs c)) + (if moving s then 1 else 0))%nat.
Proof.
  intros [Hs Hj] Hq Hk. destruct (aget_ret (ch_segs c) k) as (s & Es & En); [lia|].
  pose proof (count_snoc k _ s En) as Hc. pose proof (count_moving_firstn k (ch_segs c)) as Hle.
  destruct (moving s) eqn:Em.
  - pose proof (mover_index _ _ _ En Em).
    destruct (aget_ret q (count_moving (firstn k (ch_segs c)))) as (x & Ex & Exn); [lia|].
    exists s, x. rewrite Em. repeat split; auto. lia.
  - exists s, 0. rewrite Em. repeat split; auto; [lia|discriminate].
Qed.

Lemma fk_loop c q n : chain_wf c -> length q = ch_nj c -> (n <= ch_ns c)%nat ->
  for_loop n 0 (fk_body c q) (0%nat, f_id) =
  Ret (count_moving (firstn n (ch_segs c)), tip_frame c q n).
Proof.
  intros Hw Hq Hn.
  destruct (for_loop_inv (fun k st => st = (count_moving (firstn k (ch_segs c)), tip_frame c q k))
              (fk_body c q) n 0 (0%nat, f_id)) as (s' & E & H).
  - intros k st Hk ->. unfold fk_body.
    destruct (chain_lookup c q k Hw Hq) as (s & x & En & Es & Hle & Hx & Ha & Hc); [lia|].
    rewrite Es. cbn [obind]. rewrite Hc, (tip_frame_S c q k s x Hle En Hx).
    destruct (moving s).
    + rewrite (Ha eq_refl). cbn [obind]. eexists; split; [reflexivity|]. f_equal. lia.
    + subst x. eexists; split; [reflexivity|]. f_equal. lia.
  - reflexivity.
  - rewrite E, H. reflexivity.
Qed.

Lemma denotes_segment_nr c z k : chain_wf c -> denotes c z k <-> segment_nr c z = k.
Proof.
  intros [Hs _]. unfold denotes, segment_nr. destruct (z <? 0)%Z eqn:E.
  - apply Z.ltb_lt in E. rewrite Hs. split; [intros [[_ H]|[H _]]; lia | intros <-; left; auto].
  - apply Z.ltb_ge in E. split; [intros [[H _]|[_ H]]; lia | intros <-; right; split; auto; lia].
Qed.

Lemma fk_result c q z k : chain_wf c -> denotes c z k ->
  fk_JntToCart c q z = Ret
    (if Nat.eqb (length q) (ch_nj c)
     then if Nat.leb k (length (ch_segs c)) then (E_NOERROR, tip_frame c q k) else (E_OUT_OF_RANGE, f_id)
     else (E_SIZE_MISMATCH, f_id)).
Proof.
  intros Hw Hd. apply (denotes_segment_nr _ _ _ Hw) in Hd. unfold fk_JntToCart. rewrite Hd. cbn zeta.
  destruct (Nat.eqb (length q) (ch_nj c)) eqn:Eq; simpl; auto.
  apply Nat.eqb_eq in Eq. pose proof Hw as [Hs Hj].
  rewrite Nat.ltb_antisym. rewrite Hs. destruct (Nat.leb k (length (ch_segs c))) eqn:El; simpl; auto.
  apply Nat.leb_le in El. rewrite fk_loop by (auto; lia). reflexivity.
Qed.

Lemma Forall_firstn' {A} (P : A -> Prop) k l : Forall P l -> Forall P (firstn k l).
Proof. intros H. rewrite <- (firstn_skipn k l) in H. apply Forall_app in H. tauto. Qed.

Lemma pose_product_rigid l q : Forall segment_ok l -> rigid (pose_product (assign l q)).
Proof.
  revert q; induction l as [|s l IH]; intros q H; simpl; [apply rigid_id|].
  inversion H as [|s' l' Hs Hl E]; subst.
  destruct (moving s); [destruct q as [|x q]; [apply rigid_id|]|];
    simpl; apply rigid_mul; auto; apply segment_pose_rigid; auto.
Qed.

Lemma tip_frame_rigid c q k : chain_ok c -> rigid (tip_frame c q k).
Proof. intros [_ H]. apply pose_product_rigid, Forall_firstn', H. Qed.

Lemma assign_enough l : forall q q', (count_moving l <= length q)%nat -> assign l (q ++ q') = assign l q.
Proof.
  induction l as [|s l IH]; intros q q' H; simpl; auto.
  unfold count_moving in *. simpl in *. destruct (moving s); simpl in *.
  - destruct q as [|x q]; simpl in *; [lia|]. rewrite IH by lia. reflexivity.
  - rewrite IH by lia. reflexivity.
Qed.

Lemma fk_concat c d e q r : chain_wf c -> chain_wf d -> chain_addChain c d = Ret e ->
  length q = ch_nj c -> length r = ch_nj d ->
  exists fc fd, fk_JntToCart c q (-1) = Ret (E_NOERROR, fc) /\ fk_JntToCart d r (-1) = Ret (E_NOERROR, fd) /\
  fk_JntToCart e (q ++ r) (-1) = Ret (E_NOERROR, f_mul fc fd).
Proof.
  intros Hc Hd E Hq Hr. pose proof Hc as [Hc1 Hc2]. pose proof Hd as [Hd1 Hd2].
  rewrite (chain_wf_of c Hc), (chain_wf_of d Hd), chain_addChain_of in E. injection E as <-.
  exists (tip_frame c q (length (ch_segs c))), (tip_frame d r (length (ch_segs d))).
  rewrite (fk_result c q (-1) (length (ch_segs c))); auto; [|left; split; [lia|auto]].
  rewrite (fk_result d r (-1) (length (ch_segs d))); auto; [|left; split; [lia|auto]].
  rewrite (fk_result (chain_of (ch_segs c ++ ch_segs d)) (q ++ r) (-1) (length (ch_segs c ++ ch_segs d)));
    [|apply chain_of_wf|left; split; [lia|auto]].
  rewrite Hq, Hr, !Nat.eqb_refl, !Nat.leb_refl. cbn [chain_of ch_segs ch_nj].
  rewrite app_length, Hq, Hr, Hc2, Hd2, count_moving_app, Nat.eqb_refl. rewrite ?Nat.leb_refl. repeat split.
  unfold tip_frame. cbn [chain_of ch_segs]. rewrite !firstn_all.
  rewrite assign_app by (rewrite app_length; lia).
  rewrite assign_enough by lia. rewrite pose_product_app.
  rewrite skipn_app, skipn_all2 by lia.
  replace (count_moving (ch_segs c) - length q)%nat with 0%nat by lia. reflexivity.
Qed.

(** * Vector version *)
Lemma fk_vec_loop c q n : chain_wf c -> length q = ch_nj c -> (n <= ch_ns c)%nat -> (0 < n)%nat ->
  forall (ps : list Frame), length ps = n ->
  exists out, length out = n /\
    fk_JntToCart_vec c q ps (Z.of_nat n) = Ret (0%Z, out) /\
    forall i, (i < n)%nat -> nth_error out i = Some (tip_frame c q (S i)).
Proof.
  intros Hw Hq Hn Hn0 ps Hps. pose proof Hw as [Hs Hj]. unfold fk_JntToCart_vec, segment_nr.
  replace (Z.of_nat n <? 0)%Z with false by (symmetry; apply Z.ltb_ge; lia). rewrite Nat2Z.id.
  rewrite Hq, Nat.eqb_refl. simpl negb.
  replace (Nat.ltb (ch_ns c) n) with false by (symmetry; apply Nat.ltb_ge; lia).
  rewrite Hps, Nat.eqb_refl. simpl negb. replace (Nat.eqb n 0) with false by (symmetry; apply Nat.eqb_neq; lia).
  cbv iota.
  pose (Inv := fun k (st : nat * list Frame) =>
    fst st = count_moving (firstn k (ch_segs c)) /\ length (snd st) = n /\
    forall i, (i < k)%nat -> nth_error (snd st) i = Some (tip_frame c q (S i))).
  destruct (chain_lookup c q 0 Hw Hq) as (s0 & x0 & En0 & Es0 & Hle0 & Hx0 & Ha0 & Hc0); [lia|].
  rewrite Es0. cbn [obind].
  pose proof (tip_frame_S c q 0 s0 x0 Hle0 En0 Hx0) as Htip0.
  change (tip_frame c q 0) with f_id in Htip0. rewrite f_mul_id_l in Htip0.
  change (count_moving (firstn 0 (ch_segs c))) with 0%nat in *.
  assert (H0 : exists st0,
     (if moving s0 then let! x := aget q 0 in let! ps0 := aset ps 0 (segment_pose s0 x) in Ret (1%nat, ps0)
      else let! ps0 := aset ps 0 (segment_pose s0 0) in Ret (0%nat, ps0)) = Ret st0 /\ Inv 1%nat st0).
  { destruct (moving s0).
    - rewrite (Ha0 eq_refl). cbn [obind]. rewrite aset_ret by lia. cbn [obind].
      eexists; split; [reflexivity|]. unfold Inv; cbn [fst snd].
      split; [lia|]. split; [rewrite upd_length; auto|]. intros i Hi. assert (i = 0)%nat by lia. subst i.
      rewrite nth_error_upd_same by lia. rewrite Htip0. reflexivity.
    - subst x0. rewrite aset_ret by lia. cbn [obind].
      eexists; split; [reflexivity|]. unfold Inv; cbn [fst snd].
      split; [lia|]. split; [rewrite upd_length; auto|]. intros i Hi. assert (i = 0)%nat by lia. subst i.
      rewrite nth_error_upd_same by lia. rewrite Htip0. reflexivity. }
  destruct H0 as (st0 & Est0 & HI0). rewrite Est0. cbn [obind].
  destruct (for_loop_inv Inv (fk_vec_body c q) (n - 1) 1 st0) as (st' & E' & (Hfst & Hlen & Hall)); auto.
  - intros k [j out] Hk (Hf & Hl & Hall). simpl in Hf, Hl, Hall. unfold fk_vec_body.
    destruct (chain_lookup c q k Hw Hq) as (s & x & En & Es & Hle & Hx & Ha & Hc); [lia|].
    rewrite Es. cbn [obind].
    rewrite (aget_nth_error out (k - 1) (tip_frame c q k)); [|
      replace (tip_frame c q k) with (tip_frame c q (S (k - 1))) by (f_equal; lia); apply Hall; lia].
    cbn [obind]. pose proof (tip_frame_S c q k s x Hle En Hx) as Htip. subst j.
    destruct (moving s).
    + rewrite (Ha eq_refl). cbn [obind]. rewrite aset_ret by lia. cbn [obind]. eexists; split; [reflexivity|].
      unfold Inv; cbn [fst snd]. split; [lia|]. split; [rewrite upd_length; auto|].
      intros i Hi. destruct (Nat.eq_dec i k) as [->|Hne].
      * rewrite nth_error_upd_same by lia. rewrite Htip. reflexivity.
      * rewrite nth_error_upd_other by lia. apply Hall; lia.
    + subst x. rewrite aset_ret by lia. cbn [obind]. eexists; split; [reflexivity|].
      unfold Inv; cbn [fst snd]. split; [lia|]. split; [rewrite upd_length; auto|].
      intros i Hi. destruct (Nat.eq_dec i k) as [->|Hne].
      * rewrite nth_error_upd_same by lia. rewrite Htip. reflexivity.
      * rewrite nth_error_upd_other by lia. apply Hall; lia.
  - rewrite E'. cbn [obind]. exists (snd st'). split; auto. split; auto.
    intros i Hi. apply Hall. lia.
Qed.

(** The vector version only looks at the number of segments it denotes. *)
Lemma fk_vec_denotes c q ps z k : chain_wf c -> denotes c z k ->
  fk_JntToCart_vec c q ps z = fk_JntToCart_vec c q ps (Z.of_nat k).
Proof.
  intros Hw Hd. apply (denotes_segment_nr _ _ _ Hw) in Hd. unfold fk_JntToCart_vec.
  assert (E : segment_nr c (Z.of_nat k) = k).
  { unfold segment_nr. replace (Z.of_nat k <? 0)%Z with false by (symmetry; apply Z.ltb_ge; lia). apply Nat2Z.id. }
  rewrite E, Hd. reflexivity.
Qed.

Lemma fk_vec_correct c q z k (ps : list Frame) : chain_wf c -> denotes c z k ->
  (length q = ch_nj c /\ (k <= length (ch_segs c))%nat /\ length ps = k /\ (0 < k)%nat ->
   exists out, length out = k /\ fk_JntToCart_vec c q ps z = Ret (0%Z, out) /\
     forall i, (i < k)%nat -> exists p,
       fk_JntToCart c q (Z.of_nat (S i)) = Ret (E_NOERROR, p) /\ nth_error out i = Some p) /\
  (~ (length q = ch_nj c /\ (k <= length (ch_segs c))%nat /\ length ps = k /\ (0 < k)%nat) ->
   fk_JntToCart_vec c q ps z = Ret ((-1)%Z, ps)).
Proof.
  intros Hw Hd. rewrite (fk_vec_denotes _ _ _ _ _ Hw Hd). split.
  - intros (Hq & Hk & Hp & H0).
    destruct (fk_vec_loop c q k Hw Hq) with (ps := ps) as (out & L & E & Ha); auto; [destruct Hw; lia|].
    exists out. repeat split; auto. intros i Hi. exists (tip_frame c q (S i)). split; auto.
    rewrite (fk_result c q _ (S i)); auto; [|right; split; lia].
    rewrite Hq, Nat.eqb_refl.
    replace (Nat.leb (S i) (length (ch_segs c))) with true by (symmetry; apply Nat.leb_le; lia). reflexivity.
  - intros Hn. unfold fk_JntToCart_vec.
    assert (E : segment_nr c (Z.of_nat k) = k).
    { unfold segment_nr. replace (Z.of_nat k <? 0)%Z with false by (symmetry; apply Z.ltb_ge; lia). apply Nat2Z.id. }
    rewrite E. destruct Hw as [Hs _].
    destruct (Nat.eqb_spec (length q) (ch_nj c)); simpl; auto.
    destruct (Nat.ltb_spec (ch_ns c) k); simpl; auto.
    destruct (Nat.eqb_spec (length ps) k); simpl; auto.
    destruct (Nat.eqb_spec k 0); simpl; auto.
    exfalso. apply Hn. repeat split; auto; lia.
Qed.
