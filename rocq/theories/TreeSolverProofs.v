(** Tree forward kinematics and Jacobian (C31, C32). *)
From Coq Require Import String Reals List ZArith Bool Permutation Arith Lia Lra.
From Verif Require Import FramesModel FramesSpec FramesProofs RotationProofs FrameOpsProofs Outcome LoopProofs InertiaModel DualModel KinModel KinSpec DerivProofs KinProofs JacProofs
  TreeModel TreeSpec TreeProofs TreeCopyProofs TreeNumProofs TreeChainProofs.
Import ListNotations.
Local Open Scope R_scope.

Lemma qnr_in_range t n e : tinv t -> tfind t n = Some e -> (0 < tr_nj t)%nat -> (te_qnr e < tr_nj t)%nat.
Proof.
  intros [W _] E P. destruct (moving (te_seg e)) eqn:M.
  - assert (In (te_qnr e) (joint_numbers t)).
    { unfold joint_numbers. apply in_map. apply filter_In. split; [|exact M]. unfold elements. apply smap_find_In in E. apply (in_map snd) in E. exact E. }
    apply (Permutation_in _ (wf_numbers _ W)) in H. apply in_seq in H. lia.
  - rewrite (wf_fixed _ W _ _ E M). exact P.
Qed.
Lemma qnr_inj t n m e f : tinv t -> tfind t n = Some e -> tfind t m = Some f -> moving (te_seg e) = true -> moving (te_seg f) = true ->
  te_qnr e = te_qnr f -> n = m.
Proof.
  intros [W _] E F Me Mf Q.
  assert (ND : NoDup (joint_numbers t)) by (eapply Permutation_NoDup; [symmetry; apply W|apply seq_NoDup]).
  apply smap_find_In in E, F. unfold joint_numbers, elements in ND. revert E F ND. generalize (tr_segs t) as s.
  induction s as [|[k x] s IH]; simpl; [tauto|]. intros E F ND.
  destruct E as [E|E], F as [F|F].
  - congruence.
  - injection E as -> ->. rewrite Me in ND. simpl in ND. inversion ND; subst. exfalso. apply H1. rewrite Q. apply in_map. apply filter_In. split; auto.
    apply (in_map snd) in F. exact F.
  - injection F as -> ->. rewrite Mf in ND. simpl in ND. inversion ND; subst. exfalso. apply H1. rewrite <- Q. apply in_map. apply filter_In. split; auto.
    apply (in_map snd) in E. exact E.
  - apply IH; auto. destruct (moving (te_seg x)); auto. simpl in ND. inversion ND; auto.
Qed.
Lemma aget_value t q n e : tinv t -> length q = tr_nj t -> (0 < tr_nj t)%nat -> tfind t n = Some e ->
  exists x, aget q (te_qnr e) = Ret x /\ segment_pose (te_seg e) x = segment_pose (te_seg e) (joint_value q e) /\
    (moving (te_seg e) = true -> x = joint_value q e).
Proof.
  intros H L P E. pose proof (qnr_in_range _ _ _ H E P) as Q. exists (nth (te_qnr e) q 0). split.
  - apply aget_nth. lia.
  - unfold joint_value. destruct (moving (te_seg e)) eqn:M; auto. split; [|discriminate].
    rewrite !(segment_pose_fixed _ _ M). reflexivity.
Qed.
Lemma root_pose n x : segment_pose (root_segment n) x = f_id.
Proof.
  rewrite segment_pose_fixed by reflexivity. unfold root_segment, segment_make. cbn [sf_tip]. rewrite joint_pose_fixed by reflexivity.
  apply f_inv_l. apply rigid_id.
Qed.
Lemma treefk_rec_spec t q : tinv t -> length q = tr_nj t -> (0 < tr_nj t)%nat -> forall rank,
  (forall n e p, tfind t n = Some e -> te_parent e = Some p -> (rank p < rank n)%nat) ->
  forall f n e, tfind t n = Some e -> (rank n < f)%nat -> exists F, treefk_rec f t q n = Ret F /\ tree_at t q n F.
Proof.
  intros H L P rank R1. induction f as [|f IH]; intros n e E Hf; [lia|]. simpl. rewrite E.
  destruct (aget_value t q n e H L P E) as (x & -> & Hx & _). cbn [obind]. destruct (String.eqb_spec n (tr_root t)) as [->|N].
  - destruct (tinv_root _ H) as [cs Er]. rewrite Er in E. injection E as <-. cbn [te_seg]. rewrite root_pose. eexists. split; [reflexivity|constructor].
  - pose proof H as [W _]. destruct (wf_parent _ W _ _ E N) as (p & pe & H1 & H2 & _). rewrite H1.
    destruct (IH p pe H2) as (F & HF & Ha). { specialize (R1 _ _ _ E H1). lia. }
    rewrite HF. cbn [obind]. rewrite Hx. eexists. split; [reflexivity|]. econstructor; eauto.
Qed.
Theorem treefk_spec t q p name : tinv t ->
  (length q <> tr_nj t -> treefk_JntToCart t q p name = Ret ((-1)%Z, p)) /\
  (length q = tr_nj t -> tfind t name = None -> treefk_JntToCart t q p name = Ret ((-2)%Z, p)) /\
  (length q = tr_nj t -> (0 < tr_nj t)%nat -> tfind t name <> None ->
   exists F, treefk_JntToCart t q p name = Ret (0%Z, F) /\ tree_at t q name F).
Proof.
  intros H. unfold treefk_JntToCart. split; [|split].
  - intros L. apply Nat.eqb_neq in L. rewrite L. reflexivity.
  - intros L E. rewrite L, Nat.eqb_refl. simpl. rewrite E. reflexivity.
  - intros L P E. rewrite L, Nat.eqb_refl. simpl. destruct (tfind t name) as [e|] eqn:En; [|contradiction].
    pose proof H as [W (rank & R1 & R2)]. destruct (treefk_rec_spec t q H L P rank R1 (length (tr_segs t)) name e En) as (F & HF & HA).
    { eapply R2; eauto. }
    rewrite HF. cbn [obind]. eauto.
Qed.
Lemma treefk_no_joints t p name : tinv t -> tr_nj t = 0%nat -> tfind t name <> None -> treefk_JntToCart t [] p name = Undef.
Proof.
  intros [W _] Z E. unfold treefk_JntToCart. rewrite Z. simpl. destruct (tfind t name) as [e|] eqn:En; [|contradiction].
  rewrite (wf_segments _ W). simpl. rewrite En. unfold aget. destruct (te_qnr e); reflexivity.
Qed.

(** * poses and same_structure *)
Lemma tree_at_same a b q n F : same_tree a b -> tree_at a q n F -> tree_at b q n F.
Proof.
  intros (R & _ & _ & S). induction 1 as [|n e p F En Nr Ep H IH]; [rewrite R; constructor|].
  econstructor; eauto; [rewrite <- S; exact En|rewrite <- R; exact Nr].
Qed.
Lemma tree_ok_same a b : same_structure a b -> tree_ok b -> tree_ok a.
Proof.
  intros (_ & _ & _ & S) Ok n e E. specialize (S n). rewrite E in S. destruct (tfind b n) as [y|] eqn:Ey; [|contradiction].
  destruct S as (-> & _). eapply Ok; eauto.
Qed.

(** * Jacobian *)
Lemma jac_mul_upd J : forall k c qd, nth_error J k = Some t_zero -> length J = length qd ->
  jac_mul (upd J k c) qd = t_add (jac_mul J qd) (t_scale c (nth k qd 0)).
Proof.
  induction J as [|a J IH]; intros k c qd E L; [destruct k; discriminate|].
  destruct qd as [|x qd]; [discriminate|]. destruct k as [|k]; simpl in *.
  - injection E as ->. rewrite t_scale_zero. generalize (jac_mul J qd). intros w. geo.
  - rewrite IH by (auto; lia). rewrite t_add_assoc. reflexivity.
Qed.
Lemma twist_map_linear M : t_linear (r_app_t M). Proof. apply r_app_t_linear. Qed.
Lemma r_app_invapp_t M t : is_rotation M -> r_app_t M (r_invapp_t M t) = t.
Proof. intros H. unfold r_app_t, r_invapp_t. destruct t as [a b]. simpl. rewrite !r_app_invapp by exact H. reflexivity. Qed.
Lemma joint_value_derive n q t qd e : joint_motion n q t qd -> moving (te_seg e) = true -> (te_qnr e < n)%nat ->
  derivable_pt_lim (fun s => joint_value (q s) e) t (nth (te_qnr e) qd 0).
Proof. intros (_ & _ & H) M L. unfold joint_value. rewrite M. apply H. exact L. Qed.

(** path velocity property carried by the partially filled matrix *)
Definition jac_carries (t : Tree) (q : list R) (l : list TreeElement) (T : Frame) (J : list Twist) : Prop :=
  T = path_pose q (rev l) /\ length J = tr_nj t /\
  (forall k, (k < tr_nj t)%nat -> (forall e, In e l -> moving (te_seg e) = true -> te_qnr e <> k) -> nth_error J k = Some t_zero) /\
  forall qs t0 qd, joint_motion (tr_nj t) qs t0 qd -> qs t0 = q ->
    frame_velocity (fun s => path_pose (qs s) (rev l)) t0 (r_app_t (fM T) (jac_mul J qd)).

Lemma treejac_loop_spec t q name : tinv t -> tree_ok t -> length q = tr_nj t -> (0 < tr_nj t)%nat -> forall rank,
  (forall n e p, tfind t n = Some e -> te_parent e = Some p -> (rank p < rank n)%nat) ->
  forall f n e0 l T J, tfind t n = Some e0 -> (rank n < f)%nat -> walk_up t name n l ->
  (forall e, In e l -> (rank n < rank (nm e))%nat) -> jac_carries t q l T J ->
  exists l' T' J', treejac_loop f t q n T J = Ret (T', J') /\ walk_up t name (tr_root t) l' /\ jac_carries t q l' T' J'.
Proof.
  intros H Ok L P rank R1. pose proof H as [W _]. induction f as [|f IH]; intros n e l T J E Hf Hw Hr HC; [lia|]. cbn [treejac_loop].
  destruct (String.eqb_spec n (tr_root t)) as [->|N]; [exists l, T, J; auto|]. rewrite E.
  destruct (aget_value t q n e H L P E) as (x & Hax & Hx & Hxm). rewrite Hax. cbn [obind].
  destruct (wf_parent _ W _ _ E N) as (p & pe & H1 & H2 & _). rewrite H1.
  destruct HC as (HT & HL & HZ & HV).
  assert (Nme : nm e = n) by (unfold nm; eapply wf_named; eauto).
  assert (Hseg : segment_ok (te_seg e)) by (eapply tree_ok_seg; eauto).
  assert (Hw' : walk_up t name p (l ++ [e])) by (apply walk_up_app; exists n; split; [exact Hw|]; econstructor; eauto; constructor).
  assert (Hrank : (rank p < rank n)%nat) by (eapply R1; eauto).
  assert (Hr' : forall e', In e' (l ++ [e]) -> (rank p < rank (nm e'))%nat).
  { intros e' He. apply in_app_or in He as [He|[<-|[]]]; [specialize (Hr _ He); lia|rewrite Nme; exact Hrank]. }
  rewrite Hx. set (TL := segment_pose (te_seg e) (joint_value q e)).
  assert (RTL : rigid TL) by (apply segment_pose_rigid; exact Hseg).
  assert (RT : rigid T). { rewrite HT. apply path_pose_rigid. intros e' He. apply in_rev in He.
    exact (tree_ok_seg t _ _ Ok (walk_up_found t name n l e' W Hw He)). }
  assert (HT' : f_mul TL T = path_pose q (rev (l ++ [e]))).
  { rewrite rev_app_distr. simpl. rewrite HT. reflexivity. }
  assert (Pp : v_sub (fp (f_mul TL T)) (fp TL) = r_app (fM TL) (fp T)).
  { unfold f_mul. cbn [fp]. generalize (r_app (fM TL) (fp T)) (fp TL). clear. intros; geo. }
  rewrite Pp. rewrite fM_mul.
  (* velocity of the product, with joint velocity xd *)
  assert (VEL : forall qs t0 qd xd, joint_motion (tr_nj t) qs t0 qd -> qs t0 = q ->
     frame_velocity (fun s => segment_pose (te_seg e) (joint_value (qs s) e)) t0 (segment_twist (te_seg e) x xd) ->
     frame_velocity (fun s => path_pose (qs s) (rev (l ++ [e]))) t0
       (t_add (t_RefPoint (segment_twist (te_seg e) x xd) (r_app (fM TL) (fp T))) (r_app_t (fM TL) (r_app_t (fM T) (jac_mul J qd))))).
  { intros qs t0 qd xd Hm Hq Hs. eapply frame_velocity_ext; [|eapply frame_velocity_eq; [eapply frame_velocity_mul|]].
    - intros s. rewrite rev_app_distr. simpl. reflexivity.
    - cbv beta. rewrite Hq. exact RTL.
    - exact Hs.
    - apply HV; eauto.
    - cbv beta. rewrite Hq, <- HT. reflexivity. }
  destruct (moving (te_seg e)) eqn:M.
  - pose proof (qnr_in_range _ _ _ H E P) as Q.
    assert (Z0 : nth_error J (te_qnr e) = Some t_zero).
    { apply HZ; auto. intros e' He Me' Eq. assert (X : n = nm e')
        by exact (qnr_inj t n (nm e') e e' H E (walk_up_found t name n l e' W Hw He) M Me' (eq_sym Eq)).
      specialize (Hr _ He). rewrite <- X in Hr. lia. }
    unfold jac_setColumn. rewrite aset_ret by lia. cbn [obind].
    eapply (IH p pe (l ++ [e])); eauto; [lia|].
    set (C := r_invapp_t (r_mul (fM TL) (fM T)) (t_RefPoint (segment_twist (te_seg e) x 1) (r_app (fM TL) (fp T)))).
    split; [exact HT'|]. split; [rewrite upd_length; exact HL|]. split.
    + intros k Hk Hno. rewrite nth_error_upd_other.
      * apply HZ; auto. intros e' He. apply Hno. apply in_or_app; auto.
      * assert (Nk : te_qnr e <> k) by (apply Hno; [apply in_or_app; simpl; auto|exact M]). congruence.
    + intros qs t0 qd Hm Hq.
      eapply frame_velocity_eq; [eapply (VEL qs t0 qd (nth (te_qnr e) qd 0) Hm Hq)|].
      * rewrite (Hxm eq_refl). rewrite <- Hq. apply (segment_velocity (te_seg e) (fun s => joint_value (qs s) e)); auto.
        eapply joint_value_derive; eauto.
      * rewrite jac_mul_upd by (auto; destruct Hm as (_ & Hl & _); lia). rewrite fM_mul.
        assert (RM : is_rotation (r_mul (fM TL) (fM T))) by (apply is_rotation_mul; auto).
        destruct (r_app_t_linear (r_mul (fM TL) (fM T))) as [_ A2].
        rewrite (t_add_comm (jac_mul J qd)), A2. unfold C. rewrite r_app_invapp_t by exact RM. rewrite r_mul_app_t.
        rewrite (segment_twist_scale (te_seg e) x (nth (te_qnr e) qd 0)). f_equal.
        generalize (segment_twist (te_seg e) x 1) (r_app (fM TL) (fp T)) (nth (te_qnr e) qd 0). clear. intros; geo.
  - cbn [obind]. eapply (IH p pe (l ++ [e])); eauto; [lia|].
    split; [exact HT'|]. split; [exact HL|]. split.
    + intros k Hk Hno. apply HZ; auto. intros e' He. apply Hno. apply in_or_app; auto.
    + intros qs t0 qd Hm Hq. eapply frame_velocity_eq; [eapply (VEL qs t0 qd 0 Hm Hq)|].
      * rewrite segment_twist_fixed by exact M. eapply frame_velocity_ext; [|apply frame_velocity_const with (F := sf_tip (te_seg e))].
        intros s. rewrite segment_pose_fixed by exact M. reflexivity.
      * rewrite segment_twist_fixed by exact M. rewrite t_RefPoint_zero, t_add_0_l. rewrite fM_mul, r_mul_app_t. reflexivity.
Qed.
Lemma walk_root_unique t n l : tree_wf t -> walk_up t n (tr_root t) l -> forall l', walk_up t n (tr_root t) l' -> l' = l.
Proof.
  intros W. remember (tr_root t) as r eqn:Er.
  assert (NP : forall e p, tfind t r = Some e -> te_parent e = Some p -> False).
  { intros e p E P. destruct (wf_root _ W) as [cs E']. subst r. rewrite E' in E. injection E as <-. discriminate. }
  clear Er. induction 1 as [r|n e p r l En Ep Hw IH]; intros l' H'; inversion H' as [|? e' p' ? l2 En' Ep' Hw']; subst; auto.
  - exfalso; eauto.
  - exfalso; eauto.
  - assert (e' = e) by congruence. subst e'. assert (p' = p) by congruence. subst p'. f_equal. apply IH; auto.
Qed.
Lemma nth_error_repeat {A} (x : A) n k : (k < n)%nat -> nth_error (repeat x n) k = Some x.
Proof. revert k; induction n as [|n IH]; intros k H; [lia|]. destruct k; simpl; auto. apply IH. lia. Qed.

Theorem treejac_spec t q jac name : tinv t -> tree_ok t ->
  (length q <> tr_nj t \/ length jac <> tr_nj t -> treejac_JntToJac t q jac name = Ret ((-1)%Z, jac)) /\
  (length q = tr_nj t -> length jac = tr_nj t -> tfind t name = None -> treejac_JntToJac t q jac name = Ret ((-2)%Z, jac)) /\
  (length q = tr_nj t -> length jac = tr_nj t -> (0 < tr_nj t)%nat -> tfind t name <> None ->
   exists J, treejac_JntToJac t q jac name = Ret (0%Z, J) /\ length J = tr_nj t /\
     (forall qs t0 qd F, joint_motion (tr_nj t) qs t0 qd -> qs t0 = q -> (forall s, tree_at t (qs s) name (F s)) ->
        exists V, MultiplyJacobian J qd = Ret V /\ frame_velocity F t0 V) /\
     (forall l k, walk_up t name (tr_root t) l -> (k < tr_nj t)%nat ->
        (forall e, In e l -> moving (te_seg e) = true -> te_qnr e <> k) -> nth_error J k = Some t_zero)).
Proof.
  intros H Ok. unfold treejac_JntToJac. split; [|split].
  - intros [D|D]; apply Nat.eqb_neq in D; rewrite D; rewrite ?orb_true_r; reflexivity.
  - intros -> -> E. rewrite Nat.eqb_refl. simpl. rewrite E. reflexivity.
  - intros L LJ P E. rewrite L, LJ, Nat.eqb_refl. simpl. destruct (tfind t name) as [e|] eqn:En; [|contradiction].
    pose proof H as [W (rank & R1 & R2)].
    destruct (treejac_loop_spec t q name H Ok L P rank R1 (length (tr_segs t)) name e [] f_id (jac_zero jac) En) as (l & T & J & HJ & Hl & HC).
    { eapply R2; eauto. } { constructor. } { intros e' []. }
    { split; [reflexivity|]. rewrite jac_zero_repeat, LJ. split; [apply repeat_length|]. split.
      - intros k Hk _. apply nth_error_repeat. exact Hk.
      - intros qs t0 qd Hm Hq. rewrite jac_mul_zeros. rewrite r_app_t_zero. eapply frame_velocity_ext; [|apply (frame_velocity_const f_id)]. reflexivity. }
    rewrite HJ. cbn [obind fst snd]. unfold jac_changeBase. rewrite jac_inplace_map. cbn [obind].
    destruct HC as (HT & HL & HZ & HV). eexists. split; [reflexivity|]. rewrite map_length. split; [exact HL|]. split.
    + intros qs t0 qd F Hm Hq HF. unfold MultiplyJacobian. rewrite map_length, HL. destruct Hm as (M1 & M2 & M3). rewrite M2, Nat.eqb_refl.
      eexists. split; [reflexivity|]. rewrite jac_mul_map by apply r_app_t_linear.
      eapply frame_velocity_ext; [|apply (HV qs t0 qd); [split; [exact M1|split; [exact M2|exact M3]]|exact Hq]].
      intros s. cbv beta. eapply tree_at_fun; [|apply HF].
      rewrite <- (f_mul_id_l (path_pose (qs s) (rev l))). eapply tree_at_walk; eauto. constructor.
    + intros l' k Hl' Hk Hno. rewrite nth_error_map.
      assert (l' = l).
      { eapply walk_root_unique; eauto. }
      subst l'. rewrite HZ by auto. simpl. rewrite r_app_t_zero. reflexivity.
Qed.
