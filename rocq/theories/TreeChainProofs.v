(** getChain (C30). *)
From Coq Require Import String Reals List ZArith Bool Permutation Arith Lia Lra.
From Verif Require Import FramesModel FramesSpec FramesProofs RotationProofs FrameOpsProofs Outcome LoopProofs InertiaModel DualModel KinModel KinSpec DerivProofs KinProofs JacProofs
  TreeModel TreeSpec TreeProofs TreeCopyProofs TreeNumProofs.
Import ListNotations.
Local Open Scope R_scope.

(** * Constructed joints *)
Lemma unit_not_small n : unit_vector n -> kdl_epsilon <= max_abs n.
Proof.
  intros U. destruct (Rle_lt_dec kdl_epsilon (max_abs n)) as [|L]; auto. exfalso.
  unfold max_abs in L. unfold kdl_epsilon in L.
  pose proof (Rmax_l (Rabs (vx n)) (Rmax (Rabs (vy n)) (Rabs (vz n)))). pose proof (Rmax_r (Rabs (vx n)) (Rmax (Rabs (vy n)) (Rabs (vz n)))).
  pose proof (Rmax_l (Rabs (vy n)) (Rabs (vz n))). pose proof (Rmax_r (Rabs (vy n)) (Rabs (vz n))).
  assert (A : forall x, Rabs x < / 1000000 -> x * x < / 10).
  { intros x Hx. pose proof (Rabs_pos x). replace (x * x) with (Rabs x * Rabs x) by (rewrite <- Rabs_mult; apply Rabs_right; nra). nra. }
  assert (vx n * vx n < / 10) by (apply A; lra). assert (vy n * vy n < / 10) by (apply A; lra). assert (vz n * vz n < / 10) by (apply A; lra).
  unfold unit_vector in U. unfold v_dot in U. lra.
Qed.
Lemma unit_neg n : unit_vector n -> unit_vector (v_neg n).
Proof. unfold unit_vector. intros H. rewrite <- H. geo. Qed.
Lemma unit_v_norm n : unit_vector n -> v_norm n = 1.
Proof.
  intros U. unfold v_norm. rewrite v_norm_eps_exact; [|unfold kdl_epsilon; lra|apply unit_not_small; exact U].
  unfold euclid_norm. unfold unit_vector, v_dot in U.
  match goal with |- sqrt ?x = 1 => assert (E : x = 1) by (rewrite <- U; ring); rewrite E; apply sqrt_1 end.
Qed.
Lemma v_div_1 v : v_div v 1 = v.
Proof. destruct v; unfold v_div; simpl; f_equal; field. Qed.

Definition rot_like (j : Joint) : Prop := unit_vector (joint_JointAxis j) /\
  forall q, joint_pose j q = mkF (r_Rot2 (joint_JointAxis j) (jscale j * q + joffset j)) (joint_JointOrigin j).
Definition trans_like (j : Joint) : Prop := unit_vector (joint_JointAxis j) /\
  forall q, joint_pose j q = f_of_vec (v_add (joint_JointOrigin j) (v_scale (joint_JointAxis j) (jscale j * q + joffset j))).
Lemma constructed_shape j : joint_constructed j ->
  match jtype j with
  | RotX | RotY | RotZ | RotAxis => rot_like j
  | TransX | TransY | TransZ | TransAxis => trans_like j
  | Fixed => True
  end.
Proof.
  intros [(n & ty & sc & off & i & d & st & E)|(n & o & a & ty & sc & off & i & d & st & Ha & E)].
  - destruct ty; try discriminate; injection E as <-; simpl; auto; split; simpl;
      try apply unit_e1; try apply unit_e2; try apply unit_e3; intros q; unfold joint_pose; simpl.
    + rewrite RotX_Rot2. reflexivity.
    + rewrite RotY_Rot2. reflexivity.
    + rewrite RotZ_Rot2. reflexivity.
    + unfold joint_JointOrigin, f_of_vec, v_add, v_scale; simpl; f_equal; f_equal; ring.
    + unfold joint_JointOrigin, f_of_vec, v_add, v_scale; simpl; f_equal; f_equal; ring.
    + unfold joint_JointOrigin, f_of_vec, v_add, v_scale; simpl; f_equal; f_equal; ring.
  - destruct ty; try discriminate; injection E as <-; simpl; split; simpl; auto; apply v_div_norm_unit; exact Ha.
Qed.
Lemma constructed_ok j : joint_constructed j -> joint_ok j.
Proof.
  intros H. pose proof (constructed_shape _ H) as S. unfold joint_ok. intros E. rewrite E in S. destruct S as [U _].
  unfold joint_JointAxis in U. rewrite E in U. exact U.
Qed.
Lemma good_segment s : joint_constructed (sjoint s) -> rigid (sf_tip s) -> segment_ok s.
Proof. intros H1 H2. split; [apply constructed_ok; exact H1|exact H2]. Qed.

(** * Reversed segments *)
Lemma f_inv_mul a b : rigid a -> rigid b -> f_inv (f_mul a b) = f_mul (f_inv b) (f_inv a).
Proof.
  intros Ha Hb. pose proof (rigid_mul _ _ Ha Hb) as Hab.
  transitivity (f_mul (f_inv (f_mul a b)) (f_mul (f_mul a b) (f_mul (f_inv b) (f_inv a)))).
  - replace (f_mul (f_mul a b) (f_mul (f_inv b) (f_inv a))) with f_id; [rewrite f_mul_id_r; reflexivity|].
    rewrite f_mul_assoc. rewrite <- (f_mul_assoc b). rewrite (f_inv_r b Hb), f_mul_id_l. symmetry. apply f_inv_r. exact Ha.
  - rewrite <- f_mul_assoc, (f_inv_l _ Hab), f_mul_id_l. reflexivity.
Qed.
Lemma rot_reverse G n o x : rigid G -> unit_vector n ->
  f_mul (f_mul (mkF (r_Rot2 (r_app (fM G) (v_neg n)) x) (f_app G o)) (f_inv (f_of_vec (f_app G o)))) G
  = f_mul G (f_mul (mkF (r_Rot2 n (- x)) o) (f_inv (f_of_vec o))).
Proof.
  intros HG U. set (R := r_Rot2 n (- x)).
  assert (HR : is_rotation R) by (apply is_rotation_Rot2; exact U).
  assert (C : r_mul (r_Rot2 (r_app (fM G) (v_neg n)) x) (fM G) = r_mul (fM G) R).
  { rewrite <- (Rot2_conj (fM G) (v_neg n) x HG (unit_neg _ U)), Rot2_neg_axis. fold R.
    rewrite !r_mul_assoc. rewrite (r_inv_l _ HG), r_mul_id_r. reflexivity. }
  set (R' := r_Rot2 (r_app (fM G) (v_neg n)) x) in *.
  assert (A : forall v, r_app R' (r_app (fM G) v) = r_app (fM G) (r_app R v)).
  { intros v. pose proof (f_equal (fun m => r_app m v) C) as A. cbv beta in A. rewrite !r_mul_app in A. exact A. }
  apply f_ext.
  - rewrite !fM_mul. simpl. rewrite !r_inv_id, !r_mul_id_r. exact C.
  - unfold f_mul, f_inv, f_of_vec, f_app. cbn [fM fp].
    replace (r_mul R' (r_inv r_id)) with R' by (rewrite r_inv_id, r_mul_id_r; reflexivity).
    assert (I : forall v, r_invapp r_id v = v) by (intros; geo). rewrite !I.
    assert (L1 : forall v w, r_app R' (v_add v w) = v_add (r_app R' v) (r_app R' w)) by (intros; generalize R'; intros; geo).
    assert (L2 : forall v, r_app R' (v_neg v) = v_neg (r_app R' v)) by (intros; generalize R'; intros; geo).
    assert (L3 : forall v w, r_app (fM G) (v_add v w) = v_add (r_app (fM G) v) (r_app (fM G) w)) by (intros; geo).
    assert (L4 : forall v, r_app R (v_neg v) = v_neg (r_app R v)) by (intros; generalize R; intros; geo).
    assert (L5 : forall v, r_app (fM G) (v_neg v) = v_neg (r_app (fM G) v)) by (intros; geo).
    rewrite ?L1, ?L2, ?L3, ?L4, ?L5, ?L1, ?L2, ?L3, ?A.
    generalize (r_app (fM G) (r_app R o)) (r_app (fM G) o) (r_app R' (fp G)) (fp G). intros a b c d. clear. geo.
Qed.
Lemma trans_reverse G n x o : 
  f_mul (f_mul (f_of_vec (v_add (f_app G o) (v_scale (r_app (fM G) (v_neg n)) x))) (f_inv (f_of_vec (f_app G o)))) G
  = f_mul G (f_of_vec (v_scale n (- x))).
Proof.
  apply f_ext.
  - rewrite !fM_mul. simpl. rewrite !r_inv_id, !r_mul_id_r, !r_mul_id_l. reflexivity.
  - unfold f_mul, f_inv, f_of_vec, f_app. cbn [fM fp]. rewrite !r_inv_id.
    assert (I : forall v, r_app r_id v = v) by (intros; geo).
    assert (I' : forall v, r_invapp r_id v = v) by (intros; geo).
    rewrite ?(r_mul_id_l r_id), ?I', ?I.
    assert (L5 : forall v, r_app (fM G) (v_neg v) = v_neg (r_app (fM G) v)) by (intros; geo).
    assert (L6 : forall v s, r_app (fM G) (v_scale v s) = v_scale (r_app (fM G) v) s) by (intros; geo).
    rewrite L5, L6. generalize (r_app (fM G) n) (r_app (fM G) o) (fp G). intros a b c. clear. geo.
Qed.

Definition is_reverse (e : TreeElement) (s : Segment) : Prop :=
  jname (sjoint s) = jname (sjoint (te_seg e)) /\ moving s = moving (te_seg e) /\ te_parent e = Some (sname s) /\
  forall x y, moving (te_seg e) = false \/ y = jscale (sjoint (te_seg e)) * x ->
    segment_pose s y = f_inv (segment_pose (te_seg e) x).

(** pose relative to the pose at joint value 0 *)
Lemma pose_from_zero seg x : segment_ok seg ->
  segment_pose seg x = f_mul (f_mul (joint_pose (sjoint seg) x) (f_inv (joint_pose (sjoint seg) 0))) (segment_pose seg 0).
Proof.
  intros [Hj Ht]. unfold segment_pose. rewrite !f_mul_assoc. rewrite <- (f_mul_assoc (f_inv _)).
  rewrite f_inv_l by (apply joint_pose_rigid; exact Hj). rewrite f_mul_id_l. reflexivity.
Qed.
Lemma inv_from_zero seg x : segment_ok seg ->
  f_inv (segment_pose seg x) = f_mul (f_inv (segment_pose seg 0)) (f_mul (joint_pose (sjoint seg) 0) (f_inv (joint_pose (sjoint seg) x))).
Proof.
  intros H. pose proof (joint_pose_rigid _ 0 (proj1 H)) as H0. pose proof (joint_pose_rigid _ x (proj1 H)) as Hx.
  rewrite (pose_from_zero seg x H).
  rewrite f_inv_mul; [|apply rigid_mul; auto; apply rigid_inv; auto|apply segment_pose_rigid; auto].
  rewrite f_inv_mul by (auto; apply rigid_inv; auto). f_equal. f_equal.
  (* inverse of an inverse *)
  rewrite <- (f_mul_id_r (f_inv (f_inv (joint_pose (sjoint seg) 0)))), <- (f_inv_l _ H0), <- f_mul_assoc.
  rewrite f_inv_l by (apply rigid_inv; exact H0). apply f_mul_id_l.
Qed.

Lemma reverse_segment_spec e next : joint_constructed (sjoint (te_seg e)) -> rigid (sf_tip (te_seg e)) ->
  te_parent e = Some (sname next) -> exists s, reverse_segment (te_seg e) next = Ret s /\ is_reverse e s.
Proof.
  intros HJ HT HP. set (seg := te_seg e) in *. pose proof (good_segment seg HJ HT) as Hok.
  pose proof (constructed_shape _ HJ) as S. set (j := sjoint seg) in *.
  assert (HG : rigid (f_inv (segment_pose seg 0))) by (apply rigid_inv, segment_pose_rigid; exact Hok).
  unfold reverse_segment, reverse_joint. fold j. set (G := f_inv (segment_pose seg 0)) in *.
  assert (Hm : moving seg = negb (isFixed (jtype j))) by reflexivity.
  assert (ROT : rot_like j -> negb (isFixed (jtype j)) = true -> exists s,
    Ret (segment_make (sname next) (mkJ (jname j) RotAxis 1 0 0 0 0
       (v_div (r_app (fM G) (v_neg (joint_JointAxis j))) (v_norm (r_app (fM G) (v_neg (joint_JointAxis j))))) (f_app G (joint_JointOrigin j))) G (sI next)) = Ret s /\ is_reverse e s).
  { intros [U P] M. eexists. split; [reflexivity|].
    assert (U' : unit_vector (r_app (fM G) (v_neg (joint_JointAxis j)))) by (apply unit_app; [exact HG|apply unit_neg; exact U]).
    rewrite (unit_v_norm _ U'), v_div_1.
    split; [reflexivity|]. split; [change (true = moving seg); congruence|]. split; [exact HP|].
    intros x y [H|Hy]; [change (moving seg = false) in H; congruence|]. fold seg in Hy |- *. fold j in Hy.
    rewrite segment_pose_from_tip by (intros _; exact U'). unfold joint_pose at 1 2. cbn [jtype jscale joffset jaxis jorigin].
    replace (1 * y + 0) with y by ring. replace (1 * 0 + 0) with 0 by ring. rewrite Rot2_0.
    change (mkF r_id (f_app G (joint_JointOrigin j))) with (f_of_vec (f_app G (joint_JointOrigin j))).
    rewrite rot_reverse by (auto). rewrite (inv_from_zero seg x Hok). fold G. f_equal. fold j. rewrite !P.
    set (o := joint_JointOrigin j). set (n := joint_JointAxis j) in *. 
    apply f_ext.
    - rewrite !fM_mul. cbn [f_inv fM f_of_vec]. rewrite r_inv_id, r_mul_id_r, <- Rot2_neg, Rot2_add by exact U. f_equal. rewrite Hy. ring.
    - unfold f_mul, f_inv, f_of_vec, f_app. cbn [fM fp]. rewrite !r_invapp_inv, r_inv_id, <- Rot2_neg.
      assert (A : forall v, r_app (r_Rot2 n (jscale j * 0 + joffset j)) (r_app (r_Rot2 n (- (jscale j * x + joffset j))) v) = r_app (r_Rot2 n (- y)) v).
      { intros v. rewrite <- r_mul_app, Rot2_add by exact U. f_equal. f_equal. rewrite Hy. ring. }
      assert (I : forall v, r_app r_id v = v) by (intros; geo). rewrite I.
      assert (L : forall M v, r_app M (v_neg v) = v_neg (r_app M v)) by (intros; geo).
      rewrite !L, A. reflexivity. }
  assert (TRANS : trans_like j -> negb (isFixed (jtype j)) = true -> exists s,
    Ret (segment_make (sname next) (mkJ (jname j) TransAxis 1 0 0 0 0
       (v_div (r_app (fM G) (v_neg (joint_JointAxis j))) (v_norm (r_app (fM G) (v_neg (joint_JointAxis j))))) (f_app G (joint_JointOrigin j))) G (sI next)) = Ret s /\ is_reverse e s).
  { intros [U P] M. eexists. split; [reflexivity|].
    assert (U' : unit_vector (r_app (fM G) (v_neg (joint_JointAxis j)))) by (apply unit_app; [exact HG|apply unit_neg; exact U]).
    rewrite (unit_v_norm _ U'), v_div_1.
    split; [reflexivity|]. split; [change (true = moving seg); congruence|]. split; [exact HP|].
    intros x y [H|Hy]; [change (moving seg = false) in H; congruence|]. fold seg in Hy |- *. fold j in Hy.
    rewrite segment_pose_from_tip by (intros H; discriminate H). unfold joint_pose at 1 2. cbn [jtype jscale joffset jaxis jorigin].
    replace (1 * y + 0) with y by ring. replace (1 * 0 + 0) with 0 by ring.
    replace (v_add (f_app G (joint_JointOrigin j)) (v_scale (r_app (fM G) (v_neg (joint_JointAxis j))) 0)) with (f_app G (joint_JointOrigin j))
      by (generalize (f_app G (joint_JointOrigin j)) (r_app (fM G) (v_neg (joint_JointAxis j))); clear; intros; geo).
    rewrite trans_reverse. rewrite (inv_from_zero seg x Hok). fold G. f_equal. fold j. rewrite !P. rewrite Hy.
    generalize (joint_JointOrigin j) (joint_JointAxis j) (jscale j) (joffset j). clear. intros o n sc off. geo. }
  destruct (jtype j) eqn:T; simpl in *; try (apply ROT; auto; fail); try (apply TRANS; auto; fail).
  eexists. split; [reflexivity|]. split; [reflexivity|]. split; [unfold moving; simpl; fold seg; fold j; reflexivity|]. split; [exact HP|].
  intros x y _. fold seg. rewrite segment_pose_from_tip by (apply constructed_ok; exact HJ).
  assert (Fx : isFixed (jtype j) = true) by (rewrite T; reflexivity).
  rewrite !(joint_pose_fixed j _ Fx).
  rewrite (segment_pose_fixed seg x) by (rewrite Hm; reflexivity).
  unfold G. rewrite (segment_pose_fixed seg 0) by (rewrite Hm; reflexivity). clear -HT. generalize (sf_tip seg). intros F.
  rewrite (f_inv_r f_id) by apply rigid_id. apply f_mul_id_l.
Qed.

(** * Walking up *)
Definition nm (e : TreeElement) : string := sname (te_seg e).
Lemma walk_up_app t n a l1 : forall l2, walk_up t n a (l1 ++ l2) <-> exists m, walk_up t n m l1 /\ walk_up t m a l2.
Proof.
  revert n. induction l1 as [|e l1 IH]; intros n l2; simpl.
  - split; [intros H; exists n; split; [constructor|exact H]|]. intros (m & H1 & H2). inversion H1; subst. exact H2.
  - split.
    + intros H. inversion H as [|? ? ? ? ? Hf Hp Hw]; subst. apply IH in Hw as (m & H1 & H2). exists m. split; auto. econstructor; eauto.
    + intros (m & H1 & H2). inversion H1; subst. econstructor; eauto. apply IH. eauto.
Qed.
Lemma ancestors_walk t : tree_wf t -> forall rank,
  (forall n e p, tfind t n = Some e -> te_parent e = Some p -> (rank p < rank n)%nat) ->
  forall f n e, tfind t n = Some e -> (rank n < f)%nat ->
  exists l, walk_up t n (tr_root t) l /\ tree_ancestors f t n = Ret (map nm l ++ [tr_root t]).
Proof.
  intros W rank R1. induction f as [|f IH]; intros n e E L; [lia|]. simpl. rewrite E.
  destruct (String.eqb_spec n (tr_root t)) as [->|N].
  - exists []. split; [constructor|reflexivity].
  - destruct (wf_parent _ W _ _ E N) as (p & pe & H1 & H2 & _). rewrite H1.
    destruct (IH p pe H2) as (l & Hw & Ha). { specialize (R1 _ _ _ E H1). lia. }
    exists (e :: l). split; [econstructor; eauto|]. rewrite Ha. cbn [obind]. simpl. unfold nm at 2. rewrite (wf_named _ W _ _ E). reflexivity.
Qed.
Lemma ancestors_spec t n : tinv t -> match tfind t n with
  | None => tree_ancestors (length (tr_segs t)) t n = Ret []
  | Some _ => exists l, walk_up t n (tr_root t) l /\ tree_ancestors (length (tr_segs t)) t n = Ret (map nm l ++ [tr_root t])
  end.
Proof.
  intros [W (rank & R1 & R2)]. destruct (tfind t n) as [e|] eqn:E.
  - eapply ancestors_walk; eauto.
  - pose proof (wf_segments _ W) as L. rewrite L. simpl. rewrite E. reflexivity.
Qed.
Lemma walk_up_found t n a l e : tree_wf t -> walk_up t n a l -> In e l -> tfind t (nm e) = Some e.
Proof. intros W. induction 1; intros Hi; [destruct Hi|]. destruct Hi as [<-|Hi]; auto. unfold nm. rewrite (wf_named _ W _ _ H). exact H. Qed.
Lemma walk_up_parent_found t n a l : tree_wf t -> tfind t n <> None -> walk_up t n a l -> tfind t a <> None.
Proof.
  intros W. intros H. induction 1; auto. apply IHwalk_up.
  destruct (string_dec n (tr_root t)) as [->|N].
  { destruct (wf_root _ W) as [cs Er]. rewrite Er in H0. injection H0 as <-. discriminate. }
  destruct (wf_parent _ W _ _ H0 N) as (p' & pe & H3 & H4 & _). congruence.
Qed.

Lemma strip_spec t r tip : tree_wf t -> forall X Y last,
  walk_up t r last (rev X) -> walk_up t tip last (rev Y) ->
  exists a X' Y', strip_common last (map nm X) (map nm Y) = (a, map nm X', map nm Y') /\
    walk_up t r a (rev X') /\ walk_up t tip a (rev Y') /\
    (X' = [] \/ Y' = [] \/ exists x X'' y Y'', X' = x :: X'' /\ Y' = y :: Y'' /\ nm x <> nm y).
Proof.
  intros W. induction X as [|x X IH]; intros Y last HX HY.
  - exists last, [], Y. simpl. auto.
  - destruct Y as [|y Y]; [exists last, (x :: X), []; split; [reflexivity|auto]|].
    simpl map. simpl strip_common. destruct (String.eqb_spec (nm x) (nm y)) as [E|N].
    + simpl in HX, HY. apply walk_up_app in HX as (m & HX1 & HX2). apply walk_up_app in HY as (m' & HY1 & HY2).
      inversion HX2 as [|? ? ? ? ? Fx Px Wx]; subst. inversion HY2 as [|? ? ? ? ? Fy Py Wy]; subst.
      assert (Mx : nm x = m) by (unfold nm; eapply wf_named; eauto). assert (My : nm y = m') by (unfold nm; eapply wf_named; eauto).
      rewrite Mx. assert (Em : m' = m) by congruence. rewrite Em in HY1. apply IH; [exact HX1|exact HY1].
    + exists last, (x :: X), (y :: Y). split; [reflexivity|]. split; auto. split; auto. right. right. exists x, X, y, Y. auto.
Qed.

Lemma anc_walk t n a l : walk_up t n a l -> forall e, In e l -> tree_wf t -> anc t (nm e) n.
Proof.
  induction 1 as [|n e p a l En Ep W IH]; intros e0 Hi Wf; [destruct Hi|]. destruct Hi as [<-|Hi].
  - unfold nm. rewrite (wf_named _ Wf _ _ En). constructor.
  - econstructor; eauto.
Qed.
(** the two branches below the meeting point have no segment in common *)
Lemma branches_disjoint t r tip a X Y : tinv t -> walk_up t r a (rev X) -> walk_up t tip a (rev Y) ->
  (X = [] \/ Y = [] \/ exists x X' y Y', X = x :: X' /\ Y = y :: Y' /\ nm x <> nm y) ->
  forall e, In e (rev X) -> ~ In e (rev Y).
Proof.
  intros [W (rank & R1 & R2)] HX HY D e He1 He2.
  destruct D as [->|[->|(x & X' & y & Y' & -> & -> & N)]]; [destruct He1|destruct He2|].
  assert (Top : forall n z Z, walk_up t n a (rev (z :: Z)) -> tfind t (nm z) = Some z /\ te_parent z = Some a /\
      forall e, In e (rev (z :: Z)) -> anc t (nm z) (nm e)).
  { intros n z Z H. pose proof (walk_up_found t n a _ z W H) as Fz. simpl in H. apply walk_up_app in H as (m & H1 & H2).
    inversion H2 as [|? ? ? ? ? Fm Pm Wm]; subst. inversion Wm; subst. assert (Ez : nm z = m) by (unfold nm; eapply wf_named; eauto).
    split; [rewrite Ez; exact Fm|]. split; [exact Pm|]. intros e0 He. simpl in He. apply in_app_or in He as [He|[<-|[]]]; [|constructor].
    (* e0 is on the way from n to m *)
    rewrite Ez. clear -H1 He W. induction H1 as [|n e p a l En Ep Hw IH]; [destruct He|]. destruct He as [<-|He]; auto.
    unfold nm. rewrite (wf_named _ W _ _ En). clear IH. econstructor; eauto. clear -Hw. induction Hw; [constructor|econstructor; eauto]. }
  destruct (Top _ _ _ HX) as (Fx & Px & Ax). destruct (Top _ _ _ HY) as (Fy & Py & Ay).
  pose proof (Ax _ He1) as A1. pose proof (Ay _ He2) as A2.
  pose proof (R1 _ _ _ Fx Px) as K1. pose proof (R1 _ _ _ Fy Py) as K2.
  destruct (anc_linear _ _ _ _ A1 A2) as [A|A]; inversion A as [|n' e' p' F P A']; subst; try congruence.
  - assert (p' = a) by congruence. subst. pose proof (anc_rank _ _ _ _ R1 A'). lia.
  - assert (p' = a) by congruence. subst. pose proof (anc_rank _ _ _ _ R1 A'). lia.
Qed.

(** * The chain *)
Lemma add_reversed_spec t : tree_wf t -> tree_ok t -> forall l r a L, walk_up t r a l -> tfind t a <> None ->
  exists segs, add_reversed t (map nm l ++ [a]) (chain_of L) = Ret (chain_of (L ++ segs)) /\ Forall2 is_reverse l segs.
Proof.
  intros W Ok. induction l as [|e l IH]; intros r a L Hw Ha.
  - exists []. simpl. rewrite app_nil_r. auto.
  - inversion Hw as [|? ? p ? ? En Ep Hw']; subst.
    assert (Nm : nm e = r) by (unfold nm; eapply wf_named; eauto).
    assert (Hd : exists rest, map nm l ++ [a] = p :: rest).
    { inversion Hw' as [|? e' ? ? ? En' ? ?]; subst; simpl; eauto. unfold nm. rewrite (wf_named _ W _ _ En'). eauto. }
    assert (Fp : exists pe, tfind t p = Some pe).
    { inversion Hw' as [|? e' ? ? ? En' ? ?]; subst; [|eauto]. match goal with |- exists _, ?x = _ => destruct x; [eauto|contradiction] end. }
    destruct Fp as [pe Fp]. destruct (Ok _ _ En) as [O1 O2].
    destruct (reverse_segment_spec e (te_seg pe) O1 O2) as (s & Hs & Hr). { rewrite (wf_named _ W _ _ Fp). exact Ep. }
    destruct (IH p a (L ++ [s]) Hw' Ha) as (segs & H1 & H2).
    exists (s :: segs). split; [|constructor; auto].
    simpl. destruct Hd as [rest Hd]. rewrite Hd. rewrite Nm, En, Fp, Hs. cbn [obind]. rewrite chain_add_of.
    rewrite Hd in H1. rewrite H1. rewrite <- app_assoc. reflexivity.
Qed.
Lemma add_forward_spec t l : (forall e, In e l -> tfind t (nm e) = Some e) -> forall L,
  add_forward t (map nm l) (chain_of L) = Ret (chain_of (L ++ map te_seg l)).
Proof.
  induction l as [|e l IH]; intros H L; simpl.
  - rewrite app_nil_r. reflexivity.
  - rewrite (H e) by (simpl; auto). rewrite chain_add_of, IH by (intros; apply H; simpl; auto). rewrite <- app_assoc. reflexivity.
Qed.

Lemma bad_root t l : bad_ancestors t (l ++ [tr_root t]) = false.
Proof. unfold bad_ancestors. rewrite rev_app_distr. simpl. rewrite String.eqb_refl. reflexivity. Qed.

Theorem getChain_spec t r tip : tinv t -> tree_ok t ->
  (tfind t r = None \/ tfind t tip = None -> tree_getChain t r tip = Ret (false, chain_empty)) /\
  (tfind t r <> None -> tfind t tip <> None ->
   exists a lu ld segs, walk_up t r a lu /\ walk_up t tip a ld /\ (forall e, In e lu -> ~ In e ld) /\
     Forall2 is_reverse lu segs /\
     tree_getChain t r tip = Ret (true, chain_of (segs ++ map te_seg (rev ld)))).
Proof.
  intros H Ok. pose proof H as [W _]. unfold tree_getChain. pose proof (ancestors_spec t r H) as Hr. pose proof (ancestors_spec t tip H) as Ht.
  split.
  - intros D. destruct (tfind t r) as [er|] eqn:Er.
    + destruct Hr as (lr & _ & ->). cbn [obind]. rewrite bad_root.
      destruct (tfind t tip) as [et|]; [destruct D; discriminate|]. rewrite Ht. reflexivity.
    + rewrite Hr. reflexivity.
  - intros Nr Nt. destruct (tfind t r) as [er|] eqn:Er; [|contradiction]. destruct (tfind t tip) as [et|] eqn:Et; [|contradiction].
    destruct Hr as (lr & Wr & ->). destruct Ht as (lt & Wt & ->). cbn [obind]. rewrite !bad_root. cbn [obind].
    rewrite !rev_app_distr. simpl. rewrite String.eqb_refl. rewrite <- !map_rev.
    destruct (strip_spec t r tip W (rev lr) (rev lt) (tr_root t)) as (a & X & Y & E & H1 & H2 & H3); [rewrite rev_involutive; auto..|].
    rewrite E. rewrite <- map_rev.
    assert (Fa : tfind t a <> None) by (eapply walk_up_parent_found; [exact W| |exact H1]; congruence).
    destruct (add_reversed_spec t W Ok (rev X) r a [] H1 Fa) as (segs & A1 & A2).
    change chain_empty with (chain_of []). rewrite A1. cbn [obind]. simpl app at 1.
    rewrite add_forward_spec.
    + cbn [obind]. exists a, (rev X), (rev Y), segs. split; [exact H1|]. split; [exact H2|].
      split; [eapply branches_disjoint; eauto|]. split; [exact A2|]. rewrite rev_involutive. reflexivity.
    + intros e He. eapply walk_up_found; [exact W|exact H2|]. apply -> in_rev. exact He.
Qed.

(** * Poses *)
Fixpoint path_pose (q : list R) (l : list TreeElement) : Frame :=
  match l with [] => f_id | e :: l' => f_mul (segment_pose (te_seg e) (joint_value q e)) (path_pose q l') end.
Lemma path_pose_app q a b : path_pose q (a ++ b) = f_mul (path_pose q a) (path_pose q b).
Proof. induction a; simpl; [rewrite f_mul_id_l; auto|]. rewrite IHa, f_mul_assoc. reflexivity. Qed.
Lemma path_pose_rigid q l : (forall e, In e l -> segment_ok (te_seg e)) -> rigid (path_pose q l).
Proof. induction l as [|e l IH]; intros H; simpl; [apply rigid_id|]. apply rigid_mul; [apply segment_pose_rigid, H; simpl; auto|apply IH; intros; apply H; simpl; auto]. Qed.
Lemma tree_at_walk t q n a l : tree_wf t -> walk_up t n a l -> forall Fa, tree_at t q a Fa -> tree_at t q n (f_mul Fa (path_pose q (rev l))).
Proof.
  intros W. induction 1 as [a|n e p a l En Ep Hw IH]; intros Fa Ha; simpl.
  - rewrite f_mul_id_r. exact Ha.
  - rewrite path_pose_app, <- f_mul_assoc. simpl. rewrite f_mul_id_r. econstructor; eauto.
    intros ->. destruct (wf_root _ W) as [cs Er]. rewrite Er in En. injection En as <-. discriminate.
Qed.
Lemma tree_at_fun t q n F G : tree_at t q n F -> tree_at t q n G -> F = G.
Proof.
  intros H. revert G. induction H as [|n e p F En Nr Ep H IH]; intros G HG.
  - inversion HG; subst; auto. contradiction.
  - inversion HG as [|? e' p' F' En' Nr' Ep' H']; subst; [contradiction|]. assert (e' = e) by congruence. subst. assert (p' = p) by congruence. subst.
    rewrite (IH _ H'). reflexivity.
Qed.
Lemma walk_to_root t n e : tinv t -> tfind t n = Some e -> exists l, walk_up t n (tr_root t) l.
Proof. intros H E. pose proof (ancestors_spec t n H) as A. rewrite E in A. destruct A as (l & A & _). eauto. Qed.
Lemma tree_at_total t q n e : tinv t -> tfind t n = Some e -> exists F, tree_at t q n F.
Proof. intros H E. destruct (walk_to_root _ _ _ H E) as [l Hl]. eexists. eapply tree_at_walk; eauto. apply H. constructor. Qed.
Lemma tree_ok_seg t n e : tree_ok t -> tfind t n = Some e -> segment_ok (te_seg e).
Proof. intros Ok E. destruct (Ok _ _ E). apply good_segment; auto. Qed.
Lemma tree_at_rigid t q n F : tree_ok t -> tree_at t q n F -> rigid F.
Proof. intros Ok. induction 1; [apply rigid_id|]. apply rigid_mul; auto. apply segment_pose_rigid. eapply tree_ok_seg; eauto. Qed.

Lemma reversed_product q lu segs : Forall2 is_reverse lu segs -> (forall e, In e lu -> segment_ok (te_seg e)) ->
  pose_product (assign segs (scaled_values q lu)) = f_inv (path_pose q (rev lu)) /\
  count_moving segs = length (scaled_values q lu).
Proof.
  induction 1 as [|e s lu segs (_ & Hm & _ & Hp) Hrest IH]; intros Ok.
  - simpl. split; [|reflexivity]. rewrite <- (f_mul_id_r (f_inv f_id)). rewrite f_inv_l by apply rigid_id. reflexivity.
  - destruct IH as [IH1 IH2]; [intros; apply Ok; simpl; auto|].
    assert (Hpath : f_inv (path_pose q (rev (e :: lu))) = f_mul (f_inv (segment_pose (te_seg e) (joint_value q e))) (f_inv (path_pose q (rev lu)))).
    { simpl. rewrite path_pose_app. simpl. rewrite f_mul_id_r. apply f_inv_mul.
      - apply path_pose_rigid. intros e' He. apply Ok. simpl. right. apply in_rev. exact He.
      - apply segment_pose_rigid, Ok. simpl; auto. }
    rewrite Hpath. unfold scaled_values. simpl. unfold count_moving. simpl. rewrite Hm.
    destruct (moving (te_seg e)) eqn:M; simpl.
    + change (map _ (filter _ lu)) with (scaled_values q lu). rewrite IH1. split; [|f_equal; exact IH2]. f_equal. apply Hp. right. reflexivity.
    + change (map _ (filter _ lu)) with (scaled_values q lu). rewrite IH1. split; [|exact IH2]. f_equal. apply Hp. left. reflexivity.
Qed.
Lemma forward_product q l : pose_product (assign (map te_seg l) (path_values q l)) = path_pose q l /\
  count_moving (map te_seg l) = length (path_values q l).
Proof.
  induction l as [|e l [IH1 IH2]]; [split; reflexivity|]. unfold path_values, count_moving in *. simpl. unfold joint_value at 3.
  destruct (moving (te_seg e)) eqn:M; simpl.
  - split; [|f_equal; exact IH2]. rewrite IH1. unfold joint_value. rewrite M. reflexivity.
  - split; [|exact IH2]. rewrite IH1. unfold joint_value. rewrite ?M. reflexivity.
Qed.
Lemma Forall2_map_eq {A B C} (R : A -> B -> Prop) (f : A -> C) (g : B -> C) a b :
  Forall2 R a b -> (forall x y, R x y -> f x = g y) -> map f a = map g b.
Proof. induction 1; intros H'; simpl; auto. f_equal; auto. Qed.

Theorem getChain_pose t r tip : tinv t -> tree_ok t -> tfind t r <> None -> tfind t tip <> None ->
  exists a lu ld c, walk_up t r a lu /\ walk_up t tip a ld /\ (forall e, In e lu -> ~ In e ld) /\
    tree_getChain t r tip = Ret (true, c) /\ chain_wf c /\
    map (fun s => jname (sjoint s)) (ch_segs c) = map (fun e => jname (sjoint (te_seg e))) (lu ++ rev ld) /\
    map moving (ch_segs c) = map (fun e => moving (te_seg e)) (lu ++ rev ld) /\
    map (fun s => Some (sname s)) (ch_segs c) = map te_parent lu ++ map (fun e => Some (sname (te_seg e))) (rev ld) /\
    forall q Fr Ft, tree_at t q r Fr -> tree_at t q tip Ft ->
      fk_JntToCart c (scaled_values q lu ++ path_values q (rev ld)) (-1) = Ret (E_NOERROR, f_mul (f_inv Fr) Ft).
Proof.
  intros H Ok Nr Nt. destruct (proj2 (getChain_spec t r tip H Ok) Nr Nt) as (a & lu & ld & segs & H1 & H2 & H3 & H4 & H5).
  exists a, lu, ld. eexists. split; [exact H1|]. split; [exact H2|]. split; [exact H3|]. split; [exact H5|]. split; [apply chain_of_wf|].
  cbn [chain_of ch_segs]. rewrite !map_app, !map_map.
  split; [f_equal; symmetry; eapply Forall2_map_eq; [exact H4|]; intros x y (E & _); auto|].
  split; [f_equal; symmetry; eapply Forall2_map_eq; [exact H4|]; intros x y (_ & E & _); auto|].
  split; [f_equal; symmetry; eapply Forall2_map_eq; [exact H4|]; intros x y (_ & _ & E & _); auto|].
  intros q Fr Ft HFr HFt. pose proof H as [W _].
  assert (Fa : exists ea, tfind t a = Some ea).
  { destruct (tfind t a) eqn:E; eauto. exfalso. eapply walk_up_parent_found; eauto. }
  destruct Fa as [ea Fa]. destruct (tree_at_total t q a ea H Fa) as [FA HA].
  pose proof (tree_at_fun _ _ _ _ _ HFr (tree_at_walk _ q _ _ _ W H1 _ HA)) as ->.
  pose proof (tree_at_fun _ _ _ _ _ HFt (tree_at_walk _ q _ _ _ W H2 _ HA)) as ->.
  assert (Oku : forall e, In e lu -> segment_ok (te_seg e)) by (intros e He; exact (tree_ok_seg t _ _ Ok (walk_up_found t r a lu e W H1 He))).
  destruct (reversed_product q lu segs H4 Oku) as [P1 P2]. destruct (forward_product q (rev ld)) as [P3 P4].
  rewrite (fk_result _ _ (-1) (length (segs ++ map te_seg (rev ld)))); [|apply chain_of_wf|left; split; [lia|reflexivity]].
  cbn [chain_of ch_nj ch_segs].
  assert (L : length (scaled_values q lu ++ path_values q (rev ld)) = count_moving (segs ++ map te_seg (rev ld))).
  { rewrite app_length, count_moving_app, P2, P4. reflexivity. }
  rewrite L, Nat.eqb_refl, Nat.leb_refl. f_equal. f_equal. unfold tip_frame. cbn [chain_of ch_segs]. rewrite firstn_all.
  rewrite assign_app by (rewrite app_length; lia).
  rewrite pose_product_app. rewrite assign_enough by lia. rewrite P2, skipn_app, skipn_all, Nat.sub_diag. simpl skipn. simpl app.
  rewrite P1, P3. assert (RA : rigid FA) by (eapply tree_at_rigid; eauto).
  assert (RU : rigid (path_pose q (rev lu))). { apply path_pose_rigid. intros e He. apply Oku. apply in_rev. exact He. }
  rewrite (f_inv_mul FA _ RA RU). rewrite f_mul_assoc. rewrite <- (f_mul_assoc (f_inv FA)). rewrite (f_inv_l _ RA), f_mul_id_l. reflexivity.
Qed.
