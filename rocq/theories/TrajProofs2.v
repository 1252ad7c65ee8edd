(** Trajectories: copies, velocities, sequences of motions. *)
From Coq Require Import Reals List Lra Lia.
From Verif Require Import FramesModel FramesSpec FramesProofs Outcome KinSpec DerivProofs ProfModel ProfSpec ProfProofs2 PathModel PathSpec TrajSpec
  FrameOpsProofs PathProofs PathProofs2 PathProofs3 PathProofs4 PathProofs5 TrajProofs.
Import ListNotations.
Local Open Scope R_scope.

(** * Copies *)
Definition copyable_trajs := fix all (vt : list Traj) : Prop := match vt with [] => True | c :: r => copyable_traj c /\ all r end.
Definition clone_all := fix all (vt : list Traj) (acc : Traj) : result Traj :=
         match vt with
         | [] => Val acc
         | c :: r => let? c' := traj_Clone c in let? acc' := tc_Add acc c' in all r acc'
         end.

Lemma clone_all_ok vt : Forall (fun t => copyable_traj t -> exists t', traj_Clone t = Val t' /\ variant t t') vt ->
  copyable_trajs vt -> forall ds, Forall2 (fun c d => traj_Duration c = Val d) vt ds ->
  forall wt es, exists vt', variant_all vt vt' /\
    clone_all vt (TComposite wt (starts 0 es) (rsum es)) =
    Val (TComposite (wt ++ vt') (starts 0 (es ++ ds)) (rsum (es ++ ds))).
Proof.
  induction 1 as [|c r Hc Hr IH]; intros HC ds F wt es; inversion F; subst.
  - exists []. cbn. rewrite !app_nil_r. auto.
  - destruct HC as (C1 & C2). destruct (Hc C1) as (c' & Ec & Vc).
    destruct (IH C2 _ H3 (wt ++ [c']) (es ++ [y])) as (vt' & V & E). exists (c' :: vt'). split; [split; assumption|].
    cbn [clone_all]. rewrite Ec. cbn [rbind]. unfold tc_Add. rewrite (variant_duration _ _ Vc), H1. cbn [rbind].
    replace (starts 0 es ++ [rsum es + y]) with (starts 0 (es ++ [y])) by (rewrite starts_app; do 3 f_equal; ring).
    rewrite <- rsum_app, E, <- !app_assoc. reflexivity.
Qed.

Lemma traj_clone t : copyable_traj t -> exists t', traj_Clone t = Val t' /\ variant t t'.
Proof.
  induction t as [g m|d F|vt vd d IH] using traj_ind'; intros C.
  - destruct C as (M & C & k & Ek & S). destruct (path_clone g M C) as (h & Eh & Sh & Mh).
    cbn. rewrite Eh. cbn. rewrite Ek. cbn. eexists. split; [reflexivity|]. cbn. auto.
  - eexists. split; [reflexivity|]. cbn. auto.
  - destruct C as (C & ts & HC). fold copyable_trajs in C. destruct (composed_shape _ _ HC) as (vu & ds & E & V & F). injection E as -> -> ->.
    assert (F' : Forall2 (fun c d => traj_Duration c = Val d) vu ds).
    { clear - V F. revert vu V. induction F as [|c d ts ds E F IH]; intros [|c' r]; cbn; try contradiction; [constructor|].
      intros (A & B). constructor; [rewrite (variant_duration _ _ A); exact E|apply IH, B]. }
    destruct (clone_all_ok vu IH C ds F' [] []) as (vt' & V' & E'). cbn in E'.
    exists (TComposite vt' (starts 0 ds) (rsum ds)). split; [exact E'|]. cbn [variant]. fold variant_all. auto.
Qed.

(** * Segments *)
Lemma seg_observed g m T pos vel acc u : evaluates m T pos vel acc ->
  (forall F, observed_traj traj_Pos (TSegment g m) u F <-> observed path_Pos g (pos u) F) /\
  (forall V, observed_traj traj_Vel (TSegment g m) u V <-> observed (fun q s => path_Vel q s (vel u)) g (pos u) V) /\
  (forall A, observed_traj traj_Acc (TSegment g m) u A <-> observed (fun q s => path_Acc q s (vel u) (acc u)) g (pos u) A).
Proof.
  intros (_ & E). destruct (E u) as (E1 & E2 & E3).
  split; [|split]; intros X; split.
  - intros ([h k| |] & t2 & V & Q); try contradiction. destruct V as (S & M & (_ & K)). destruct (K u) as (K1 & K2 & K3).
    cbn in Q. unfold seg_Pos in Q. rewrite <- K1, E1 in Q. cbn [of_vres rbind] in Q.
    destruct (path_Pos h (pos u)) as [[F g']| |] eqn:Q'; cbn in Q; try discriminate. injection Q as <- _. exists h, g'. auto.
  - intros (q & q' & M & S & Q). exists (TSegment q m), (TSegment q' m). split; [split; [exact S|]; split; [exact M|apply same_answers_refl]|].
    cbn. unfold seg_Pos. rewrite E1. cbn [of_vres rbind]. rewrite Q. reflexivity.
  - intros ([h k| |] & t2 & V & Q); try contradiction. destruct V as (S & M & (_ & K)). destruct (K u) as (K1 & K2 & K3).
    cbn in Q. unfold seg_Vel in Q. rewrite <- K1, <- K2, E1, E2 in Q. cbn [of_vres rbind] in Q.
    destruct (path_Vel h (pos u) (vel u)) as [[F g']| |] eqn:Q'; cbn in Q; try discriminate. injection Q as <- _. exists h, g'. auto.
  - intros (q & q' & M & S & Q). exists (TSegment q m), (TSegment q' m). split; [split; [exact S|]; split; [exact M|apply same_answers_refl]|].
    cbn. unfold seg_Vel. rewrite E1, E2. cbn [of_vres rbind]. rewrite Q. reflexivity.
  - intros ([h k| |] & t2 & V & Q); try contradiction. destruct V as (S & M & (_ & K)). destruct (K u) as (K1 & K2 & K3).
    cbn in Q. unfold seg_Acc in Q. rewrite <- K1, <- K2, <- K3, E1, E2, E3 in Q. cbn [of_vres rbind] in Q.
    destruct (path_Acc h (pos u) (vel u) (acc u)) as [[F g']| |] eqn:Q'; cbn in Q; try discriminate. injection Q as <- _. exists h, g'. auto.
  - intros (q & q' & M & S & Q). exists (TSegment q m), (TSegment q' m). split; [split; [exact S|]; split; [exact M|apply same_answers_refl]|].
    cbn. unfold seg_Acc. rewrite E1, E2, E3. cbn [of_vres rbind]. rewrite Q. reflexivity.
Qed.

(** Any path: at every time at which the profile is strictly inside an elementary piece. *)
Lemma segment_velocity g m T pos vel acc fr t V : made g -> inhabited_path g -> all_leaves smooth_leaf g -> evaluates m T pos vel acc ->
  (forall u, 0 <= pos u <= path_len g -> observed_traj traj_Pos (TSegment g m) u (fr u)) ->
  inside g (pos t) -> derivable_pt_lim pos t (vel t) ->
  observed_traj traj_Vel (TSegment g m) t V -> frame_velocity fr t V.
Proof.
  intros Mp N SM EV HP HI Hs HV. pose proof (made_inv _ Mp) as I. pose proof (inside_range g I _ HI) as Rg.
  destruct (inside_local smooth_leaf g I SM _ HI) as (l & o & d & Pd & Sl & K).
  assert (E0 : V = leaf_Vel l (pos t - o) (vel t)).
  { apply (K _ (fun l s => leaf_Vel l s (vel t)) (pos t) V).
    - replace (pos t - pos t) with 0 by ring. rewrite Rabs_R0. exact Pd.
    - apply observed_covers; [exact N|lra|]. apply (proj1 (proj2 (seg_observed g m T pos vel acc t EV))). exact HV. }
  assert (Pm : 0 < Rmin d (Rmin (pos t) (path_len g - pos t))) by (repeat apply Rmin_glb_lt; lra).
  destruct (dl_near pos t (vel t) _ Pm Hs) as (e & He & Q).
  apply (frame_velocity_loc _ (fun u => leaf_Pos l (pos u - o)) t V e He).
  - intros y Hy. specialize (Q y Hy).
    pose proof (Rmin_l d (Rmin (pos t) (path_len g - pos t))). pose proof (Rmin_r d (Rmin (pos t) (path_len g - pos t))).
    pose proof (Rmin_l (pos t) (path_len g - pos t)). pose proof (Rmin_r (pos t) (path_len g - pos t)).
    pose proof (Rle_abs (pos y - pos t)). pose proof (Rle_abs (- (pos y - pos t))) as D2. rewrite Rabs_Ropp in D2.
    apply (K _ leaf_Pos (pos y)); [lra|]. apply observed_covers; [exact N|lra|].
    apply (proj1 (seg_observed g m T pos vel acc y EV)). apply HP. lra.
  - rewrite E0. apply (proj1 Sl (fun u => pos u - o)). apply dl_shift; exact Hs.
Qed.

Lemma segment_acceleration g m T pos vel acc vl t A : made g -> inhabited_path g -> all_leaves smooth_leaf g -> evaluates m T pos vel acc ->
  (forall u, 0 <= pos u <= path_len g -> observed_traj traj_Vel (TSegment g m) u (vl u)) ->
  inside g (pos t) -> derivable_pt_lim pos t (vel t) -> derivable_pt_lim vel t (acc t) ->
  observed_traj traj_Acc (TSegment g m) t A -> tw_derive vl t A.
Proof.
  intros Mp N SM EV HP HI Hs Hs' HA. pose proof (made_inv _ Mp) as I. pose proof (inside_range g I _ HI) as Rg.
  destruct (inside_local smooth_leaf g I SM _ HI) as (l & o & d & Pd & Sl & K).
  assert (E0 : A = leaf_Acc l (pos t - o) (vel t) (acc t)).
  { apply (K _ (fun l s => leaf_Acc l s (vel t) (acc t)) (pos t) A).
    - replace (pos t - pos t) with 0 by ring. rewrite Rabs_R0. exact Pd.
    - apply observed_covers; [exact N|lra|]. apply (proj2 (proj2 (seg_observed g m T pos vel acc t EV))). exact HA. }
  assert (Pm : 0 < Rmin d (Rmin (pos t) (path_len g - pos t))) by (repeat apply Rmin_glb_lt; lra).
  destruct (dl_near pos t (vel t) _ Pm Hs) as (e & He & Q).
  apply (tw_derive_loc _ (fun u => leaf_Vel l (pos u - o) (vel u)) t A e He).
  - intros y Hy. specialize (Q y Hy).
    pose proof (Rmin_l d (Rmin (pos t) (path_len g - pos t))). pose proof (Rmin_r d (Rmin (pos t) (path_len g - pos t))).
    pose proof (Rmin_l (pos t) (path_len g - pos t)). pose proof (Rmin_r (pos t) (path_len g - pos t)).
    pose proof (Rle_abs (pos y - pos t)). pose proof (Rle_abs (- (pos y - pos t))) as D2. rewrite Rabs_Ropp in D2.
    apply (K _ (fun l w => leaf_Vel l w (vel y)) (pos y)); [lra|]. apply (observed_covers (fun l w => leaf_Vel l w (vel y))); [exact N|lra|].
    apply (proj1 (proj2 (seg_observed g m T pos vel acc y EV))). apply HP. lra.
  - rewrite E0. apply (proj2 Sl (fun u => pos u - o) vel); [apply dl_shift; exact Hs|exact Hs'].
Qed.

(** Elementary paths: at every time. *)
Lemma leaf_answers l m T pos vel acc u : evaluates m T pos vel acc ->
  answers traj_Pos (TSegment (PLeaf l) m) u (leaf_Pos l (pos u)) /\
  answers traj_Vel (TSegment (PLeaf l) m) u (leaf_Vel l (pos u) (vel u)) /\
  answers traj_Acc (TSegment (PLeaf l) m) u (leaf_Acc l (pos u) (vel u) (acc u)).
Proof.
  intros (_ & E). destruct (E u) as (E1 & E2 & E3).
  split; [|split]; intros [h k| |] V; try contradiction; destruct V as (S & M & (_ & K)); destruct (K u) as (K1 & K2 & K3);
    destruct h; cbn in S; try contradiction; subst; cbn; unfold seg_Pos, seg_Vel, seg_Acc; rewrite <- ?K1, <- ?K2, <- ?K3, ?E1, ?E2, ?E3; cbn; eauto.
Qed.
Lemma leaf_segment l m T pos vel acc : smooth_leaf l -> 0 <= leaf_len l -> evaluates m T pos vel acc -> velocity pos vel ->
  animates (TSegment (PLeaf l) m) T (fun u => leaf_Pos l (pos u)) (fun u => leaf_Vel l (pos u) (vel u)) /\
  forall u, answers traj_Acc (TSegment (PLeaf l) m) u (leaf_Acc l (pos u) (vel u) (acc u)) /\
    (derivable_pt_lim vel u (acc u) -> tw_derive (fun u => leaf_Vel l (pos u) (vel u)) u (leaf_Acc l (pos u) (vel u) (acc u))).
Proof.
  intros (S1 & S2) Hl EV HV. split; [split; [|split; [|split]]|].
  - cbn. split; [reflexivity|]. split; [constructor; exact Hl|apply same_answers_refl].
  - cbn. rewrite (proj1 EV). reflexivity.
  - intros u. destruct (leaf_answers l m T pos vel acc u EV) as (A & B & _). auto.
  - intros u. apply S1. apply HV.
  - intros u. destruct (leaf_answers l m T pos vel acc u EV) as (_ & _ & A). split; [exact A|].
    intros Hu. apply (S2 pos vel); [apply HV|exact Hu].
Qed.

Lemma trap_evaluates t : evaluates (PTrap t) (trap_duration t) (trap_pos t) (trap_vel t) (trap_acc t).
Proof. split; [reflexivity|]. intros u. repeat split. Qed.

(** * A straight move with a trapezoidal profile *)
Lemma moves_still p T pos vel : moves p p T pos -> velocity pos vel -> forall u, vel u = 0.
Proof.
  intros (_ & _ & _ & B) V u. pose proof (V u) as D.
  assert (C : derivable_pt_lim pos u 0).
  { apply (derivable_pt_lim_ext (fun _ => p)). - intros z. destruct (B z); lra. - apply derivable_pt_lim_const. }
  exact (uniqueness_limite _ _ _ _ D C).
Qed.

Lemma straight_move o F G eq m T mv ma : resolved F G -> 0 < eq ->
  let l := line_make F G o eq in
  good_motion 0 (ln_len l) T mv ma (trap_pos m) (trap_vel m) (trap_acc m) -> trap_duration m = T ->
  exists pos vel, animates (TSegment (PLeaf (LLine l)) (PTrap m)) T pos vel /\ leads_to T F G pos /\
    forall u, euclid_norm (tvel (vel u)) <= mv /\ eq * euclid_norm (trot (vel u)) <= mv /\
              exists x, 0 <= x <= 1 /\ on_straight F G x (pos u).
Proof.
  intros HR He l (HM & HV & HL & _ & _) <-.
  pose proof (line_make_facts o F G eq HR He) as LF. fold l in LF.
  assert (Pl : 0 <= ln_len l).
  { rewrite (lf_len _ _ _ _ LF). eapply Rle_trans; [|apply Rmax_l]. unfold euclid_norm. apply sqrt_pos. }
  destruct (line_correct o F G eq HR He) as (ST & CD & _). fold l in ST, CD.
  destruct (leaf_segment (LLine l) (PTrap m) _ _ _ _ CD Pl (trap_evaluates m) HV) as (AN & _).
  eexists _, _. split; [exact AN|]. cbn [leaf_Pos leaf_Vel].
  destruct HM as (T0 & M0 & M1 & MB). split.
  - split; [exact T0|]. destruct ST as (S0 & S1 & _). split; intros u Hu; [rewrite (M0 u Hu); exact S0|rewrite (M1 u Hu); exact S1].
  - intros u. destruct (Rle_lt_or_eq_dec 0 (ln_len l) Pl) as [Q|Q].
    + pose proof (line_speed F G eq l (proj1 HR) He LF Q (trap_pos m u)) as (A & B & _).
      pose proof (HL u) as Lu.
      assert (K : euclid_norm (tvel (line_Vel l (trap_pos m u) (trap_vel m u))) = Rabs (trap_vel m u) * euclid_norm (tvel (line_Vel l (trap_pos m u) 1)) /\
                  euclid_norm (trot (line_Vel l (trap_pos m u) (trap_vel m u))) = Rabs (trap_vel m u) * euclid_norm (trot (line_Vel l (trap_pos m u) 1))).
      { rewrite <- !euclid_norm_scale. unfold line_Vel, sa_Vel. cbn [tvel trot]. generalize (sa_start (ln_orient l)) (sa_axis (ln_orient l)) (ln_dir l) (ln_scalelin l) (ln_scalerot l) (trap_vel m u).
        clear. intros M a d x y w. split; f_equal; geo. }
      destruct K as (-> & ->). pose proof (Rabs_pos (trap_vel m u)) as P0.
      split; [|split].
      * apply Rle_trans with (Rabs (trap_vel m u) * 1); [apply Rmult_le_compat_l; assumption|lra].
      * apply Rle_trans with (Rabs (trap_vel m u) * 1); [|lra]. 
        replace (eq * (Rabs (trap_vel m u) * euclid_norm (trot (line_Vel l (trap_pos m u) 1)))) with (Rabs (trap_vel m u) * (eq * euclid_norm (trot (line_Vel l (trap_pos m u) 1)))) by ring.
        apply Rmult_le_compat_l; assumption.
      * exists (trap_pos m u / ln_len l). assert (Bu : 0 <= trap_pos m u <= ln_len l) by (destruct (MB u); lra). split.
        { split; [apply Rmult_le_pos; [lra|apply Rlt_le, Rinv_0_lt_compat; exact Q]|]. apply Rmult_le_reg_r with (ln_len l); [exact Q|]. unfold Rdiv. rewrite Rmult_assoc, Rinv_l; lra. }
        exists (ln_len l), (line_Pos l). split; [exact ST|]. replace (trap_pos m u / ln_len l * ln_len l) with (trap_pos m u) by (field; lra). reflexivity.
    + assert (V0 : trap_vel m u = 0).
      { apply (moves_still 0 (trap_duration m) (trap_pos m)); [|exact HV]. rewrite <- Q in MB, M1. split; [exact T0|]. auto. }
      assert (P0 : trap_pos m u = 0) by (destruct (MB u); lra).
      pose proof (HL u) as Lu. rewrite V0 in *. rewrite Rabs_R0 in Lu.
      assert (K : tvel (line_Vel l (trap_pos m u) 0) = v_zero /\ trot (line_Vel l (trap_pos m u) 0) = v_zero).
      { unfold line_Vel, sa_Vel. cbn [tvel trot]. generalize (sa_start (ln_orient l)) (sa_axis (ln_orient l)) (ln_dir l) (ln_scalelin l) (ln_scalerot l). clear. intros. split; geo. }
      destruct K as (-> & ->). assert (N0 : euclid_norm v_zero = 0) by (unfold euclid_norm; transitivity (sqrt 0); [f_equal; cbn; ring|apply sqrt_0]).
      rewrite N0. split; [lra|]. split; [lra|]. exists 0. split; [lra|]. exists (ln_len l), (line_Pos l). split; [exact ST|].
      rewrite P0, Rmult_0_l. reflexivity.
Qed.

Lemma line_trajectory o F G eq mv ma : resolved F G -> 0 < eq -> 0 < mv -> 0 < ma ->
  let l := line_make F G o eq in
  exists m, trap_setProfile (trap_make mv ma) 0 (ln_len l) = Ret m /\
    (exists pos vel, animates (TSegment (PLeaf (LLine l)) (PTrap m)) (trap_duration m) pos vel /\ leads_to (trap_duration m) F G pos /\
       forall u, euclid_norm (tvel (vel u)) <= mv /\ eq * euclid_norm (trot (vel u)) <= mv /\
                 exists x, 0 <= x <= 1 /\ on_straight F G x (pos u)) /\
    forall D, 0 < D -> exists t pos vel,
       segment_for_duration (PLeaf (LLine l)) (trap_make mv ma) D = Val t /\
       animates t (Rmax D (trap_duration m)) pos vel /\ leads_to (Rmax D (trap_duration m)) F G pos /\
       forall u, euclid_norm (tvel (vel u)) <= mv /\ eq * euclid_norm (trot (vel u)) <= mv /\
                 exists x, 0 <= x <= 1 /\ on_straight F G x (pos u).
Proof.
  intros HR He Hv Ha l. destruct (trap_profile (trap_make mv ma) 0 (ln_len l) Hv Ha) as (m & E & _ & _ & GM & _).
  exists m. split; [exact E|]. split; [exact (straight_move o F G eq m _ mv ma HR He GM eq_refl)|].
  intros D HD. destruct (trap_profile_duration (trap_make mv ma) m 0 (ln_len l) D Hv Ha E HD) as (K1 & K2).
  destruct (Rlt_dec D (trap_duration m)) as [L|L].
  - destruct (straight_move o F G eq m _ mv ma HR He GM eq_refl) as (pos & vel & R1). 
    eexists _, pos, vel. rewrite Rmax_right by lra. split; [|exact R1].
    unfold segment_for_duration. cbn [path_len leaf_len]. fold l. rewrite (K1 L). reflexivity.
  - destruct (K2 ltac:(lra)) as (m' & E' & ED & _ & GM').
    destruct (straight_move o F G eq m' _ mv ma HR He GM' ED) as (pos & vel & R1).
    eexists _, pos, vel. rewrite Rmax_left by lra. split; [|exact R1].
    unfold segment_for_duration. cbn [path_len leaf_len]. fold l. rewrite E'. reflexivity.
Qed.
