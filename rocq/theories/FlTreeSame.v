(** Tree forward kinematics in rounded arithmetic: return codes, equality with the chain solver, doubles and a concrete tree. *)
From Coq Require Import Reals String List ZArith Bool Arith Lia Lra.
From Flocq Require Import Core.
From Verif Require Import FramesModel FramesSpec FramesProofs FrameOpsProofs Outcome LoopProofs InertiaModel DualModel KinModel KinSpec DerivProofs KinProofs
  TreeModel TreeSpec TreeProofs TreeCopyProofs TreeNumProofs TreeChainProofs TreeSolverProofs RotNear LipProofs SvdRound FlModel FlSpec FlProofs FlJoint FlChain FlWitness
  FlTreeModel FlTreeSpec FlTreeProofs.
Import ListNotations.
Local Open Scope R_scope.

(** * Return codes *)
Definition is_ret {A} (o : outcome A) : bool := match o with Ret _ => true | _ => false end.
Lemma rec_defined rnd fsin fcos t q : forall f n, is_ret (fl_treefk_rec rnd fsin fcos f t q n) = is_ret (treefk_rec f t q n).
Proof.
  induction f as [|f IH]; intros n; [reflexivity|]. cbn [fl_treefk_rec treefk_rec]. destruct (tfind t n) as [e|]; [|reflexivity].
  destruct (aget q (te_qnr e)); [|reflexivity]. cbn [obind]. destruct (String.eqb n (tr_root t)); [reflexivity|].
  destruct (te_parent e) as [p|]; [|reflexivity]. specialize (IH p).
  destruct (fl_treefk_rec rnd fsin fcos f t q p), (treefk_rec f t q p); try discriminate; reflexivity.
Qed.
Lemma fl_tree_code rnd fsin fcos t q p0 name :
  (exists code p p', fl_treefk_JntToCart rnd fsin fcos t q p0 name = Ret (code, p') /\ treefk_JntToCart t q p0 name = Ret (code, p)) \/
  (fl_treefk_JntToCart rnd fsin fcos t q p0 name = Undef /\ treefk_JntToCart t q p0 name = Undef).
Proof.
  unfold fl_treefk_JntToCart, treefk_JntToCart. destruct (negb _); [left; do 3 eexists; split; reflexivity|].
  destruct (tfind t name); [|left; do 3 eexists; split; reflexivity]. pose proof (rec_defined rnd fsin fcos t q (length (tr_segs t)) name) as H.
  destruct (fl_treefk_rec _ _ _ _ _ _ _), (treefk_rec _ _ _ _); try discriminate; [left; do 3 eexists; split; reflexivity|right; split; reflexivity].
Qed.

(** * The chain solver as a fold *)
Definition fl_push (rnd fsin fcos : R -> R) (p : Frame) (sx : Segment * R) : Frame := fl_f_mul rnd p (fl_segment_pose rnd fsin fcos (fst sx) (snd sx)).
Lemma fl_fk_fold rnd fsin fcos segs q : length q = count_moving segs ->
  fl_fk_JntToCart rnd fsin fcos (chain_of segs) q (-1) = Ret (E_NOERROR, fold_left (fl_push rnd fsin fcos) (assign segs q) f_id).
Proof.
  intros L. pose proof (chain_of_wf segs) as Hw. unfold fl_fk_JntToCart.
  assert (En : segment_nr (chain_of segs) (-1) = length segs) by (apply denotes_segment_nr; [exact Hw|left; split; [lia|reflexivity]]).
  rewrite En. cbv zeta. cbn [chain_of ch_nj ch_ns]. rewrite L, Nat.eqb_refl, Nat.ltb_irrefl. cbn [negb]. fold (chain_of segs).
  destruct (for_loop_inv (fun i st => fst st = count_moving (firstn i segs) /\ snd st = fold_left (fl_push rnd fsin fcos) (assign (firstn i segs) q) f_id)
    (fl_fk_body rnd fsin fcos (chain_of segs) q) (length segs) 0 (0%nat, f_id)) as (st & E & H1 & H2).
  - intros i [j p] Hi (J1 & J2). cbn [fst snd] in *. unfold fl_fk_body.
    destruct (chain_lookup (chain_of segs) q i Hw L ltac:(cbn; lia)) as (s & x & Es & Eg & Hle & Hx & Ha & Hc). cbn [chain_of ch_segs] in Es, Hle, Hx, Ha, Hc.
    rewrite Eg. cbn [obind].
    assert (Ef : firstn (S i) segs = firstn i segs ++ [s]).
    { apply firstn_snoc. exact Es. }
    assert (Hpush : forall y, (if moving s then nth_error q (count_moving (firstn i segs)) = Some y else y = 0) ->
      fold_left (fl_push rnd fsin fcos) (assign (firstn (S i) segs) q) f_id = fl_f_mul rnd p (fl_segment_pose rnd fsin fcos s y)).
    { intros y Hy. rewrite Ef, assign_snoc by exact Hle. rewrite fold_left_app, <- J2.
      destruct (moving s); [rewrite Hy|subst y]; reflexivity. }
    destruct (moving s) eqn:M.
    + rewrite J1, (Ha eq_refl). cbn [obind]. eexists. split; [reflexivity|]. cbn [fst snd]. split; [rewrite Hc; lia|]. symmetry. apply Hpush. exact Hx.
    + eexists. split; [reflexivity|]. cbn [fst snd]. split; [rewrite Hc; lia|]. symmetry. apply Hpush. reflexivity.
  - split; reflexivity.
  - rewrite E. cbn [obind]. rewrite Nat.add_0_l, firstn_all in H2. rewrite H2. reflexivity.
Qed.

(** * The tree solver as a fold along the path *)
Lemma root_exact rnd fsin fcos n x : rnd 0 = 0 -> rnd 1 = 1 -> fl_segment_pose rnd fsin fcos (root_segment n) x = f_id.
Proof.
  intros Z O. unfold fl_segment_pose. replace (sf_tip (root_segment n)) with f_id.
  2:{ unfold root_segment, segment_make. cbn [sf_tip]. rewrite joint_pose_fixed by reflexivity. symmetry. apply f_inv_l, rigid_id. }
  change (fl_joint_pose rnd fsin fcos (sjoint (root_segment n)) x) with f_id.
  unfold fl_f_mul, fl_r_mul, fl_v_add, fl_r_app, fl_dot3, f_id, r_id, v_zero; cbn [fM fp vx vy vz r0 r1 r2 r3 r4 r5 r6 r7 r8].
  rewrite ?Rmult_0_l, ?Rmult_0_r, ?Rmult_1_l, ?Z, ?O, ?Rplus_0_l, ?Rplus_0_r, ?Z, ?O, ?Rplus_0_l, ?Rplus_0_r, ?Z, ?O. reflexivity.
Qed.
Lemma tree_fold rnd fsin fcos t q : rnd 0 = 0 -> rnd 1 = 1 -> tinv t -> length q = tr_nj t -> (0 < tr_nj t)%nat ->
  forall rank, (forall n e p, tfind t n = Some e -> te_parent e = Some p -> (rank p < rank n)%nat) ->
  forall n r l, walk_up t n r l -> r = tr_root t -> forall f e, tfind t n = Some e -> (rank n < f)%nat ->
  fl_treefk_rec rnd fsin fcos f t q n = Ret (fold_left (fl_push rnd fsin fcos) (map (fun e => (te_seg e, joint_value q e)) (rev l)) f_id).
Proof.
  intros Z O H L P rank R1. pose proof H as [W _]. destruct (tinv_root _ H) as [cs Ert].
  induction 1 as [a|n e0 p a l E0 Ep0 U IH]; intros Ea f e E Hf; (destruct f as [|f]; [lia|]); cbn [fl_treefk_rec].
  - subst a. rewrite Ert. destruct (fl_value rnd fsin fcos t q _ _ H L P Ert) as (y & Ey & Hy). rewrite Ey. cbn [obind te_seg]. rewrite String.eqb_refl.
    rewrite root_exact by assumption. reflexivity.
  - rewrite E0. destruct (fl_value rnd fsin fcos t q _ _ H L P E0) as (y & Ey & Hy). rewrite Ey. cbn [obind].
    destruct (String.eqb_spec n (tr_root t)) as [->|Nn]. { rewrite Ert in E0. injection E0 as <-. discriminate. }
    rewrite Ep0. destruct (wf_parent _ W _ _ E0 Nn) as (p1 & pe & Q1 & Q2 & _). rewrite Ep0 in Q1. injection Q1 as <-.
    rewrite (IH Ea f pe Q2) by (specialize (R1 _ _ _ E0 Ep0); lia). cbn [obind]. cbn [rev]. rewrite map_app, fold_left_app. cbn [map fold_left]. unfold fl_push at 2. cbn [fst snd].
    rewrite (Hy (te_seg e0) eq_refl). reflexivity.
Qed.
Lemma assign_path q l : assign (map te_seg l) (path_values q l) = map (fun e => (te_seg e, joint_value q e)) l.
Proof.
  unfold path_values. induction l as [|e l IH]; [reflexivity|]. cbn [map filter assign]. unfold joint_value at 3. destruct (moving (te_seg e)) eqn:M; cbn [map].
  - rewrite IH. unfold joint_value. rewrite M. reflexivity.
  - rewrite IH. reflexivity.
Qed.
Lemma same_walk a b n r l : same_structure a b -> walk_up b n r l -> exists l', walk_up a n r l' /\ map te_seg l' = map te_seg l.
Proof.
  intros (_ & _ & _ & S). induction 1 as [r|n e p r l E Ep U (l' & IH1 & IH2)]; [exists []; split; [constructor|reflexivity]|].
  specialize (S n). rewrite E in S. destruct (tfind a n) as [x|] eqn:Ex; [|contradiction]. destruct S as (S1 & S2 & _).
  exists (x :: l'). split; [econstructor; eauto; congruence|]. cbn [map]. congruence.
Qed.
Lemma fl_tree_chain rnd fsin fcos t st q p0 name : rnd 0 = 0 -> rnd 1 = 1 -> reachable t -> tree_ok t -> treefk_make t = Ret st ->
  length q = tr_nj t -> (0 < tr_nj t)%nat -> tfind t name <> None ->
  exists c l p, tree_getChain t (tr_root t) name = Ret (true, c) /\ walk_up st name (tr_root t) l /\
    fl_treefk_JntToCart rnd fsin fcos st q p0 name = Ret (0%Z, p) /\ fl_fk_JntToCart rnd fsin fcos c (path_values q (rev l)) (-1) = Ret (E_NOERROR, p).
Proof.
  intros Z O Hr Ok Mk L P Nn. apply reachable_inv in Hr. unfold treefk_make in Mk. pose proof (copy_structure _ _ Hr Mk) as SS. pose proof (copy_tinv _ _ Hr Mk) as Hst.
  destruct (tinv_root _ Hr) as [cs Ert].
  destruct (proj2 (getChain_spec t (tr_root t) name Hr Ok) ltac:(congruence) Nn) as (a & lu & ld & segs & W1 & W2 & _ & F & G).
  assert (Lu : a = tr_root t /\ lu = []). { inversion W1 as [|n e p b l' E Ep U]; subst; [auto|]. rewrite Ert in E. injection E as <-. discriminate. }
  destruct Lu as [-> ->]. inversion F; subst. clear F W1. destruct (same_walk _ _ _ _ _ SS W2) as (l & Wl & El).
  exists (chain_of (map te_seg (rev ld))), l. eexists. split; [exact G|]. split; [exact Wl|].
  destruct SS as (Sr & Sj & _ & S). pose proof Hst as [_ (rank & R1 & R2)].
  assert (En : exists e, tfind st name = Some e). { specialize (S name). destruct (tfind st name), (tfind t name); try contradiction; eauto. }
  destruct En as [e En]. split.
  - unfold fl_treefk_JntToCart. rewrite Sj, L, Nat.eqb_refl. cbn [negb]. rewrite En.
    rewrite (tree_fold rnd fsin fcos st q Z O Hst ltac:(congruence) ltac:(lia) rank R1 name _ l Wl ltac:(congruence) _ e En ltac:(eapply R2; eauto)). reflexivity.
  - rewrite map_rev, <- El, <- map_rev. rewrite fl_fk_fold; [rewrite assign_path; reflexivity|]. symmetry. apply forward_product.
Qed.

(** * The error for the user's tree *)
Lemma ok_same a b : same_structure a b -> tree_ok b -> tree_ok a.
Proof.
  intros (_ & _ & _ & S) Ok n e E. specialize (S n). rewrite E in S. destruct (tfind b n) as [y|] eqn:Ey; [|contradiction].
  destruct S as (-> & _). exact (Ok n y Ey).
Qed.
Lemma fl_tree_user eps A D rnd fsin fcos t st st' q p0 name l : 1 <= A -> 1 <= D -> 0 <= eps -> rounds eps rnd -> computes eps fsin sin -> computes eps fcos cos ->
  reachable t -> tree_ok t -> treefk_make t = Ret st -> tree_stored eps st' st -> length q = tr_nj t -> (0 < tr_nj t)%nat -> tfind t name <> None ->
  walk_up st name (tr_root st) l -> Forall (fun e => moves_within A D (te_seg e, joint_value q e)) l ->
  let n := S (length l) in 2500 * INR n * (eps * A) <= 1 ->
  exists p F, fl_treefk_JntToCart rnd fsin fcos st' q p0 name = Ret (0%Z, p) /\ tree_at st q name F /\
    r_near (220 * INR n * (eps * A)) (fM p) (fM F) /\ v_near (1850 * INR n * INR n * (eps * A * D)) (fp p) (fp F).
Proof.
  intros HA HD He Hr Hs Hc Ht Ok Mk St L P Nn W Fm n Hn. apply reachable_inv in Ht. unfold treefk_make in Mk.
  pose proof (copy_structure _ _ Ht Mk) as SS. pose proof (copy_tinv _ _ Ht Mk) as Hst. pose proof (ok_same _ _ SS Ok) as Ok'. destruct SS as (Sr & Sj & _ & S).
  apply (fl_tree_error eps A D rnd fsin fcos HA HD He Hr Hs Hc st' st q p0 name l); auto; try congruence; try lia.
  specialize (S name). destruct (tfind st name), (tfind t name); try contradiction; congruence.
Qed.
Lemma fl_tree_path t st name : reachable t -> treefk_make t = Ret st -> tfind t name <> None -> exists l, walk_up st name (tr_root st) l.
Proof.
  intros Ht Mk Nn. apply reachable_inv in Ht. unfold treefk_make in Mk. pose proof (copy_structure _ _ Ht Mk) as (Sr & Sj & _ & S). pose proof (copy_tinv _ _ Ht Mk) as Hst.
  specialize (S name). destruct (tfind st name) as [e|] eqn:E; [eapply walk_to_root; eauto|]. destruct (tfind t name); contradiction.
Qed.

(** * Doubles *)
Lemma fl_tree_double fsin fcos t st st' q p0 name l : computes ulp1 fsin sin -> computes ulp1 fcos cos ->
  reachable t -> tree_ok t -> treefk_make t = Ret st -> tree_stored ulp1 st' st -> length q = tr_nj t -> (0 < tr_nj t)%nat -> tfind t name <> None ->
  walk_up st name (tr_root st) l -> (length l < 20)%nat -> Forall (fun e => moves_within 10 2 (te_seg e, joint_value q e)) l ->
  exists p F, fl_treefk_JntToCart double fsin fcos st' q p0 name = Ret (0%Z, p) /\ tree_at st q name F /\
    r_near (1 / 10 ^ 11) (fM p) (fM F) /\ v_near (1 / 10 ^ 8) (fp p) (fp F).
Proof.
  intros Hs Hc Ht Ok Mk St L P Nn W H20 Fm. assert (U : 0 <= ulp1) by (rewrite ulp1_eq; lra).
  assert (N20 : INR (S (length l)) <= 20) by (apply le_INR in H20; cbn in H20 |- *; lra). pose proof (pos_INR (S (length l))) as N0.
  destruct (fl_tree_user ulp1 10 2 double fsin fcos t st st' q p0 name l ltac:(lra) ltac:(lra) U double_rounds_fl Hs Hc Ht Ok Mk St L P Nn W Fm) as (p & F & E & T & R1 & P1).
  - rewrite ulp1_eq. lra.
  - exists p, F. split; [exact E|]. split; [exact T|]. split.
    + eapply rnear_weaken; [exact R1|]. rewrite ulp1_eq. lra.
    + eapply vnear_weaken; [exact P1|]. rewrite ulp1_eq. assert (INR (S (length l)) * INR (S (length l)) <= 400) by nra. lra.
Qed.
Lemma double_zero : double 0 = 0. Proof. apply round_0. apply valid_rnd_N. Qed.
Lemma double_one : double 1 = 1.
Proof. unfold double. apply round_generic; [apply valid_rnd_N|]. change 1 with (bpow radix2 0). apply generic_format_bpow. unfold FLT_exp. cbn. lia. Qed.

(** * A tree with two branches whose data have no exact representation *)
Definition bough (r : R -> R) (n j : string) : Segment :=
  mkS n (mkJ j RotZ 1 (1/4) 0 0 0 v_zero v_zero) rb_zero
    (mkF (mkR (r (3/5)) (r (-4/5)) 0 (r (4/5)) (r (3/5)) 0 0 0 1) (mkV (r (1/10)) 0 (r (1/3)))).
Definition bt1 r := snd (tree_addSegment (tree_make "root") (bough r "a" "ja") "root").
Definition bt2 r := snd (tree_addSegment (bt1 r) (bough r "b" "jb") "a").
Definition bush r := snd (tree_addSegment (bt2 r) (bough r "c" "jc") "a").
Lemma bush_reachable r : reachable (bush r).
Proof.
  apply (reach_addSegment (bt2 r) (bough r "c" "jc") "a" true); [|reflexivity].
  apply (reach_addSegment (bt1 r) (bough r "b" "jb") "a" true); [|reflexivity].
  apply (reach_addSegment (tree_make "root") (bough r "a" "ja") "root" true); [|reflexivity]. constructor.
Qed.
Lemma bush_ok : tree_ok (bush (fun x => x)).
Proof.
  assert (F : forall n e, tfind (bush (fun x => x)) n = Some e -> In e (elements (bush (fun x => x)))).
  { intros n e H. apply smap_find_In in H. apply (in_map snd) in H. exact H. }
  assert (Rw : forall n j, rigid (sf_tip (bough (fun x => x) n j))).
  { intros n j. unfold rigid; cbn [bough sf_tip fM]. split; unfold det3; cbn; field. }
  assert (Cw : forall n j, joint_constructed (sjoint (bough (fun x => x) n j))).
  { intros n j. left. exists j, RotZ, 1, (1/4), 0, 0, 0. reflexivity. }
  intros n e H. apply F in H. cbn [bush] in H. simpl in H.
  destruct H as [<-|[<-|[<-|[<-|[]]]]]; cbn [te_seg]; (split; [|]); try (apply Rw); try apply Cw.
  - left. exists "NoName"%string, Fixed, 1, 0, 0, 0, 0. reflexivity.
  - apply rigid_mul; [apply rigid_inv|]; apply rigid_id.
Qed.
Lemma bough_stored n j : stored ulp1 (bough double n j) (bough (fun x => x) n j).
Proof.
  unfold stored, bough, v_near, r_near; cbn [sjoint sf_tip jtype jscale joffset jaxis jorigin fM fp vx vy vz r0 r1 r2 r3 r4 r5 r6 r7 r8].
  repeat split; first [apply same_err | apply small_err; apply Rabs_le; lra].
Qed.
Definition bush_nodes (r : R -> R) : list (string * TreeElement) :=
  [("root", mkTE (root_segment "root") 0 None ["a"]); ("a", mkTE (bough r "a" "ja") 0 (Some "root") ["b"; "c"]);
   ("b", mkTE (bough r "b" "jb") 1 (Some "a") []); ("c", mkTE (bough r "c" "jc") 2 (Some "a") [])]%string.
Lemma bush_copy r : exists st, treefk_make (bush r) = Ret st /\ tr_root st = "root"%string /\ tr_nj st = 3%nat /\ tr_segs st = bush_nodes r.
Proof. eexists. split; [reflexivity|]. split; [reflexivity|]. split; reflexivity. Qed.
Lemma root_stored n : stored ulp1 (root_segment n) (root_segment n).
Proof. unfold stored, v_near, r_near. repeat split; apply same_err. Qed.
Lemma bush_stored st' st : treefk_make (bush double) = Ret st' -> treefk_make (bush (fun x => x)) = Ret st -> tree_stored ulp1 st' st.
Proof.
  intros E' E. destruct (bush_copy double) as (x & Q & A1 & A2 & A3). rewrite E' in Q. injection Q as <-.
  destruct (bush_copy (fun x => x)) as (x & Q & B1 & B2 & B3). rewrite E in Q. injection Q as <-.
  split; [congruence|]. split; [congruence|]. split; [unfold names; rewrite A3, B3; reflexivity|].
  intros n. unfold tfind. rewrite A3, B3. unfold bush_nodes. cbn [smap_find].
  repeat match goal with |- context [String.eqb ?x ?y] => destruct (String.eqb x y) end; cbn [te_seg te_qnr te_parent]; auto using bough_stored, root_stored.
Qed.
Lemma bush_example a b c : Rabs a <= 9 -> Rabs b <= 9 -> Rabs c <= 9 -> exists st' st,
  treefk_make (bush double) = Ret st' /\ treefk_make (bush (fun x => x)) = Ret st /\
  exists p F, fl_treefk_JntToCart double (fun x => double (sin x)) (fun x => double (cos x)) st' [a; b; c] f_id "c" = Ret (0%Z, p) /\
    tree_at st [a; b; c] "c" F /\ r_near (1 / 10 ^ 11) (fM p) (fM F) /\ v_near (1 / 10 ^ 8) (fp p) (fp F).
Proof.
  intros Ha Hb Hc. destruct (bush_copy double) as (st' & E' & _). destruct (bush_copy (fun x => x)) as (st & E & B1 & B2 & B3). exists st', st.
  split; [exact E'|]. split; [exact E|].
  apply (fl_tree_double _ _ (bush (fun x => x)) st st' [a; b; c] f_id "c"
    [mkTE (bough (fun x => x) "c" "jc") 2 (Some "a") []; mkTE (bough (fun x => x) "a" "ja") 0 (Some "root") ["b"; "c"]]%string libm_sin libm_cos (bush_reachable _) bush_ok E (bush_stored _ _ E' E));
    [reflexivity|cbn; lia|cbn; discriminate| |cbn; lia|].
  - rewrite B1. eapply up_step; [unfold tfind; rewrite B3; reflexivity|reflexivity|]. eapply up_step; [unfold tfind; rewrite B3; reflexivity|reflexivity|]. constructor.
  - assert (M : forall n j x, Rabs x <= 9 -> moves_within 10 2 (bough (fun x => x) n j, x)).
    { intros n j x Hx. unfold moves_within. cbn [fst snd bough sjoint jscale joffset rotational jtype jaxis jorigin sf_tip fp]. rewrite Rmult_1_l.
      split; [rewrite (Rabs_pos_eq (1/4)) by lra; lra|]. unfold v_near, v_zero; cbn [vx vy vz]. rewrite !Rminus_0_r, !Rabs_R0, (Rabs_pos_eq (1/10)), (Rabs_pos_eq (1/3)) by lra. lra. }
    constructor; [exact (M "c" "jc" c Hc)%string|]. constructor; [exact (M "a" "ja" a Ha)%string|]. constructor.
Qed.
