(** Concrete trees used to show that the tree theorems are not vacuous and for
    the refutations. *)
From Coq Require Import String Reals List ZArith Bool Permutation Arith Lia Lra.
From Verif Require Import FramesModel FramesSpec FramesProofs FrameOpsProofs Outcome LoopProofs InertiaModel DualModel KinModel KinSpec DerivProofs KinProofs JacProofs
  TreeModel TreeSpec TreeProofs TreeCopyProofs TreeNumProofs TreeChainProofs TreeSolverProofs.
Import ListNotations.
Local Open Scope string_scope.
Local Open Scope R_scope.

Definition w_slide (jn : string) (sc : R) : Joint := mkJ jn TransX sc 0 0 0 0 v_zero v_zero.
Definition w_seg (n jn : string) : Segment := mkS n (w_slide jn 1) rb_zero (f_of_vec (mkV 0 0 1)).
(** root -> a, root -> b, a -> c, in this order of insertion *)
Definition w_t1 := snd (tree_addSegment (tree_make "root") (w_seg "a" "ja") "root").
Definition w_t2 := snd (tree_addSegment w_t1 (w_seg "b" "jb") "root").
Definition w_tree := snd (tree_addSegment w_t2 (w_seg "c" "jc") "a").

Lemma w_reachable : reachable w_tree.
Proof.
  apply (reach_addSegment w_t2 (w_seg "c" "jc") "a" true); [|reflexivity].
  apply (reach_addSegment w_t1 (w_seg "b" "jb") "root" true); [|reflexivity].
  apply (reach_addSegment (tree_make "root") (w_seg "a" "ja") "root" true); [|reflexivity]. constructor.
Qed.
Lemma w_slide_constructed jn sc : joint_constructed (w_slide jn sc).
Proof. left. exists jn, TransX, sc, 0, 0, 0, 0. reflexivity. Qed.
Lemma w_ok : tree_ok w_tree.
Proof.
  assert (F : forall n e, tfind w_tree n = Some e -> In e (elements w_tree)).
  { intros n e H. apply smap_find_In in H. apply (in_map snd) in H. exact H. }
  intros n e H. apply F in H. simpl in H.
  assert (Rw : rigid (f_of_vec (mkV 0 0 1))) by apply rigid_of_vec.
  destruct H as [<-|[<-|[<-|[<-|[]]]]]; simpl; (split; [|try exact Rw]).
  - left. exists "NoName", Fixed, 1, 0, 0, 0, 0. reflexivity.
  - apply rigid_mul; [apply rigid_inv|]; apply rigid_id.
  - apply w_slide_constructed.
  - apply w_slide_constructed.
  - apply w_slide_constructed.
Qed.
Lemma w_unit : unit_scales w_tree.
Proof.
  intros n e H. apply smap_find_In in H. apply (in_map snd) in H. simpl in H.
  destruct H as [<-|[<-|[<-|[<-|[]]]]]; intros; reflexivity.
Qed.
Lemma w_qnr : (exists e, tfind w_tree "b" = Some e /\ te_qnr e = 1%nat) /\ (exists e, tfind w_tree "c" = Some e /\ te_qnr e = 2%nat).
Proof. split; eexists; (split; [reflexivity|reflexivity]). Qed.

Lemma copy_renumbers : exists t t' n e e', reachable t /\ tree_copy t = Ret t' /\
  tfind t n = Some e /\ tfind t' n = Some e' /\ moving (te_seg e) = true /\ te_qnr e <> te_qnr e'.
Proof.
  exists w_tree. eexists. exists "b". eexists. eexists. split; [exact w_reachable|]. split; [reflexivity|].
  split; [reflexivity|]. split; [reflexivity|]. split; [reflexivity|]. simpl. discriminate.
Qed.
(** the position solver then answers for another joint assignment than the user's *)
Lemma slide_pose n jn sc I v q : segment_pose (mkS n (w_slide jn sc) I (f_of_vec v)) q = f_of_vec (v_add (mkV (sc * q) 0 0) v).
Proof. unfold segment_pose, joint_pose, w_slide. cbn [sjoint jtype jscale joffset sf_tip]. replace (sc * q + 0) with (sc * q) by ring. generalize (sc * q). intros x. geo. Qed.
Lemma fp_of_vec v : fp (f_of_vec v) = v. Proof. reflexivity. Qed.
Lemma at_one t q n e root : tr_root t = root -> tfind t n = Some e -> n <> root -> te_parent e = Some root ->
  tree_at t q n (segment_pose (te_seg e) (joint_value q e)).
Proof. intros <- E N P. rewrite <- (f_mul_id_l (segment_pose _ _)). econstructor; eauto. constructor. Qed.
Lemma copy_changes_fk : exists t st q n F G p, reachable t /\ treefk_make t = Ret st /\
  treefk_JntToCart st q p n = Ret (0%Z, F) /\ tree_at t q n G /\ F <> G.
Proof.
  destruct (copy_total _ (reachable_inv _ w_reachable)) as [st Hst].
  pose proof (copy_tinv _ _ (reachable_inv _ w_reachable) Hst) as I.
  assert (Eb : tfind w_tree "b" = Some (mkTE (w_seg "b" "jb") 1 (Some "root") [])) by reflexivity.
  assert (Es : tr_root st = "root" /\ tr_nj st = 3%nat /\ tfind st "b" = Some (mkTE (w_seg "b" "jb") 2 (Some "root") [])).
  { vm_compute in Hst. injection Hst as <-. split; [reflexivity|]. split; reflexivity. }
  destruct Es as (Rs & Ns & Es).
  pose proof (at_one w_tree [0; 1; 0] "b" _ "root" eq_refl Eb ltac:(discriminate) eq_refl) as A.
  pose proof (at_one st [0; 1; 0] "b" _ "root" Rs Es ltac:(discriminate) eq_refl) as B.
  destruct (treefk_spec st [0; 1; 0] f_id "b" I) as (_ & _ & H). destruct H as (F & HF & HA); [rewrite Ns; auto..|congruence|].
  exists w_tree, st, [0; 1; 0], "b", F. eexists. exists f_id. split; [exact w_reachable|]. split; [exact Hst|]. split; [exact HF|]. split; [exact A|].
  rewrite (tree_at_fun _ _ _ _ _ HA B). cbn [te_seg]. unfold joint_value. cbn [te_seg te_qnr nth].
  change (moving (w_seg "b" "jb")) with true. cbv iota. unfold w_seg. rewrite !slide_pose. intros H.
  apply (f_equal fp) in H. rewrite !fp_of_vec in H. apply (f_equal vx) in H. simpl in H. lra.
Qed.

(** addChain stops half way *)
Definition w_chain2 : Chain := mkCh 2 2 [w_seg "x" "jx"; w_seg "x" "jy"].
Lemma addChain_not_atomic : exists t c hook t', reachable t /\ tree_addChain t c hook = (false, t') /\ tfind t "x" = None /\ tfind t' "x" <> None.
Proof.
  exists (tree_make "root"), w_chain2, "root". eexists. split; [constructor|]. split; [reflexivity|]. split; [reflexivity|discriminate].
Qed.

(** a reversed joint forgets its scale *)
Definition w_scaled := snd (tree_addSegment (tree_make "root") (mkS "a" (w_slide "ja" 2) rb_zero f_id) "root").
Lemma w_scaled_reachable : reachable w_scaled.
Proof. apply (reach_addSegment (tree_make "root") (mkS "a" (w_slide "ja" 2) rb_zero f_id) "root" true); [|reflexivity]. constructor. Qed.
Lemma w_scaled_ok : tree_ok w_scaled.
Proof.
  intros n e H. apply smap_find_In in H. apply (in_map snd) in H. simpl in H.
  destruct H as [<-|[<-|[]]]; simpl; split.
  - left. exists "NoName", Fixed, 1, 0, 0, 0, 0. reflexivity.
  - apply rigid_mul; [apply rigid_inv|]; apply rigid_id.
  - apply w_slide_constructed.
  - apply rigid_id.
Qed.
Lemma reversed_scale : exists t r tip c q Fr Ft F, reachable t /\ tree_ok t /\ tree_getChain t r tip = Ret (true, c) /\
  ch_nj c = tr_nj t /\ length q = tr_nj t /\ tr_nj t = 1%nat /\ tree_at t q r Fr /\ tree_at t q tip Ft /\
  fk_JntToCart c q (-1) = Ret (E_NOERROR, F) /\ F <> f_mul (f_inv Fr) Ft.
Proof.
  pose proof (reachable_inv _ w_scaled_reachable) as I.
  destruct (getChain_pose w_scaled "a" "root" I w_scaled_ok) as (a & lu & ld & c & H1 & H2 & H3 & H4 & H5 & H6 & H7 & H8 & H9); [discriminate..|].
  (* the path is one step up *)
  assert (Ea : tfind w_scaled "a" = Some (mkTE (mkS "a" (w_slide "ja" 2) rb_zero f_id) 0 (Some "root") [])) by reflexivity.
  assert (Er : exists er, tfind w_scaled "root" = Some er /\ te_parent er = None) by (eexists; split; reflexivity).
  destruct Er as (er & Er & Pr).
  inversion H2 as [|? ? ? ? ? F2 P2 W2]; subst; [|rewrite Er in F2; injection F2 as <-; rewrite Pr in P2; discriminate].
  inversion H1 as [|? e1 p1 ? l1 F1 P1 W1]; subst.
  rewrite Ea in F1. injection F1 as <-. simpl in P1. injection P1 as <-.
  inversion W1 as [|? ? ? ? ? F3 P3 W3]; subst; [|rewrite Er in F3; injection F3 as <-; rewrite Pr in P3; discriminate].
  set (e1 := mkTE (mkS "a" (w_slide "ja" 2) rb_zero f_id) 0 (Some "root") []) in *.
  pose proof (H9 [1 / 2] _ _ (at_one w_scaled [1 / 2] "a" e1 "root" eq_refl Ea ltac:(discriminate) eq_refl) (at_root w_scaled [1 / 2])) as K.
  assert (SV : scaled_values [1 / 2] [e1] = [1]).
  { unfold scaled_values. simpl. unfold joint_value. simpl. f_equal. field. }
  rewrite SV in K. simpl rev in K. simpl app in K.
  assert (Aa : tree_at w_scaled [1] "a" _) by exact (at_one w_scaled [1] "a" e1 "root" eq_refl Ea ltac:(discriminate) eq_refl).
  exists w_scaled, "a", "root", c, [1]. eexists. eexists. eexists. split; [exact w_scaled_reachable|]. split; [exact w_scaled_ok|]. split; [exact H4|].
  split. { destruct H5 as [_ ->]. unfold count_moving. change (tr_nj w_scaled) with 1%nat.
    assert (Hl : length (filter moving (ch_segs c)) = length (filter (fun b => b) (map moving (ch_segs c)))).
    { clear. induction (ch_segs c) as [|s l IH]; simpl; auto. destruct (moving s); simpl; congruence. }
    rewrite Hl, H7. reflexivity. }
  split; [reflexivity|]. split; [reflexivity|]. split; [exact Aa|]. split; [exact (at_root w_scaled [1])|]. split; [exact K|].
  clear. unfold joint_value. cbn [te_seg te_qnr nth e1]. change (moving (mkS "a" (w_slide "ja" 2) rb_zero f_id)) with true. cbv iota.
  change f_id with (f_of_vec v_zero) at 1 4. rewrite !slide_pose. change (f_of_vec v_zero) with f_id. rewrite !f_mul_id_r.
  intros H. assert (G : forall v, fp (f_inv (f_of_vec v)) = v_neg v) by (intros; geo).
  apply (f_equal fp) in H. rewrite !G in H. apply (f_equal vx) in H. simpl in H. lra.
Qed.
