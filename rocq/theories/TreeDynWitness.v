(** Concrete trees for C38: the hypotheses are met, and a failed call can leave
    half of the torques overwritten. *)
From Coq Require Import Reals String List ZArith Bool Arith Lia Lra.
From Verif Require Import FramesModel FramesSpec FramesProofs FrameOpsProofs Outcome LoopProofs InertiaModel InertiaProofs DualModel KinModel KinSpec
  SpatialProofs TreeModel TreeSpec TreeProofs TreeChainProofs TreeWitness IkModel DynModel DynSpec TreeDynModel TreeDynSpec TreeDynProofs TreeDynChain TreeDynFinal.
Import ListNotations.
Local Open Scope string_scope.
Local Open Scope list_scope.
Local Open Scope R_scope.

(** ** A branching tree and a serial one *)
Definition dw_g : Vector := mkV 0 0 (-10).
(** root -> a -> b, with masses and a fixed joint in between *)
Definition dw_mass : RigidBodyInertia := rb_make 2 (mkV 0 0 1) (ri_make 1 1 1 0 0 0).
Definition dw_arm (n jn : string) : Segment := mkS n (w_slide jn 1) dw_mass (f_of_vec (mkV 0 0 1)).
Definition dw_bracket (n jn : string) : Segment := mkS n (mkJ jn Fixed 1 0 0 0 0 v_zero v_zero) dw_mass (f_of_vec (mkV 0 0 1)).
Definition dw_s1 := snd (tree_addSegment (tree_make "root") (dw_arm "a" "ja") "root").
Definition dw_s2 := snd (tree_addSegment dw_s1 (dw_bracket "k" "jk") "a").
Definition dw_serial := snd (tree_addSegment dw_s2 (dw_arm "b" "jb") "k").
(** the same with a second branch at a *)
Definition dw_fork := snd (tree_addSegment dw_serial (dw_arm "c" "jc") "a").

Lemma dw_serial_reachable : reachable dw_serial.
Proof.
  apply (reach_addSegment dw_s2 (dw_arm "b" "jb") "k" true); [|reflexivity].
  apply (reach_addSegment dw_s1 (dw_bracket "k" "jk") "a" true); [|reflexivity].
  apply (reach_addSegment (tree_make "root") (dw_arm "a" "ja") "root" true); [|reflexivity]. constructor.
Qed.
Lemma dw_fork_reachable : reachable dw_fork.
Proof. apply (reach_addSegment dw_serial (dw_arm "c" "jc") "a" true); [exact dw_serial_reachable|reflexivity]. Qed.
Lemma dw_fork_ok : tree_ok dw_fork.
Proof.
  assert (F : forall n e, tfind dw_fork n = Some e -> In e (elements dw_fork)).
  { intros n e H. apply smap_find_In in H. apply (in_map snd) in H. exact H. }
  intros n e H. apply F in H. simpl in H.
  assert (Rw : rigid (f_of_vec (mkV 0 0 1))) by apply rigid_of_vec.
  destruct H as [<-|[<-|[<-|[<-|[<-|[]]]]]]; simpl; (split; [|try exact Rw]); try apply w_slide_constructed.
  - left. exists "NoName", Fixed, 1, 0, 0, 0, 0. reflexivity.
  - apply rigid_mul; [apply rigid_inv|]; apply rigid_id.
  - left. exists "jk", Fixed, 1, 0, 0, 0, 0. reflexivity.
Qed.
Lemma dw_serial_ok : tree_ok dw_serial.
Proof.
  assert (F : forall n e, tfind dw_serial n = Some e -> In e (elements dw_serial)).
  { intros n e H. apply smap_find_In in H. apply (in_map snd) in H. exact H. }
  intros n e H. apply F in H. simpl in H.
  assert (Rw : rigid (f_of_vec (mkV 0 0 1))) by apply rigid_of_vec.
  destruct H as [<-|[<-|[<-|[<-|[]]]]]; simpl; (split; [|try exact Rw]); try apply w_slide_constructed.
  - left. exists "NoName", Fixed, 1, 0, 0, 0, 0. reflexivity.
  - apply rigid_mul; [apply rigid_inv|]; apply rigid_id.
  - left. exists "jk", Fixed, 1, 0, 0, 0, 0. reflexivity.
Qed.
Lemma dw_serial_branch : one_branch dw_serial "b".
Proof.
  split; [eexists; split; reflexivity|]. intros n e H. apply smap_find_In in H. apply (in_map snd) in H. simpl in H.
  destruct H as [<-|[<-|[<-|[<-|[]]]]]; simpl; lia.
Qed.
Lemma own_seen t : reachable t -> all_seen [t] t.
Proof. intros _ n F. exists t. split; [left; reflexivity|exact F]. Qed.

Lemma tree_id_nonvacuous :
  (reachable dw_fork /\ tree_ok dw_fork /\ tr_nj dw_fork = 3%nat /\ tr_ns dw_fork = 4%nat /\
   (exists e, tfind dw_fork "a" = Some e /\ te_children e = ["k"; "c"] /\ moving (te_seg e) = true /\ te_qnr e = 0%nat) /\
   preorder dw_fork ["a"] ["a"; "k"; "b"; "c"] /\
   exists s, trne_reach dw_g [dw_fork] dw_fork s /\ same_size [dw_fork] dw_fork /\ all_seen [dw_fork] dw_fork /\
             right_sizes dw_fork [1; 2; 3] [1; 1; 1] [0; 0; 1] [0; 0; 0]) /\
  (reachable dw_serial /\ tree_ok dw_serial /\ one_branch dw_serial "b" /\ tr_nj dw_serial = 2%nat /\ tr_ns dw_serial = 3%nat /\
   exists s, trne_reach dw_g [dw_serial; dw_fork] dw_serial s /\ same_size [dw_serial; dw_fork] dw_serial /\ all_seen [dw_serial; dw_fork] dw_serial /\
             right_sizes dw_serial [1; 2] [1; 1] [0; 1] [0; 0]).
Proof.
  split.
  - split; [exact dw_fork_reachable|]. split; [exact dw_fork_ok|]. split; [reflexivity|]. split; [reflexivity|].
    split; [eexists; split; [reflexivity|]; split; [reflexivity|]; split; reflexivity|]. split.
    + eapply (pre_cons dw_fork "a" _ [] ["k"; "b"; "c"] []); [reflexivity| |constructor].
      eapply (pre_cons dw_fork "k" _ ["c"] ["b"] ["c"]); [reflexivity| |].
      * eapply (pre_cons dw_fork "b" _ [] [] []); [reflexivity|constructor|constructor].
      * eapply (pre_cons dw_fork "c" _ [] [] []); [reflexivity|constructor|constructor].
    + exists (trne_make dw_fork dw_g). split; [constructor; exact dw_fork_reachable|]. split; [split; reflexivity|].
      split; [apply own_seen, dw_fork_reachable|]. repeat split.
  - split; [exact dw_serial_reachable|]. split; [exact dw_serial_ok|]. split; [exact dw_serial_branch|]. split; [reflexivity|]. split; [reflexivity|].
    exists (trne_update dw_serial (trne_make dw_fork dw_g)). split; [|split; [split; reflexivity|split]].
    + apply tr_update. eapply tr_edit; [constructor; exact dw_fork_reachable|exact dw_serial_reachable].
    + intros n F. exists dw_serial. split; [left; reflexivity|exact F].
    + repeat split.
Qed.

(** ** A failed call that overwrites some torques *)
Definition dw_rotor (n jn : string) : Segment := mkS n (mkJ jn TransX 1 0 1 0 0 v_zero v_zero) rb_zero f_id.
Definition dw_p1 := snd (tree_addSegment (tree_make "root") (dw_rotor "a" "ja") "root").
Definition dw_old := snd (tree_addSegment dw_p1 (dw_rotor "c" "jc") "root").
Definition dw_new := snd (tree_addSegment dw_p1 (dw_rotor "b" "jb") "root").
Lemma dw_p1_reachable : reachable dw_p1.
Proof. apply (reach_addSegment (tree_make "root") (dw_rotor "a" "ja") "root" true); [constructor|reflexivity]. Qed.
Lemma dw_old_reachable : reachable dw_old.
Proof. apply (reach_addSegment dw_p1 (dw_rotor "c" "jc") "root" true); [exact dw_p1_reachable|reflexivity]. Qed.
Lemma dw_new_reachable : reachable dw_new.
Proof. apply (reach_addSegment dw_p1 (dw_rotor "b" "jb") "root" true); [exact dw_p1_reachable|reflexivity]. Qed.
Lemma dead v a : w_add (rb_app rb_zero a) (tw_cross v (rb_app rb_zero v)) = w_zero.
Proof. rewrite !rb_app_zero. revert v. clear. geo. Qed.
Lemma failed_call_overwrites : exists g seen t s q qd qdd tau T s',
  trne_reach g seen t s /\ same_size seen t /\ right_sizes t q qd qdd tau /\
  trne_CartToJnt t s q qd qdd [] tau = Ret (E_NOT_UP_TO_DATE, T, s') /\ T <> tau.
Proof.
  exists dw_g, [dw_old], dw_new, (trne_make dw_old dw_g), [0; 0], [0; 0], [1; 0], [5; 5].
  do 2 eexists. split; [eapply tr_edit; [constructor; exact dw_old_reachable|exact dw_new_reachable]|]. split; [split; reflexivity|].
  split; [repeat split|]. split.
  - unfold trne_CartToJnt. cbn -[segment_pose segment_twist rb_app tw_dot f_app_w w_add w_sub t_add t_cross f_invapp_t t_scale r_invapp_t fM tw_cross Rplus Rmult t_neg].
    reflexivity.
  - intros Z. injection Z as Z. revert Z. rewrite dead, tw_dot_zero_r. lra.
Qed.
