(** Property theorems C27-C32 and C57 (kinematic trees).  Definitions: TreeModel.v
    (code), TreeSpec.v (specification vocabulary).  Witnesses: TreeWitness.v and
    the examples at the end. *)
From Coq Require Import String Reals List ZArith Bool.
From Verif Require Import FramesModel FramesSpec Outcome InertiaModel DualModel KinModel KinSpec
  TreeModel TreeSpec TreeWitness TreeFinal.
Import ListNotations.
Local Open Scope R_scope.
Local Open Scope string_scope.
Local Open Scope list_scope.

(** ** C27: every tree that can be built is well formed *)
Theorem C27_wellformed : forall t, reachable t -> tree_wf t.
Proof. exact f_wellformed. Qed.
Print Assumptions C27_wellformed.

Theorem C27_operations_defined : forall t src name hook, reachable t -> reachable src ->
  (exists r, tree_addTree t src hook = Ret r) /\ (exists r, tree_addTree_self t hook = Ret r) /\
  (exists r, tree_copy src = Ret r) /\ (exists r, tree_assign t src = Ret r) /\ (exists r, tree_assign_self t = Ret r) /\
  (exists r, tree_getSubTree src name t = Ret r).
Proof. exact f_total. Qed.
Print Assumptions C27_operations_defined.


(** ** C28: rejected additions *)
Theorem C28_addSegment : forall t s hook b t', tree_addSegment t s hook = (b, t') ->
  (b = false <-> tfind t hook = None \/ tfind t (sname s) <> None) /\
  (b = false -> t' = t) /\
  (b = true ->
     tfind t' (sname s) = Some (mkTE s (if moving s then tr_nj t else 0%nat) (Some hook) []) /\
     (exists he, tfind t hook = Some he /\
        tfind t' hook = Some (mkTE (te_seg he) (te_qnr he) (te_parent he) (te_children he ++ [sname s]))) /\
     (forall n, n <> sname s -> n <> hook -> tfind t' n = tfind t n) /\
     tr_root t' = tr_root t /\ tr_ns t' = S (tr_ns t) /\ tr_nj t' = (tr_nj t + if moving s then 1 else 0)%nat).
Proof. exact f_addSegment. Qed.
Print Assumptions C28_addSegment.

Theorem C28_addChain : forall t c hook b t', chain_wf c -> tree_addChain t c hook = (b, t') ->
  (b = true <-> (ch_segs c = [] \/ tfind t hook <> None) /\ NoDup (map sname (ch_segs c)) /\
                forall s, In s (ch_segs c) -> tfind t (sname s) = None) /\
  tr_root t' = tr_root t /\
  (forall n e, tfind t n = Some e -> exists e' new, tfind t' n = Some e' /\ te_seg e' = te_seg e /\ te_qnr e' = te_qnr e /\
     te_parent e' = te_parent e /\ te_children e' = te_children e ++ new).
Proof. exact f_addChain. Qed.
Print Assumptions C28_addChain.

Theorem C28_addChain_atomic_refuted : exists t c hook t', reachable t /\ tree_addChain t c hook = (false, t') /\ tfind t "x" = None /\ tfind t' "x" <> None.
Proof. exact addChain_not_atomic. Qed.
Print Assumptions C28_addChain_atomic_refuted.


(** ** C29: copying a tree *)
Theorem C29_copy : forall t t', reachable t -> tree_copy t = Ret t' ->
  same_structure t' t /\ depth_first_numbered t' /\ (same_tree t' t <-> depth_first_numbered t) /\ tree_copy t' = Ret t'.
Proof. exact f_copy. Qed.
Print Assumptions C29_copy.

Theorem C29_assign_is_copy : forall old t t', reachable t -> tree_assign old t = Ret t' -> tree_copy t = Ret t'.
Proof. exact f_assign. Qed.
Print Assumptions C29_assign_is_copy.

Theorem C29_self_assignment_refuted : forall t, tree_assign_self t = Ret (tree_make (tr_root t)).
Proof. exact f_assign_self. Qed.
Print Assumptions C29_self_assignment_refuted.

Theorem C29_numbering_refuted : exists t t' n e e', reachable t /\ tree_copy t = Ret t' /\
  tfind t n = Some e /\ tfind t' n = Some e' /\ moving (te_seg e) = true /\ te_qnr e <> te_qnr e'.
Proof. exact copy_renumbers. Qed.
Print Assumptions C29_numbering_refuted.

Theorem C29_solver_numbering_refuted : exists t st q n F G p, reachable t /\ treefk_make t = Ret st /\
  treefk_JntToCart st q p n = Ret (0%Z, F) /\ tree_at t q n G /\ F <> G.
Proof. exact copy_changes_fk. Qed.
Print Assumptions C29_solver_numbering_refuted.


(** ** C30: chains extracted from a tree *)
Theorem C30_missing_name : forall t r tip, reachable t -> tree_ok t -> (tfind t r = None \/ tfind t tip = None) ->
  tree_getChain t r tip = Ret (false, chain_empty).
Proof. exact f_getChain_fail. Qed.
Print Assumptions C30_missing_name.

Theorem C30_pose : forall t r tip, reachable t -> tree_ok t -> unit_scales t -> tfind t r <> None -> tfind t tip <> None ->
  exists a lu ld c, walk_up t r a lu /\ walk_up t tip a ld /\ (forall e, In e lu -> ~ In e ld) /\
    tree_getChain t r tip = Ret (true, c) /\ chain_wf c /\
    map (fun s => jname (sjoint s)) (ch_segs c) = map (fun e => jname (sjoint (te_seg e))) (lu ++ rev ld) /\
    forall q Fr Ft, tree_at t q r Fr -> tree_at t q tip Ft ->
      fk_JntToCart c (path_values q (lu ++ rev ld)) (-1) = Ret (E_NOERROR, f_mul (f_inv Fr) Ft).
Proof. exact f_getChain. Qed.
Print Assumptions C30_pose.

Theorem C30_pose_scaled : forall t r tip, reachable t -> tree_ok t -> tfind t r <> None -> tfind t tip <> None ->
  exists a lu ld c, walk_up t r a lu /\ walk_up t tip a ld /\ (forall e, In e lu -> ~ In e ld) /\
    tree_getChain t r tip = Ret (true, c) /\ chain_wf c /\
    map (fun s => jname (sjoint s)) (ch_segs c) = map (fun e => jname (sjoint (te_seg e))) (lu ++ rev ld) /\
    map moving (ch_segs c) = map (fun e => moving (te_seg e)) (lu ++ rev ld) /\
    map (fun s => Some (sname s)) (ch_segs c) = map te_parent lu ++ map (fun e => Some (sname (te_seg e))) (rev ld) /\
    forall q Fr Ft, tree_at t q r Fr -> tree_at t q tip Ft ->
      fk_JntToCart c (scaled_values q lu ++ path_values q (rev ld)) (-1) = Ret (E_NOERROR, f_mul (f_inv Fr) Ft).
Proof. exact f_getChain_scaled. Qed.
Print Assumptions C30_pose_scaled.

Theorem C30_pose_defined : forall t q n, reachable t -> tfind t n <> None -> exists F, tree_at t q n F /\ forall G, tree_at t q n G -> G = F.
Proof. exact f_tree_at. Qed.
Print Assumptions C30_pose_defined.

Theorem C30_scale_refuted : exists t r tip c q Fr Ft F, reachable t /\ tree_ok t /\ tree_getChain t r tip = Ret (true, c) /\
  ch_nj c = tr_nj t /\ length q = tr_nj t /\ tr_nj t = 1%nat /\ tree_at t q r Fr /\ tree_at t q tip Ft /\
  fk_JntToCart c q (-1) = Ret (E_NOERROR, F) /\ F <> f_mul (f_inv Fr) Ft.
Proof. exact reversed_scale. Qed.
Print Assumptions C30_scale_refuted.


(** ** C31: tree forward kinematics *)
Theorem C31_tree_fk : forall t st q p name, reachable t -> treefk_make t = Ret st ->
  (length q <> tr_nj t -> treefk_JntToCart st q p name = Ret ((-1)%Z, p)) /\
  (length q = tr_nj t -> tfind t name = None -> treefk_JntToCart st q p name = Ret ((-2)%Z, p)) /\
  (length q = tr_nj t -> (0 < tr_nj t)%nat -> tfind t name <> None ->
   exists F, treefk_JntToCart st q p name = Ret (0%Z, F) /\ tree_at st q name F /\
     (depth_first_numbered t -> tree_at t q name F)).
Proof. exact f_fk. Qed.
Print Assumptions C31_tree_fk.

Theorem C31_no_joints_refuted : forall t st p name, reachable t -> treefk_make t = Ret st -> tr_nj t = 0%nat -> tfind t name <> None ->
  treefk_JntToCart st [] p name = Undef.
Proof. exact f_fk_no_joints. Qed.
Print Assumptions C31_no_joints_refuted.


(** ** C32: tree Jacobian *)
Theorem C32_tree_jacobian : forall t st q jac name, reachable t -> tree_ok t -> treejac_make t = Ret st ->
  (length q <> tr_nj t \/ length jac <> tr_nj t -> treejac_JntToJac st q jac name = Ret ((-1)%Z, jac)) /\
  (length q = tr_nj t -> length jac = tr_nj t -> tfind t name = None -> treejac_JntToJac st q jac name = Ret ((-2)%Z, jac)) /\
  (length q = tr_nj t -> length jac = tr_nj t -> (0 < tr_nj t)%nat -> tfind t name <> None ->
   exists J, treejac_JntToJac st q jac name = Ret (0%Z, J) /\ length J = tr_nj t /\
     (forall qs t0 qd F, joint_motion (tr_nj t) qs t0 qd -> qs t0 = q -> (forall s, tree_at st (qs s) name (F s)) ->
        exists V, MultiplyJacobian J qd = Ret V /\ frame_velocity F t0 V) /\
     (forall l k, walk_up st name (tr_root st) l -> (k < tr_nj t)%nat ->
        (forall e, In e l -> moving (te_seg e) = true -> te_qnr e <> k) -> nth_error J k = Some t_zero)).
Proof. exact f_jac. Qed.
Print Assumptions C32_tree_jacobian.

Theorem C32_user_numbering : forall t st q jac name, reachable t -> tree_ok t -> treejac_make t = Ret st -> depth_first_numbered t ->
  length q = tr_nj t -> length jac = tr_nj t -> (0 < tr_nj t)%nat -> tfind t name <> None ->
   exists J, treejac_JntToJac st q jac name = Ret (0%Z, J) /\ length J = tr_nj t /\
     forall qs t0 qd F, joint_motion (tr_nj t) qs t0 qd -> qs t0 = q -> (forall s, tree_at t (qs s) name (F s)) ->
        exists V, MultiplyJacobian J qd = Ret V /\ frame_velocity F t0 V.
Proof. exact f_jac_user. Qed.
Print Assumptions C32_user_numbering.

Theorem C32_no_joints_refuted : forall t st name, reachable t -> treejac_make t = Ret st -> tr_nj t = 0%nat -> tfind t name <> None -> name <> tr_root t ->
  treejac_JntToJac st [] [] name = Undef.
Proof. exact f_jac_no_joints. Qed.
Print Assumptions C32_no_joints_refuted.


(** ** C57: merging trees and taking subtrees *)
Theorem C57_addTree : forall t src hook b t', reachable src -> tree_addTree t src hook = Ret (b, t') ->
  (b = true <-> (tr_ns src = 0%nat \/ tfind t hook <> None) /\
                (forall n, n <> tr_root src -> tfind src n <> None -> tfind t n = None)) /\
  (forall n e, tfind t n = Some e -> exists e' new, tfind t' n = Some e' /\ te_seg e' = te_seg e /\ te_qnr e' = te_qnr e /\
     te_parent e' = te_parent e /\ te_children e' = te_children e ++ new) /\
  (b = true -> tr_nj t' = (tr_nj t + tr_nj src)%nat /\ tr_ns t' = (tr_ns t + tr_ns src)%nat /\
     (forall n, tfind t n = None -> (tfind src n = None \/ n = tr_root src) -> tfind t' n = None) /\
     exists dfs, tree_copy src = Ret dfs /\
     forall n e d, n <> tr_root src -> tfind src n = Some e -> tfind dfs n = Some d -> exists x,
       tfind t' n = Some x /\ te_seg x = te_seg e /\ te_children x = te_children e /\
       te_parent x = rehook (tr_root src) hook (te_parent e) /\
       te_qnr x = if moving (te_seg e) then (tr_nj t + te_qnr d)%nat else 0%nat).
Proof. exact f_addTree. Qed.
Print Assumptions C57_addTree.

Theorem C57_getSubTree : forall src name old b t, reachable src -> tree_getSubTree src name old = Ret (b, t) ->
  (b = true <-> tfind src name <> None) /\ (b = false -> t = old) /\
  (b = true -> tr_root t = name /\
     (forall n, tfind t n <> None <-> (tfind src n <> None /\ descends src name n)) /\
     (forall n e, n <> name -> tfind src n = Some e -> descends src name n -> exists x,
        tfind t n = Some x /\ te_seg x = te_seg e /\ te_parent x = te_parent e /\ te_children x = te_children e) /\
     (forall e, tfind src name = Some e -> tfind t name = Some (mkTE (root_segment name) 0 None (te_children e))) /\
     depth_first_numbered t).
Proof. exact f_getSubTree. Qed.
Print Assumptions C57_getSubTree.

(** ** The hypotheses are satisfiable *)
Example C27_nonvacuous : reachable w_tree /\ tree_ok w_tree /\ unit_scales w_tree /\ tr_nj w_tree = 3%nat /\
  tfind w_tree "b" <> None /\ tfind w_tree "c" <> None.
Proof. exact f_nonvacuous. Qed.
Example C29_depth_first_nonvacuous : exists t, reachable t /\ tree_ok t /\ depth_first_numbered t /\ tr_nj t = 3%nat.
Proof. exact f_dfs_nonvacuous. Qed.
Example C30_example : exists c, tree_getChain w_tree "b" "c" = Ret (true, c) /\
  map (fun s => jname (sjoint s)) (ch_segs c) = ["jb"; "ja"; "jc"].
Proof. exact f_getChain_example. Qed.
