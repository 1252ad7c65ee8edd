(** Property theorems C30, continued: every segment of an extracted chain, and getChain in Python.
    Definitions: TreeModel.v, TreePyModel.v (code), TreeSpec.v (vocabulary). *)
From Coq Require Import String Reals List ZArith.
From Verif Require Import FramesModel FramesSpec Outcome InertiaModel KinModel KinSpec TreeModel TreeSpec TreeWitness PyModel TreePyModel TreeSegs.
Import ListNotations.
Local Open Scope R_scope.
Local Open Scope string_scope.

(** Every segment of the chain carries the name and the inertia of a segment of the tree and is where the tree has it,
    seen from the root of the chain. *)
Theorem C30_segments : forall t r tip, reachable t -> tree_ok t -> tfind t r <> None -> tfind t tip <> None ->
  exists a lu ld c, walk_up t r a lu /\ walk_up t tip a ld /\ tree_getChain t r tip = Ret (true, c) /\
    forall k s, nth_error (ch_segs c) k = Some s ->
      (exists e, tfind t (sname s) = Some e /\ sI s = sI (te_seg e)) /\
      forall q Fr F, tree_at t q r Fr -> tree_at t q (sname s) F ->
        fk_JntToCart c (scaled_values q lu ++ path_values q (rev ld)) (Z.of_nat (S k)) = Ret (E_NOERROR, f_mul (f_inv Fr) F).
Proof. exact f_segments. Qed.
Print Assumptions C30_segments.

Theorem C30_segments_example : exists c, reachable w_tree /\ tree_ok w_tree /\ tree_getChain w_tree "b" "c" = Ret (true, c) /\
  map sname (ch_segs c) = ["root"; "a"; "c"].
Proof. exact f_segments_example. Qed.
Print Assumptions C30_segments_example.

(** In Python the chain is the one of C++ ... *)
Theorem C30_python : forall t r tip, reachable t -> tree_ok t ->
  (tfind t r <> None -> tfind t tip <> None -> exists c, tree_getChain t r tip = Ret (true, c) /\ py_getChain t r tip = PyOk c) /\
  (tfind t r = None \/ tfind t tip = None -> py_getChain t r tip = PyOk chain_empty).
Proof. exact f_py_getChain. Qed.
Print Assumptions C30_python.

(** ... but a caller cannot tell a name the tree does not have from an empty chain. *)
Theorem C30_python_refuted : exists t r tip, reachable t /\ tree_ok t /\ tfind t r <> None /\ tfind t tip = None /\
  py_getChain t r tip = py_getChain t r r.
Proof. exact f_py_refuted. Qed.
Print Assumptions C30_python_refuted.
