(** Specification vocabulary for kinematic trees (C27-C32). *)
From Coq Require Import String Reals List ZArith Bool Permutation.
From Verif Require Import FramesModel FramesSpec Outcome InertiaModel DualModel KinModel KinSpec TreeModel.
Import ListNotations.
Local Open Scope R_scope.

(** Every tree object obtainable by a finite history of API calls.  Trees used
    as arguments are themselves obtainable; every chain and segment may be
    used.  Failed calls are included. *)
Inductive reachable : Tree -> Prop :=
| reach_new root : reachable (tree_make root)
| reach_addSegment t s hook b t' : reachable t -> tree_addSegment t s hook = (b, t') -> reachable t'
| reach_addChain t c hook b t' : reachable t -> tree_addChain t c hook = (b, t') -> reachable t'
| reach_addTree t src hook b t' :
    reachable t -> reachable src -> tree_addTree t src hook = Ret (b, t') -> reachable t'
| reach_addTree_self t hook b t' : reachable t -> tree_addTree_self t hook = Ret (b, t') -> reachable t'
| reach_copy src t : reachable src -> tree_copy src = Ret t -> reachable t
| reach_assign old src t : reachable old -> reachable src -> tree_assign old src = Ret t -> reachable t
| reach_assign_self t t' : reachable t -> tree_assign_self t = Ret t' -> reachable t'
| reach_getSubTree src name old b t :
    reachable src -> reachable old -> tree_getSubTree src name old = Ret (b, t) -> reachable t.

(** [n] is a segment of [t] reached from the root by following child links. *)
Inductive below_root (t : Tree) : string -> Prop :=
| below_root_root : below_root t (tr_root t)
| below_root_child p e c : below_root t p -> tfind t p = Some e -> In c (te_children e) -> below_root t c.

Definition elements (t : Tree) : list TreeElement := map snd (tr_segs t).
Definition names (t : Tree) : list string := map fst (tr_segs t).
(** numbers of the moving joints *)
Definition joint_numbers (t : Tree) : list nat :=
  map te_qnr (filter (fun e => moving (te_seg e)) (elements t)).

(** The structural invariant of C27. *)
Record tree_wf (t : Tree) : Prop := {
  wf_unique : NoDup (names t);
  wf_named : forall n e, tfind t n = Some e -> sname (te_seg e) = n;
  wf_root : exists cs, tfind t (tr_root t) = Some (mkTE (root_segment (tr_root t)) 0 None cs);
  wf_parent : forall n e, tfind t n = Some e -> n <> tr_root t ->
    exists p pe, te_parent e = Some p /\ tfind t p = Some pe /\
                 count_occ String.string_dec (te_children pe) n = 1%nat;
  wf_children : forall p pe c, tfind t p = Some pe -> In c (te_children pe) ->
    exists ce, tfind t c = Some ce /\ te_parent ce = Some p;
  wf_below : forall n e, tfind t n = Some e -> below_root t n;
  wf_numbers : Permutation (joint_numbers t) (seq 0 (tr_nj t));
  wf_fixed : forall n e, tfind t n = Some e -> moving (te_seg e) = false -> te_qnr e = 0%nat;
  wf_segments : length (tr_segs t) = S (tr_ns t) }.

(** The value of the joint of an element when the joint array is [q]. *)
Definition joint_value (q : list R) (e : TreeElement) : R :=
  if moving (te_seg e) then nth (te_qnr e) q 0 else 0.

(** [F] is the pose of segment [n] relative to the root. *)
Inductive tree_at (t : Tree) (q : list R) : string -> Frame -> Prop :=
| at_root : tree_at t q (tr_root t) f_id
| at_child n e p F :
    tfind t n = Some e -> n <> tr_root t -> te_parent e = Some p -> tree_at t q p F ->
    tree_at t q n (f_mul F (segment_pose (te_seg e) (joint_value q e))).

(** [l] lists the elements met when walking up from [n] to its ancestor [a],
    [n] first, [a] excluded. *)
Inductive walk_up (t : Tree) : string -> string -> list TreeElement -> Prop :=
| up_here a : walk_up t a a []
| up_step n e p a l :
    tfind t n = Some e -> te_parent e = Some p -> walk_up t p a l -> walk_up t n a (e :: l).

(** A joint object made by one of the public constructors; a general axis must
    not be shorter than the global tolerance. *)
Definition joint_constructed (j : Joint) : Prop :=
  (exists name ty sc off i d st, joint_make name ty sc off i d st = Made j) \/
  (exists name o a ty sc off i d st,
     kdl_epsilon <= max_abs a /\ joint_make_axis name o a ty sc off i d st = Made j).
(** All segments are geometrically sound. *)
Definition tree_ok (t : Tree) : Prop :=
  forall n e, tfind t n = Some e -> joint_constructed (sjoint (te_seg e)) /\ rigid (sf_tip (te_seg e)).
(** Every moving joint has scale 1. *)
Definition unit_scales (t : Tree) : Prop :=
  forall n e, tfind t n = Some e -> moving (te_seg e) = true -> jscale (sjoint (te_seg e)) = 1.
(** The values of the moving joints among a list of elements. *)
Definition path_values (q : list R) (l : list TreeElement) : list R :=
  map (joint_value q) (filter (fun e => moving (te_seg e)) l).
(** the same multiplied by the joint scales *)
Definition scaled_values (q : list R) (l : list TreeElement) : list R :=
  map (fun e => jscale (sjoint (te_seg e)) * joint_value q e) (filter (fun e => moving (te_seg e)) l).

(** Two trees agree on names, segments, parents and children, ignoring the
    numbering of the joints. *)
Definition same_structure (a b : Tree) : Prop :=
  tr_root a = tr_root b /\ tr_nj a = tr_nj b /\ tr_ns a = tr_ns b /\
  forall n, match tfind a n, tfind b n with
            | Some x, Some y => te_seg x = te_seg y /\ te_parent x = te_parent y /\ te_children x = te_children y
            | None, None => True
            | _, _ => False
            end.
(** ... including the joint numbers *)
Definition same_tree (a b : Tree) : Prop :=
  tr_root a = tr_root b /\ tr_nj a = tr_nj b /\ tr_ns a = tr_ns b /\ forall n, tfind a n = tfind b n.

(** [l] is the depth-first order (children in their stored order) of the
    subtrees of [t] that start at the names [cs]. *)
Inductive preorder (t : Tree) : list string -> list string -> Prop :=
| pre_nil : preorder t [] []
| pre_cons c e cs l1 l2 :
    tfind t c = Some e -> preorder t (te_children e) l1 -> preorder t cs l2 ->
    preorder t (c :: cs) (c :: l1 ++ l2).
(** joint numbers of the moving joints met along a list of segments *)
Definition numbers_along (t : Tree) (l : list string) : list nat :=
  flat_map (fun n => match tfind t n with
                     | Some e => if moving (te_seg e) then [te_qnr e] else []
                     | None => []
                     end) l.
(** the joints are numbered in depth-first order *)
Definition depth_first_numbered (t : Tree) : Prop :=
  exists l, preorder t [tr_root t] l /\ numbers_along t l = seq 0 (tr_nj t).

(** parent of a copied element: the root of the source is replaced by the hook *)
Definition rehook (root hook : string) (p : option string) : option string :=
  match p with
  | Some x => if String.eqb x root then Some hook else Some x
  | None => None
  end.

(** [n] is [a] or a descendant of [a]. *)
Inductive descends (t : Tree) (a : string) : string -> Prop :=
| descends_here : descends t a a
| descends_child n e p : tfind t n = Some e -> te_parent e = Some p -> descends t a p -> descends t a n.
