(** Model of kinematic trees and of the tree forward-kinematics and Jacobian
    solvers.

    Sources (all in /repo/orocos_kdl/src): tree.{hpp,cpp},
    treefksolverpos_recursive.{hpp,cpp}, treejnttojacsolver.{hpp,cpp}.

    The std::map [segments] is an association list; an iterator into it is the
    key it points to (map nodes do not move and are only removed by
    [segments.clear()], which the model treats where it occurs).  The list is
    kept in insertion order instead of key order; none of the functions below
    iterates over the whole map.  The root's [parent] iterator is
    default-constructed (tree.hpp:90): [None], dereferencing it is undefined. *)
From Coq Require Import String Reals List ZArith Bool.
From Verif Require Import FramesModel Outcome InertiaModel DualModel KinModel.
Import ListNotations.
Local Open Scope R_scope.

(** tree.hpp:66-91 *)
Record TreeElement := mkTE {
  te_seg : Segment; te_qnr : nat; te_parent : option string; te_children : list string }.
Definition SegmentMap := list (string * TreeElement).
(** tree.hpp:99-106 *)
Record Tree := mkTree { tr_segs : SegmentMap; tr_nj : nat; tr_ns : nat; tr_root : string }.

(** std::map::find *)
Fixpoint smap_find (m : SegmentMap) (n : string) : option TreeElement :=
  match m with
  | [] => None
  | (k, e) :: m' => if String.eqb k n then Some e else smap_find m' n
  end.
(** mutation of the element stored under a key *)
Fixpoint smap_update (m : SegmentMap) (n : string) (g : TreeElement -> TreeElement) : SegmentMap :=
  match m with
  | [] => []
  | (k, e) :: m' => if String.eqb k n then (k, g e) :: m' else (k, e) :: smap_update m' n g
  end.
Definition tfind (t : Tree) (n : string) : option TreeElement := smap_find (tr_segs t) n.

(** [Joint(Joint::Fixed)], joint.hpp:77 with its default arguments *)
Definition joint_default : Joint := mkJ "NoName" Fixed 1 0 0 0 0 v_zero v_zero.
(** [Segment(name)], segment.hpp:65 with its default arguments, segment.cpp:24-29 *)
Definition root_segment (name : string) : Segment := segment_make name joint_default f_id rb_zero.
(** tree.hpp:75-82,90 *)
Definition te_Root (name : string) : TreeElement := mkTE (root_segment name) 0 None [].

(** tree.cpp:27-31 *)
Definition tree_make (root : string) : Tree := mkTree [(root, te_Root root)] 0 0 root.

(** [GetTreeElementChildren(parent->second).push_back(...)] *)
Definition te_push (c : string) (e : TreeElement) : TreeElement :=
  mkTE (te_seg e) (te_qnr e) (te_parent e) (te_children e ++ [c]).

(** tree.cpp:54-80: (returned bool, tree afterwards) *)
Definition tree_addSegment (t : Tree) (s : Segment) (hook : string) : bool * Tree :=
  match tfind t hook with
  | None => (false, t)
  | Some _ =>
      let q_nr := if moving s then tr_nj t else 0%nat in
      match tfind t (sname s) with
      | Some _ => (false, t)
      | None =>
          (true, mkTree (smap_update (tr_segs t ++ [(sname s, mkTE s q_nr (Some hook) [])]) hook (te_push (sname s)))
                        (if moving s then S (tr_nj t) else tr_nj t) (S (tr_ns t)) (tr_root t))
      end
  end.

(** tree.cpp:82-91: one pass over the segments of the chain *)
Fixpoint tree_addSegments (t : Tree) (l : list Segment) (parent : string) : bool * Tree :=
  match l with
  | [] => (true, t)
  | s :: l' => match tree_addSegment t s parent with
               | (true, t') => tree_addSegments t' l' (sname s)
               | (false, t') => (false, t')
               end
  end.
Definition tree_addChain (t : Tree) (c : Chain) (hook : string) : bool * Tree :=
  tree_addSegments t (firstn (ch_ns c) (ch_segs c)) hook.

(** tree.cpp:97-114 with the iterators pointing into [src], a tree object
    different from the one being extended.  The recursion of the code is bounded
    by [fuel]; running out of it (which C27_total excludes) is [Undef]. *)
Fixpoint tree_addRec (fuel : nat) (src : Tree) (n : string) (dst : Tree) (hook : string) : outcome (bool * Tree) :=
  match fuel with
  | O => Undef
  | S f =>
      match tfind src n with
      | None => Undef
      | Some e =>
          (fix loop (cs : list string) (d : Tree) : outcome (bool * Tree) :=
             match cs with
             | [] => Ret (true, d)
             | c :: cs' =>
                 match tfind src c with
                 | None => Undef
                 | Some ce =>
                     match tree_addSegment d (te_seg ce) hook with
                     | (false, d') => Ret (false, d')
                     | (true, d') =>
                         let! r := tree_addRec f src c d' c in
                         if fst r then loop cs' (snd r) else Ret r
                     end
                 end
             end) (te_children e) dst
      end
  end.
(** tree.cpp:93-95, [tree] a different object *)
Definition tree_addTree (t src : Tree) (hook : string) : outcome (bool * Tree) :=
  tree_addRec (length (tr_segs src)) src (tr_root src) t hook.
(** tree.cpp:93-114 with [tree] = [*this]: the first child of the root is offered
    for insertion under its own name, which exists *)
Definition tree_addTree_self (t : Tree) (hook : string) : outcome (bool * Tree) :=
  match tfind t (tr_root t) with
  | None => Undef
  | Some e =>
      match te_children e with
      | [] => Ret (true, t)
      | c :: _ =>
          match tfind t c with
          | None => Undef
          | Some ce =>
              match tree_addSegment t (te_seg ce) hook with
              | (false, t') => Ret (false, t')
              | (true, _) => Undef (* not reached: the name exists *)
              end
          end
      end
  end.
(** tree.cpp:33-41; the result of addTree is ignored *)
Definition tree_copy (src : Tree) : outcome Tree :=
  let! r := tree_addTree (tree_make (tr_root src)) src (tr_root src) in Ret (snd r).
(** tree.cpp:43-52 with [in] a different object *)
Definition tree_assign (_old src : Tree) : outcome Tree :=
  let! r := tree_addTree (mkTree [(tr_root src, te_Root (tr_root src))] 0 0 (tr_root src)) src (tr_root src) in
  Ret (snd r).
(** tree.cpp:43-52 with [in] = [*this]: everything is cleared first *)
Definition tree_assign_self (t : Tree) : outcome Tree :=
  let t0 := mkTree [(tr_root t, te_Root (tr_root t))] 0 0 (tr_root t) in
  let! r := tree_addTree_self t0 (tr_root t) in Ret (snd r).
(** tree.cpp:165-174 with [tree] a different object from the source: (returned
    bool, [tree] afterwards) *)
Definition tree_getSubTree (src : Tree) (name : string) (old : Tree) : outcome (bool * Tree) :=
  match tfind src name with
  | None => Ret (false, old)
  | Some _ =>
      let! fresh := tree_assign old (tree_make name) in
      tree_addRec (length (tr_segs src)) src name fresh name
  end.

(** * getChain *)

(** tree.cpp:123-126 (and 128-131): the names from [n] up to the root *)
Fixpoint tree_ancestors (fuel : nat) (t : Tree) (n : string) : outcome (list string) :=
  match fuel with
  | O => Undef
  | S f =>
      match tfind t n with
      | None => Ret []
      | Some e =>
          if String.eqb n (tr_root t) then Ret [n]
          else match te_parent e with
               | None => Undef
               | Some p => let! l := tree_ancestors f t p in Ret (n :: l)
               end
      end
  end.
(** tree.cpp:134-141 on the reversed vectors ([back] is the head): (last common
    name, rest of the root list, rest of the tip list) *)
Fixpoint strip_common (last : string) (a b : list string) : string * list string * list string :=
  match a, b with
  | x :: a', y :: b' => if String.eqb x y then strip_common x a' b' else (last, a, b)
  | _, _ => (last, a, b)
  end.
(** tree.cpp:148-153 *)
Definition reverse_joint (seg : Segment) : construct Joint :=
  let f_tip := f_inv (segment_pose seg 0) in
  let j := sjoint seg in
  match jtype j with
  | RotX | RotY | RotZ | RotAxis =>
      joint_make_axis (jname j) (f_app f_tip (joint_JointOrigin j)) (r_app (fM f_tip) (v_neg (joint_JointAxis j)))
        RotAxis 1 0 0 0 0
  | TransX | TransY | TransZ | TransAxis =>
      joint_make_axis (jname j) (f_app f_tip (joint_JointOrigin j)) (r_app (fM f_tip) (v_neg (joint_JointAxis j)))
        TransAxis 1 0 0 0 0
  | Fixed => Made j
  end.
(** tree.cpp:147-155: the reversed segment; name and inertia come from the
    parent [next].  The joint constructor cannot throw here. *)
Definition reverse_segment (seg next : Segment) : outcome Segment :=
  match reverse_joint seg with
  | Made j => Ret (segment_make (sname next) j (f_inv (segment_pose seg 0)) (sI next))
  | Throws => Undef
  end.
(** tree.cpp:146-156: [names] is the list up to and including the common segment *)
Fixpoint add_reversed (t : Tree) (names : list string) (c : Chain) : outcome Chain :=
  match names with
  | [] => Ret c
  | a :: rest =>
      match rest with
      | [] => Ret c
      | b :: _ =>
          match tfind t a, tfind t b with
          | Some ea, Some eb =>
              let! s := reverse_segment (te_seg ea) (te_seg eb) in
              add_reversed t rest (chain_addSegment c s)
          | _, _ => Undef
          end
      end
  end.
(** tree.cpp:158-161 *)
Fixpoint add_forward (t : Tree) (names : list string) (c : Chain) : outcome Chain :=
  match names with
  | [] => Ret c
  | a :: rest =>
      match tfind t a with
      | Some ea => add_forward t rest (chain_addSegment c (te_seg ea))
      | None => Undef
      end
  end.
(** [v.empty() || v.back() != root_name] *)
Definition bad_ancestors (t : Tree) (l : list string) : bool :=
  match rev l with [] => true | r :: _ => negb (String.eqb r (tr_root t)) end.
(** tree.cpp:116-163: (returned bool, [chain] afterwards) *)
Definition tree_getChain (t : Tree) (chain_root chain_tip : string) : outcome (bool * Chain) :=
  let! pr := tree_ancestors (length (tr_segs t)) t chain_root in
  if bad_ancestors t pr then Ret (false, chain_empty) else
  let! pt := tree_ancestors (length (tr_segs t)) t chain_tip in
  if bad_ancestors t pt then Ret (false, chain_empty) else
  let '(last, ra, rb) := strip_common (tr_root t) (rev pr) (rev pt) in
  let! c1 := add_reversed t (rev ra ++ [last]) chain_empty in
  let! c2 := add_forward t rb c1 in
  Ret (true, c2).

(** * Solvers *)

(** treefksolverpos_recursive.cpp:28-31 and treejnttojacsolver.cpp:14-16: the
    solver keeps a copy of the tree *)
Definition treefk_make (t : Tree) : outcome Tree := tree_copy t.
Definition treejac_make (t : Tree) : outcome Tree := tree_copy t.

(** treefksolverpos_recursive.cpp:48-62 *)
Fixpoint treefk_rec (fuel : nat) (t : Tree) (q : list R) (n : string) : outcome Frame :=
  match fuel with
  | O => Undef
  | S f =>
      match tfind t n with
      | None => Undef
      | Some e =>
          let! x := aget q (te_qnr e) in
          let cur := segment_pose (te_seg e) x in
          if String.eqb n (tr_root t) then Ret cur
          else match te_parent e with
               | None => Undef
               | Some p => let! F := treefk_rec f t q p in Ret (f_mul F cur)
               end
      end
  end.
(** treefksolverpos_recursive.cpp:33-46; [t] is the solver's tree: (return code,
    p_out) *)
Definition treefk_JntToCart (t : Tree) (q : list R) (p_out : Frame) (name : string) : outcome (Z * Frame) :=
  if negb (Nat.eqb (length q) (tr_nj t)) then Ret ((-1)%Z, p_out)
  else match tfind t name with
       | None => Ret ((-2)%Z, p_out)
       | Some _ => let! F := treefk_rec (length (tr_segs t)) t q name in Ret (0%Z, F)
       end.

(** treejnttojacsolver.cpp:40-61 *)
Fixpoint treejac_loop (fuel : nat) (t : Tree) (q : list R) (n : string) (T : Frame) (J : list Twist)
  : outcome (Frame * list Twist) :=
  match fuel with
  | O => Undef
  | S f =>
      if String.eqb n (tr_root t) then Ret (T, J)
      else match tfind t n with
           | None => Undef
           | Some e =>
               let! x := aget q (te_qnr e) in
               let T_local := segment_pose (te_seg e) x in
               let T' := f_mul T_local T in
               let! J' :=
                 (if moving (te_seg e) then
                    let tw := t_RefPoint (segment_twist (te_seg e) x 1) (v_sub (fp T') (fp T_local)) in
                    jac_setColumn J (te_qnr e) (r_invapp_t (fM T') tw)
                  else Ret J) in
               match te_parent e with
               | None => Undef
               | Some p => treejac_loop f t q p T' J'
               end
           end
  end.
(** treejnttojacsolver.cpp:21-67; changeBase with the same matrix as source and
    destination works in place *)
Definition treejac_JntToJac (t : Tree) (q : list R) (jac : list Twist) (name : string) : outcome (Z * list Twist) :=
  if negb (Nat.eqb (length q) (tr_nj t)) || negb (Nat.eqb (length jac) (tr_nj t)) then Ret ((-1)%Z, jac)
  else match tfind t name with
       | None => Ret ((-2)%Z, jac)
       | Some _ =>
           let! st := treejac_loop (length (tr_segs t)) t q name f_id (jac_zero jac) in
           let! J := jac_changeBase (snd st) (fM (fst st)) in
           Ret (0%Z, J)
       end.
