(** Specification vocabulary for the tree inverse dynamics solver (C38). *)
From Coq Require Import Reals String List ZArith Bool.
From Verif Require Import FramesModel FramesSpec Outcome InertiaModel DualModel KinModel KinSpec TreeModel TreeSpec IkModel DynModel TreeDynModel.
Import ListNotations.
Local Open Scope list_scope.
Local Open Scope R_scope.

(** Histories: the solver was built with gravity [g] on some tree, the tree object
    was changed in any way (also assigned to) and is now [t]; update and solve
    calls came in any order.  [seen]: the tree at the construction and at every
    update, latest first. *)
Inductive trne_reach (g : Vector) : list Tree -> Tree -> trne -> Prop :=
| tr_make t : reachable t -> trne_reach g [t] t (trne_make t g)
| tr_edit seen t t' s : trne_reach g seen t s -> reachable t' -> trne_reach g seen t' s
| tr_update seen t s : trne_reach g seen t s -> trne_reach g (t :: seen) t (trne_update t s)
| tr_call seen t s q qd qdd fext tau code tau' s' : trne_reach g seen t s ->
    trne_CartToJnt t s q qd qdd fext tau = Ret (code, tau', s') -> trne_reach g seen t s'.

(** the tree still has as many joints and segments as at the latest update *)
Definition same_size (seen : list Tree) (t : Tree) : Prop :=
  match seen with last :: _ => tr_nj last = tr_nj t /\ tr_ns last = tr_ns t | [] => False end.
(** the name occurred in the tree at the construction or at some update *)
Definition name_seen (seen : list Tree) (n : string) : Prop := exists t0, In t0 seen /\ tfind t0 n <> None.
Definition all_seen (seen : list Tree) (t : Tree) : Prop := forall n, tfind t n <> None -> name_seen seen n.
Definition right_sizes (t : Tree) (q qd qdd tau : list R) : Prop :=
  length q = tr_nj t /\ length qd = tr_nj t /\ length qdd = tr_nj t /\ length tau = tr_nj t.
(** the tree is a single branch that ends at [leaf] *)
Definition one_branch (t : Tree) (leaf : string) : Prop :=
  (exists e, tfind t leaf = Some e /\ te_children e = []) /\
  forall n e, tfind t n = Some e -> (length (te_children e) <= 1)%nat.

(** the external wrench on a segment; no entry means none *)
Definition wrench_on (fext : dict Wrench) (n : string) : Wrench :=
  match dict_find fext n with Some w => w | None => w_zero end.

(** pose of an element relative to its parent and its unit joint twist in its own frame *)
Definition elt_pose (q : list R) (e : TreeElement) : Frame := segment_pose (te_seg e) (joint_value q e).
Definition elt_axis (q : list R) (e : TreeElement) : Twist :=
  r_invapp_t (fM (elt_pose q e)) (segment_twist (te_seg e) (joint_value q e) 1).
Fixpoint wsum (l : list Wrench) : Wrench := match l with [] => w_zero | w :: l' => w_add w (wsum l') end.

(** The Newton-Euler equations of a tree.  V, A: velocity and acceleration of every
    segment in its own frame, the root accelerating against gravity; F: the wrench
    that the joint of the segment transmits. *)
Definition newton_euler (t : Tree) (g : Vector) (q qd qdd : list R) (fext : dict Wrench)
    (V A : string -> Twist) (F : string -> Wrench) : Prop :=
  V (tr_root t) = t_zero /\ A (tr_root t) = t_neg (mkT g v_zero) /\
  (forall n e p, tfind t n = Some e -> te_parent e = Some p ->
     let vj := t_scale (elt_axis q e) (joint_value qd e) in
     V n = t_add (f_invapp_t (elt_pose q e) (V p)) vj /\
     A n = t_add (t_add (f_invapp_t (elt_pose q e) (A p)) (t_scale (elt_axis q e) (joint_value qdd e))) (t_cross (V n) vj)) /\
  (forall n e, tfind t n = Some e ->
     let I := sI (te_seg e) in
     F n = w_add (w_sub (w_add (rb_app I (A n)) (tw_cross (V n) (rb_app I (V n)))) (wrench_on fext n))
                 (wsum (map (fun c => match tfind t c with Some ce => f_app_w (elt_pose q ce) (F c) | None => w_zero end)
                            (te_children e)))).

(** * Comparison with the chain solver *)
Definition serial (l : list Segment) : Chain := mkCh (count_moving l) (length l) l.
Definition without_rotor (j : Joint) : Joint :=
  mkJ (jname j) (jtype j) (jscale j) (joffset j) 0 (jdamping j) (jstiffness j) (jaxis j) (jorigin j).
(** same geometry, no rotor inertia and link inertia [I] *)
Definition with_inertia (I : RigidBodyInertia) (s : Segment) : Segment :=
  mkS (sname s) (without_rotor (sjoint s)) I (sf_tip s).
(** the chain of the given elements in which only the last link has mass *)
Definition loaded_tip (l : list TreeElement) : Chain :=
  serial (map (fun e => with_inertia rb_zero (te_seg e)) (removelast l) ++
          match rev l with e :: _ => [with_inertia (sI (te_seg e)) (te_seg e)] | [] => [] end).
(** what the chain solver, run on the path from the root to [m] with only [m]
    having mass and an external wrench, says about the joint of [n] *)
Definition link_share (t : Tree) (g : Vector) (q qd qdd : list R) (fext : dict Wrench) (n m : string) (x : R) : Prop :=
  exists up down tau, let path := rev (down ++ up) in
    walk_up t n (tr_root t) up /\ walk_up t m n down /\
    rne_CartToJnt (loaded_tip path) (rne_make (loaded_tip path) g)
      (path_values q path) (path_values qd path) (path_values qdd path)
      (repeat w_zero (length path - 1) ++ [wrench_on fext m]) (repeat 0 (ch_nj (loaded_tip path))) = Ret (E_NOERROR, tau) /\
    x = nth (count_moving (map te_seg up) - 1) tau 0.
Fixpoint lsum (l : list R) : R := match l with [] => 0 | x :: l' => x + lsum l' end.
