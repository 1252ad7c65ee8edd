(** Specification vocabulary for paths and trajectories. *)
From Coq Require Import Reals List ZArith.
From Verif Require Import FramesModel FramesSpec Outcome KinSpec ProfModel ProfSpec PathModel.
Import ListNotations.
Local Open Scope R_scope.

(** The relative motion from one frame to the other is not in one of the
    library's tolerance bands: the rotation is exactly the identity or a half
    turn or clearly away from both, and the displacement is zero or has a
    coordinate of at least 1e-6. *)
Definition resolved_rotation (M N : Rotation) : Prop :=
  let r := r_mul (r_inv M) N in axis_angle_regular r kdl_epsilon \/ symmetric3 r.
Definition resolved_displacement (a b : Vector) : Prop :=
  a = b \/ kdl_epsilon <= max_abs (v_sub b a).
Definition resolved (F G : Frame) : Prop :=
  rigid F /\ rigid G /\ resolved_rotation (fM F) (fM G) /\ resolved_displacement (fp F) (fp G).

(** [pos] is a curve of frames with velocity [vel] and acceleration [acc]: when
    the path parameter moves as s(t), [vel (s t) (s' t)] is the velocity twist of
    the frame and [acc (s t) (s' t) (s'' t)] the derivative of that twist. *)
Definition curve_derivatives (pos : R -> Frame) (vel : R -> R -> Twist) (acc : R -> R -> R -> Twist) : Prop :=
  (forall s t sd, derivable_pt_lim s t sd ->
     frame_velocity (fun u => pos (s u)) t (vel (s t) sd)) /\
  (forall s s' t sdd, derivable_pt_lim s t (s' t) -> derivable_pt_lim s' t sdd ->
     tw_derive (fun u => vel (s u) (s' u)) t (acc (s t) (s' t) sdd)).

(** The straight-line motion from [F] to [G] over the parameter interval [0,L]:
    the origin goes along the segment and the orientation turns about one fixed
    axis, both proportionally to the parameter. *)
Definition straight (F G : Frame) (L : R) (pos : R -> Frame) : Prop :=
  pos 0 = F /\ pos L = G /\
  exists n a, unit_vector n /\ 0 <= a <= PI /\
    forall u, pos (u * L) = mkF (r_mul (fM F) (r_Rot2 n (u * a)))
                                (v_add (fp F) (v_scale (v_sub (fp G) (fp F)) u)).

(** The speeds along the path, per unit of path parameter: the origin moves at
    most at speed one, a point at distance [eqradius] from the rotation axis too,
    and one of the two moves exactly at speed one. *)
Definition normalised_speed (eqradius : R) (vel : R -> R -> Twist) : Prop :=
  forall s, euclid_norm (tvel (vel s 1)) <= 1 /\ eqradius * euclid_norm (trot (vel s 1)) <= 1 /\
    (euclid_norm (tvel (vel s 1)) = 1 \/ eqradius * euclid_norm (trot (vel s 1)) = 1).

(** The circular motion: the origin stays on the circle with the given centre,
    starting radius vector [x] and unit normal [z], and turns over [alpha] while
    the parameter goes from 0 to [L]. *)
Definition circular (F : Frame) (center z : Vector) (alpha L : R) (pos : R -> Frame) : Prop :=
  pos 0 = F /\
  forall u, fp (pos (u * L)) = v_add center (r_app (r_Rot2 z (u * alpha)) (v_sub (fp F) center)).

(** [z] is the unit normal of the oriented plane spanned by [a] and [b]. *)
Definition plane_normal (a b z : Vector) : Prop :=
  unit_vector z /\ exists k, 0 < k /\ v_cross a b = v_scale z k.

(** * Composite paths *)

(** The answer [a] is the value of [f] on the elementary path that covers the
    parameter [s] (at a knot: on either of the neighbours). *)
Fixpoint covers {A : Type} (f : Leaf -> R -> A) (p : Path) (s : R) (a : A) {struct p} : Prop :=
  match p with
  | PLeaf l => a = f l s
  | PComposite gv _ _ _ =>
      (fix on_ (gv : list Path) (s : R) {struct gv} : Prop :=
         match gv with
         | [] => False
         | c :: r => (0 <= s <= path_len c /\ covers f c s a) \/
                     (path_len c <= s /\ on_ r (s - path_len c))
         end) gv s
  | PCyclic g _ => exists k, 0 <= s - IZR k * path_len g < path_len g /\ covers f g (s - IZR k * path_len g) a
  | PRounded c _ _ _ _ _ => covers f c s a
  end.

(** The same object up to what the lookup caches hold. *)
Fixpoint same_path (p q : Path) {struct p} : Prop :=
  match p, q with
  | PLeaf l, PLeaf m => l = m
  | PComposite gv dv len _, PComposite gw dw len' _ =>
      (fix all (gv gw : list Path) {struct gv} : Prop :=
         match gv, gw with
         | [], [] => True
         | c :: r, d :: r' => same_path c d /\ all r r'
         | _, _ => False
         end) gv gw /\ dv = dw /\ len = len'
  | PCyclic g n, PCyclic h m => same_path g h /\ n = m
  | PRounded c r e n Fs Fv, PRounded c' r' e' n' Fs' Fv' =>
      same_path c c' /\ r = r' /\ e = e' /\ n = n' /\ Fs = Fs' /\ Fv = Fv'
  | _, _ => False
  end.

(** Histories: a path object as it can be after any sequence of constructions,
    additions and queries, with any parameters.  Elementary components have
    non-negative length and repetition counts are non-negative. *)
Inductive made : Path -> Prop :=
| made_leaf l : 0 <= leaf_len l -> made (PLeaf l)
| made_comp : made comp_make
| made_add p gv dv len ca c : p = PComposite gv dv len ca -> made p -> made c -> made (comp_Add p c)
| made_cyclic g n : made g -> (0 <= n)%Z -> made (PCyclic g n)
| made_rounded c r e n Fs Fv : made c -> made (PRounded c r e n Fs Fv)
| made_query {A} (f : Leaf -> R -> A) p s a p' : made p -> path_eval f p s = Val (a, p') -> made p'
| made_locate p s i u p' : made p -> comp_GetCurrentSegmentLocation p s = Val (i, u, p') -> made p'.

(** Every composite inside has at least one component, and every repeated path
    has positive length. *)
Fixpoint inhabited_path (p : Path) : Prop :=
  match p with
  | PLeaf _ => True
  | PComposite gv _ _ _ =>
      gv <> [] /\ (fix all (gv : list Path) : Prop := match gv with [] => True | c :: r => inhabited_path c /\ all r end) gv
  | PCyclic g n => 0 < path_len g /\ inhabited_path g
  | PRounded c _ _ _ _ _ => inhabited_path c
  end.

(** Sum of the lengths of the components. *)
Fixpoint total_length (gv : list Path) : R :=
  match gv with [] => 0 | c :: r => path_len c + total_length r end.

(** Some object with the contents of [p], whatever was asked of it before,
    answers the query with [a]. *)
Definition observed {A : Type} (query : Path -> R -> result (A * Path)) (p : Path) (s : R) (a : A) : Prop :=
  exists q q', made q /\ same_path p q /\ query q s = Val (a, q').

(** The parameter [s] is strictly inside one elementary component. *)
Fixpoint inside (p : Path) (s : R) {struct p} : Prop :=
  match p with
  | PLeaf l => 0 < s < leaf_len l
  | PComposite gv _ _ _ =>
      (fix on_ (gv : list Path) (s : R) {struct gv} : Prop :=
         match gv with
         | [] => False
         | c :: r => (s < path_len c /\ inside c s) \/ (path_len c < s /\ on_ r (s - path_len c))
         end) gv s
  | PCyclic g n => exists k, (0 <= k < n)%Z /\ inside g (s - IZR k * path_len g)
  | PRounded c _ _ _ _ _ => inside c s
  end.

(** All elementary components satisfy [P]. *)
Fixpoint all_leaves (P : Leaf -> Prop) (p : Path) : Prop :=
  match p with
  | PLeaf l => P l
  | PComposite gv _ _ _ => (fix all (gv : list Path) : Prop := match gv with [] => True | c :: r => all_leaves P c /\ all r end) gv
  | PCyclic g _ => all_leaves P g
  | PRounded c _ _ _ _ _ => all_leaves P c
  end.

(** Vel and Acc of the elementary path are the first and second derivative of
    its Pos. *)
Definition smooth_leaf (l : Leaf) : Prop := curve_derivatives (leaf_Pos l) (leaf_Vel l) (leaf_Acc l).

(** A leaf as a curve. *)
Definition leaf_start (l : Leaf) : Frame := leaf_Pos l 0.
Definition leaf_end (l : Leaf) : Frame := leaf_Pos l (leaf_len l).
(** The elementary paths lead from [A] to [B], each starting where the one
    before it ends. *)
Fixpoint leads (A : Frame) (ls : list Leaf) (B : Frame) : Prop :=
  match ls with
  | [] => A = B
  | l :: r => leaf_start l = A /\ leads (leaf_end l) r B
  end.

(** The parameter [s] is at a seam between two components, somewhere inside. *)
Fixpoint knot (p : Path) (s : R) {struct p} : Prop :=
  match p with
  | PLeaf _ => False
  | PComposite gv _ _ _ =>
      (fix on_ (gv : list Path) (s : R) {struct gv} : Prop :=
         match gv with
         | [] => False
         | c :: r => (s = path_len c /\ r <> []) \/ (0 <= s <= path_len c /\ knot c s) \/
                     (path_len c <= s /\ on_ r (s - path_len c))
         end) gv s
  | PCyclic g _ => exists k, 0 <= s - IZR k * path_len g < path_len g /\ knot g (s - IZR k * path_len g)
  | PRounded c _ _ _ _ _ => knot c s
  end.

(** Each component starts where the one before it ends, at every level. *)
Fixpoint joined (p : Path) : Prop :=
  match p with
  | PLeaf _ => True
  | PComposite gv _ _ _ =>
      (fix all (gv : list Path) : Prop :=
         match gv with
         | [] => True
         | c :: r => joined c /\
                     match r with
                     | [] => True
                     | d :: _ => forall F G, covers leaf_Pos c (path_len c) F -> covers leaf_Pos d 0 G -> F = G
                     end /\ all r
         end) gv
  | PCyclic g _ => joined g
  | PRounded c _ _ _ _ _ => joined c
  end.

(** Every elementary component has a faithful copy, and there is no rounded
    composite inside. *)
Fixpoint copyable (p : Path) : Prop :=
  match p with
  | PLeaf l => leaf_Clone l = Val l
  | PComposite gv _ _ _ => (fix all (gv : list Path) : Prop := match gv with [] => True | c :: r => copyable c /\ all r end) gv
  | PCyclic g _ => copyable g
  | PRounded _ _ _ _ _ _ => False
  end.

(** * Rounded corners *)

(** [alpha] is the angle between the directions [a] and [b]. *)
Definition angle_between (a b : Vector) (alpha : R) : Prop :=
  0 <= alpha <= PI /\ v_dot a b = euclid_norm a * euclid_norm b * cos alpha.

(** [A] is the frame at the fraction [u] of the straight motion from [F] to [G]. *)
Definition on_straight (F G : Frame) (u : R) (A : Frame) : Prop :=
  exists L pos, straight F G L pos /\ A = pos (u * L).

(** The point at distance [d] from [a] in the direction of [b]. *)
Definition towards (a b : Vector) (d : R) : Vector :=
  v_add a (v_scale (v_sub b a) (d / euclid_norm (v_sub b a))).

(** All the calls return normally, and the object is [Some] afterwards. *)
Fixpoint adds (p : Path) (Fs : list Frame) : option Path :=
  match Fs with
  | [] => Some p
  | F :: r => match rounded_Add p F with (p', Val _) => adds p' r | _ => None end
  end.

(** The code decides "no corner" and "reversal" with this tolerance. *)
Definition corner_eps : R := / 10000000.

(** The polyline [cur], [via], [rest] cut by arcs of radius [r] stays outside the
    tolerance bands of the library. *)
Fixpoint clean_corners (r : R) (cur via : Vector) (rest : list Vector) : Prop :=
  match rest with
  | [] => resolved_displacement cur via
  | q :: rest' =>
      resolved_displacement cur via /\ resolved_displacement via q /\
      forall alpha, angle_between (v_sub via cur) (v_sub q via) alpha ->
      (alpha < corner_eps -> clean_corners r via q rest') /\
      (corner_eps <= alpha ->
         let d := r * tan (alpha / 2) in
         resolved_displacement cur (towards via cur d) /\
         kdl_epsilon <= max_abs (v_cross (v_sub via cur) (v_cross (v_sub via cur) (v_sub q via))) /\
         clean_corners r (towards via q d) q rest')
  end.
