(** Model of joints, segments, chains and the recursive chain kinematics solvers.

    Sources (all in /repo/orocos_kdl/src): joint.{hpp,cpp}, segment.{hpp,cpp},
    chain.{hpp,cpp}, jntarray.cpp, jacobian.cpp, chainfksolverpos_recursive.cpp,
    chainfksolvervel_recursive.cpp, chainjnttojacsolver.cpp,
    chainjnttojacdotsolver.{hpp,cpp}.

    A [JntArray] is a list of reals, a [Jacobian] the list of its columns (each
    a [Twist]: rows 0-2 linear, rows 3-5 angular).  C++ [int] arguments are [Z],
    [unsigned int] counters are [nat] (wrap-around at 2^32 is not modelled). *)
From Coq Require Import String Reals List ZArith Bool.
From Verif Require Import FramesModel Outcome InertiaModel DualModel.
Import ListNotations.
Local Open Scope R_scope.

(** * Joint *)

(** joint.hpp:47 *)
Inductive JointType := RotAxis | RotX | RotY | RotZ | TransAxis | TransX | TransY | TransZ | Fixed.

(** joint.hpp:266-277.  [q_previous] and the other deprecated mutable members
    (joint.hpp:278-281) are not used by the code and not modelled. *)
Record Joint := mkJ {
  jname : string; jtype : JointType;
  jscale : R; joffset : R; jinertia : R; jdamping : R; jstiffness : R;
  jaxis : Vector; jorigin : Vector }.

Definition isFixed (t : JointType) : bool := match t with Fixed => true | _ => false end.

(** Result of a constructor: an object or the exception joint_type_ex. *)
Inductive construct (A : Type) : Type := Made (a : A) | Throws.
Arguments Made {A} a.
Arguments Throws {A}.

(** joint.cpp:27-33 (and 36-42 with name "NoName").  [axis] and [origin] are
    default-constructed, i.e. zero (frames.hpp:167). *)
Definition joint_make (name : string) (type : JointType) (scale offset inertia damping stiffness : R)
  : construct Joint :=
  match type with
  | RotAxis | TransAxis => Throws
  | _ => Made (mkJ name type scale offset inertia damping stiffness v_zero v_zero)
  end.

(** joint.cpp:45-52 (and 55-62 with name "NoName").  The division by the norm is
    not guarded in the code; statements about this constructor carry the guard
    that the norm is not zero. *)
Definition joint_make_axis (name : string) (origin axis : Vector) (type : JointType)
    (scale offset inertia damping stiffness : R) : construct Joint :=
  match type with
  | RotAxis | TransAxis =>
      Made (mkJ name type scale offset inertia damping stiffness (v_div axis (v_norm axis)) origin)
  | _ => Throws
  end.

(** joint.cpp:68-91 *)
Definition joint_pose (j : Joint) (q : R) : Frame :=
  let a := jscale j * q + joffset j in
  match jtype j with
  | RotAxis => mkF (r_Rot2 (jaxis j) a) (jorigin j)
  | RotX => f_of_rot (r_RotX a)
  | RotY => f_of_rot (r_RotY a)
  | RotZ => f_of_rot (r_RotZ a)
  | TransAxis => f_of_vec (v_add (jorigin j) (v_scale (jaxis j) a))
  | TransX => f_of_vec (mkV a 0 0)
  | TransY => f_of_vec (mkV 0 a 0)
  | TransZ => f_of_vec (mkV 0 0 a)
  | Fixed => f_id
  end.

(** joint.cpp:93-116 *)
Definition joint_twist (j : Joint) (qdot : R) : Twist :=
  let s := jscale j * qdot in
  match jtype j with
  | RotAxis => mkT (mkV 0 0 0) (v_scale (jaxis j) s)
  | RotX => mkT (mkV 0 0 0) (mkV s 0 0)
  | RotY => mkT (mkV 0 0 0) (mkV 0 s 0)
  | RotZ => mkT (mkV 0 0 0) (mkV 0 0 s)
  | TransAxis => mkT (v_scale (jaxis j) s) (mkV 0 0 0)
  | TransX => mkT (mkV s 0 0) (mkV 0 0 0)
  | TransY => mkT (mkV 0 s 0) (mkV 0 0 0)
  | TransZ => mkT (mkV 0 0 s) (mkV 0 0 0)
  | Fixed => t_zero
  end.

(** joint.cpp:118-142 *)
Definition joint_JointAxis (j : Joint) : Vector :=
  match jtype j with
  | RotAxis => jaxis j
  | RotX => mkV 1 0 0
  | RotY => mkV 0 1 0
  | RotZ => mkV 0 0 1
  | TransAxis => jaxis j
  | TransX => mkV 1 0 0
  | TransY => mkV 0 1 0
  | TransZ => mkV 0 0 1
  | Fixed => v_zero
  end.

(** joint.cpp:144-147 *)
Definition joint_JointOrigin (j : Joint) : Vector := jorigin j.

(** * Segment *)

(** segment.hpp:48-53 *)
Record Segment := mkS { sname : string; sjoint : Joint; sI : RigidBodyInertia; sf_tip : Frame }.

(** segment.cpp:24-29 (and 31-36 with name "NoName") *)
Definition segment_make (name : string) (j : Joint) (f_tip : Frame) (I : RigidBodyInertia) : Segment :=
  mkS name j I (f_mul (f_inv (joint_pose j 0)) f_tip).
(** segment.cpp:38-42 (copy constructor) *)
Definition segment_copy (s : Segment) : Segment := mkS (sname s) (sjoint s) (sI s) (sf_tip s).
(** segment.cpp:44-51 (assignment; the first argument is the overwritten object) *)
Definition segment_assign (_old arg : Segment) : Segment :=
  mkS (sname arg) (sjoint arg) (sI arg) (sf_tip arg).
(** segment.cpp:57-60 *)
Definition segment_pose (s : Segment) (q : R) : Frame := f_mul (joint_pose (sjoint s) q) (sf_tip s).
(** segment.cpp:62-65 *)
Definition segment_twist (s : Segment) (q qdot : R) : Twist :=
  t_RefPoint (joint_twist (sjoint s) qdot) (r_app (fM (joint_pose (sjoint s) q)) (fp (sf_tip s))).
(** segment.cpp:67-70 *)
Definition segment_setFrameToTip (s : Segment) (f : Frame) : Segment :=
  mkS (sname s) (sjoint s) (sI s) (f_mul (f_inv (joint_pose (sjoint s) 0)) f).
(** segment.hpp:149-153 *)
Definition segment_getFrameToTip (s : Segment) : Frame := f_mul (joint_pose (sjoint s) 0) (sf_tip s).
(** segment.hpp:170-173 *)
Definition segment_getFrameToTipZero (s : Segment) : Frame := sf_tip s.
(** segment.hpp:133-136 *)
Definition segment_setInertia (s : Segment) (I : RigidBodyInertia) : Segment :=
  mkS (sname s) (sjoint s) I (sf_tip s).

(** [segment.getJoint().getType()!=Joint::Fixed] *)
Definition moving (s : Segment) : bool := negb (isFixed (jtype (sjoint s))).

(** * Chain *)

(** chain.hpp:36-41 *)
Record Chain := mkCh { ch_nj : nat; ch_ns : nat; ch_segs : list Segment }.

(** chain.cpp:26-31 *)
Definition chain_empty : Chain := mkCh 0 0 [].
(** chain.cpp:53-59 *)
Definition chain_addSegment (c : Chain) (s : Segment) : Chain :=
  mkCh (if moving s then S (ch_nj c) else ch_nj c) (S (ch_ns c)) (ch_segs c ++ [s]).
(** chain.cpp:67-75: unchecked access *)
Definition chain_getSegment (c : Chain) (i : nat) : outcome Segment := aget (ch_segs c) i.
(** chain.cpp:61-65 with [chain] a different object *)
Definition chain_addChain (c other : Chain) : outcome Chain :=
  for_loop (ch_ns other) 0
    (fun i acc => let! s := chain_getSegment other i in Ret (chain_addSegment acc s)) c.
(** chain.cpp:33-40 *)
Definition chain_copy (other : Chain) : outcome Chain :=
  for_loop (ch_ns other) 0
    (fun i acc => let! s := chain_getSegment other i in Ret (chain_addSegment acc s)) chain_empty.
(** chain.cpp:42-51 with [arg] a different object *)
Definition chain_assign (_old arg : Chain) : outcome Chain :=
  for_loop (ch_ns arg) 0
    (fun i acc => let! s := chain_getSegment arg i in Ret (chain_addSegment acc s)) (mkCh 0 0 []).
(** chain.cpp:42-51 with [arg] = [*this]: the counters are cleared before the
    loop bound [arg.nrOfSegments] is read *)
Definition chain_assign_self (c : Chain) : outcome Chain :=
  let c0 := mkCh 0 0 [] in
  for_loop (ch_ns c0) 0
    (fun i acc => let! s := chain_getSegment acc i in Ret (chain_addSegment acc s)) c0.
(** chain.cpp:61-65 with [chain] = [*this]: the loop bound is re-read from the
    growing chain.  [None] = the given number of iterations was not enough. *)
Fixpoint chain_addChain_self (fuel i : nat) (c : Chain) : option (outcome Chain) :=
  if Nat.ltb i (ch_ns c) then
    match fuel with
    | O => None
    | S f => match chain_getSegment c i with
             | Undef => Some Undef
             | Ret s => chain_addChain_self f (S i) (chain_addSegment c s)
             end
    end
  else Some (Ret c).
(** getSegment(i).setFrameToTip(f) on the mutable reference, chain.cpp:72-75 *)
Definition chain_setFrameToTip (c : Chain) (i : nat) (f : Frame) : outcome Chain :=
  let! s := aget (ch_segs c) i in
  let! l := aset (ch_segs c) i (segment_setFrameToTip s f) in
  Ret (mkCh (ch_nj c) (ch_ns c) l).

(** * Jacobian and joint arrays *)

(** jacobian.cpp:79-82 *)
Definition jac_zero (J : list Twist) : list Twist := map (fun _ => t_zero) J.
(** jacobian.cpp:31-35 *)
Definition jac_make (n : nat) : list Twist := repeat t_zero n.
(** jacobian.cpp:144-151 *)
Definition jac_getColumn (J : list Twist) (i : nat) : outcome Twist := aget J i.
Definition jac_setColumn (J : list Twist) (i : nat) (t : Twist) : outcome (list Twist) := aset J i t.

(** jacobian.cpp:84-87, 98-101, 112-115: in-place versions, column by column *)
Definition jac_inplace (g : Twist -> Twist) (J : list Twist) : outcome (list Twist) :=
  for_loop (length J) 0
    (fun i J' => let! t := jac_getColumn J' i in jac_setColumn J' i (g t)) J.
Definition jac_changeRefPoint (J : list Twist) (base_AB : Vector) : outcome (list Twist) :=
  jac_inplace (fun t => t_RefPoint t base_AB) J.
Definition jac_changeBase (J : list Twist) (rot : Rotation) : outcome (list Twist) :=
  jac_inplace (fun t => r_app_t rot t) J.
Definition jac_changeRefFrame (J : list Twist) (f : Frame) : outcome (list Twist) :=
  jac_inplace (fun t => f_app_t f t) J.

(** jacobian.cpp:89-96, 103-110, 117-124: free functions with a destination
    different from the source; the result is (returned bool, new destination) *)
Definition jac_copying (g : Twist -> Twist) (src dest : list Twist) : outcome (bool * list Twist) :=
  if Nat.eqb (length src) (length dest) then
    let! d := for_loop (length src) 0
      (fun i d => let! t := jac_getColumn src i in jac_setColumn d i (g t)) dest in
    Ret (true, d)
  else Ret (false, dest).
Definition changeRefPoint (src : list Twist) (base_AB : Vector) (dest : list Twist) :=
  jac_copying (fun t => t_RefPoint t base_AB) src dest.
Definition changeBase (src : list Twist) (rot : Rotation) (dest : list Twist) :=
  jac_copying (fun t => r_app_t rot t) src dest.
Definition changeRefFrame (src : list Twist) (f : Frame) (dest : list Twist) :=
  jac_copying (fun t => f_app_t f t) src dest.

(** jacobian.cpp:136-142 with Eigen's isZero(eps): every entry satisfies
    |x| <= eps (Eigen's isMuchSmallerThan test for reals) *)
Definition entry_isZero (eps x : R) : bool := if Rle_dec (Rabs x) eps then true else false.
Definition twist_isZero (eps : R) (t : Twist) : bool :=
  entry_isZero eps (vx (tvel t)) && entry_isZero eps (vy (tvel t)) && entry_isZero eps (vz (tvel t)) &&
  entry_isZero eps (vx (trot t)) && entry_isZero eps (vy (trot t)) && entry_isZero eps (vz (trot t)).
Definition jac_Equal (a b : list Twist) (eps : R) : bool :=
  if Nat.eqb (length a) (length b)
  then forallb (fun p => twist_isZero eps (t_sub (fst p) (snd p))) (combine a b)
  else false.

(** jntarray.cpp:100-104: the product of a 6xn matrix and an n-vector.  Eigen
    requires equal sizes; otherwise the behaviour is undefined. *)
Fixpoint jac_mul (J : list Twist) (qdot : list R) : Twist :=
  match J, qdot with
  | c :: J', x :: q' => t_add (t_scale c x) (jac_mul J' q')
  | _, _ => t_zero
  end.
Definition MultiplyJacobian (J : list Twist) (qdot : list R) : outcome Twist :=
  if Nat.eqb (length J) (length qdot) then Ret (jac_mul J qdot) else Undef.

(** * ChainFkSolverPos_recursive *)

(** chainfksolverpos_recursive.cpp:35-39 (the same prologue in every solver) *)
Definition segment_nr (c : Chain) (seg_nr : Z) : nat :=
  if (seg_nr <? 0)%Z then ch_ns c else Z.to_nat seg_nr.

(** chainfksolverpos_recursive.cpp:49-56: one iteration; state (j, p_out) *)
Definition fk_body (c : Chain) (q : list R) (i : nat) (st : nat * Frame) : outcome (nat * Frame) :=
  let '(j, p) := st in
  let! s := chain_getSegment c i in
  if moving s then
    let! x := aget q j in
    Ret (S j, f_mul p (segment_pose s x))
  else Ret (j, f_mul p (segment_pose s 0)).

(** chainfksolverpos_recursive.cpp:34-59: (return code, p_out).  The member
    [error] is set to the returned code. *)
Definition fk_JntToCart (c : Chain) (q : list R) (seg_nr : Z) : outcome (Z * Frame) :=
  let n := segment_nr c seg_nr in
  let p := f_id in
  if negb (Nat.eqb (length q) (ch_nj c)) then Ret (E_SIZE_MISMATCH, p)
  else if Nat.ltb (ch_ns c) n then Ret (E_OUT_OF_RANGE, p)
  else let! st := for_loop n 0 (fk_body c q) (0%nat, p) in
       Ret (E_NOERROR, snd st).

(** chainfksolverpos_recursive.cpp:84-91: one iteration; state (j, p_out) *)
Definition fk_vec_body (c : Chain) (q : list R) (i : nat) (st : nat * list Frame) : outcome (nat * list Frame) :=
  let '(j, ps) := st in
  let! s := chain_getSegment c i in
  let! prev := aget ps (i - 1) in
  if moving s then
    let! x := aget q j in
    let! ps' := aset ps i (f_mul prev (segment_pose s x)) in
    Ret (S j, ps')
  else
    let! ps' := aset ps i (f_mul prev (segment_pose s 0)) in
    Ret (j, ps').

(** chainfksolverpos_recursive.cpp:60-94: (return code, p_out).  [error] is not
    touched by this version. *)
Definition fk_JntToCart_vec (c : Chain) (q : list R) (p_out : list Frame) (seg_nr : Z)
  : outcome (Z * list Frame) :=
  let n := segment_nr c seg_nr in
  if negb (Nat.eqb (length q) (ch_nj c)) then Ret ((-1)%Z, p_out)
  else if Nat.ltb (ch_ns c) n then Ret ((-1)%Z, p_out)
  else if negb (Nat.eqb (length p_out) n) then Ret ((-1)%Z, p_out)
  else if Nat.eqb n 0 then Ret ((-1)%Z, p_out)
  else
    let! s0 := chain_getSegment c 0 in
    let! st0 :=
      (if moving s0 then
         let! x := aget q 0 in
         let! ps := aset p_out 0 (segment_pose s0 x) in Ret (1%nat, ps)
       else
         let! ps := aset p_out 0 (segment_pose s0 0) in Ret (0%nat, ps)) in
    let! st := for_loop (n - 1) 1 (fk_vec_body c q) st0 in
    Ret (0%Z, snd st).

(** * ChainFkSolverVel_recursive *)

(** chainfksolvervel_recursive.cpp:53-63: one iteration; state (j, out) *)
Definition fkvel_body (c : Chain) (q qdot : list R) (i : nat) (st : nat * FrameVel) : outcome (nat * FrameVel) :=
  let '(j, p) := st in
  let! s := chain_getSegment c i in
  if moving s then
    let! x := aget q j in
    let! xd := aget qdot j in
    Ret (S j, fv_mul p (fv_make (segment_pose s x) (segment_twist s x xd)))
  else Ret (j, fv_mul p (fv_make (segment_pose s 0) (segment_twist s 0 0))).

(** chainfksolvervel_recursive.cpp:37-66 *)
Definition fkvel_JntToCart (c : Chain) (q qdot : list R) (seg_nr : Z) : outcome (Z * FrameVel) :=
  let n := segment_nr c seg_nr in
  let p := fv_id in
  if negb (Nat.eqb (length q) (ch_nj c) && Nat.eqb (length qdot) (ch_nj c)) then Ret (E_SIZE_MISMATCH, p)
  else if Nat.ltb (ch_ns c) n then Ret (E_OUT_OF_RANGE, p)
  else let! st := for_loop n 0 (fkvel_body c q qdot) (0%nat, p) in
       Ret (E_NOERROR, snd st).

(** chainfksolvervel_recursive.cpp:97-107 *)
Definition fkvel_vec_body (c : Chain) (q qdot : list R) (i : nat) (st : nat * list FrameVel)
  : outcome (nat * list FrameVel) :=
  let '(j, ps) := st in
  let! s := chain_getSegment c i in
  let! prev := aget ps (i - 1) in
  if moving s then
    let! x := aget q j in
    let! xd := aget qdot j in
    let! ps' := aset ps i (fv_mul prev (fv_make (segment_pose s x) (segment_twist s x xd))) in
    Ret (S j, ps')
  else
    let! ps' := aset ps i (fv_mul prev (fv_make (segment_pose s 0) (segment_twist s 0 0))) in
    Ret (j, ps').

(** chainfksolvervel_recursive.cpp:68-110 *)
Definition fkvel_JntToCart_vec (c : Chain) (q qdot : list R) (p_out : list FrameVel) (seg_nr : Z)
  : outcome (Z * list FrameVel) :=
  let n := segment_nr c seg_nr in
  if negb (Nat.eqb (length q) (ch_nj c) && Nat.eqb (length qdot) (ch_nj c)) then Ret ((-1)%Z, p_out)
  else if Nat.ltb (ch_ns c) n then Ret ((-1)%Z, p_out)
  else if negb (Nat.eqb (length p_out) n) then Ret ((-1)%Z, p_out)
  else if Nat.eqb n 0 then Ret ((-1)%Z, p_out)
  else
    let! s0 := chain_getSegment c 0 in
    let! st0 :=
      (if moving s0 then
         let! x := aget q 0 in
         let! xd := aget qdot 0 in
         let! ps := aset p_out 0 (fv_make (segment_pose s0 x) (segment_twist s0 x xd)) in Ret (1%nat, ps)
       else
         let! ps := aset p_out 0 (fv_make (segment_pose s0 0) (segment_twist s0 0 0)) in Ret (0%nat, ps)) in
    let! st := for_loop (n - 1) 1 (fkvel_vec_body c q qdot) st0 in
    Ret (0%Z, snd st).

(** * ChainJntToJacSolver *)

(** The solver's state: the member [locked_joints_] (chainjnttojacsolver.hpp).
    The temporaries T_tmp, t_tmp are reset at the start of every call
    (chainjnttojacsolver.cpp:66-67).  The chain is held by reference. *)
(** chainjnttojacsolver.cpp:26-29 *)
Definition jacsolver_make (c : Chain) : list bool := repeat false (ch_nj c).

(** std::vector<bool>::resize(n,false) *)
Definition vec_resize {A : Type} (l : list A) (n : nat) (d : A) : list A :=
  firstn n l ++ repeat d (n - length l).

(** chainjnttojacsolver.cpp:31-33 *)
Definition jacsolver_update (c : Chain) (locked : list bool) : list bool := vec_resize locked (ch_nj c) false.

(** chainjnttojacsolver.cpp:38-46: (code, new mask) *)
Definition jacsolver_setLocked (c : Chain) (locked mask : list bool) : Z * list bool :=
  if negb (Nat.eqb (length locked) (ch_nj c)) then (E_NOT_UP_TO_DATE, locked)
  else if negb (Nat.eqb (length mask) (length locked)) then (E_SIZE_MISMATCH, locked)
  else (E_NOERROR, mask).

(** Loop state of JntToJac: j, k, T_tmp, t_tmp, jac *)
Record jacstate := mkJS { js_j : nat; js_k : nat; js_T : Frame; js_t : Twist; js_jac : list Twist }.

(** chainjnttojacsolver.cpp:71-97: one iteration *)
Definition jac_body (c : Chain) (locked : list bool) (q : list R) (i : nat) (st : jacstate) : outcome jacstate :=
  let! s := chain_getSegment c i in
  let! r :=
    (if moving s then
       let! x := aget q (js_j st) in
       let! l := aget locked (js_j st) in
       Ret (f_mul (js_T st) (segment_pose s x),
            if negb l then r_app_t (fM (js_T st)) (segment_twist s x 1) else js_t st)
     else Ret (f_mul (js_T st) (segment_pose s 0), js_t st)) in
  let '(total, t) := r in
  let! jac := jac_inplace (fun u => t_RefPoint u (v_sub (fp total) (fp (js_T st)))) (js_jac st) in
  if moving s then
    let! l := aget locked (js_j st) in
    if negb l then
      let! jac' := jac_setColumn jac (js_k st) t in
      Ret (mkJS (S (js_j st)) (S (js_k st)) total t jac')
    else Ret (mkJS (S (js_j st)) (js_k st) total t jac)
  else Ret (mkJS (js_j st) (js_k st) total t jac).

(** chainjnttojacsolver.cpp:48-99: (code, jac).  [changeRefPoint(jac,...,jac)]
    at line 86 has source = destination, which is the in-place loop. *)
Definition jac_JntToJac (c : Chain) (locked : list bool) (q : list R) (jac : list Twist) (seg_nr : Z)
  : outcome (Z * list Twist) :=
  if negb (Nat.eqb (length locked) (ch_nj c)) then Ret (E_NOT_UP_TO_DATE, jac)
  else
    let n := segment_nr c seg_nr in
    let jac0 := jac_zero jac in
    if negb (Nat.eqb (length q) (ch_nj c)) || negb (Nat.eqb (length jac) (ch_nj c))
    then Ret (E_SIZE_MISMATCH, jac0)
    else if Nat.ltb (ch_ns c) n then Ret (E_OUT_OF_RANGE, jac0)
    else
      let! st := for_loop n 0 (jac_body c locked q) (mkJS 0 0 f_id t_zero jac0) in
      Ret (E_NOERROR, js_jac st).

(** * ChainJntToJacDotSolver *)

(** chainjnttojacdotsolver.hpp:51-60 *)
Definition E_JAC_DOT_FAILED : Z := (-100)%Z.
Definition E_JACSOLVER_FAILED : Z := (-101)%Z.
Definition E_FKSOLVERPOS_FAILED : Z := (-102)%Z.
Definition HYBRID : Z := 0%Z.
Definition BODYFIXED : Z := 1%Z.
Definition INERTIAL : Z := 2%Z.

(** chainjnttojacdotsolver.hpp:168-179.  [jac_j_], [jac_i_], [t_djdq_], [F_bs_ee_]
    are overwritten before use.  [jd_inner] is the mask held by the embedded
    ChainJntToJacSolver, [jd_jac] and [jd_jdot] the sizes-carrying buffers. *)
Record jdsolver := mkJD {
  jd_locked : list bool; jd_unlocked : nat; jd_inner : list bool;
  jd_jac : list Twist; jd_jdot : list Twist; jd_rep : Z; jd_acc : Twist }.

(** chainjnttojacdotsolver.cpp:34-44 *)
Definition jdsolver_make (c : Chain) : jdsolver :=
  mkJD (repeat false (ch_nj c)) (ch_nj c) (jacsolver_make c)
       (jac_make (ch_nj c)) (jac_make (ch_nj c)) HYBRID t_zero.

(** chainjnttojacdotsolver.cpp:227-239: (code, state) *)
Definition jdsolver_setLocked (st : jdsolver) (mask : list bool) : Z * jdsolver :=
  if negb (Nat.eqb (length mask) (length (jd_locked st))) then (E_SIZE_MISMATCH, st)
  else (E_NOERROR,
        mkJD mask (length (filter negb mask)) (jd_inner st) (jd_jac st) (jd_jdot st) (jd_rep st) (jd_acc st)).

(** chainjnttojacdotsolver.cpp:46-53.  Jacobian::resize (jacobian.cpp:54-57)
    leaves new columns uninitialised; they are overwritten (SetToZero) before
    they are read, so they are modelled as zero. *)
Definition jdsolver_update (c : Chain) (st : jdsolver) : jdsolver :=
  let locked := vec_resize (jd_locked st) (ch_nj c) false in
  mkJD locked (length (filter negb locked)) (jacsolver_update c (jd_inner st))
       (vec_resize (jd_jac st) (ch_nj c) t_zero) (vec_resize (jd_jdot st) (ch_nj c) t_zero)
       (jd_rep st) (jd_acc st).

(** chainjnttojacdotsolver.cpp:218-224 *)
Definition jdsolver_setRepresentation (st : jdsolver) (rep : Z) : jdsolver :=
  if (rep =? HYBRID)%Z || (rep =? BODYFIXED)%Z || (rep =? INERTIAL)%Z
  then mkJD (jd_locked st) (jd_unlocked st) (jd_inner st) (jd_jac st) (jd_jdot st) rep (jd_acc st)
  else st.

(** chainjnttojacdotsolver.cpp:144-173 *)
Definition partial_hybrid (J : list Twist) (j i : nat) : outcome Twist :=
  let! Jj := jac_getColumn J j in
  let! Ji := jac_getColumn J i in
  Ret (if Nat.ltb j i then mkT (v_cross (trot Jj) (tvel Ji)) (v_cross (trot Jj) (trot Ji))
       else if Nat.ltb i j then mkT (v_cross (v_neg (tvel Jj)) (trot Ji)) v_zero
       else mkT (v_cross (trot Ji) (tvel Ji)) v_zero).

(** chainjnttojacdotsolver.cpp:175-196 *)
Definition partial_bodyfixed (J : list Twist) (j i : nat) : outcome Twist :=
  if Nat.ltb i j then
    let! Jj := jac_getColumn J j in
    let! Ji := jac_getColumn J i in
    Ret (t_neg (mkT (v_add (v_cross (trot Jj) (tvel Ji)) (v_cross (tvel Jj) (trot Ji)))
                    (v_cross (trot Jj) (trot Ji))))
  else Ret t_zero.

(** chainjnttojacdotsolver.cpp:197-217 *)
Definition partial_inertial (J : list Twist) (j i : nat) : outcome Twist :=
  if Nat.ltb j i then
    let! Jj := jac_getColumn J j in
    let! Ji := jac_getColumn J i in
    Ret (mkT (v_add (v_cross (trot Jj) (tvel Ji)) (v_cross (tvel Jj) (trot Ji)))
             (v_cross (trot Jj) (trot Ji)))
  else Ret t_zero.

(** chainjnttojacdotsolver.cpp:125-142 *)
Definition partial_derivative (J : list Twist) (j i : nat) (rep : Z) : outcome Twist :=
  if (rep =? HYBRID)%Z then partial_hybrid J j i
  else if (rep =? BODYFIXED)%Z then partial_bodyfixed J j i
  else if (rep =? INERTIAL)%Z then partial_inertial J j i
  else Ret t_zero.

(** chainjnttojacdotsolver.cpp:111-116: accumulation over all joints *)
Definition jd_inner_body (locked : list bool) (J : list Twist) (qdot : list R) (rep : Z) (k : nat)
    (j : nat) (acc : Twist) : outcome Twist :=
  let! l := aget locked j in
  if negb l then
    let! d := partial_derivative J j k rep in
    let! x := aget qdot j in
    Ret (t_add acc (t_scale d x))
  else Ret acc.

(** chainjnttojacdotsolver.cpp:106-120; state (k, jac_dot_k_, jdot) *)
Definition jd_body (c : Chain) (locked : list bool) (J : list Twist) (qdot : list R) (rep : Z)
    (i : nat) (st : nat * Twist * list Twist) : outcome (nat * Twist * list Twist) :=
  let '(k, acc, jdot) := st in
  let! s := chain_getSegment c i in
  if moving s then
    let! acc' := for_loop (ch_nj c) 0 (jd_inner_body locked J qdot rep k) acc in
    let! jdot' := jac_setColumn jdot k acc' in
    Ret (S k, t_zero, jdot')
  else Ret st.

(** chainjnttojacdotsolver.cpp:65-123: (code, jdot, state) *)
Definition jd_JntToJacDot (c : Chain) (st : jdsolver) (q qdot : list R) (jdot : list Twist) (seg_nr : Z)
  : outcome (Z * list Twist * jdsolver) :=
  if negb (Nat.eqb (length (jd_locked st)) (ch_nj c)) then Ret (E_NOT_UP_TO_DATE, jdot, st)
  else
    let n := segment_nr c seg_nr in
    let jdot0 := jac_zero jdot in
    if negb (Nat.eqb (length q) (ch_nj c)) || negb (Nat.eqb (jd_unlocked st) (length jdot))
    then Ret (E_SIZE_MISMATCH, jdot0, st)
    else if Nat.ltb (ch_ns c) n then Ret (E_OUT_OF_RANGE, jdot0, st)
    else
      let! r := jac_JntToJac c (jd_inner st) q (jd_jac st) (Z.of_nat n) in
      let '(code, J) := r in
      let st1 := mkJD (jd_locked st) (jd_unlocked st) (jd_inner st) J (jd_jdot st) (jd_rep st) (jd_acc st) in
      if negb (code =? E_NOERROR)%Z then Ret (E_JACSOLVER_FAILED, jdot0, st1)
      else
        let finish (J' : list Twist) :=
          let! r' := for_loop n 0 (jd_body c (jd_locked st) J' qdot (jd_rep st)) (0%nat, jd_acc st, jdot0) in
          let '(_, acc', jdot') := r' in
          Ret (E_NOERROR, jdot',
               mkJD (jd_locked st) (jd_unlocked st) (jd_inner st) J' (jd_jdot st) (jd_rep st) acc') in
        if negb (jd_rep st =? HYBRID)%Z then
          let! fk := fk_JntToCart c q (Z.of_nat n) in
          let '(code', F) := fk in
          if negb (code' =? E_NOERROR)%Z then Ret (E_FKSOLVERPOS_FAILED, jdot0, st1)
          else if (jd_rep st =? BODYFIXED)%Z then
            let! J' := jac_changeBase J (r_inv (fM F)) in finish J'
          else if (jd_rep st =? INERTIAL)%Z then
            let! J' := jac_changeRefPoint J (v_neg (fp F)) in finish J'
          else Ret (E_JAC_DOT_FAILED, jdot0, st1)
        else finish J.

(** chainjnttojacdotsolver.cpp:55-63: (code, twist, state); the twist is only
    written on success *)
Definition jd_JntToJacDot_twist (c : Chain) (st : jdsolver) (q qdot : list R) (out : Twist) (seg_nr : Z)
  : outcome (Z * Twist * jdsolver) :=
  let! r := jd_JntToJacDot c st q qdot (jd_jdot st) seg_nr in
  let '(code, jdot, st') := r in
  let st'' := mkJD (jd_locked st') (jd_unlocked st') (jd_inner st') (jd_jac st') jdot (jd_rep st') (jd_acc st') in
  if negb (code =? E_NOERROR)%Z then Ret (code, out, st'')
  else let! t := MultiplyJacobian jdot qdot in Ret (E_NOERROR, t, st'').
