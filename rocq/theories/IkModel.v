(** Model of the iterative position inverse kinematics solvers.

    Sources (in /repo/orocos_kdl/src): chainiksolverpos_nr_jl.{hpp,cpp},
    chainiksolverpos_nr.{hpp,cpp}, treeiksolverpos_nr_jl.{hpp,cpp},
    treeiksolverpos_online.{hpp,cpp}.

    These solvers hold references to a forward position solver and an inverse
    velocity solver supplied by the caller, whose classes are abstract.  The two
    are arbitrary stateful functions here: [W] is whatever state they have
    between them, a call may do anything, including undefined behaviour.

    [double] is idealised as [R].  The [const JntArray& q_init] and
    [JntArray& q_out] of a call are different objects. *)
From Coq Require Import Reals String List ZArith Bool Arith.
From Verif Require Import FramesModel Outcome InertiaModel DualModel KinModel JntModel.
Import ListNotations.
Local Open Scope list_scope.
Local Open Scope R_scope.

(** chainiksolverpos_nr_jl.hpp:44-45 and chainiksolverpos_nr.hpp:41-42 *)
Definition E_IKSOLVERVEL_FAILED : Z := (-100)%Z.
Definition E_IK_FKSOLVERPOS_FAILED : Z := (-101)%Z.
Definition E_IKSOLVER_FAILED : Z := (-100)%Z.

(** std::numeric_limits<double>::min() is the smallest positive normal number,
    max() the largest finite one (IEEE 754 binary64). *)
Definition dbl_min : R := / 2 ^ 1022.
Definition dbl_max : R := (2 - / 2 ^ 52) * 2 ^ 1023.

(** Add(a,b,a) on arrays that are not aliased otherwise, jntarray.cpp:80-83:
    different sizes violate an Eigen assertion. *)
Definition jnt_plus (a b : list R) : outcome (list R) :=
  if Nat.eqb (length a) (length b)
  then Ret (map (fun p => fst p + snd p) (combine a b)) else Undef.

(** chainiksolverpos_nr_jl.cpp:83-86: [for j < q_min.rows(): if q_out(j) < q_min(j)] *)
Definition clamp_low (q_min : list R) (q : list R) : outcome (list R) :=
  for_loop (length q_min) 0
    (fun j q => let! x := aget q j in
                let! m := aget q_min j in
                if Rlt_dec x m then aset q j m else Ret q) q.
(** chainiksolverpos_nr_jl.cpp:89-92 *)
Definition clamp_high (q_max : list R) (q : list R) : outcome (list R) :=
  for_loop (length q_max) 0
    (fun j q => let! x := aget q j in
                let! m := aget q_max j in
                if Rgt_dec x m then aset q j m else Ret q) q.
(** treeiksolverpos_nr_jl.cpp:64-69 and treeiksolverpos_online.cpp:98-104: one
    loop over q_min's rows with [else if] *)
Definition clamp_both (q_min q_max : list R) (q : list R) : outcome (list R) :=
  for_loop (length q_min) 0
    (fun j q => let! x := aget q j in
                let! m := aget q_min j in
                if Rlt_dec x m then aset q j m else
                let! M := aget q_max j in
                if Rgt_dec x M then aset q j M else Ret q) q.

Section Chain.
Context {W : Type}.
(** [fksolver.JntToCart(q, f)]: return code and the frame then in [f] *)
Variable fk : W -> list R -> outcome (Z * Frame * W).
(** [iksolver.CartToJnt(q, twist, delta_q)], [delta_q] given by its old contents *)
Variable ikv : W -> list R -> Twist -> list R -> outcome (Z * list R * W).

(** ** ChainIkSolverPos_NR_JL *)

(** chainiksolverpos_nr_jl.hpp:112-123; the scratch frame and twist are local here. *)
Record nrjl := mkNJ {
  nj_nj : nat; nj_min : list R; nj_max : list R; nj_delta : list R;
  nj_maxiter : nat; nj_eps : R; nj_error : Z }.
Definition nj_set_delta (s : nrjl) (d : list R) : nrjl :=
  mkNJ (nj_nj s) (nj_min s) (nj_max s) d (nj_maxiter s) (nj_eps s) (nj_error s).
Definition nj_set_error (s : nrjl) (e : Z) : nrjl :=
  mkNJ (nj_nj s) (nj_min s) (nj_max s) (nj_delta s) (nj_maxiter s) (nj_eps s) e.

(** chainiksolverpos_nr_jl.cpp:30-39; [error] starts as E_NOERROR (solveri.hpp:148) *)
Definition nrjl_make (c : Chain) (q_min q_max : list R) (maxiter : nat) (eps : R) : nrjl :=
  mkNJ (ch_nj c) q_min q_max (jnt_make (ch_nj c)) maxiter eps E_NOERROR.
(** chainiksolverpos_nr_jl.cpp:41-51 *)
Definition nrjl_make_nolimits (c : Chain) (maxiter : nat) (eps : R) : nrjl :=
  mkNJ (ch_nj c) (repeat dbl_min (ch_nj c)) (repeat dbl_max (ch_nj c)) (jnt_make (ch_nj c)) maxiter eps E_NOERROR.
(** chainiksolverpos_nr_jl.cpp:53-60, without the calls to the inner solvers'
    updateInternalDataStructures (they act on [W] only) *)
Definition nrjl_update (c : Chain) (s : nrjl) : nrjl :=
  mkNJ (ch_nj c) (vec_resize (nj_min s) (ch_nj c) dbl_min) (vec_resize (nj_max s) (ch_nj c) dbl_max)
       (jnt_resize (nj_delta s) (ch_nj c)) (nj_maxiter s) (nj_eps s) (nj_error s).
(** chainiksolverpos_nr_jl.cpp:103-109 *)
Definition nrjl_setJointLimits (s : nrjl) (q_min q_max : list R) : Z * nrjl :=
  if negb (Nat.eqb (length q_min) (nj_nj s)) || negb (Nat.eqb (length q_max) (nj_nj s))
  then (E_SIZE_MISMATCH, nj_set_error s E_SIZE_MISMATCH)
  else (E_NOERROR, mkNJ (nj_nj s) q_min q_max (nj_delta s) (nj_maxiter s) (nj_eps s) E_NOERROR).

(** How the loop ended: left by [break] (converged), by reaching maxiter, or by
    [return] with an error code. *)
Inductive exit := Broke | Exhausted | Returned (code : Z).

(** chainiksolverpos_nr_jl.cpp:73-93, [n] iterations left *)
Fixpoint nrjl_loop (n : nat) (s : nrjl) (p_in : Frame) (w : W) (q delta : list R)
  : outcome (exit * list R * list R * W) :=
  match n with
  | O => Ret (Exhausted, q, delta, w)
  | S n' =>
      let! (rc, f, w) := fk w q in
      if (rc <? 0)%Z then Ret (Returned E_IK_FKSOLVERPOS_FAILED, q, delta, w) else
      let delta_twist := f_diff f p_in 1 in
      if t_Equal delta_twist t_zero (nj_eps s) then Ret (Broke, q, delta, w) else
      let! (rc, delta, w) := ikv w q delta_twist delta in
      if (rc <? 0)%Z then Ret (Returned E_IKSOLVERVEL_FAILED, q, delta, w) else
      let! q := jnt_plus q delta in
      let! q := clamp_low (nj_min s) q in
      let! q := clamp_high (nj_max s) q in
      nrjl_loop n' s p_in w q delta
  end.

(** chainiksolverpos_nr_jl.cpp:62-101.  Result: return code, q_out, the solver, the world. *)
Definition nrjl_CartToJnt (c : Chain) (s : nrjl) (w : W) (q_init : list R) (p_in : Frame) (q_out : list R)
  : outcome (Z * list R * nrjl * W) :=
  let fail code := Ret (code, q_out, nj_set_error s code, w) in
  if negb (Nat.eqb (nj_nj s) (ch_nj c)) then fail E_NOT_UP_TO_DATE else
  if negb (Nat.eqb (nj_nj s) (length q_init)) || negb (Nat.eqb (nj_nj s) (length q_out)) ||
     negb (Nat.eqb (nj_nj s) (length (nj_min s))) || negb (Nat.eqb (nj_nj s) (length (nj_max s)))
  then fail E_SIZE_MISMATCH else
  let! (e, q, delta, w) := nrjl_loop (nj_maxiter s) s p_in w q_init (nj_delta s) in
  let code := match e with
              | Broke => E_NOERROR
              | Exhausted => E_MAX_ITERATIONS_EXCEEDED
              | Returned code => code
              end in
  Ret (code, q, nj_set_error (nj_set_delta s delta) code, w).

(** ** ChainIkSolverPos_NR *)

(** chainiksolverpos_nr.hpp:82-92 *)
Record nrs := mkNR { nr_nj : nat; nr_delta : list R; nr_maxiter : nat; nr_eps : R; nr_error : Z }.
(** chainiksolverpos_nr.cpp:26-33 *)
Definition nr_make (c : Chain) (maxiter : nat) (eps : R) : nrs :=
  mkNR (ch_nj c) (jnt_make (ch_nj c)) maxiter eps E_NOERROR.
(** chainiksolverpos_nr.cpp:35-40, inner solvers as above *)
Definition nr_update (c : Chain) (s : nrs) : nrs :=
  mkNR (ch_nj c) (jnt_resize (nr_delta s) (ch_nj c)) (nr_maxiter s) (nr_eps s) (nr_error s).

(** chainiksolverpos_nr.cpp:52-67; [Broke] carries no code: line 65 returns
    without assigning [error], so the flag tells whether rc was positive. *)
Inductive nr_exit := Converged (degraded : bool) | NrExhausted | NrReturned (code : Z).
Fixpoint nr_loop (n : nat) (eps : R) (p_in : Frame) (w : W) (q delta : list R)
  : outcome (nr_exit * list R * list R * W) :=
  match n with
  | O => Ret (NrExhausted, q, delta, w)
  | S n' =>
      let! (rc, f, w) := fk w q in
      if (rc <? E_NOERROR)%Z then Ret (NrReturned E_IK_FKSOLVERPOS_FAILED, q, delta, w) else
      let delta_twist := f_diff f p_in 1 in
      let! (rc, delta, w) := ikv w q delta_twist delta in
      if (rc <? E_NOERROR)%Z then Ret (NrReturned E_IKSOLVER_FAILED, q, delta, w) else
      let! q := jnt_plus q delta in
      if t_Equal delta_twist t_zero eps then Ret (Converged (E_NOERROR <? rc)%Z, q, delta, w) else
      nr_loop n' eps p_in w q delta
  end.
(** chainiksolverpos_nr.cpp:42-68 *)
Definition nr_CartToJnt (c : Chain) (s : nrs) (w : W) (q_init : list R) (p_in : Frame) (q_out : list R)
  : outcome (Z * list R * nrs * W) :=
  let with_error e delta := mkNR (nr_nj s) delta (nr_maxiter s) (nr_eps s) e in
  let fail code := Ret (code, q_out, with_error code (nr_delta s), w) in
  if negb (Nat.eqb (nr_nj s) (ch_nj c)) then fail E_NOT_UP_TO_DATE else
  if negb (Nat.eqb (length q_init) (nr_nj s)) || negb (Nat.eqb (length q_out) (nr_nj s))
  then fail E_SIZE_MISMATCH else
  let! (e, q, delta, w) := nr_loop (nr_maxiter s) (nr_eps s) p_in w q_init (nr_delta s) in
  match e with
  | Converged d => Ret (if d then E_DEGRADED else E_NOERROR, q, with_error (nr_error s) delta, w)
  | NrExhausted => Ret (E_MAX_ITERATIONS_EXCEEDED, q, with_error E_MAX_ITERATIONS_EXCEEDED delta, w)
  | NrReturned code => Ret (code, q, with_error code delta, w)
  end.
End Chain.

(** ** Tree solvers *)

(** A std::map keyed by strings: its entries in key order, keys distinct.
    Entries are only ever inserted by the constructors. *)
Definition dict (A : Type) := list (string * A).
Fixpoint dict_find {A : Type} (m : dict A) (k : string) : option A :=
  match m with
  | [] => None
  | (k', a) :: m' => if String.eqb k' k then Some a else dict_find m' k
  end.
(** assignment through an iterator returned by find(): existing keys only *)
Fixpoint dict_put {A : Type} (m : dict A) (k : string) (a : A) : dict A :=
  match m with
  | [] => []
  | (k', b) :: m' => if String.eqb k' k then (k', a) :: m' else (k', b) :: dict_put m' k a
  end.
(** map::insert: an existing key keeps its value *)
Fixpoint dict_insert {A : Type} (m : dict A) (k : string) (a : A) : dict A :=
  match m with
  | [] => [(k, a)]
  | (k', b) :: m' =>
      if String.eqb k' k then m
      else if String.ltb k k' then (k, a) :: m else (k', b) :: dict_insert m' k a
  end.
(** treeiksolverpos_nr_jl.cpp:35-38, treeiksolverpos_online.cpp:49-53 *)
Definition dict_of {A : Type} (endpoints : list string) (a : A) : dict A :=
  fold_left (fun m k => dict_insert m k a) endpoints [].

Section Tree.
Context {W : Type}.
(** [fksolver.JntToCart(q, f, name)] returns a code, which both solvers ignore,
    and may or may not have written [f] *)
Variable tfk : W -> list R -> string -> Frame -> outcome (Frame * W).
(** [iksolver.CartToJnt(q, twists, qdot)] returns a double *)
Variable tikv : W -> list R -> dict Twist -> list R -> outcome (R * list R * W).

(** treeiksolverpos_nr_jl.hpp:68-79 *)
Record tnrjl := mkTN {
  tn_frames : dict Frame; tn_twists : dict Twist; tn_min : list R; tn_max : list R; tn_delta : list R;
  tn_maxiter : nat; tn_eps : R }.
(** treeiksolverpos_nr_jl.cpp:27-39; [nj] is the number of joints of the tree *)
Definition tnrjl_make (nj : nat) (endpoints : list string) (q_min q_max : list R) (maxiter : nat) (eps : R) : tnrjl :=
  mkTN (dict_of endpoints f_id) (dict_of endpoints t_zero) q_min q_max (jnt_make nj) maxiter eps.

(** treeiksolverpos_nr_jl.cpp:51-59 and treeiksolverpos_online.cpp:69-84: for
    every requested endpoint compute the error twist; [g] is applied to it
    before it is stored *)
Fixpoint endpoint_errors (g : Twist -> Twist) (p_in : dict Frame) (w : W) (q : list R)
    (frames : dict Frame) (twists : dict Twist) : outcome (dict Frame * dict Twist * W) :=
  match p_in with
  | [] => Ret (frames, twists, w)
  | (k, f_des) :: rest =>
      match dict_find frames k, dict_find twists k with
      | Some f, Some _ =>
          let! (f, w) := tfk w q k f in
          endpoint_errors g rest w q (dict_put frames k f) (dict_put twists k (g (f_diff f f_des 1)))
      | _, _ => Undef (* end()->second *)
      end
  end.

(** treeiksolverpos_nr_jl.cpp:45-47 *)
Definition endpoints_known {A : Type} (p_in : dict Frame) (m : dict A) : bool :=
  forallb (fun e => match dict_find m (fst e) with Some _ => true | None => false end) p_in.

(** treeiksolverpos_nr_jl.cpp:49-71.  [k] counts from 1 to maxiter; a maxiter of
    UINT_MAX, for which ++k would wrap, is outside the model.  The result is the
    returned double, None when the loop condition failed. *)
Fixpoint tnrjl_loop (n : nat) (s : tnrjl) (p_in : dict Frame) (w : W) (q : list R)
    (frames : dict Frame) (twists : dict Twist) (delta : list R)
  : outcome (option R * list R * dict Frame * dict Twist * list R * W) :=
  match n with
  | O => Ret (None, q, frames, twists, delta, w)
  | S n' =>
      let! (frames, twists, w) := endpoint_errors (fun t => t) p_in w q frames twists in
      let! (res, delta, w) := tikv w q twists delta in
      if Rlt_dec res (tn_eps s) then Ret (Some res, q, frames, twists, delta, w) else
      let! q := jnt_plus q delta in
      let! q := clamp_both (tn_min s) (tn_max s) q in
      tnrjl_loop n' s p_in w q frames twists delta
  end.
(** treeiksolverpos_nr_jl.cpp:41-76.  The loop is only left with k = maxiter+1,
    so line 72 ([k <= maxiter]) is never true. *)
Definition tnrjl_CartToJnt (s : tnrjl) (w : W) (q_init : list R) (p_in : dict Frame)
  : outcome (R * list R * tnrjl * W) :=
  if negb (endpoints_known p_in (tn_frames s)) then Ret (-2, q_init, s, w) else
  let! (r, q, frames, twists, delta, w) :=
    tnrjl_loop (tn_maxiter s) s p_in w q_init (tn_frames s) (tn_twists s) (tn_delta s) in
  Ret (match r with Some res => res | None => -3 end, q,
       mkTN frames twists (tn_min s) (tn_max s) delta (tn_maxiter s) (tn_eps s), w).

(** *** TreeIkSolverPos_Online *)

(** treeiksolverpos_online.hpp:92-102 *)
Record online := mkON {
  on_frames : dict Frame; on_twists : dict Twist; on_qdot : list R;
  on_min : list R; on_max : list R; on_dmax : list R; on_trans : R; on_rot : R }.
(** treeiksolverpos_online.cpp:29-54 *)
Definition online_make (nj : nat) (endpoints : list string) (q_min q_max q_dot_max : list R) (tmax rmax : R) : online :=
  mkON (dict_of endpoints f_id) (dict_of endpoints t_zero) (jnt_make nj) q_min q_max q_dot_max tmax rmax.

(** treeiksolverpos_online.cpp:118-139; the state is (max_exceeded, rel_os_max).
    Division is that of the reals: statements carry positive limits. *)
Definition overshoot (qdot dmax : list R) : outcome (bool * R) :=
  for_loop (length qdot) 0
    (fun i st => let '(ex, m) := st in
       let! x := aget qdot i in
       let! d := aget dmax i in
       if Rgt_dec x d then
         let rel := (x - d) / d in Ret (true, if Rgt_dec rel m then rel else m)
       else if Rlt_dec x (- d) then
         let rel := (- x - d) / d in Ret (true, if Rgt_dec rel m then rel else m)
       else Ret (ex, m)) (false, 0).
(** treeiksolverpos_online.cpp:112-147 *)
Definition enforceJointVelLimits (qdot dmax : list R) : outcome (list R) :=
  let! (ex, m) := overshoot qdot dmax in
  Ret (if ex : bool then map (fun x => (1 / (1 + m)) * x) qdot else qdot).

(** treeiksolverpos_online.cpp:150-169 *)
Definition enforceCartVelLimits (tmax rmax : R) (t : Twist) : Twist :=
  let trans := sqrt (vx (tvel t) ^ 2 + vy (tvel t) ^ 2 + vz (tvel t) ^ 2) in
  let rot := sqrt (vx (trot t) ^ 2 + vy (trot t) ^ 2 + vz (trot t) ^ 2) in
  if Rgt_dec trans tmax then
    (if Rgt_dec trans rot then mkT (v_scale (tvel t) (tmax / trans)) (v_scale (trot t) (tmax / trans))
     else if Rgt_dec rot trans then mkT (v_scale (tvel t) (rmax / rot)) (v_scale (trot t) (rmax / rot))
     else t)
  else if Rgt_dec rot rmax then
    (if Rgt_dec trans rot then mkT (v_scale (tvel t) (tmax / trans)) (v_scale (trot t) (tmax / trans))
     else if Rgt_dec rot trans then mkT (v_scale (tvel t) (rmax / rot)) (v_scale (trot t) (rmax / rot))
     else t)
  else t.

(** treeiksolverpos_online.cpp:60-109 *)
Definition online_CartToJnt (s : online) (w : W) (q_in : list R) (p_in : dict Frame)
  : outcome (R * list R * online * W) :=
  if negb (endpoints_known p_in (on_frames s)) then Ret (-2, q_in, s, w) else
  let! (frames, twists, w) :=
    endpoint_errors (enforceCartVelLimits (on_trans s) (on_rot s)) p_in w q_in (on_frames s) (on_twists s) in
  let! (res, qdot, w) := tikv w q_in twists (on_qdot s) in
  let st qd := mkON frames twists qd (on_min s) (on_max s) (on_dmax s) (on_trans s) (on_rot s) in
  if Rlt_dec res 0 then Ret (res, q_in, st qdot, w) else
  if negb (Nat.eqb (length q_in) (length (on_min s))) || negb (Nat.eqb (length q_in) (length (on_max s))) ||
     negb (Nat.eqb (length q_in) (length (on_dmax s)))
  then Ret (-1, q_in, st qdot, w) else
  let! qdot := enforceJointVelLimits qdot (on_dmax s) in
  let! q := jnt_plus q_in qdot in
  let! q := clamp_both (on_min s) (on_max s) q in
  Ret (res, q, st qdot, w).
End Tree.
