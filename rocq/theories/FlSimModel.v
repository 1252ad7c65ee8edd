(** The Runge-Kutta integrator of the forward dynamics solver in rounded arithmetic, and repeated steps; conventions as in
    [FlModel] and [rk4_step].  Every stage calls forward dynamics on an object with the buffers of [st] and the same torques and
    wrenches; the code lets the buffers of the last call stand, which each call writes before it reads them. *)
From Coq Require Import Reals List ZArith.
From Verif Require Import FramesModel Outcome KinModel LinModel DynModel FlMassModel.
Import ListNotations.
Local Open Scope R_scope.

Section Rounded.
Variable rnd : R -> R.
Variables fsin fcos : R -> R.
Variables (c : Chain) (st : fdsolver) (tau : list R) (fext : list Wrench).

(** chainfdsolver_recursive_newton_euler.cpp:100, 108, 116, 124: the call, its return code discarded *)
Definition fl_stage (q v old : list R) : outcome (list R) :=
  let! r := fl_fd_CartToJnt rnd fsin fcos c st q v tau fext old in Ret (snd r).

(** chainfdsolver_recursive_newton_euler.cpp:95-136 *)
Definition fl_rk4_step (dt : R) (q qd qdd : list R) : outcome (list R * list R) :=
  let! a1 := fl_stage q qd qdd in
  let qt1 := map2 (fun x v => rnd (x + rnd (rnd (v * dt) / 2))) q qd in
  let vt1 := map2 (fun v a => rnd (v + rnd (rnd (a * dt) / 2))) qd a1 in
  let! a2 := fl_stage qt1 vt1 a1 in
  let qt2 := map2 (fun x v => rnd (x + rnd (rnd (v * dt) / 2))) q vt1 in
  let vt2 := map2 (fun v a => rnd (v + rnd (rnd (a * dt) / 2))) qd a2 in
  let dq2 := map2 (fun d v => rnd (d + rnd (2 * v))) qd vt2 in
  let dv2 := map2 (fun d a => rnd (d + rnd (2 * a))) a1 a2 in
  let! a3 := fl_stage qt2 vt2 a2 in
  let qt3 := map2 (fun x v => rnd (x + rnd (v * dt))) q vt2 in
  let vt3 := map2 (fun v a => rnd (v + rnd (a * dt))) qd a3 in
  let dq3 := map2 (fun d v => rnd (d + rnd (2 * v))) dq2 vt3 in
  let dv3 := map2 (fun d a => rnd (d + rnd (2 * a))) dv2 a3 in
  let! a4 := fl_stage qt3 vt3 a3 in
  let dq4 := map2 (fun d v => rnd (rnd (rnd (d + v) * dt) / 6)) dq3 vt3 in
  let dv4 := map2 (fun d a => rnd (rnd (rnd (d + a) * dt) / 6)) dv3 a4 in
  Ret (map2 (fun x d => rnd (x + d)) q dq4, map2 (fun v d => rnd (v + d)) qd dv4).

(** [n] calls of RK4Integrator (chainfdsolver_recursive_newton_euler.cpp:95-136) in a row.  The loop is a user's: nothing in
    the repository calls the integrator.  Each call gets the same q_dotdot; the code would pass on the last one, which the
    first stage overwrites. *)
Fixpoint fl_simulate (dt : R) (qdd : list R) (n : nat) (q v : list R) : outcome (list R * list R) :=
  match n with
  | O => Ret (q, v)
  | S n' => let! r := fl_rk4_step dt q v qdd in fl_simulate dt qdd n' (fst r) (snd r)
  end.
End Rounded.
