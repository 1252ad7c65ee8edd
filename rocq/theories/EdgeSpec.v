(** Histories of calls on a Jacobian-derivative solver. *)
From Coq Require Import Reals List ZArith.
From Verif Require Import FramesModel Outcome KinModel.
Import ListNotations.

(** the public calls that change the solver; every call names the chain as it is
    at that moment, since the solver keeps a reference to it *)
Inductive jd_call :=
| JdLock (mask : list bool) | JdRepresentation (rep : Z) | JdUpdate (c : Chain)
| JdJac (c : Chain) (q qdot : list R) (jdot : list Twist) (seg : Z)
| JdTwist (c : Chain) (q qdot : list R) (out : Twist) (seg : Z).

(** the solver after the call, and the code it returned; [None] when the call is
    undefined behaviour *)
Definition jd_do (st : jdsolver) (o : jd_call) : option (Z * jdsolver) :=
  match o with
  | JdLock m => Some (jdsolver_setLocked st m)
  | JdRepresentation r => Some (E_NOERROR, jdsolver_setRepresentation st r)
  | JdUpdate c => Some (E_NOERROR, jdsolver_update c st)
  | JdJac c q qd j n => match jd_JntToJacDot c st q qd j n with Ret (code, _, st') => Some (code, st') | _ => None end
  | JdTwist c q qd t n => match jd_JntToJacDot_twist c st q qd t n with Ret (code, _, st') => Some (code, st') | _ => None end
  end.
Fixpoint jd_run (st : jdsolver) (l : list jd_call) : option (list Z * jdsolver) :=
  match l with
  | [] => Some ([], st)
  | o :: l' =>
      match jd_do st o with
      | Some (code, st') => match jd_run st' l' with Some (cs, r) => Some (code :: cs, r) | None => None end
      | None => None
      end
  end.
