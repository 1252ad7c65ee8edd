(** Specification vocabulary for simulations (C91): the steps of [rk4_step] in exact arithmetic. *)
From Coq Require Import Reals List ZArith.
From Verif Require Import FramesModel Outcome KinModel DynModel.
Local Open Scope R_scope.

(** What forward dynamics writes into its output. *)
Definition stage (c : Chain) (st : fdsolver) (tau : list R) (fext : list Wrench) (q v old : list R) : list R :=
  match fd_CartToJnt c st q v tau fext old with Ret (_, out, _) => out | Undef => old end.
(** The state after [n] steps. *)
Fixpoint simulate (acc : list R -> list R -> list R -> list R) (dt : R) (qdd : list R) (n : nat) (q v : list R) : list R * list R :=
  match n with
  | O => (q, v)
  | S n' => let s := rk4_step acc dt q v qdd in simulate acc dt qdd n' (fst s) (snd s)
  end.
