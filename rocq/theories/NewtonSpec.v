(** Specification vocabulary for the convergence of the iterative position solvers (C70). *)
From Coq Require Import Reals String List ZArith.
From Verif Require Import FramesModel FramesSpec Outcome InertiaModel DualModel KinModel KinSpec LinModel LinSpec IkModel VelIkModel VelIkSpec.
Import ListNotations.
Local Open Scope list_scope.
Local Open Scope R_scope.

(** Sums of absolute values, of an array and of a twist. *)
Definition size (n : nat) (x : list R) : R := sumn n (fun i => Rabs (nth i x 0)).
Definition twist_size (t : Twist) : R := sumn 6 (fun r => Rabs (t_at t r)).
(** Every joint value of [q] is within [rho] of that of [q0]. *)
Definition joints_within (rho : R) (q q0 : list R) : Prop :=
  length q = length q0 /\ forall i, (i < length q0)%nat -> Rabs (nth i q 0 - nth i q0 0) <= rho.
(** The pose of the tip. *)
Definition tip (c : Chain) (q : list R) : Frame := tip_frame c q (length (ch_segs c)).

(** A forward solver that always computes the tip.  [Inv] is what the caller knows of
    the state of the inner solvers. *)
Definition forward_solver {W : Type} (c : Chain) (Inv : W -> Prop) (fk : W -> list R -> outcome (Z * Frame * W)) : Prop :=
  forall w q, Inv w -> length q = ch_nj c -> exists w', fk w q = Ret (E_NOERROR, tip c q, w') /\ Inv w'.
(** A velocity solver that, at joint values within [rho] of [q0], reports no error and
    answers every twist t by joint velocities of size at most [B] times that of t, which
    produce t up to [r] times its size. *)
Definition velocity_solver {W : Type} (c : Chain) (q0 : list R) (rho B r : R) (Inv : W -> Prop)
    (ikv : W -> list R -> Twist -> list R -> outcome (Z * list R * W)) : Prop :=
  forall w q t d, Inv w -> joints_within rho q q0 -> length d = ch_nj c ->
    exists dq w', ikv w q t d = Ret (E_NOERROR, dq, w') /\ Inv w' /\ length dq = ch_nj c /\
      size (ch_nj c) dq <= B * twist_size t /\
      forall i, (i < 6)%nat -> Rabs (image (ch_nj c) (tip_jacobian c q) dq i - t_at t i) <= r * twist_size t.
(** ChainFkSolverPos_recursive next to a velocity solver with state [W]. *)
Definition own_fk {W : Type} (c : Chain) : W -> list R -> outcome (Z * Frame * W) :=
  fun w q => let! (rc, f) := fk_JntToCart c q (-1) in Ret (rc, f, w).
