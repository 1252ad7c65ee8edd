(** Specification vocabulary for dynamics in rounded arithmetic (C89, C90). *)
From Coq Require Import Reals List ZArith.
From Flocq Require Import Core.
From Verif Require Import Outcome FlSpec.
Local Open Scope R_scope.

(** An arithmetic with error eps: the rounding of an operation and the sin and cos of the C library. *)
Definition arithmetic (eps : R) (rnd fsin fcos : R -> R) : Prop :=
  0 <= eps <= 1 /\ rounds eps rnd /\ computes eps fsin sin /\ computes eps fcos cos.
(** Entry by entry. *)
Definition within (d : R) (l' l : list R) : Prop := Forall2 (fun x' x => Rabs (x' - x) <= d) l' l.
(** The two calls do the same, up to [d] in the numbers. *)
Definition same_call (d : R) (r' r : outcome (Z * list R)) : Prop :=
  match r', r with
  | Ret (code', T'), Ret (code, T) => code' = code /\ within d T' T
  | Undef, Undef => True
  | _, _ => False
  end.
(** Binary floating point with p digits, to nearest, ties to even. *)
Definition digits (p : Z) : R -> R := round radix2 (FLX_exp p) ZnearestE.
