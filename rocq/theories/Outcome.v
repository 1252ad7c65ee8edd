(** Shared modelling vocabulary: outcomes with undefined behaviour, counting
    loops and arrays.  No C++ function is modelled here. *)
From Coq Require Import Reals List ZArith.
Import ListNotations.

(** The result of running C++ code: a value, or undefined behaviour (an access
    outside an array, a null or dangling dereference). *)
Inductive outcome (A : Type) : Type :=
| Ret (a : A)
| Undef.
Arguments Ret {A} a.
Arguments Undef {A}.

Definition obind {A B : Type} (x : outcome A) (f : A -> outcome B) : outcome B :=
  match x with Ret a => f a | Undef => Undef end.
Declare Scope outcome_scope.
Delimit Scope outcome_scope with outcome.
Notation "'let!' x ':=' a 'in' b" := (obind a (fun x => b))
  (at level 200, x pattern, a at level 100, b at level 200, right associativity) : outcome_scope.
Open Scope outcome_scope.

(** Array read; outside the bounds the behaviour is undefined (Eigen's bounds
    check is an assertion that NDEBUG removes; std::vector::operator[] has none). *)
Definition aget {A : Type} (l : list A) (i : nat) : outcome A :=
  match nth_error l i with Some a => Ret a | None => Undef end.

(** Replacement of the [i]-th element of a list ([l] itself when out of range). *)
Fixpoint upd {A : Type} (l : list A) (i : nat) (a : A) : list A :=
  match l, i with
  | [], _ => []
  | _ :: t, O => a :: t
  | h :: t, S i' => h :: upd t i' a
  end.

(** Array write, undefined outside the bounds. *)
Definition aset {A : Type} (l : list A) (i : nat) (a : A) : outcome (list A) :=
  if Nat.ltb i (length l) then Ret (upd l i a) else Undef.

(** [for (i = i0; i < i0 + n; i++) body] *)
Fixpoint for_loop {St : Type} (n i : nat) (body : nat -> St -> outcome St) (s : St) : outcome St :=
  match n with
  | O => Ret s
  | S n' => let! s' := body i s in for_loop n' (S i) body s'
  end.

(** Solver error codes, /repo/orocos_kdl/src/solveri.hpp:89-107 *)
Definition E_DEGRADED : Z := 1%Z.
Definition E_NOERROR : Z := 0%Z.
Definition E_NO_CONVERGE : Z := (-1)%Z.
Definition E_UNDEFINED : Z := (-2)%Z.
Definition E_NOT_UP_TO_DATE : Z := (-3)%Z.
Definition E_SIZE_MISMATCH : Z := (-4)%Z.
Definition E_MAX_ITERATIONS_EXCEEDED : Z := (-5)%Z.
Definition E_OUT_OF_RANGE : Z := (-6)%Z.
Definition E_NOT_IMPLEMENTED : Z := (-7)%Z.
Definition E_SVD_FAILED : Z := (-8)%Z.
