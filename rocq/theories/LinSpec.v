(** Specification vocabulary for linear algebra: finite sums, symmetry, positive
    definiteness, products. *)
From Coq Require Import Reals List.
From Verif Require Import Outcome LinModel.
Import ListNotations.
Local Open Scope R_scope.

(** f 0 + ... + f (n-1) *)
Fixpoint sumn (n : nat) (f : nat -> R) : R :=
  match n with O => 0 | S m => sumn m f + f m end.

Definition symmetric (n : nat) (a : nat -> nat -> R) : Prop :=
  forall i j, (i < n)%nat -> (j < n)%nat -> a i j = a j i.

(** x^T A x *)
Definition quadratic (n : nat) (a : nat -> nat -> R) (x : nat -> R) : R :=
  sumn n (fun i => sumn n (fun j => x i * a i j * x j)).
Definition positive_definite (n : nat) (a : nat -> nat -> R) : Prop :=
  forall x, (exists i, (i < n)%nat /\ x i <> 0) -> 0 < quadratic n a x.

(** A x = b, row by row *)
Definition solves (n : nat) (a : nat -> nat -> R) (x b : list R) : Prop :=
  forall i, (i < n)%nat -> sumn n (fun j => a i j * nth j x 0) = nth i b 0.

Definition unit_lower (n : nat) (l : nat -> nat -> R) : Prop :=
  forall i j, (i < n)%nat -> (j < n)%nat -> (i = j -> l i j = 1) /\ ((i < j)%nat -> l i j = 0).

(** A = L diag(D) L^T *)
Definition ldl_of (n : nat) (a l : nat -> nat -> R) (d : nat -> R) : Prop :=
  forall i j, (i < n)%nat -> (j < n)%nat -> a i j = sumn n (fun k => l i k * d k * l j k).
