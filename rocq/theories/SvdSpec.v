(** Specification of the singular value routines. *)
From Coq Require Import Reals List ZArith Bool Arith.
From Verif Require Import LinSpec LmaSpec SvdModel.
Import ListNotations.
Local Open Scope R_scope.

(** What a rounding function must do for the convergence tests to be safe: zero and one are numbers. *)
Definition keeps_units (rnd : R -> R) : Prop := rnd 0 = 0 /\ rnd 1 = 1.
(** How far a rounding function can be from the truth near 0, 1 and -1: a sum that rounds to 0 or
    to 1 or -1 is within [tol] of it.  The exact function has tol = 0. *)
Definition rounds_within (rnd : R -> R) (tol : R) : Prop :=
  0 <= tol /\
  (forall x, rnd x = 0 -> Rabs x <= tol) /\
  (forall x, rnd x = 1 -> Rabs (x - 1) <= tol) /\
  (forall x, rnd x = -1 -> Rabs (x + 1) <= tol).

(** No number of magnitude at most m is taken for -2 by the test with the misplaced parenthesis. *)
Definition not_fooled (rnd : R -> R) (m : R) : Prop := forall x, Rabs x <= m -> rnd (x + 1) <> -1.
(** The same rounding, except that nothing is rounded to -1. *)
Definition guarded (rnd : R -> R) (x : R) : R := if Req_EM_T (rnd x) (-1) then -2 else rnd x.

(** sum of the squares of the entries of a rows x cols matrix *)
Definition size2 (rows cols : nat) (X : mat) : R := sumn rows (fun a => sumn cols (fun b => X a b * X a b)).
(** U diag(S) V^T *)
Definition product (cols : nat) (U : mat) (S : vec) (V : mat) : mat :=
  fun a b => sumn cols (fun c => U a c * S c * V b c).
(** the columns of an m x n matrix are orthonormal *)
Definition orthonormal (m n : nat) (X : mat) : Prop :=
  forall i j, (i < n)%nat -> (j < n)%nat -> sumn m (fun a => X a i * X a j) = delta i j.
(** U is the top [rows] rows of Q. *)
Definition top_of (rows cols : nat) (U Q : mat) : Prop :=
  forall a b, (a < rows)%nat -> (b < cols)%nat -> U a b = Q a b.
Definition descending (n : nat) (S : vec) : Prop := forall i j, (i <= j)%nat -> (j < n)%nat -> S j <= S i.
(** U diag(S) V^T is within [err] of A in the Frobenius norm, the columns of V are orthonormal, and
    those columns of U whose singular value is large compared with [err] are nearly so.  With err = 0
    this is a singular value decomposition. *)
Definition svd_within (err : R) (rows cols : nat) (A U : mat) (S : vec) (V : mat) : Prop :=
  size2 rows cols (fun a b => A a b - product cols U S V a b) <= err * err /\
  orthonormal cols cols V /\
  forall i j, (i < cols)%nat -> (j < cols)%nat -> Rabs (S i) * Rabs (sumn rows (fun a => U a i * U a j) - delta i j) <= err.
(** Every column was diagonalized before the iteration limit was exceeded. *)
Definition converged (cols : nat) (maxiter : Z) (used : nat -> Z) : Prop := forall k, (k < cols)%nat -> (used k <= maxiter)%Z.
(** What is neglected at most: three roundings per iteration, and what is left above the diagonal
    (the routine leaves it in its work array). *)
Definition budget (cols : nat) (maxiter : Z) (tol : R) (T : vec) : R :=
  3 * tol * INR (Z.to_nat maxiter) * INR cols + sumn cols (fun k => Rabs (T k)).
(** The same when every column was diagonalized in time. *)
Definition bound (cols : nat) (maxiter : Z) (tol : R) : R := (3 * INR (Z.to_nat maxiter) + 1) * INR cols * tol.
