(** Specification of the accuracy of ChainIkSolverVel_pinv with the routine it uses. *)
From Coq Require Import Reals List ZArith.
From Verif Require Import SvdSpec.
Local Open Scope R_scope.

(** The relative error of the pseudo-inverse of a matrix with n columns, when the decomposition is
    within [bound] and the singular values below eps are dropped. *)
Definition pinv_error (n : nat) (maxiter : Z) (tol eps : R) : R :=
  let rho := bound n maxiter tol / eps in rho * (INR n + 1 + INR n * rho).
