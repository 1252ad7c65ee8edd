(** Theorems about the singular value routines (C54, C64). *)
From Coq Require Import Reals List ZArith Bool.
From Flocq Require Import Core.
From Verif Require Import LinSpec LmaSpec VelIkModel VelIkSpec SvdModel SvdSpec SvdFinal SvdLast SvdRound SvdWitness.
Import ListNotations.
Local Open Scope R_scope.

(** ** C54: the codes.  Whatever the matrix, both routines run to the end without dividing by
    zero, and the code depends only on the limit: -2 for a limit of one, 0 otherwise. *)
Theorem C54_eigen_code : forall rnd rows cols A S0 V0 T0 maxiter eps,
  keeps_units rnd -> 0 <= eps ->
  exists rc d used, svd_eigen_HH rnd rows cols A S0 V0 T0 maxiter eps = Go (rc, d, used) /\
    (rc = 0%Z \/ rc = (-2)%Z) /\ ((0 < cols)%nat -> (rc = (-2)%Z <-> maxiter = 1%Z)) /\ (cols = O -> (rc = (-2)%Z <-> maxiter = (-1)%Z)).
Proof. exact (@eigen_codes). Qed.
Print Assumptions C54_eigen_code.

Theorem C54_svd_hh_code : forall rnd rows cols A S0 V0 T0 maxiter,
  keeps_units rnd ->
  exists rc d used, svd_HH_calculate rnd rows cols A S0 V0 T0 maxiter = Go (rc, d, used) /\
    (rc = 0%Z \/ rc = (-2)%Z) /\ ((0 < cols)%nat -> (rc = (-2)%Z <-> maxiter = 1%Z)) /\ (cols = O -> (rc = (-2)%Z <-> maxiter = (-1)%Z)).
Proof. exact (@hh_codes). Qed.
Print Assumptions C54_svd_hh_code.

(** With a limit of one, one column is diagonalized in time and a failure is reported. *)
Theorem C54_eigen_limit_one : forall rnd rows A S0 V0 T0 eps,
  keeps_units rnd -> 0 <= eps ->
  exists d used, svd_eigen_HH rnd rows 1 A S0 V0 T0 1 eps = Go ((-2)%Z, d, used) /\ converged 1 1 used.
Proof. exact (@eigen_one). Qed.
Print Assumptions C54_eigen_limit_one.

Theorem C54_svd_hh_limit_one : forall rnd rows A S0 V0 T0,
  keeps_units rnd ->
  exists d used, svd_HH_calculate rnd rows 1 A S0 V0 T0 1 = Go ((-2)%Z, d, used) /\ converged 1 1 used.
Proof. exact (@hh_one). Qed.
Print Assumptions C54_svd_hh_limit_one.

(** With a limit of zero, no column is diagonalized and success is reported. *)
Theorem C54_eigen_limit_zero : forall rnd rows cols A S0 V0 T0 maxiter eps,
  keeps_units rnd -> 0 <= eps -> (0 < cols)%nat -> (maxiter <= 0)%Z ->
  exists d used, svd_eigen_HH rnd rows cols A S0 V0 T0 maxiter eps = Go (0%Z, d, used) /\ forall k, (k < cols)%nat -> (maxiter < used k)%Z.
Proof. exact (@eigen_none). Qed.
Print Assumptions C54_eigen_limit_zero.

Theorem C54_svd_hh_limit_zero : forall rnd rows cols A S0 V0 T0 maxiter,
  keeps_units rnd -> (0 < cols)%nat -> (maxiter <= 0)%Z ->
  exists d used, svd_HH_calculate rnd rows cols A S0 V0 T0 maxiter = Go (0%Z, d, used) /\ forall k, (k < cols)%nat -> (maxiter < used k)%Z.
Proof. exact (@hh_none). Qed.
Print Assumptions C54_svd_hh_limit_zero.

(** So the claim is false in both directions. *)
Theorem C54_failure_is_reported_refuted : ~ (forall rnd rows cols A S0 V0 T0 maxiter eps, keeps_units rnd -> 0 <= eps ->
  exists rc d used, svd_eigen_HH rnd rows cols A S0 V0 T0 maxiter eps = Go (rc, d, used) /\ (~ converged cols maxiter used -> (rc < 0)%Z)).
Proof. exact (@reported_refuted). Qed.
Print Assumptions C54_failure_is_reported_refuted.

Theorem C54_success_is_reported_refuted : ~ (forall rnd rows cols A S0 V0 T0 maxiter eps, keeps_units rnd -> 0 <= eps ->
  exists rc d used, svd_eigen_HH rnd rows cols A S0 V0 T0 maxiter eps = Go (rc, d, used) /\ (converged cols maxiter used -> rc = 0%Z)).
Proof. exact (@spurious_refuted). Qed.
Print Assumptions C54_success_is_reported_refuted.


(** ** C64: the result.  If the Frobenius norm of the matrix is below two and every column was
    diagonalized in time, U S V^T is the matrix up to [bound], with orthonormal factors and
    descending non-negative singular values, for every small enough epsilon. *)
Theorem C64_eigen_accuracy : forall rnd tol rows cols A S0 V0 T0 maxiter a0,
  keeps_units rnd -> rounds_within rnd tol ->
  0 <= a0 -> size2 rows cols A <= a0 * a0 -> a0 + bound cols maxiter tol + tol < 2 ->
  exists e0, 0 < e0 /\ forall eps, 0 <= eps < e0 ->
  exists rc d used, svd_eigen_HH rnd rows cols A S0 V0 T0 maxiter eps = Go (rc, d, used) /\ descending cols (sS d) /\
    (converged cols maxiter used ->
       svd_within (bound cols maxiter tol) rows cols A (sU d) (sS d) (sV d) /\ forall k, (k < cols)%nat -> 0 <= sS d k).
Proof. exact (@eigen_close). Qed.
Print Assumptions C64_eigen_accuracy.

Theorem C64_svd_hh_accuracy : forall rnd tol rows cols A S0 V0 T0 maxiter a0,
  keeps_units rnd -> rounds_within rnd tol ->
  0 <= a0 -> size2 rows cols A <= a0 * a0 -> a0 + bound cols maxiter tol + tol < 2 ->
  exists rc d used, svd_HH_calculate rnd rows cols A S0 V0 T0 maxiter = Go (rc, d, used) /\
    (converged cols maxiter used ->
       svd_within (bound cols maxiter tol) rows cols A (sU d) (sS d) (sV d) /\ forall k, (k < cols)%nat -> 0 <= sS d k).
Proof. exact (@hh_close). Qed.
Print Assumptions C64_svd_hh_accuracy.

(** Without the condition on the iterations: the error is at most what is left in the work array. *)
Theorem C64_eigen_accuracy_any : forall rnd tol rows cols A S0 V0 T0 maxiter a0,
  keeps_units rnd -> rounds_within rnd tol ->
  0 <= a0 -> size2 rows cols A <= a0 * a0 ->
  exists e0, 0 < e0 /\ forall eps, 0 <= eps < e0 ->
  exists rc d used, svd_eigen_HH rnd rows cols A S0 V0 T0 maxiter eps = Go (rc, d, used) /\ descending cols (sS d) /\
    (a0 + budget cols maxiter tol (sT d) + tol < 2 -> svd_within (budget cols maxiter tol (sT d)) rows cols A (sU d) (sS d) (sV d)).
Proof. exact (@eigen_close_any). Qed.
Print Assumptions C64_eigen_accuracy_any.

(** A matrix of any size: the same bound holds if in this run the misplaced parenthesis changed no
    decision, that is if the run with a rounding that never answers -1 is the same run. *)
Theorem C64_eigen_accuracy_unless_fooled : forall rnd tol rows cols A S0 V0 T0 maxiter,
  keeps_units rnd -> rounds_within rnd tol ->
  exists e0, 0 < e0 /\ forall eps, 0 <= eps < e0 ->
  exists rc d used, svd_eigen_HH rnd rows cols A S0 V0 T0 maxiter eps = Go (rc, d, used) /\ descending cols (sS d) /\
    (svd_eigen_HH (guarded rnd) rows cols A S0 V0 T0 maxiter eps = svd_eigen_HH rnd rows cols A S0 V0 T0 maxiter eps ->
     converged cols maxiter used ->
       svd_within (bound cols maxiter tol) rows cols A (sU d) (sS d) (sV d) /\ forall k, (k < cols)%nat -> 0 <= sS d k).
Proof. exact (@eigen_unless). Qed.
Print Assumptions C64_eigen_accuracy_unless_fooled.

Theorem C64_svd_hh_accuracy_unless_fooled : forall rnd tol rows cols A S0 V0 T0 maxiter,
  keeps_units rnd -> rounds_within rnd tol ->
  exists rc d used, svd_HH_calculate rnd rows cols A S0 V0 T0 maxiter = Go (rc, d, used) /\
    (svd_HH_calculate (guarded rnd) rows cols A S0 V0 T0 maxiter = svd_HH_calculate rnd rows cols A S0 V0 T0 maxiter ->
     converged cols maxiter used ->
       svd_within (bound cols maxiter tol) rows cols A (sU d) (sS d) (sV d) /\ forall k, (k < cols)%nat -> 0 <= sS d k).
Proof. exact (@hh_unless). Qed.
Print Assumptions C64_svd_hh_accuracy_unless_fooled.

(** In exact arithmetic the decomposition is the one the inverse velocity solvers need (C53). *)
Theorem C64_eigen_exact : forall rnd rows cols A S0 V0 T0 maxiter,
  keeps_units rnd -> rounds_within rnd 0 -> size2 rows cols A < 4 ->
  exists e0, 0 < e0 /\ forall eps, 0 <= eps < e0 ->
  exists rc d used, svd_eigen_HH rnd rows cols A S0 V0 T0 maxiter eps = Go (rc, d, used) /\
    (converged cols maxiter used -> svd_of rows cols A (mkD rc (sU d) (sS d) (sV d)) /\ svd_sorted rows cols (mkD rc (sU d) (sS d) (sV d))).
Proof. exact (@eigen_exact). Qed.
Print Assumptions C64_eigen_exact.

Theorem C64_svd_hh_exact : forall rnd rows cols A S0 V0 T0 maxiter,
  keeps_units rnd -> rounds_within rnd 0 -> size2 rows cols A < 4 ->
  exists rc d used, svd_HH_calculate rnd rows cols A S0 V0 T0 maxiter = Go (rc, d, used) /\
    (converged cols maxiter used -> svd_of rows cols A (mkD rc (sU d) (sS d) (sV d))).
Proof. exact (@hh_exact). Qed.
Print Assumptions C64_svd_hh_exact.

(** Double precision rounding meets the hypotheses. *)
Theorem C64_double_units : keeps_units double.
Proof. exact (@double_units). Qed.
Print Assumptions C64_double_units.

Theorem C64_double_rounds : rounds_within double (bpow radix2 (-53)).
Proof. exact (@double_rounds). Qed.
Print Assumptions C64_double_rounds.

Theorem C64_witness : size2 2 2 turned <= (3/2) * (3/2) /\ (forall tol, 0 <= tol <= /1000 -> 3/2 + bound 2 30 tol + tol < 2) /\
  forall S0 V0 T0, exists rc d used, svd_eigen_HH (fun x => x) 2 2 turned S0 V0 T0 30 0 = Go (rc, d, used) /\ converged 2 30 used.
Proof. exact (@turned_nonvacuous). Qed.
Print Assumptions C64_witness.

(** The bound on the matrix is needed: a misplaced parenthesis makes a value of -2 count as zero. *)
Theorem C64_larger_matrices_refuted : forall rnd rows S0 V0 T0 maxiter eps,
  rows = 2%nat -> keeps_units rnd -> rnd 2 = 2 -> rnd (-1) = -1 -> 0 <= eps < 1 -> (2 <= maxiter)%Z ->
  exists d used, svd_eigen_HH rnd rows 2 skew S0 V0 T0 maxiter eps = Go (0%Z, d, used) /\ converged 2 maxiter used /\
    sS d 0%nat = 2 /\ sS d 1%nat = sqrt 2 /\ ~ svd_within 0 2 2 skew (sU d) (sS d) (sV d).
Proof. exact (@skew_wrong). Qed.
Print Assumptions C64_larger_matrices_refuted.

Theorem C64_double_units2 : double 2 = 2 /\ double (-1) = -1.
Proof. exact (@double_units2). Qed.
Print Assumptions C64_double_units2.

