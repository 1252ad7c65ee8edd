(** Model of the dense linear solver used by the dynamics code.

    Source: /repo/orocos_kdl/src/utilities/ldl_solver_eigen.cpp.

    An Eigen vector is a list of reals.  An Eigen matrix is its two dimensions
    and an entry function; reading or writing outside the dimensions is undefined
    behaviour. *)
From Coq Require Import Reals List ZArith Bool.
From Verif Require Import Outcome.
Import ListNotations.
Local Open Scope R_scope.

(** Eigen::MatrixXd *)
Record Mat := mkM { mrows : nat; mcols : nat; mentry : nat -> nat -> R }.
(** [m(i,j)] *)
Definition mget (m : Mat) (i j : nat) : outcome R :=
  if Nat.ltb i (mrows m) && Nat.ltb j (mcols m) then Ret (mentry m i j) else Undef.
(** [m(i,j) = x] *)
Definition mset (m : Mat) (i j : nat) (x : R) : outcome Mat :=
  if Nat.ltb i (mrows m) && Nat.ltb j (mcols m)
  then Ret (mkM (mrows m) (mcols m) (fun a b => if Nat.eqb a i && Nat.eqb b j then x else mentry m a b))
  else Undef.

(** ldl_solver_eigen.cpp:39: [D(i) -= D(j)*L(i,j)*L(i,j)] *)
Definition ldl_d_step (L : Mat) (i j : nat) (D : list R) : outcome (list R) :=
  let! di := aget D i in
  let! dj := aget D j in
  let! lij := mget L i j in
  aset D i (di - dj * lij * lij).
(** ldl_solver_eigen.cpp:46: [L(j,i) -= L(j,k)*L(i,k)*D(k)/D(i)].  Division is
    that of the reals; the theorems carry the guard that no pivot is zero. *)
Definition ldl_l_step (D : list R) (i j k : nat) (L : Mat) : outcome Mat :=
  let! x := mget L j i in
  let! ljk := mget L j k in
  let! lik := mget L i k in
  let! dk := aget D k in
  let! di := aget D i in
  mset L j i (x - ljk * lik * dk / di).
(** ldl_solver_eigen.cpp:41-49: one [j] of the column loop *)
Definition ldl_col_body (A : Mat) (D : list R) (i j : nat) (L : Mat) : outcome Mat :=
  if Nat.ltb i j then
    let! a := mget A i j in
    let! di := aget D i in
    let! L' := mset L j i (a / di) in
    (* lines 44-47; the test i>0 only skips an empty loop *)
    for_loop i 0 (ldl_l_step D i j) L'
  else Ret L.
(** ldl_solver_eigen.cpp:35-50: one [i] of the factorisation loop *)
Definition ldl_factor_body (A : Mat) (n i : nat) (st : Mat * list R) : outcome (Mat * list R) :=
  let '(L, D) := st in
  let! a := mget A i i in
  let! D1 := aset D i a in
  (* lines 37-40; the test i>0 only skips an empty loop *)
  let! D2 := for_loop i 0 (ldl_d_step L i) D1 in
  let! L' := for_loop (n - 1) 1 (ldl_col_body A D2 i) L in
  Ret (L', D2).
(** ldl_solver_eigen.cpp:55: [vtmp(i) -= L(i,j)*vtmp(j)] *)
Definition ldl_fwd_step (L : Mat) (i j : nat) (y : list R) : outcome (list R) :=
  let! yi := aget y i in
  let! lij := mget L i j in
  let! yj := aget y j in
  aset y i (yi - lij * yj).
(** ldl_solver_eigen.cpp:51-57 *)
Definition ldl_fwd_body (L : Mat) (v : list R) (i : nat) (y : list R) : outcome (list R) :=
  let! vi := aget v i in
  let! y1 := aset y i vi in
  for_loop i 0 (ldl_fwd_step L i) y1.
(** ldl_solver_eigen.cpp:62: [q(i) -= L(j,i)*q(j)] *)
Definition ldl_back_step (L : Mat) (i j : nat) (q : list R) : outcome (list R) :=
  let! qi := aget q i in
  let! lji := mget L j i in
  let! qj := aget q j in
  aset q i (qi - lji * qj).
(** ldl_solver_eigen.cpp:58-64; iteration [t] handles i = n-1-t *)
Definition ldl_back_body (L : Mat) (D y : list R) (n t : nat) (q : list R) : outcome (list R) :=
  let i := (n - 1 - t)%nat in
  let! yi := aget y i in
  let! di := aget D i in
  let! q1 := aset q i (yi / di) in
  (* line 60: the test i<n-1 only skips an empty loop *)
  for_loop (n - S i) (S i) (ldl_back_step L i) q1.
(** ldl_solver_eigen.cpp:67-69 *)
Definition ldl_diag_body (i : nat) (L : Mat) : outcome Mat := mset L i i 1.
(** ldl_solver_eigen.cpp:74-78; the test n>1 at line 72 only skips empty loops *)
Definition ldl_upper_body (n i : nat) (L : Mat) : outcome Mat :=
  for_loop (n - S i) (S i) (fun j L' => mset L' i j 0) L.

(** ldl_solver_eigen.cpp:26-81: (code, (L, D, vtmp, q)) *)
Definition ldl_solver (A : Mat) (v : list R) (L : Mat) (D vtmp q : list R)
  : outcome (Z * (Mat * list R * list R * list R)) :=
  let n := mrows A in
  if negb (Nat.eqb (mcols A) n && Nat.eqb (length v) n && Nat.eqb (mrows L) n && Nat.eqb (mcols L) n &&
           Nat.eqb (length D) n && Nat.eqb (length vtmp) n && Nat.eqb (length q) n)
  then Ret (E_SIZE_MISMATCH, (L, D, vtmp, q))
  else
    let! LD := for_loop n 0 (ldl_factor_body A n) (L, D) in
    let '(L1, D1) := LD in
    let! y := for_loop n 0 (ldl_fwd_body L1 v) vtmp in
    let! x := for_loop n 0 (ldl_back_body L1 D1 y n) q in
    let! L2 := for_loop n 0 ldl_diag_body L1 in
    let! L3 := for_loop n 0 (ldl_upper_body n) L2 in
    Ret (E_NOERROR, (L3, D1, y, x)).
