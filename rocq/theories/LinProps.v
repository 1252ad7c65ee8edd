(** Property theorems C33 (the LDL solver).  Definitions: LinModel.v (code),
    LinSpec.v (sums, symmetry, positive definiteness, A = L D L^T). *)
From Coq Require Import Reals List Lra Lia Arith ZArith.
From Verif Require Import Outcome LinModel LinSpec SumProofs LdlProofs.
Import ListNotations.
Local Open Scope R_scope.

(** Square arguments of one size: the solver returns 0 and a unit lower
    triangular L; if A is symmetric and the computed pivots are not zero,
    A = L D L^T and A x = v; a positive definite A only yields positive pivots. *)
Theorem C33_ldl : forall A v L D t q n, mrows A = n -> mcols A = n -> length v = n -> mrows L = n -> mcols L = n ->
  length D = n -> length t = n -> length q = n ->
  exists L' D' y x, ldl_solver A v L D t q = Ret (E_NOERROR, (L', D', y, x)) /\
    mrows L' = n /\ mcols L' = n /\ length D' = n /\ length x = n /\ unit_lower n (mentry L') /\
    (symmetric n (mentry A) -> (forall r, (r < n)%nat -> nth r D' 0 <> 0) ->
       ldl_of n (mentry A) (mentry L') (fun k => nth k D' 0) /\ solves n (mentry A) x v) /\
    (symmetric n (mentry A) -> positive_definite n (mentry A) -> forall r, (r < n)%nat -> 0 < nth r D' 0).
Proof. exact ldl_correct. Qed.
Print Assumptions C33_ldl.

(** If the matrix has any factorisation L D L^T with unit lower triangular L and
    non-zero D, the solver returns exactly that one, and solves the system. *)
Theorem C33_factorisation_found : forall A v L D t q n l d, mrows A = n -> mcols A = n -> length v = n -> mrows L = n -> mcols L = n ->
  length D = n -> length t = n -> length q = n ->
  unit_lower n l -> ldl_of n (mentry A) l d -> (forall r, (r < n)%nat -> d r <> 0) ->
  exists L' D' y x, ldl_solver A v L D t q = Ret (E_NOERROR, (L', D', y, x)) /\
    (forall i, (i < n)%nat -> nth i D' 0 = d i) /\
    (forall i j, (i < n)%nat -> (j < n)%nat -> mentry L' i j = l i j) /\
    solves n (mentry A) x v.
Proof. exact ldl_finds. Qed.
Print Assumptions C33_factorisation_found.

Theorem C33_size_mismatch : forall A v L D t q,
  ~ (mcols A = mrows A /\ length v = mrows A /\ mrows L = mrows A /\ mcols L = mrows A /\ length D = mrows A /\ length t = mrows A /\ length q = mrows A) ->
  ldl_solver A v L D t q = Ret (E_SIZE_MISMATCH, (L, D, t, q)).
Proof. exact ldl_mismatch. Qed.
Print Assumptions C33_size_mismatch.

(** [[2,1],[1,3]] is symmetric and positive definite *)
Example C33_witness :
  let a := fun i j => match i, j with O, O => 2 | S _, S _ => 3 | _, _ => 1 end in
  symmetric 2 a /\ positive_definite 2 a /\
  ldl_of 2 a (fun i j => match i, j with O, O => 1 | O, S _ => 0 | S _, O => 1/2 | S _, S _ => 1 end) (fun k => match k with O => 2 | S _ => 5/2 end).
Proof.
  cbv zeta. split; [|split].
  - intros i j _ _. destruct i, j; reflexivity.
  - intros x (i & Hi & Hx). unfold quadratic. simpl.
    replace (_ + _) with (2 * (x 0%nat + x 1%nat / 2) * (x 0%nat + x 1%nat / 2) + 5 / 2 * (x 1%nat * x 1%nat)) by field.
    destruct i as [|[|]]; [| |lia].
    + destruct (Req_dec (x 1%nat) 0) as [E|E]; [rewrite E; nra|]. assert (0 < x 1%nat * x 1%nat) by nra. nra.
    + assert (0 < x 1%nat * x 1%nat) by nra. nra.
  - intros i j Hi Hj. destruct i as [|[|]]; [| |lia]; (destruct j as [|[|]]; [| |lia]); simpl; field.
Qed.
