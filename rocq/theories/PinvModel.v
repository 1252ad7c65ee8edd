(** The singular value routine inside ChainIkSolverVel_pinv: the model of the solver (VelIkModel.v)
    takes the routine as a parameter, and here it is the model of SVD_HH (SvdModel.v). *)
From Coq Require Import Reals ZArith.
From Verif Require Import LinModel SvdModel VelIkModel.
Local Open Scope R_scope.

(** chainiksolvervel_pinv.cpp:84: [svd.calculate(jac,U,S,V,maxiter)].  S0, V0 and T0 are what S, V
    and the routine's own tmp held before; the other two outcomes never occur (C54_svd_hh_code). *)
Definition svd_HH_routine (rnd : R -> R) (S0 : vec) (V0 : mat) (T0 : vec) (maxiter : Z) (M : Mat) : Decomp :=
  match svd_HH_calculate rnd (mrows M) (mcols M) (mentry M) S0 V0 T0 maxiter with
  | Go (rc, d, _) => mkD rc (sU d) (sS d) (sV d)
  | Stop code => mkD code (fun _ _ => 0) S0 V0
  | Bad => mkD (-1) (fun _ _ => 0) S0 V0
  end.
