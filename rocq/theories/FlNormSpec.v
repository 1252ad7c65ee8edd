(** Specification vocabulary for lengths in rounded arithmetic (C88). *)
From Coq Require Import Reals.
From Verif Require Import FramesModel FramesSpec.
Local Open Scope R_scope.

(** Relative error eps, except for numbers far below 1e-6. *)
Definition precise (eps : R) (rnd : R -> R) : Prop := forall x, Rabs (rnd x - x) <= eps * (Rabs x + kdl_epsilon).
(** Axes whose length is not about 1e-6, where the code changes over to the x axis. *)
Definition clear_axis (v : Vector) : Prop := 2 * kdl_epsilon <= euclid_norm v \/ euclid_norm v <= kdl_epsilon / 2.
