(** Specification vocabulary for quaternions in rounded arithmetic (C87). *)
From Coq Require Import Reals.
From Verif Require Import FramesModel FramesSpec.
Local Open Scope R_scope.

(** The quaternion q = (x, y, z, w) has length one and stands for the rotation M. *)
Definition stands_for (q : R * R * R * R) (M : Rotation) : Prop :=
  let '(x, y, z, w) := q in x ^ 2 + y ^ 2 + z ^ 2 + w ^ 2 = 1 /\ r_Quaternion x y z w = M.
Definition q_near (e : R) (p q : R * R * R * R) : Prop :=
  let '(x', y', z', w') := p in let '(x, y, z, w) := q in Rabs (x' - x) <= e /\ Rabs (y' - y) <= e /\ Rabs (z' - z) <= e /\ Rabs (w' - w) <= e.
Definition q_length2 (q : R * R * R * R) : R := let '(x, y, z, w) := q in x ^ 2 + y ^ 2 + z ^ 2 + w ^ 2.
Definition q_opp (q : R * R * R * R) : R * R * R * R := let '(x, y, z, w) := q in (- x, - y, - z, - w).
