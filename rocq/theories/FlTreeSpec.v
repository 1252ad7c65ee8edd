(** Specification vocabulary for tree forward kinematics in rounded arithmetic (C85). *)
From Coq Require Import Reals String List ZArith.
From Verif Require Import FramesModel FramesSpec Outcome InertiaModel DualModel KinModel KinSpec TreeModel TreeSpec FlSpec.
Import ListNotations.
Local Open Scope R_scope.

(** The tree [t'] holds the numbers of the tree [t] up to eps, with the same names, parents and joint numbers. *)
Definition tree_stored (eps : R) (t' t : Tree) : Prop :=
  tr_root t' = tr_root t /\ tr_nj t' = tr_nj t /\ names t' = names t /\
  forall n, match tfind t' n, tfind t n with
            | Some x, Some y => stored eps (te_seg x) (te_seg y) /\ te_qnr x = te_qnr y /\ te_parent x = te_parent y
            | None, None => True
            | _, _ => False
            end.
