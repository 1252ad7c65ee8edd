(** Specification vocabulary for forward velocity kinematics in rounded arithmetic (C83). *)
From Coq Require Import Reals String List ZArith.
From Verif Require Import FramesModel FramesSpec Outcome InertiaModel DualModel KinModel KinSpec FlSpec.
Import ListNotations.
Local Open Scope list_scope.
Local Open Scope R_scope.

(** A joint moves with at most B (units per second). *)
Definition speed_within (B : R) (sx : Segment * R) : Prop := Rabs (jscale (sjoint (fst sx)) * snd sx) <= B.
(** Entrywise distance of orientation, position, angular and linear velocity. *)
Definition fv_near (er ep ew ev : R) (a b : FrameVel) : Prop :=
  r_near er (rvR (fvM a)) (rvR (fvM b)) /\ v_near ep (vvp (fvp a)) (vvp (fvp b)) /\
  v_near ew (rvw (fvM a)) (rvw (fvM b)) /\ v_near ev (vvv (fvp a)) (vvv (fvp b)).
