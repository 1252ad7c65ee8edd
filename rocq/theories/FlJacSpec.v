(** Specification vocabulary for the Jacobian in rounded arithmetic (C79). *)
From Coq Require Import Reals String List ZArith.
From Verif Require Import FramesModel FramesSpec Outcome InertiaModel DualModel KinModel KinSpec FlSpec.
Import ListNotations.
Local Open Scope list_scope.
Local Open Scope R_scope.

(** The linear and the angular part of a column, entrywise. *)
Definition t_near (ev er : R) (a b : Twist) : Prop := v_near ev (tvel a) (tvel b) /\ v_near er (trot a) (trot b).
(** No joint moves by more than B units per unit of its variable. *)
Definition geared_within (B : R) (s : Segment) : Prop := Rabs (jscale (sjoint s)) <= B.
