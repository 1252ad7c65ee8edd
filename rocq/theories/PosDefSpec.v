(** When an arm has kinetic energy whenever a joint moves. *)
From Coq Require Import Reals List.
From Verif Require Import FramesModel FramesSpec InertiaModel InertiaSpec KinModel KinSpec LinSpec DynModel DynSpec.
Local Open Scope R_scope.

(** Twice the kinetic energy of one segment, link and rotor, when its root is at rest and its joint, at position [x], moves at unit rate. *)
Definition own_energy (s : Segment) (x : R) : R :=
  let t := r_invapp_t (fM (segment_pose s x)) (segment_twist s x 1) in tw_dot t (rb_app (sI s) t) + jinertia (sjoint s).
(** Every joint that can move moves mass of its own link or of its own rotor. *)
Definition joints_carry (c : Chain) : Prop :=
  Forall (fun s => moving s = true -> 0 <= jinertia (sjoint s) /\ forall x, 0 < own_energy s x) (ch_segs c).
(** No motion of the link is without energy. *)
Definition rb_definite (I : RigidBodyInertia) : Prop := forall t, t <> t_zero -> 0 < tw_dot t (rb_app I t).
Definition joint_effective (j : Joint) : Prop := joint_twist j 1 <> t_zero.
