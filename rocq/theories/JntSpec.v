(** Specification vocabulary for joint arrays (C52). *)
From Coq Require Import Reals List.
From Verif Require Import FramesModel Outcome DualModel DualSpec JntModel.
Import ListNotations.
Local Open Scope R_scope.

(** [c] has the size of [a] and each entry is [op] of the entries of [a] and [b]. *)
Definition entrywise2 (op : R -> R -> R) (a b c : list R) : Prop :=
  length c = length a /\ forall i, (i < length a)%nat -> nth i c 0 = op (nth i a 0) (nth i b 0).
Definition entrywise (op : R -> R) (a c : list R) : Prop :=
  length c = length a /\ forall i, (i < length a)%nat -> nth i c 0 = op (nth i a 0).

(** Only the listed arrays changed. *)
Definition only_changed (st st' : store) (ds : list ref) : Prop := forall r, ~ In r ds -> st' r = st r.

(** The array named [r] holds [n] entries. *)
Definition sized (st : store) (n : nat) (r : ref) : Prop := length (st r) = n.

(** The joints move along the curves [c] (one per joint), and the array holds
    their positions at time [t] ... *)
Definition positions_of (c : nat -> R -> R) (t : R) (l : list R) : Prop :=
  forall i, (i < length l)%nat -> nth i l 0 = c i t.
(** ... the JntArrayVel their positions and velocities ... *)
Definition jv_follows (n : nat) (c : nat -> R -> R) (t : R) (st : store) (a : jvref) : Prop :=
  sized st n (jv_q a) /\ sized st n (jv_qdot a) /\
  forall i, (i < n)%nat -> carries1 (c i) t (mkD1 (nth i (st (jv_q a)) 0) (nth i (st (jv_qdot a)) 0)).
(** ... the JntArrayAcc their positions, velocities and accelerations. *)
Definition ja_follows (n : nat) (c : nat -> R -> R) (t : R) (st : store) (a : jaref) : Prop :=
  sized st n (ja_q a) /\ sized st n (ja_qdot a) /\ sized st n (ja_qdd a) /\
  forall i, (i < n)%nat ->
    carries2 (c i) t (mkD2 (nth i (st (ja_q a)) 0) (nth i (st (ja_qdot a)) 0) (nth i (st (ja_qdd a)) 0)).

(** Objects laid out in memory: a position member is never at the address of a
    velocity member, and so on.  (The same object may still be passed twice.) *)
Definition jv_layout (l : list jvref) : Prop :=
  forall x y, In x l -> In y l -> jv_q x <> jv_qdot y.
Definition ja_layout (l : list jaref) : Prop :=
  forall x y, In x l -> In y l ->
    ja_q x <> ja_qdot y /\ ja_q x <> ja_qdd y /\ ja_qdot x <> ja_qdd y.
(** Two different objects. *)
Definition jv_apart (a d : jvref) : Prop := jv_q a <> jv_q d /\ jv_qdot a <> jv_qdot d.
Definition ja_apart (a d : jaref) : Prop :=
  ja_q a <> ja_q d /\ ja_qdot a <> ja_qdot d /\ ja_qdd a <> ja_qdd d.

Definition jv_members (a : jvref) : list ref := [jv_q a; jv_qdot a].
Definition ja_members (a : jaref) : list ref := [ja_q a; ja_qdot a; ja_qdd a].
