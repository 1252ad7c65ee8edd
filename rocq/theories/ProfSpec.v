(** Specification vocabulary for velocity profiles: what a motion of one
    coordinate is, independently of how a profile computes it. *)
From Coq Require Import Reals.
From Verif Require Import ProfModel.
Local Open Scope R_scope.

(** [x] lies between [p] and [q], whichever is larger. *)
Definition between (p q x : R) : Prop := (p <= x <= q) \/ (q <= x <= p).

(** The motion [pos] goes from [p1] to [p2] during [0,T] and stands still
    outside of it. *)
Definition moves (p1 p2 T : R) (pos : R -> R) : Prop :=
  0 <= T /\ (forall t, t <= 0 -> pos t = p1) /\ (forall t, T <= t -> pos t = p2) /\
  (forall t, between p1 p2 (pos t)).

(** [vel] is the velocity of the motion [pos] at every instant of the open
    interval (a,b). *)
Definition velocity_on (a b : R) (pos vel : R -> R) : Prop :=
  forall t, a < t < b -> derivable_pt_lim pos t (vel t).

(** [vel] is the velocity of [pos] at every instant. *)
Definition velocity (pos vel : R -> R) : Prop := forall t, derivable_pt_lim pos t (vel t).

(** [f] never exceeds [m] in magnitude. *)
Definition limited (m : R) (f : R -> R) : Prop := forall t, Rabs (f t) <= m.

(** [acc] is the derivative of [vel] except at (at most) four instants. *)
Definition acceleration (vel acc : R -> R) : Prop :=
  exists u1 u2 u3 u4, forall t, t <> u1 -> t <> u2 -> t <> u3 -> t <> u4 ->
    derivable_pt_lim vel t (acc t).

(** A competing motion for the time-optimality statement: it goes from [p1] to
    [p2] in time [T], from rest to rest, with velocity at most [vmax]; the bound
    [amax] on the acceleration is stated as a Lipschitz bound on the velocity,
    which also covers accelerations that jump. *)
Definition admissible (p1 p2 vmax amax T : R) (pos vel : R -> R) : Prop :=
  0 <= T /\ pos 0 = p1 /\ pos T = p2 /\ vel 0 = 0 /\ vel T = 0 /\
  (forall t, 0 <= t <= T -> derivable_pt_lim pos t (vel t)) /\
  (forall t, 0 <= t <= T -> Rabs (vel t) <= vmax) /\
  (forall t u, 0 <= t <= T -> 0 <= u <= T -> Rabs (vel t - vel u) <= amax * Rabs (t - u)).

(** The value [v] forced into [lo,hi]. *)
Definition clamp (lo hi v : R) : R := Rmax lo (Rmin hi v).

(** Continuity at every instant, in epsilon-delta form. *)
Definition continuous (f : R -> R) : Prop :=
  forall x eps, 0 < eps -> exists d, 0 < d /\ forall y, Rabs (y - x) < d -> Rabs (f y - f x) < eps.

(** A motion from [p1] to [p2] in time [T] whose velocity is the derivative of
    the position at every instant (so it starts and ends at rest), within the
    given limits. *)
Definition good_motion (p1 p2 T vmax amax : R) (pos vel acc : R -> R) : Prop :=
  moves p1 p2 T pos /\ velocity pos vel /\ limited vmax vel /\ limited amax acc /\ acceleration vel acc.

(** The same with the velocity allowed to jump at the two ends: the position is
    continuous everywhere and the velocity is its derivative strictly inside. *)
Definition half_motion (p1 p2 T vmax amax : R) (pos vel acc : R -> R) : Prop :=
  moves p1 p2 T pos /\ continuous pos /\ velocity_on 0 T pos vel /\
  limited vmax vel /\ limited amax acc /\ acceleration vel acc.

(** What the evaluation calls of a profile object return: these five numbers
    and functions, without throwing. *)
Definition evaluates (p : Prof) (T : R) (pos vel acc : R -> R) : Prop :=
  prof_duration p = VVal T /\
  forall t, prof_pos p t = VVal (pos t) /\ prof_vel p t = VVal (vel t) /\ prof_acc p t = VVal (acc t).
(** The same for the classes whose Acc always throws. *)
Definition evaluates_noacc (p : Prof) (T : R) (pos vel : R -> R) : Prop :=
  prof_duration p = VVal T /\
  forall t, prof_pos p t = VVal (pos t) /\ prof_vel p t = VVal (vel t).
(** Two profile objects answer every evaluation call alike. *)
Definition same_answers (p q : Prof) : Prop :=
  prof_duration p = prof_duration q /\
  forall t, prof_pos p t = prof_pos q t /\ prof_vel p t = prof_vel q t /\ prof_acc p t = prof_acc q t.

(** peak speed: the largest one reachable over the distance *)
Definition peak (mv ma p1 p2 : R) : R := Rmin mv (sqrt (2 * Rabs (p2 - p1) * ma)).

(** [starting] profiles start at rest and end with the given speed, the others
    the other way round *)
Definition half_ends (starting : bool) (speed T : R) (vel : R -> R) : Prop :=
  if starting then vel 0 = 0 /\ Rabs (vel T) = speed else Rabs (vel 0) = speed /\ vel T = 0.

(** what a constant-velocity motion is *)
Definition ramp (p1 p2 T v : R) (pos vel : R -> R) : Prop :=
  moves p1 p2 T pos /\ continuous pos /\ velocity_on 0 T pos vel /\ limited (Rabs v) vel /\
  (forall t, 0 <= t <= T -> vel t = v).
