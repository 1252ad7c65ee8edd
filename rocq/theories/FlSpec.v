(** Specification vocabulary for forward kinematics in rounded arithmetic (C71). *)
From Coq Require Import Reals String List ZArith.
From Verif Require Import FramesModel FramesSpec Outcome InertiaModel DualModel KinModel KinSpec.
Import ListNotations.
Local Open Scope list_scope.
Local Open Scope R_scope.

(** A rounding whose error is at most eps relative to the number or, for tiny numbers, at most eps. *)
Definition rounds (eps : R) (rnd : R -> R) : Prop := forall x, Rabs (rnd x - x) <= eps * (Rabs x + 1).
(** [f] computes the function [g] up to eps. *)
Definition computes (eps : R) (f g : R -> R) : Prop := forall x, Rabs (f x - g x) <= eps.

(** Entrywise distance. *)
Definition v_near (eps : R) (a b : Vector) : Prop :=
  Rabs (vx a - vx b) <= eps /\ Rabs (vy a - vy b) <= eps /\ Rabs (vz a - vz b) <= eps.
Definition r_near (eps : R) (a b : Rotation) : Prop :=
  (Rabs (r0 a - r0 b) <= eps /\ Rabs (r1 a - r1 b) <= eps /\ Rabs (r2 a - r2 b) <= eps) /\
  (Rabs (r3 a - r3 b) <= eps /\ Rabs (r4 a - r4 b) <= eps /\ Rabs (r5 a - r5 b) <= eps) /\
  (Rabs (r6 a - r6 b) <= eps /\ Rabs (r7 a - r7 b) <= eps /\ Rabs (r8 a - r8 b) <= eps).

(** The object [s'] holds the numbers of the segment [s] up to eps: its axis need not have length one,
    its tip frame need not be rigid. *)
Definition stored (eps : R) (s' s : Segment) : Prop :=
  jtype (sjoint s') = jtype (sjoint s) /\ jscale (sjoint s') = jscale (sjoint s) /\ joffset (sjoint s') = joffset (sjoint s) /\
  v_near eps (jaxis (sjoint s')) (jaxis (sjoint s)) /\ v_near eps (jorigin (sjoint s')) (jorigin (sjoint s)) /\
  r_near eps (fM (sf_tip s')) (fM (sf_tip s)) /\ v_near eps (fp (sf_tip s')) (fp (sf_tip s)).
Definition chain_stored (eps : R) (c' c : Chain) : Prop :=
  ch_ns c' = ch_ns c /\ ch_nj c' = ch_nj c /\ Forall2 (stored eps) (ch_segs c') (ch_segs c).

(** A rotational joint turns by at most A, a translational one slides by at most D; offsets and lengths are
    at most D, the entries of a slide's direction at most one. *)
Definition rotational (j : Joint) : bool := match jtype j with RotAxis | RotX | RotY | RotZ => true | _ => false end.
Definition moves_within (A D : R) (sx : Segment * R) : Prop :=
  let j := sjoint (fst sx) in
  Rabs (jscale j * snd sx) + Rabs (joffset j) <= (if rotational j then A else D) /\
  v_near 1 (jaxis j) v_zero /\ v_near D (jorigin j) v_zero /\ v_near D (fp (sf_tip (fst sx))) v_zero.
