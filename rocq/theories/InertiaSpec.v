(** Specification vocabulary for the inertia classes (C34): a body is a finite
    set of particles. *)
From Coq Require Import Reals List.
From Verif Require Import FramesModel FramesSpec InertiaModel.
Import ListNotations.
Local Open Scope R_scope.

(** A particle: mass and position relative to the reference point. *)
Record particle := mkParticle { pm : R; pp : Vector }.
Definition body := list particle.

Definition v_sum {A} (f : A -> Vector) (l : list A) : Vector := fold_right (fun x s => v_add (f x) s) v_zero l.
Definition r_sum {A} (f : A -> R) (l : list A) : R := fold_right (fun x s => f x + s) 0 l.

(** velocity of the point [p] of a body moving with twist [t] (reference point at the origin) *)
Definition point_velocity (t : Twist) (p : Vector) : Vector := v_add (tvel t) (v_cross (trot t) p).
(** linear momentum and angular momentum about the reference point *)
Definition momentum (b : body) (t : Twist) : Wrench :=
  mkW (v_sum (fun x => v_scale_l (pm x) (point_velocity t (pp x))) b)
      (v_sum (fun x => v_cross (pp x) (v_scale_l (pm x) (point_velocity t (pp x)))) b).
Definition kinetic_energy (b : body) (t : Twist) : R :=
  r_sum (fun x => / 2 * pm x * v_dot (point_velocity t (pp x)) (point_velocity t (pp x))) b.

Definition total_mass (b : body) : R := r_sum pm b.
(** first moment of mass; the centre of gravity is this divided by the mass *)
Definition first_moment (b : body) : Vector := v_sum (fun x => v_scale_l (pm x) (pp x)) b.
(** moments and products of inertia about [c]: Ixx = sum m (y^2+z^2), Ixy = - sum m x y ... *)
Definition moment (f : Vector -> R) (b : body) (c : Vector) : R :=
  r_sum (fun x => pm x * f (v_sub (pp x) c)) b.
Definition rotational_inertia (b : body) (c : Vector) : RotationalInertia :=
  ri_make (moment (fun d => vy d ^ 2 + vz d ^ 2) b c)
          (moment (fun d => vx d ^ 2 + vz d ^ 2) b c)
          (moment (fun d => vx d ^ 2 + vy d ^ 2) b c)
          (moment (fun d => - (vx d * vy d)) b c)
          (moment (fun d => - (vx d * vz d)) b c)
          (moment (fun d => - (vy d * vz d)) b c).

(** the inertia describes the body: it maps every twist to the momentum *)
Definition describes (I : RigidBodyInertia) (b : body) : Prop := forall t, rb_app I t = momentum b t.

(** A rotational inertia is physically meaningful when it is positive semidefinite. *)
Definition ri_valid (I : RotationalInertia) : Prop :=
  symmetric3 (ri_data I) /\ forall w, 0 <= v_dot w (ri_app I w).
Definition rb_symmetric (I : RigidBodyInertia) : Prop :=
  forall a b, tw_dot a (rb_app I b) = tw_dot b (rb_app I a).
Definition rb_psd (I : RigidBodyInertia) : Prop := forall t, 0 <= tw_dot t (rb_app I t).
Definition ab_symmetric (I : ArticulatedBodyInertia) : Prop :=
  forall a b, tw_dot a (ab_app I b) = tw_dot b (ab_app I a).
Definition ab_psd (I : ArticulatedBodyInertia) : Prop := forall t, 0 <= tw_dot t (ab_app I t).

(** Every inertia a user can build by nesting API calls. *)
Inductive rb_expr : Type :=
| RMake (m : R) (c : Vector) (Ixx Iyy Izz Ixy Ixz Iyz : R)
| RScale (a : R) (e : rb_expr)
| RAdd (a b : rb_expr)
| RFrame (F : Frame) (e : rb_expr)
| RRot (M : Rotation) (e : rb_expr)
| RRefPoint (e : rb_expr) (p : Vector).
Fixpoint rb_eval (e : rb_expr) : RigidBodyInertia :=
  match e with
  | RMake m c xx yy zz xy xz yz => rb_make m c (ri_make xx yy zz xy xz yz)
  | RScale a e => rb_scale a (rb_eval e)
  | RAdd a b => rb_add (rb_eval a) (rb_eval b)
  | RFrame F e => f_app_rb F (rb_eval e)
  | RRot M e => r_app_rb M (rb_eval e)
  | RRefPoint e p => rb_RefPoint (rb_eval e) p
  end.
(** physically meaningful: masses and factors non-negative, rotational inertias
    valid, frames rigid *)
Fixpoint rb_physical (e : rb_expr) : Prop :=
  match e with
  | RMake m c xx yy zz xy xz yz => 0 <= m /\ ri_valid (ri_make xx yy zz xy xz yz)
  | RScale a e => 0 <= a /\ rb_physical e
  | RAdd a b => rb_physical a /\ rb_physical b
  | RFrame F e => rigid F /\ rb_physical e
  | RRot M e => is_rotation M /\ rb_physical e
  | RRefPoint e _ => rb_physical e
  end.
