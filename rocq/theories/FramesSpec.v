(** Specification vocabulary for the geometric primitives.  Nothing here
    mentions how the code computes; it only uses the entries of the records. *)
From Coq Require Import Reals List.
From Verif Require Import FramesModel.
Local Open Scope R_scope.

(** Euclidean length. *)
Definition euclid_norm (v : Vector) : R := sqrt (vx v ^ 2 + vy v ^ 2 + vz v ^ 2).
Definition unit_vector (v : Vector) : Prop := vx v ^ 2 + vy v ^ 2 + vz v ^ 2 = 1.
Definition euclid_norm2 (v : Vector2) : R := sqrt (v2x v ^ 2 + v2y v ^ 2).

(** Determinant of the 3x3 matrix. *)
Definition det3 (r : Rotation) : R :=
  r0 r * (r4 r * r8 r - r5 r * r7 r)
  - r1 r * (r3 r * r8 r - r5 r * r6 r)
  + r2 r * (r3 r * r7 r - r4 r * r6 r).

(** A proper rotation: orthonormal columns and determinant +1. *)
Record is_rotation (r : Rotation) : Prop := {
  col00 : r0 r ^ 2 + r3 r ^ 2 + r6 r ^ 2 = 1;
  col11 : r1 r ^ 2 + r4 r ^ 2 + r7 r ^ 2 = 1;
  col22 : r2 r ^ 2 + r5 r ^ 2 + r8 r ^ 2 = 1;
  col01 : r0 r * r1 r + r3 r * r4 r + r6 r * r7 r = 0;
  col02 : r0 r * r2 r + r3 r * r5 r + r6 r * r8 r = 0;
  col12 : r1 r * r2 r + r4 r * r5 r + r7 r * r8 r = 0;
  rdet  : det3 r = 1 }.

(** A rigid frame has a proper rotation. *)
Definition rigid (f : Frame) : Prop := is_rotation (fM f).

Definition is_rotation2 (r : Rotation2) : Prop := rot2_c r ^ 2 + rot2_s r ^ 2 = 1.
Definition rigid2 (f : Frame2) : Prop := is_rotation2 (f2M f).

(** Two angles denote the same direction. *)
Definition same_angle (a b : R) : Prop := cos a = cos b /\ sin a = sin b.

(** Largest absolute component. *)
Definition max_abs (v : Vector) : R := Rmax (Rabs (vx v)) (Rmax (Rabs (vy v)) (Rabs (vz v))).

(** All rotations obtainable through the public API by nesting calls. *)
Inductive rot_expr : Type :=
| EIdentity
| ERotX (a : R) | ERotY (a : R) | ERotZ (a : R)
| ERPY (r p y : R) | EEulerZYX (a b c : R) | EEulerZYZ (a b c : R)
| ERot (axis : Vector) (angle : R)
| ERotVec (axis : Vector)
| ERot2 (axis : Vector) (angle : R)
| EQuaternion (x y z w : R)
| EMul (l r : rot_expr)
| EInv (e : rot_expr)
| EDoRotX (e : rot_expr) (a : R) | EDoRotY (e : rot_expr) (a : R) | EDoRotZ (e : rot_expr) (a : R)
| EAddDelta (e : rot_expr) (da : Vector) (dt : R).

Fixpoint eval_rot (e : rot_expr) : Rotation :=
  match e with
  | EIdentity => r_id
  | ERotX a => r_RotX a | ERotY a => r_RotY a | ERotZ a => r_RotZ a
  | ERPY r p y => r_RPY r p y
  | EEulerZYX a b c => r_EulerZYX a b c
  | EEulerZYZ a b c => r_EulerZYZ a b c
  | ERot axis a => r_Rot axis a
  | ERotVec axis => Rot_vec axis
  | ERot2 axis a => r_Rot2 axis a
  | EQuaternion x y z w => r_Quaternion x y z w
  | EMul l r => r_mul (eval_rot l) (eval_rot r)
  | EInv e => r_inv (eval_rot e)
  | EDoRotX e a => r_DoRotX (eval_rot e) a
  | EDoRotY e a => r_DoRotY (eval_rot e) a
  | EDoRotZ e a => r_DoRotZ (eval_rot e) a
  | EAddDelta e da dt => r_addDelta (eval_rot e) da dt
  end.

(** The documented preconditions: Rot2 wants a unit axis, Quaternion a unit
    quaternion.  Everything else is unconditional. *)
Fixpoint rot_expr_ok (e : rot_expr) : Prop :=
  match e with
  | ERot2 axis _ => unit_vector axis
  | EQuaternion x y z w => x ^ 2 + y ^ 2 + z ^ 2 + w ^ 2 = 1
  | EMul l r => rot_expr_ok l /\ rot_expr_ok r
  | EInv e | EDoRotX e _ | EDoRotY e _ | EDoRotZ e _ | EAddDelta e _ _ => rot_expr_ok e
  | _ => True
  end.

(** Positive-definite comparison used by [Equal]: all components closer than eps. *)
Definition close (a b eps : R) : Prop := Rabs (a - b) < eps.
Definition v_close (a b : Vector) (eps : R) : Prop :=
  close (vx a) (vx b) eps /\ close (vy a) (vy b) eps /\ close (vz a) (vz b) eps.
Definition r_close (a b : Rotation) (eps : R) : Prop :=
  close (r0 a) (r0 b) eps /\ close (r1 a) (r1 b) eps /\ close (r2 a) (r2 b) eps /\
  close (r3 a) (r3 b) eps /\ close (r4 a) (r4 b) eps /\ close (r5 a) (r5 b) eps /\
  close (r6 a) (r6 b) eps /\ close (r7 a) (r7 b) eps /\ close (r8 a) (r8 b) eps.
Definition f_close (a b : Frame) (eps : R) : Prop := v_close (fp a) (fp b) eps /\ r_close (fM a) (fM b) eps.
Definition t_close (a b : Twist) (eps : R) : Prop := v_close (tvel a) (tvel b) eps /\ v_close (trot a) (trot b) eps.
Definition w_close (a b : Wrench) (eps : R) : Prop := v_close (wforce a) (wforce b) eps /\ v_close (wtorque a) (wtorque b) eps.

(** Outside the tolerance band of the axis-angle extraction, or exactly a
    symmetric matrix (the identity or a half turn). *)
Definition axis_angle_regular (r : Rotation) (eps : R) : Prop :=
  eps <= Rabs (r1 r - r3 r) \/ eps <= Rabs (r2 r - r6 r) \/ eps <= Rabs (r5 r - r7 r).
Definition symmetric3 (r : Rotation) : Prop := r1 r = r3 r /\ r2 r = r6 r /\ r5 r = r7 r.

(** The laws an approximate equality must satisfy, for any of the types. *)
Definition equal_laws {A : Type} (Eq : A -> A -> R -> bool) : Prop :=
  (forall a eps, 0 < eps -> Eq a a eps = true) /\
  (forall a b eps, Eq a b eps = Eq b a eps) /\
  (forall a b e1 e2, e1 <= e2 -> Eq a b e1 = true -> Eq a b e2 = true) /\
  (forall a b eps, eps <= 0 -> Eq a b eps = false) /\
  (forall a b c e1 e2, Eq a b e1 = true -> Eq b c e2 = true -> Eq a c (e1 + e2) = true).

(** The relative orientation is exactly the identity or a half turn, or is
    clearly away from both. *)
Definition same_or_far (r : Rotation) : Prop :=
  symmetric3 r \/ axis_angle_regular r (4 * kdl_epsilon).

(** A sequence of [Integrate] calls on the same frame. *)
Definition integrate_all (f : Frame) (l : list (Twist * R)) : Frame :=
  fold_left (fun f tf => f_Integrate f (fst tf) (snd tf)) l f.
