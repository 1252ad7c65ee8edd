(** Specification vocabulary for rotations computed by a program in rounded arithmetic (C86). *)
From Coq Require Import Reals.
From Verif Require Import FramesModel FramesSpec FlModel FlSpec FlRotModel.
Local Open Scope R_scope.

(** Rotations obtained by nesting calls. *)
Inductive rot_prog : Type :=
| PIdentity
| PRotX (a : R) | PRotY (a : R) | PRotZ (a : R)
| PRPY (r p y : R) | PEulerZYX (a b c : R) | PEulerZYZ (a b c : R)
| PRot2 (axis : Vector) (angle : R)
| PQuaternion (x y z w : R)
| PMul (l r : rot_prog)
| PInv (p : rot_prog)
| PDoRotX (p : rot_prog) (a : R) | PDoRotY (p : rot_prog) (a : R) | PDoRotZ (p : rot_prog) (a : R).
(** its value in exact arithmetic *)
Fixpoint run (p : rot_prog) : Rotation :=
  match p with
  | PIdentity => r_id
  | PRotX a => r_RotX a | PRotY a => r_RotY a | PRotZ a => r_RotZ a
  | PRPY r p y => r_RPY r p y
  | PEulerZYX a b c => r_EulerZYX a b c
  | PEulerZYZ a b c => r_EulerZYZ a b c
  | PRot2 axis a => r_Rot2 axis a
  | PQuaternion x y z w => r_Quaternion x y z w
  | PMul l r => r_mul (run l) (run r)
  | PInv p => r_inv (run p)
  | PDoRotX p a => r_DoRotX (run p) a
  | PDoRotY p a => r_DoRotY (run p) a
  | PDoRotZ p a => r_DoRotZ (run p) a
  end.
(** and in rounded arithmetic; the inverse only moves entries *)
Fixpoint fl_run (rnd fsin fcos : R -> R) (p : rot_prog) : Rotation :=
  match p with
  | PIdentity => r_id
  | PRotX a => fl_RotX fsin fcos a | PRotY a => fl_RotY fsin fcos a | PRotZ a => fl_RotZ fsin fcos a
  | PRPY r p y => fl_RPY rnd fsin fcos r p y
  | PEulerZYX a b c => fl_EulerZYX rnd fsin fcos a b c
  | PEulerZYZ a b c => fl_EulerZYZ rnd fsin fcos a b c
  | PRot2 axis a => fl_Rot2 rnd fsin fcos axis a
  | PQuaternion x y z w => fl_Quaternion rnd x y z w
  | PMul l r => fl_r_mul rnd (fl_run rnd fsin fcos l) (fl_run rnd fsin fcos r)
  | PInv p => r_inv (fl_run rnd fsin fcos p)
  | PDoRotX p a => fl_DoRotX rnd fsin fcos (fl_run rnd fsin fcos p) a
  | PDoRotY p a => fl_DoRotY rnd fsin fcos (fl_run rnd fsin fcos p) a
  | PDoRotZ p a => fl_DoRotZ rnd fsin fcos (fl_run rnd fsin fcos p) a
  end.
(** The number of calls. *)
Fixpoint calls (p : rot_prog) : nat :=
  match p with
  | PMul l r => S (calls l + calls r)
  | PInv p | PDoRotX p _ | PDoRotY p _ | PDoRotZ p _ => S (calls p)
  | _ => 1%nat
  end.
(** [p'] is the program [p] with the axes and quaternions rounded, so that they need not have length one any more. *)
Inductive prog_stored (eps : R) : rot_prog -> rot_prog -> Prop :=
| ps_id : prog_stored eps PIdentity PIdentity
| ps_x a : prog_stored eps (PRotX a) (PRotX a) | ps_y a : prog_stored eps (PRotY a) (PRotY a) | ps_z a : prog_stored eps (PRotZ a) (PRotZ a)
| ps_rpy r p y : prog_stored eps (PRPY r p y) (PRPY r p y)
| ps_zyx a b c : prog_stored eps (PEulerZYX a b c) (PEulerZYX a b c)
| ps_zyz a b c : prog_stored eps (PEulerZYZ a b c) (PEulerZYZ a b c)
| ps_axis v' v a : unit_vector v -> v_near eps v' v -> prog_stored eps (PRot2 v' a) (PRot2 v a)
| ps_quat x' y' z' w' x y z w : x ^ 2 + y ^ 2 + z ^ 2 + w ^ 2 = 1 ->
    Rabs (x' - x) <= eps -> Rabs (y' - y) <= eps -> Rabs (z' - z) <= eps -> Rabs (w' - w) <= eps ->
    prog_stored eps (PQuaternion x' y' z' w') (PQuaternion x y z w)
| ps_mul l' l r' r : prog_stored eps l' l -> prog_stored eps r' r -> prog_stored eps (PMul l' r') (PMul l r)
| ps_inv p' p : prog_stored eps p' p -> prog_stored eps (PInv p') (PInv p)
| ps_dox p' p a : prog_stored eps p' p -> prog_stored eps (PDoRotX p' a) (PDoRotX p a)
| ps_doy p' p a : prog_stored eps p' p -> prog_stored eps (PDoRotY p' a) (PDoRotY p a)
| ps_doz p' p a : prog_stored eps p' p -> prog_stored eps (PDoRotZ p' a) (PDoRotZ p a).

(** Frames obtained by nesting calls. *)
Inductive frame_prog : Type :=
| GMake (r : rot_prog) (v : Vector)
| GMul (l r : frame_prog)
| GInv (p : frame_prog).
Fixpoint frun (p : frame_prog) : Frame :=
  match p with GMake r v => mkF (run r) v | GMul l r => f_mul (frun l) (frun r) | GInv p => f_inv (frun p) end.
Fixpoint fl_frun (rnd fsin fcos : R -> R) (p : frame_prog) : Frame :=
  match p with
  | GMake r v => mkF (fl_run rnd fsin fcos r) v
  | GMul l r => fl_f_mul rnd (fl_frun rnd fsin fcos l) (fl_frun rnd fsin fcos r)
  | GInv p => fl_f_inv rnd (fl_frun rnd fsin fcos p)
  end.
Fixpoint fcalls (p : frame_prog) : nat :=
  match p with GMake r _ => S (calls r) | GMul l r => S (fcalls l + fcalls r) | GInv p => S (fcalls p) end.
(** The number of roundings a position goes through; without inverses it is the number of calls. *)
Fixpoint fweight (p : frame_prog) : nat :=
  match p with GMake r _ => S (calls r) | GMul l r => S (Nat.max (fcalls l + fweight r) (fweight l)) | GInv p => S (fcalls p + fweight p) end.
(** The vectors that enter the program have length at most D. *)
Inductive frame_stored (eps D : R) : frame_prog -> frame_prog -> Prop :=
| fs_make r' r v' v : prog_stored eps r' r -> v_near eps v' v -> euclid_norm v <= D -> frame_stored eps D (GMake r' v') (GMake r v)
| fs_mul l' l r' r : frame_stored eps D l' l -> frame_stored eps D r' r -> frame_stored eps D (GMul l' r') (GMul l r)
| fs_inv p' p : frame_stored eps D p' p -> frame_stored eps D (GInv p') (GInv p).

(** No inverse anywhere in the program. *)
Fixpoint without_inverse (p : frame_prog) : Prop := match p with GMake _ _ => True | GMul l r => without_inverse l /\ without_inverse r | GInv _ => False end.

(** A unit quaternion that has no exact representation, turned n times in place. *)
Fixpoint spin (r : R -> R) (a : R) (n : nat) : rot_prog := match n with O => PQuaternion (r (3/5)) 0 0 (r (4/5)) | S n => PDoRotZ (spin r a n) a end.
(** There and back: the frame times its own inverse. *)
Definition back (r : R -> R) (a : R) : frame_prog := let f := GMake (PRPY a 1 (1/2)) (mkV (r (1/3)) (r (1/10)) 1) in GMul f (GInv f).
