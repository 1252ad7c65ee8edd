(** The numbers in velocity and acceleration objects, in the order in which they are written. *)
From Coq Require Import Reals ZArith Ascii String List Bool.
From Verif Require Import FramesModel DualModel IoModel IoSpec.
Import ListNotations.

Definition numbers_VectorVel (r : VectorVel) : list R := numbers_Vector (vvp r) ++ numbers_Vector (vvv r).
Definition numbers_RotationVel (r : RotationVel) : list R := numbers_Rotation (rvR r) ++ numbers_Vector (rvw r).
Definition numbers_FrameVel (r : FrameVel) : list R := numbers_RotationVel (fvM r) ++ numbers_VectorVel (fvp r).
Definition numbers_TwistVel (r : TwistVel) : list R := numbers_VectorVel (tvvel r) ++ numbers_VectorVel (tvrot r).
Definition numbers_VectorAcc (r : VectorAcc) : list R := numbers_Vector (vap r) ++ numbers_Vector (vav r) ++ numbers_Vector (vadv r).
Definition numbers_RotationAcc (r : RotationAcc) : list R := numbers_Rotation (raR r) ++ numbers_Vector (raw r) ++ numbers_Vector (radw r).
Definition numbers_FrameAcc (r : FrameAcc) : list R := numbers_RotationAcc (faM r) ++ numbers_VectorAcc (fap r).
Definition numbers_TwistAcc (r : TwistAcc) : list R := numbers_VectorAcc (tavel r) ++ numbers_VectorAcc (tarot r).
Definition numbers_dVel (r : dVel) : list R := [d1t r; d1g r].
Definition numbers_dAcc (r : dAcc) : list R := [d2t r; d2d r; d2dd r].

(** Texts whose beginning tells the object: two texts that begin with the text of an object and are equal are texts of objects with the same
    numbers to p digits, followed by the same rest. *)
Definition tells {T : Type} (write : T -> text) (numbers : T -> list R) (same : R -> R -> Prop) : Prop :=
  forall a b x y, write a ++ x = write b ++ y -> Forall2 same (numbers a) (numbers b) /\ x = y.

(** *** Layout: parts in braces, separated by commas, with blanks and newlines between; a newline at the end *)
Inductive parts : list text -> text -> Prop :=
| ps_last b x b' : plain b -> plain b' -> parts [x] (b ++ x ++ b')
| ps_more b x b' l t : plain b -> plain b' -> parts l t -> parts (x :: l) (b ++ x ++ b' ++ [","%char] ++ t).
Definition braced (t : text) (l : list text) : Prop := exists u, t = ["{"%char] ++ u ++ ["}"%char] ++ [nl] /\ parts l u.

Section Layout.
(** [rnd] is the rounding of the printed numbers *)
Variable rnd : R -> R.
Definition prints_Vector (t : text) (v : Vector) : Prop := vector_list plain (fun x => x) t (vmap rnd v).
Definition prints_Rotation (t : text) (r : Rotation) : Prop := rotation_list plain (fun x => x) t (rmap rnd r).
Definition prints_VectorVel (t : text) (r : VectorVel) : Prop := exists a b, braced t [a; b] /\ prints_Vector a (vvp r) /\ prints_Vector b (vvv r).
Definition prints_RotationVel (t : text) (r : RotationVel) : Prop := exists a b, braced t [a; b] /\ prints_Rotation a (rvR r) /\ prints_Vector b (rvw r).
Definition prints_FrameVel (t : text) (r : FrameVel) : Prop := exists a b, braced t [a; b] /\ prints_RotationVel a (fvM r) /\ prints_VectorVel b (fvp r).
Definition prints_TwistVel (t : text) (r : TwistVel) : Prop := exists a b, braced t [a; b] /\ prints_VectorVel a (tvvel r) /\ prints_VectorVel b (tvrot r).
Definition prints_VectorAcc (t : text) (r : VectorAcc) : Prop :=
  exists a b c, braced t [a; b; c] /\ prints_Vector a (vap r) /\ prints_Vector b (vav r) /\ prints_Vector c (vadv r).
Definition prints_RotationAcc (t : text) (r : RotationAcc) : Prop :=
  exists a b c, braced t [a; b; c] /\ prints_Rotation a (raR r) /\ prints_Vector b (raw r) /\ prints_Vector c (radw r).
Definition prints_FrameAcc (t : text) (r : FrameAcc) : Prop := exists a b, braced t [a; b] /\ prints_RotationAcc a (faM r) /\ prints_VectorAcc b (fap r).
Definition prints_TwistAcc (t : text) (r : TwistAcc) : Prop := exists a b, braced t [a; b] /\ prints_VectorAcc a (tavel r) /\ prints_VectorAcc b (tarot r).
End Layout.
