(** What a failed read leaves in the object. *)
From Coq Require Import Reals List.
From Verif Require Import FramesModel IoModel IoSpec.
Import ListNotations.
Local Open Scope R_scope.

Definition numbers_Vector2 (v : Vector2) : list R := [v2x v; v2y v].
Definition numbers_Twist (t : Twist) : list R := numbers_Vector (tvel t) ++ numbers_Vector (trot t).
Definition numbers_Wrench (w : Wrench) : list R := numbers_Vector (wforce w) ++ numbers_Vector (wtorque w).
Definition numbers_Frame (f : Frame) : list R := numbers_Rotation (fM f) ++ numbers_Vector (fp f).

(** The outcome of reading from a given stream, as a function of the old value of the object: a new object that does
    not depend on the old value; or an exception, with the first members new and independent of the old value and the
    others unchanged; or undefined behaviour or an endless loop, whatever the old value. *)
Definition fills {A} (numbers : A -> list R) (read : A -> oio A) : Prop :=
  (exists s l, forall old, exists x, read old = OGot x s /\ numbers x = l) \/
  (exists e s l, forall old, exists x, read old = OThrew e x s /\ numbers x = l ++ skipn (length l) (numbers old)) \/
  (forall old, read old = OUb) \/ (forall old, read old = OHang).
