(** What indexing, iteration and pickling are expected to do.  The scalar members co_v, co_w, co_t are those of EqSpec. *)
From Coq Require Import Reals ZArith List.
From Verif Require Import FramesModel FramesSpec DualModel Outcome InertiaModel KinModel MiscModel EqSpec PyModel.
Import ListNotations.
Local Open Scope Z_scope.

(** The Python integers that fit into an int of C++. *)
Definition c_int (z : Z) : Prop := - 2 ^ 31 <= z < 2 ^ 31.
(** [o[z]] is member number z; outside the sequence, and for all negative indices, IndexError; TypeError for integers that
    do not fit into an int. *)
Definition reads {A} (members : A -> list R) (get : A -> Z -> pyres R) : Prop := forall o z,
  (~ c_int z -> get o z = PyTypeError) /\
  (c_int z -> (z < 0 \/ Z.of_nat (length (members o)) <= z) -> get o z = PyIndexError) /\
  (c_int z -> 0 <= z < Z.of_nat (length (members o)) -> get o z = PyOk (nth (Z.to_nat z) (members o) 0%R)).
(** [o[z] = x] changes member number z and no other; the same errors, which leave the object as it was. *)
Definition replaced (l l' : list R) (k : nat) (x : R) : Prop :=
  length l' = length l /\ nth k l' 0%R = x /\ forall j, j <> k -> nth j l' 0%R = nth j l 0%R.
Definition writes {A} (members : A -> list R) (set : A -> Z -> R -> pyres A) : Prop := forall o z x,
  (~ c_int z -> set o z x = PyTypeError) /\
  (c_int z -> (z < 0 \/ Z.of_nat (length (members o)) <= z) -> set o z x = PyIndexError) /\
  (c_int z -> 0 <= z < Z.of_nat (length (members o)) ->
     exists o', set o z x = PyOk o' /\ replaced (members o) (members o') (Z.to_nat z) x).
Definition determines {A} (members : A -> list R) : Prop := forall a b, members a = members b -> a = b.

(** The same for two indices, an object with [rows] and [cols] and the entries of a matrix. *)
Definition reads2 {A} (P : A -> Prop) (rows cols : A -> nat) (entry : A -> nat -> nat -> R) (get : A -> Z -> Z -> pyres R) : Prop :=
  forall o i j, P o ->
  (~ c_int i \/ ~ c_int j -> get o i j = PyTypeError) /\
  (c_int i -> c_int j -> (i < 0 \/ Z.of_nat (rows o) <= i \/ j < 0 \/ Z.of_nat (cols o) <= j) -> get o i j = PyIndexError) /\
  (c_int i -> c_int j -> 0 <= i < Z.of_nat (rows o) -> 0 <= j < Z.of_nat (cols o) ->
     get o i j = PyOk (entry o (Z.to_nat i) (Z.to_nat j))).
Definition writes2 {A} (P : A -> Prop) (rows cols : A -> nat) (entry : A -> nat -> nat -> R) (set : A -> Z -> Z -> R -> pyres A) : Prop :=
  forall o i j x, P o ->
  (~ c_int i \/ ~ c_int j -> set o i j x = PyTypeError) /\
  (c_int i -> c_int j -> (i < 0 \/ Z.of_nat (rows o) <= i \/ j < 0 \/ Z.of_nat (cols o) <= j) -> set o i j x = PyIndexError) /\
  (c_int i -> c_int j -> 0 <= i < Z.of_nat (rows o) -> 0 <= j < Z.of_nat (cols o) ->
     exists o', set o i j x = PyOk o' /\ P o' /\ rows o' = rows o /\ cols o' = cols o /\
       entry o' (Z.to_nat i) (Z.to_nat j) = x /\
       forall a b, (a < rows o)%nat -> (b < cols o)%nat -> (a <> Z.to_nat i \/ b <> Z.to_nat j) -> entry o' a b = entry o a b).

(** Entries, from the action of the object. *)
Definition basis (k : nat) : Vector := match k with 0%nat => mkV 1 0 0 | 1%nat => mkV 0 1 0 | _ => mkV 0 0 1 end.
Definition coord (v : Vector) (k : nat) : R := match k with 0%nat => vx v | 1%nat => vy v | _ => vz v end.
(** entry (i,j) of a rotation: coordinate i of the image of the j-th basis vector *)
Definition r_entry (r : Rotation) (i j : nat) : R := coord (r_app r (basis j)) i.
(** column 3 of a frame: the image of the origin; columns 0 to 2: the image of a basis vector, seen from there *)
Definition f_entry (f : Frame) (i j : nat) : R :=
  match j with 3%nat => coord (f_app f (mkV 0 0 0)) i | _ => (coord (f_app f (basis j)) i - coord (f_app f (mkV 0 0 0)) i)%R end.
(** a rotational inertia as nine numbers, a Jacobian as columns of six numbers, a joint space inertia matrix by columns *)
Definition co_ri (I : RotationalInertia) : list R := co_r (ri_data I).
Definition jac_entry (J : list Twist) (i j : nat) : R := nth i (co_t (nth j J (mkT (mkV 0 0 0) (mkV 0 0 0)))) 0%R.
Definition cols (J : list Twist) : nat := length J.
Definition jm_entry (m : jmat) (i j : nat) : R := nth (j * jm_n m + i) (jm_d m) 0%R.
(** a vector as a column of four *)
Definition hom (v : Vector) (k : Z) : R := if k =? 3 then 1%R else coord v (Z.to_nat k).
(** sum over the indices 0 to 3 *)
Definition sum4 (f : Z -> R) : R := (f 0%Z + f 1%Z + f 2%Z + f 3%Z)%R.
Definition index4 (i : Z) : Prop := 0 <= i <= 3.

(** Pickling: the rotation inside an object, and the object with another rotation there. *)
Definition rotation_in (o : pyobj) : option Rotation :=
  match o with
  | PRotation r => Some r | PFrame f => Some (fM f) | PRotationVel r => Some (rvR r) | PFrameVel f => Some (rvR (fvM f))
  | _ => None
  end.
Definition with_rotation (o : pyobj) (r : Rotation) : pyobj :=
  match o with
  | PRotation _ => PRotation r | PFrame f => PFrame (mkF r (fp f)) | PRotationVel v => PRotationVel (mkRV r (rvw v))
  | PFrameVel f => PFrameVel (mkFV (mkRV r (rvw (fvM f))) (fvp f)) | o => o
  end.
Definition class_of (o : pyobj) : option pycls :=
  match o with
  | PFloat _ => None | PVector _ => Some CVector | PWrench _ => Some CWrench | PTwist _ => Some CTwist
  | PRotation _ => Some CRotation | PFrame _ => Some CFrame | PVectorVel _ => Some CVectorVel | PTwistVel _ => Some CTwistVel
  | PRotationVel _ => Some CRotationVel | PFrameVel _ => Some CFrameVel
  end.
Definition state_size (c : pycls) : nat := match c with CVector | CRotation => 3 | _ => 2 end.
(** The pitch angle of a rotation matrix is away from the singularity, or exactly at it. *)
Definition clear_pitch (r : Rotation) : Prop :=
  let '(_, pitch, _) := r_GetRPY r in (Rabs pitch <= PI / 2 - rpy_epsilon \/ Rabs pitch = PI / 2)%R.
(** An object that is never built by accident: every item of the state, at every depth, is a float or has the right size. *)
Definition good {A} (r : pyres A) : Prop := match r with PyUndef | PyHang | PyIndexError => False | _ => True end.
