(** Model of element access in C++ and of the parts of the Python bindings that are more than a call of the C++
    function of the same name: __getitem__, __setitem__, iteration and pickling.

    Sources: /repo/orocos_kdl/src/frames.inl, frames.cpp, jacobian.cpp, jntarray.cpp, rotationalinertia.hpp;
    /repo/python_orocos_kdl/PyKDL/frames.cpp, framevel.cpp, kinfam.cpp, dynamics.cpp.
    Not modelled: reference counting and lifetime of Python objects, keyword arguments, conversion of Python ints to double. *)
From Coq Require Import Reals ZArith List Bool.
From Verif Require Import FramesModel Outcome InertiaModel DualModel KinModel JntModel MiscModel.
Import ListNotations.
Local Open Scope Z_scope.

(** * operator() *)
(** double data[n]: outside the array the assertion of FRAMES_CHECKI (utility.h:51-55) fails, or with NDEBUG the access
    is undefined *)
Definition arr (l : list R) (i : Z) : outcome R := if i <? 0 then Undef else aget l (Z.to_nat i).
(** frames.inl:143-152 *)
Definition v_at (v : Vector) (i : Z) : outcome R := arr [vx v; vy v; vz v] i.
Definition v_put (v : Vector) (i : Z) (x : R) : outcome Vector :=
  if i =? 0 then Ret (mkV x (vy v) (vz v)) else if i =? 1 then Ret (mkV (vx v) x (vz v))
  else if i =? 2 then Ret (mkV (vx v) (vy v) x) else Undef.
(** frames.inl:223-239 *)
Definition w_at (w : Wrench) (i : Z) : outcome R := if i <? 3 then v_at (wforce w) i else v_at (wtorque w) (i - 3).
Definition w_put (w : Wrench) (i : Z) (x : R) : outcome Wrench :=
  if i <? 3 then let! f := v_put (wforce w) i x in Ret (mkW f (wtorque w))
  else let! t := v_put (wtorque w) (i - 3) x in Ret (mkW (wforce w) t).
(** frames.inl:326-342 *)
Definition t_at (t : Twist) (i : Z) : outcome R := if i <? 3 then v_at (tvel t) i else v_at (trot t) (i - 3).
Definition t_put (t : Twist) (i : Z) (x : R) : outcome Twist :=
  if i <? 3 then let! v := v_put (tvel t) i x in Ret (mkT v (trot t))
  else let! r := v_put (trot t) (i - 3) x in Ret (mkT (tvel t) r).
(** frames.inl:488-496; each of the indices is checked *)
Definition r_data (r : Rotation) : list R := [r0 r; r1 r; r2 r; r3 r; r4 r; r5 r; r6 r; r7 r; r8 r].
Definition r_of_data (r : Rotation) (l : list R) : Rotation :=
  match l with [a; b; c; d; e; f; g; h; i] => mkR a b c d e f g h i | _ => r end.
Definition in_range (lo hi i : Z) : bool := (lo <=? i) && (i <=? hi).
Definition r_at (r : Rotation) (i j : Z) : outcome R :=
  if in_range 0 2 i && in_range 0 2 j then arr (r_data r) (i * 3 + j) else Undef.
Definition r_put (r : Rotation) (i j : Z) (x : R) : outcome Rotation :=
  if in_range 0 2 i && in_range 0 2 j then
    let! l := aset (r_data r) (Z.to_nat (i * 3 + j)) x in Ret (r_of_data r l) else Undef.
(** frames.inl:667-699 *)
Definition f_at (f : Frame) (i j : Z) : outcome R :=
  if in_range 0 3 i && in_range 0 3 j then
    if i =? 3 then (if j =? 3 then Ret 1%R else Ret 0%R)
    else if j =? 3 then v_at (fp f) i else r_at (fM f) i j
  else Undef.
(** frames.inl:978-1008, with rot2_get of FramesModel *)
Definition v2_at (v : Vector2) (i : Z) : outcome R := arr [v2x v; v2y v] i.
Definition f2_at (f : Frame2) (i j : Z) : outcome R :=
  if in_range 0 2 i && in_range 0 2 j then
    if i =? 2 then (if j =? 2 then Ret 1%R else Ret 0%R)
    else if j =? 2 then v2_at (f2p f) i
    else match rot2_get (f2M f) (Z.to_nat i) (Z.to_nat j) with Some x => Ret x | None => Undef end
  else Undef.
(** frames.cpp:39-51: d has room for sixteen numbers *)
Definition f_Make4x4 (f : Frame) (d : list R) : outcome (list R) :=
  let! d := for_loop 3 0 (fun i d =>
    let! d := for_loop 3 0 (fun j d => let! x := r_at (fM f) (Z.of_nat i) (Z.of_nat j) in aset d (i * 4 + j) x) d in
    let! x := v_at (fp f) (Z.of_nat i) in aset d (i * 4 + 3) x) d in
  let! d := for_loop 3 0 (fun j d => aset d (12 + j) 0%R) d in
  aset d 15 1%R.
(** frames.hpp:517-545: the columns set from a vector *)
Definition r_setX (r : Rotation) (v : Vector) : Rotation := mkR (vx v) (r1 r) (r2 r) (vy v) (r4 r) (r5 r) (vz v) (r7 r) (r8 r).
Definition r_setY (r : Rotation) (v : Vector) : Rotation := mkR (r0 r) (vx v) (r2 r) (r3 r) (vy v) (r5 r) (r6 r) (vz v) (r8 r).
Definition r_setZ (r : Rotation) (v : Vector) : Rotation := mkR (r0 r) (r1 r) (vx v) (r3 r) (r4 r) (vy v) (r6 r) (r7 r) (vz v).
(** jacobian.cpp:59-67 (Eigen: row i of column j) *)
Definition jac_at (J : list Twist) (i j : Z) : outcome R :=
  if (j <? 0) then Undef else let! c := aget J (Z.to_nat j) in t_at c i.
Definition jac_put (J : list Twist) (i j : Z) (x : R) : outcome (list Twist) :=
  if (j <? 0) then Undef else let! c := aget J (Z.to_nat j) in let! c := t_put c i x in aset J (Z.to_nat j) c.

(** * Python *)
Inductive pyres (A : Type) := PyOk (a : A) | PyIndexError | PyTypeError | PyRuntimeError | PyUndef | PyHang.
Arguments PyOk {A}. Arguments PyIndexError {A}. Arguments PyTypeError {A}. Arguments PyRuntimeError {A}.
Arguments PyUndef {A}. Arguments PyHang {A}.
Definition of_out {A} (o : outcome A) : pyres A := match o with Ret a => PyOk a | Undef => PyUndef end.
(** pybind11's caster for int: a Python integer outside the range of int does not match the signature *)
Definition as_int {A} (z : Z) (k : Z -> pyres A) : pyres A :=
  if in_range (-2147483648) 2147483647 z then k z else PyTypeError.

(** PyKDL/frames.cpp:50-63 *)
Definition py_v_get (v : Vector) (i : Z) : pyres R :=
  as_int i (fun i => if (i <? 0) || (2 <? i) then PyIndexError else of_out (v_at v i)).
Definition py_v_set (v : Vector) (i : Z) (x : R) : pyres Vector :=
  as_int i (fun i => if (i <? 0) || (2 <? i) then PyIndexError else of_out (v_put v i x)).
(** frames.cpp:127-140 *)
Definition py_w_get (w : Wrench) (i : Z) : pyres R :=
  as_int i (fun i => if (i <? 0) || (5 <? i) then PyIndexError else of_out (w_at w i)).
Definition py_w_set (w : Wrench) (i : Z) (x : R) : pyres Wrench :=
  as_int i (fun i => if (i <? 0) || (5 <? i) then PyIndexError else of_out (w_put w i x)).
(** frames.cpp:202-215 *)
Definition py_t_get (t : Twist) (i : Z) : pyres R :=
  as_int i (fun i => if (i <? 0) || (5 <? i) then PyIndexError else of_out (t_at t i)).
Definition py_t_set (t : Twist) (i : Z) (x : R) : pyres Twist :=
  as_int i (fun i => if (i <? 0) || (5 <? i) then PyIndexError else of_out (t_put t i x)).
(** frames.cpp:280-297 *)
Definition py_r_get (r : Rotation) (i j : Z) : pyres R :=
  as_int i (fun i => as_int j (fun j =>
  if (i <? 0) || (2 <? i) || (j <? 0) || (2 <? j) then PyIndexError else of_out (r_at r i j))).
Definition py_r_set (r : Rotation) (i j : Z) (x : R) : pyres Rotation :=
  as_int i (fun i => as_int j (fun j =>
  if (i <? 0) || (2 <? i) || (j <? 0) || (2 <? j) then PyIndexError else of_out (r_put r i j x))).
(** frames.cpp:408-428 *)
Definition py_f_get (f : Frame) (i j : Z) : pyres R :=
  as_int i (fun i => as_int j (fun j =>
  if (i <? 0) || (2 <? i) || (j <? 0) || (3 <? j) then PyIndexError else of_out (f_at f i j))).
Definition py_f_set (f : Frame) (i j : Z) (x : R) : pyres Frame :=
  as_int i (fun i => as_int j (fun j =>
  if (i <? 0) || (2 <? i) || (j <? 0) || (3 <? j) then PyIndexError
  else if j =? 3 then of_out (let! p := v_put (fp f) i x in Ret (mkF (fM f) p))
  else of_out (let! m := r_put (fM f) i j x in Ret (mkF m (fp f))))).
(** kinfam.cpp:108-121 *)
Definition py_ri_get (I : RotationalInertia) (i : Z) : pyres R :=
  as_int i (fun i => if (i <? 0) || (8 <? i) then PyIndexError else of_out (arr (r_data (ri_data I)) i)).
Definition py_ri_set (I : RotationalInertia) (i : Z) (x : R) : pyres RotationalInertia :=
  as_int i (fun i => if (i <? 0) || (8 <? i) then PyIndexError
    else of_out (let! l := aset (r_data (ri_data I)) (Z.to_nat i) x in Ret (mkRI (r_of_data (ri_data I) l)))).
(** kinfam.cpp:225-241 *)
Definition py_jac_get (J : list Twist) (i j : Z) : pyres R :=
  as_int i (fun i => as_int j (fun j =>
  if (i <? 0) || (5 <? i) || (j <? 0) || (Z.of_nat (length J) <=? j) then PyIndexError else of_out (jac_at J i j))).
Definition py_jac_set (J : list Twist) (i j : Z) (x : R) : pyres (list Twist) :=
  as_int i (fun i => as_int j (fun j =>
  if (i <? 0) || (5 <? i) || (j <? 0) || (Z.of_nat (length J) <=? j) then PyIndexError else of_out (jac_put J i j x))).
(** kinfam.cpp:265-278 *)
Definition py_jnt_get (q : list R) (i : Z) : pyres R :=
  as_int i (fun i => if (i <? 0) || (Z.of_nat (jnt_rows q) <=? i) then PyIndexError else of_out (jnt_get q (Z.to_nat i))).
Definition py_jnt_set (q : list R) (i : Z) (x : R) : pyres (list R) :=
  as_int i (fun i => if (i <? 0) || (Z.of_nat (jnt_rows q) <=? i) then PyIndexError else of_out (jnt_set q (Z.to_nat i) x)).
(** dynamics.cpp:49-66 *)
Definition py_jm_get (m : jmat) (i j : Z) : pyres R :=
  as_int i (fun i => as_int j (fun j =>
  if (i <? 0) || (Z.of_nat (jm_n m) <=? i) || (j <? 0) || (Z.of_nat (jm_n m) <=? j) then PyIndexError
  else of_out (jm_get m (Z.to_nat i) (Z.to_nat j)))).
Definition py_jm_set (m : jmat) (i j : Z) (x : R) : pyres jmat :=
  as_int i (fun i => as_int j (fun j =>
  if (i <? 0) || (Z.of_nat (jm_n m) <=? i) || (j <? 0) || (Z.of_nat (jm_n m) <=? j) then PyIndexError
  else of_out (jm_set m (Z.to_nat i) (Z.to_nat j) x))).

(** Iteration over an object with __getitem__ and without __iter__ (Python language reference): indices from 0 on until
    IndexError. *)
Fixpoint py_list (fuel : nat) (get : Z -> pyres R) (i : Z) : pyres (list R) :=
  match fuel with
  | O => PyHang
  | S k =>
    match get i with
    | PyOk x => match py_list k get (i + 1) with PyOk l => PyOk (x :: l) | e => e end
    | PyIndexError => PyOk []
    | PyTypeError => PyTypeError | PyRuntimeError => PyRuntimeError | PyUndef => PyUndef | PyHang => PyHang
    end
  end.

(** * Pickling *)
(** Python objects that occur in the states *)
Inductive pyobj :=
| PFloat (x : R) | PVector (v : Vector) | PWrench (w : Wrench) | PTwist (t : Twist) | PRotation (r : Rotation) | PFrame (f : Frame)
| PVectorVel (v : VectorVel) | PTwistVel (t : TwistVel) | PRotationVel (r : RotationVel) | PFrameVel (f : FrameVel).
Inductive pycls := CVector | CWrench | CTwist | CRotation | CFrame | CVectorVel | CTwistVel | CRotationVel | CFrameVel.
(** a pickle: a float, or a class with the state tuple, whose items are pickled in turn *)
Inductive pck := KFloat (x : R) | KObj (c : pycls) (state : list pck).

(** __getstate__: frames.cpp:97-101, 173-177, 248-252, 377-383, 459-463; framevel.cpp:141-145, 227-231, 312-316, 386-390 *)
Definition k_v (v : Vector) : pck := KObj CVector [KFloat (vx v); KFloat (vy v); KFloat (vz v)].
Definition k_r (r : Rotation) : pck :=
  let '(roll, pitch, yaw) := r_GetRPY r in KObj CRotation [KFloat roll; KFloat pitch; KFloat yaw].
Definition k_vv (v : VectorVel) : pck := KObj CVectorVel [k_v (vvp v); k_v (vvv v)].
Definition k_rv (r : RotationVel) : pck := KObj CRotationVel [k_r (rvR r); k_v (rvw r)].
Definition py_dumps (o : pyobj) : pck :=
  match o with
  | PFloat x => KFloat x
  | PVector v => k_v v
  | PWrench w => KObj CWrench [k_v (wforce w); k_v (wtorque w)]
  | PTwist t => KObj CTwist [k_v (tvel t); k_v (trot t)]
  | PRotation r => k_r r
  | PFrame f => KObj CFrame [k_r (fM f); k_v (fp f)]
  | PVectorVel v => k_vv v
  | PTwistVel t => KObj CTwistVel [k_vv (tvvel t); k_vv (tvrot t)]
  | PRotationVel r => k_rv r
  | PFrameVel f => KObj CFrameVel [k_rv (fvM f); k_vv (fvp f)]
  end.

(** __setstate__: frames.cpp:102-110, 178-186, 253-261, 384-391, 464-472; framevel.cpp:146-154, 232-240, 317-325, 391-399:
    the size of the tuple is checked, a cast to the wrong type fails *)
Definition py_setstate (c : pycls) (t : list pyobj) : pyres pyobj :=
  match c with
  | CVector => match t with
    | [PFloat x; PFloat y; PFloat z] => PyOk (PVector (mkV x y z)) | [_; _; _] => PyTypeError | _ => PyRuntimeError end
  | CWrench => match t with [PVector a; PVector b] => PyOk (PWrench (mkW a b)) | [_; _] => PyTypeError | _ => PyRuntimeError end
  | CTwist => match t with [PVector a; PVector b] => PyOk (PTwist (mkT a b)) | [_; _] => PyTypeError | _ => PyRuntimeError end
  | CRotation => match t with
    | [PFloat x; PFloat y; PFloat z] => PyOk (PRotation (r_RPY x y z)) | [_; _; _] => PyTypeError | _ => PyRuntimeError end
  | CFrame => match t with [PRotation a; PVector b] => PyOk (PFrame (mkF a b)) | [_; _] => PyTypeError | _ => PyRuntimeError end
  | CVectorVel => match t with [PVector a; PVector b] => PyOk (PVectorVel (mkVV a b)) | [_; _] => PyTypeError | _ => PyRuntimeError end
  | CTwistVel => match t with [PVectorVel a; PVectorVel b] => PyOk (PTwistVel (mkTV a b)) | [_; _] => PyTypeError | _ => PyRuntimeError end
  | CRotationVel => match t with [PRotation a; PVector b] => PyOk (PRotationVel (mkRV a b)) | [_; _] => PyTypeError | _ => PyRuntimeError end
  | CFrameVel => match t with [PRotationVel a; PVectorVel b] => PyOk (PFrameVel (mkFV a b)) | [_; _] => PyTypeError | _ => PyRuntimeError end
  end.
(** pickle.loads: the items of the state first *)
Fixpoint py_loads (k : pck) : pyres pyobj :=
  match k with
  | KFloat x => PyOk (PFloat x)
  | KObj c l =>
    match (fix items (l : list pck) : pyres (list pyobj) :=
             match l with
             | [] => PyOk []
             | k :: r => match py_loads k with
                         | PyOk o => match items r with PyOk t => PyOk (o :: t) | e => e end
                         | PyIndexError => PyIndexError | PyTypeError => PyTypeError | PyRuntimeError => PyRuntimeError
                         | PyUndef => PyUndef | PyHang => PyHang
                         end
             end) l with
    | PyOk t => py_setstate c t
    | PyIndexError => PyIndexError | PyTypeError => PyTypeError | PyRuntimeError => PyRuntimeError
    | PyUndef => PyUndef | PyHang => PyHang
    end
  end.
