(** Lengths, unit vectors and rotations about any axis in rounded arithmetic; conventions as in [FlModel] and [FlQuatModel]. *)
From Coq Require Import Reals Bool.
From Verif Require Import FramesModel FlModel FlQuatModel.
Local Open Scope R_scope.

Section Rounded.
Variable rnd : R -> R.
Variables fsin fcos : R -> R.

(** The expression fabs(a)*sqrt(1+sqr(b/a)+sqr(c/a)) of frames.cpp:117-142, which occurs there four times. *)
Definition fl_scaled (a b c : R) : option R :=
  bind (fl_div rnd b a) (fun p => bind (fl_div rnd c a) (fun q =>
  bind (fl_sqrt rnd (rnd (rnd (1 + rnd (p * p)) + rnd (q * q)))) (fun s => Some (rnd (Rabs a * s))))).
(** frames.cpp:117-142 *)
Definition fl_norm_eps (eps : R) (v : Vector) : option R :=
  let tmp1 := Rabs (vx v) in
  let tmp2 := Rabs (vy v) in
  if Rle_dec tmp2 tmp1 then
    let tmp2 := Rabs (vz v) in
    if Rle_dec tmp2 tmp1 then
      if Rlt_dec tmp1 eps then Some 0 else fl_scaled (vx v) (vy v) (vz v)
    else fl_scaled (vz v) (vx v) (vy v)
  else
    let tmp1 := Rabs (vz v) in
    if Rlt_dec tmp1 tmp2 then fl_scaled (vy v) (vx v) (vz v) else fl_scaled (vz v) (vx v) (vy v).
(** frames.hpp:242, the default argument is the stored constant 0.000001 *)
Definition fl_norm (v : Vector) : option R := fl_norm_eps (rnd kdl_epsilon) v.
(** frames.inl:101-108 *)
Definition fl_v_div (v : Vector) (n : R) : option Vector :=
  bind (fl_div rnd (vx v) n) (fun x => bind (fl_div rnd (vy v) n) (fun y => bind (fl_div rnd (vz v) n) (fun z => Some (mkV x y z)))).
(** frames.cpp:147-156 with the default argument: (new value, returned norm) *)
Definition fl_normalize (a : Vector) : option (Vector * R) :=
  bind (fl_norm a) (fun v => if Rlt_dec v (rnd kdl_epsilon) then Some (mkV 1 0 0, 0) else bind (fl_v_div a v) (fun u => Some (u, v))).
(** frames.cpp:293-301 *)
Definition fl_Rot (rotaxis : Vector) (angle : R) : option Rotation :=
  bind (fl_normalize rotaxis) (fun un => Some (fl_Rot2 rnd fsin fcos (fst un) angle)).
(** joint.cpp:48,58: the axis a joint stores *)
Definition fl_joint_axis (axis : Vector) : option Vector := bind (fl_norm axis) (fun n => fl_v_div axis n).
End Rounded.
