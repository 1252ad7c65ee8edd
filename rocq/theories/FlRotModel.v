(** Constructors and in-place rotations of the class Rotation in rounded arithmetic; conventions as in [FlModel]. *)
From Coq Require Import Reals.
From Verif Require Import FramesModel FlModel.
Local Open Scope R_scope.

Section Rounded.
Variable rnd : R -> R.
Variables fsin fcos : R -> R.

(** frames.cpp:237-246; a difference is the rounded exact difference, a change of sign is exact *)
Definition fl_RPY (roll pitch yaw : R) : Rotation :=
  let ca1 := fcos yaw in let sa1 := fsin yaw in
  let cb1 := fcos pitch in let sb1 := fsin pitch in
  let cc1 := fcos roll in let sc1 := fsin roll in
  mkR (rnd (ca1 * cb1)) (rnd (rnd (rnd (ca1 * sb1) * sc1) - rnd (sa1 * cc1))) (rnd (rnd (rnd (ca1 * sb1) * cc1) + rnd (sa1 * sc1)))
      (rnd (sa1 * cb1)) (rnd (rnd (rnd (sa1 * sb1) * sc1) + rnd (ca1 * cc1))) (rnd (rnd (rnd (sa1 * sb1) * cc1) - rnd (ca1 * sc1)))
      (- sb1) (rnd (cb1 * sc1)) (rnd (cb1 * cc1)).
(** frames.hpp:471-473 *)
Definition fl_EulerZYX (Alfa Beta Gamma : R) : Rotation := fl_RPY Gamma Beta Alfa.
(** frames.cpp:262-272 *)
Definition fl_EulerZYZ (Alfa Beta Gamma : R) : Rotation :=
  let sa := fsin Alfa in let ca := fcos Alfa in
  let sb := fsin Beta in let cb := fcos Beta in
  let sg := fsin Gamma in let cg := fcos Gamma in
  mkR (rnd (rnd (rnd (ca * cb) * cg) - rnd (sa * sg))) (rnd (rnd (rnd (- ca * cb) * sg) - rnd (sa * cg))) (rnd (ca * sb))
      (rnd (rnd (rnd (sa * cb) * cg) + rnd (ca * sg))) (rnd (rnd (rnd (- sa * cb) * sg) + rnd (ca * cg))) (rnd (sa * sb))
      (rnd (- sb * cg)) (rnd (sb * sg)) cb.
(** frames.cpp:190-197 *)
Definition fl_Quaternion (x y z w : R) : Rotation :=
  let x2 := rnd (x * x) in let y2 := rnd (y * y) in let z2 := rnd (z * z) in let w2 := rnd (w * w) in
  let d a b := rnd (rnd (2 * a) * b) in
  mkR (rnd (rnd (rnd (w2 + x2) - y2) - z2)) (rnd (d x y - d w z)) (rnd (d x z + d w y))
      (rnd (d x y + d w z)) (rnd (rnd (rnd (w2 - x2) + y2) - z2)) (rnd (d y z - d w x))
      (rnd (d x z - d w y)) (rnd (d y z + d w x)) (rnd (rnd (rnd (w2 - x2) - y2) + z2)).
(** frames.inl:556-570 *)
Definition fl_DoRotX (r : Rotation) (angle : R) : Rotation :=
  let cs := fcos angle in let sn := fsin angle in
  let x1 := rnd (rnd (cs * r1 r) + rnd (sn * r2 r)) in
  let x2 := rnd (rnd (cs * r4 r) + rnd (sn * r5 r)) in
  let x3 := rnd (rnd (cs * r7 r) + rnd (sn * r8 r)) in
  mkR (r0 r) x1 (rnd (rnd (- sn * r1 r) + rnd (cs * r2 r)))
      (r3 r) x2 (rnd (rnd (- sn * r4 r) + rnd (cs * r5 r)))
      (r6 r) x3 (rnd (rnd (- sn * r7 r) + rnd (cs * r8 r))).
(** frames.inl:572-586 *)
Definition fl_DoRotY (r : Rotation) (angle : R) : Rotation :=
  let cs := fcos angle in let sn := fsin angle in
  let x1 := rnd (rnd (cs * r0 r) - rnd (sn * r2 r)) in
  let x2 := rnd (rnd (cs * r3 r) - rnd (sn * r5 r)) in
  let x3 := rnd (rnd (cs * r6 r) - rnd (sn * r8 r)) in
  mkR x1 (r1 r) (rnd (rnd (sn * r0 r) + rnd (cs * r2 r)))
      x2 (r4 r) (rnd (rnd (sn * r3 r) + rnd (cs * r5 r)))
      x3 (r7 r) (rnd (rnd (sn * r6 r) + rnd (cs * r8 r))).
(** frames.inl:588-602 *)
Definition fl_DoRotZ (r : Rotation) (angle : R) : Rotation :=
  let cs := fcos angle in let sn := fsin angle in
  let x1 := rnd (rnd (cs * r0 r) + rnd (sn * r1 r)) in
  let x2 := rnd (rnd (cs * r3 r) + rnd (sn * r4 r)) in
  let x3 := rnd (rnd (cs * r6 r) + rnd (sn * r7 r)) in
  mkR x1 (rnd (rnd (- sn * r0 r) + rnd (cs * r1 r))) (r2 r)
      x2 (rnd (rnd (- sn * r3 r) + rnd (cs * r4 r))) (r5 r)
      x3 (rnd (rnd (- sn * r6 r) + rnd (cs * r7 r))) (r8 r).
(** frames.inl:644-650, [Rotation::Inverse(Vector)] *)
Definition fl_r_invapp (r : Rotation) (v : Vector) : Vector :=
  mkV (fl_dot3 rnd (r0 r) (vx v) (r3 r) (vy v) (r6 r) (vz v))
      (fl_dot3 rnd (r1 r) (vx v) (r4 r) (vy v) (r7 r) (vz v))
      (fl_dot3 rnd (r2 r) (vx v) (r5 r) (vy v) (r8 r) (vz v)).
(** frames.inl:422-425 *)
Definition fl_f_inv (f : Frame) : Frame := mkF (r_inv (fM f)) (v_neg (fl_r_invapp (fM f) (fp f))).
(** frames.inl:412-415 *)
Definition fl_f_app (f : Frame) (v : Vector) : Vector := fl_v_add rnd (fl_r_app rnd (fM f) v) (fp f).
End Rounded.
