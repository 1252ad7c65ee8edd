(** Model of the geometric primitives of KDL: [Vector], [Rotation], [Frame],
    [Twist], [Wrench] and their planar versions.

    Sources: /repo/orocos_kdl/src/frames.hpp, frames.inl, frames.cpp and
    utilities/utility.h.  Doubles are idealised as the reals of the standard
    library (no rounding, no NaN, no infinities).  A C++ member function that
    mutates [*this] is modelled by a function returning the new value. *)
From Coq Require Import Reals List Bool.
Import ListNotations.
Local Open Scope R_scope.

(** * Scalars *)

(** utilities/utility.cxx:21, the initial value of the global [epsilon].
    Simplification: the global is mutable in C++; here it is the constant it is
    initialised with.  Functions taking an [eps] argument take it explicitly. *)
Definition kdl_epsilon : R := / 1000000.

(** utilities/utility.h:255 *)
Definition sqr (x : R) : R := x * x.

(** utilities/utility.h:251-253; note sign(0) = 1. *)
Definition sign (x : R) : R := if Rlt_dec x 0 then -1 else 1.

(** utilities/utility.h:204-217 *)
Definition kdl_max (a b : R) : R := if Rlt_dec b a then a else b.
Definition kdl_min (a b : R) : R := if Rlt_dec b a then b else a.

(** utilities/utility.h:268-272 *)
Definition Equal_d (a b eps : R) : bool :=
  let tmp := a - b in
  (if Rlt_dec tmp eps then true else false) &&
  (if Rlt_dec (- eps) tmp then true else false).

(** utilities/utility.h:282-290 *)
Definition diff_d (a b dt : R) : R := (b - a) / dt.
Definition addDelta_d (a da dt : R) : R := a + da * dt.

(** The C library [atan2].  Simplification: signed zeros do not exist in [R],
    so atan2(-0,x<0) = -PI is not represented; (0,0) gives 0 as in IEC 60559. *)
Definition atan2 (y x : R) : R :=
  if Rlt_dec 0 x then atan (y / x)
  else if Rlt_dec x 0 then
         (if Rlt_dec y 0 then atan (y / x) - PI else atan (y / x) + PI)
       else if Rlt_dec 0 y then PI / 2
            else if Rlt_dec y 0 then - (PI / 2) else 0.

(** * Vector *)

(** frames.hpp:162-262, class Vector, [data[3]]. *)
Record Vector := mkV { vx : R; vy : R; vz : R }.

(** frames.inl:138-141 *)
Definition v_zero : Vector := mkV 0 0 0.
(** frames.inl:57-64 *)
Definition v_add (a b : Vector) := mkV (vx a + vx b) (vy a + vy b) (vz a + vz b).
(** frames.inl:66-73 *)
Definition v_sub (a b : Vector) := mkV (vx a - vx b) (vy a - vy b) (vz a - vz b).
(** frames.inl:83-90 (Vector * double) *)
Definition v_scale (a : Vector) (s : R) := mkV (vx a * s) (vy a * s) (vz a * s).
(** frames.inl:92-99 (double * Vector) *)
Definition v_scale_l (s : R) (a : Vector) := mkV (s * vx a) (s * vy a) (s * vz a).
(** frames.inl:101-108 *)
Definition v_div (a : Vector) (s : R) := mkV (vx a / s) (vy a / s) (vz a / s).
(** frames.inl:110-118 (cross product) *)
Definition v_cross (a b : Vector) :=
  mkV (vy a * vz b - vz a * vy b)
      (vz a * vx b - vx a * vz b)
      (vx a * vy b - vy a * vx b).
(** frames.inl:449-456 and 440-445 (ReverseSign) *)
Definition v_neg (a : Vector) := mkV (- vx a) (- vy a) (- vz a).
(** frames.inl:1012-1014 *)
Definition v_dot (a b : Vector) : R := vx b * vx a + vy b * vy a + vz b * vz a.

(** frames.cpp:117-142, [Vector::Norm(eps)] *)
Definition v_norm_eps (eps : R) (v : Vector) : R :=
  let tmp1 := Rabs (vx v) in
  let tmp2 := Rabs (vy v) in
  if Rle_dec tmp2 tmp1 then
    let tmp2 := Rabs (vz v) in
    if Rle_dec tmp2 tmp1 then
      if Rlt_dec tmp1 eps then 0
      else tmp1 * sqrt (1 + sqr (vy v / vx v) + sqr (vz v / vx v))
    else tmp2 * sqrt (1 + sqr (vx v / vz v) + sqr (vy v / vz v))
  else
    let tmp1 := Rabs (vz v) in
    if Rlt_dec tmp1 tmp2 then
      tmp2 * sqrt (1 + sqr (vx v / vy v) + sqr (vz v / vy v))
    else tmp1 * sqrt (1 + sqr (vx v / vz v) + sqr (vy v / vz v)).

(** frames.hpp:242, default argument eps = epsilon *)
Definition v_norm (v : Vector) : R := v_norm_eps kdl_epsilon v.

(** frames.cpp:147-156, [Vector::Normalize(eps)]: (new value, returned norm).
    The norm is computed with the default eps, the test uses the argument. *)
Definition v_normalize_eps (eps : R) (a : Vector) : Vector * R :=
  let v := v_norm a in
  if Rlt_dec v eps then (mkV 1 0 0, 0) else (v_div a v, v).

(** frames.hpp:239, default argument *)
Definition v_normalize (a : Vector) : Vector * R := v_normalize_eps kdl_epsilon a.

(** frames.inl:1032-1036 *)
Definition v_Equal (a b : Vector) (eps : R) : bool :=
  Equal_d (vx a) (vx b) eps && Equal_d (vy a) (vy b) eps && Equal_d (vz a) (vz b) eps.

(** frames.inl:1129-1131, 1156-1158 *)
Definition v_diff (a b : Vector) (dt : R) : Vector := v_div (v_sub b a) dt.
Definition v_addDelta (a da : Vector) (dt : R) : Vector := v_add a (v_scale da dt).

(** * Rotation *)

(** frames.hpp:303-556, class Rotation, row-major [data[9]]. *)
Record Rotation := mkR {
  r0 : R; r1 : R; r2 : R;
  r3 : R; r4 : R; r5 : R;
  r6 : R; r7 : R; r8 : R }.

(** frames.inl:508-513: columns given as vectors *)
Definition r_cols (x y z : Vector) : Rotation :=
  mkR (vx x) (vx y) (vx z) (vy x) (vy y) (vy z) (vz x) (vz y) (vz z).

(** frames.hpp:512-545 *)
Definition r_UnitX (r : Rotation) := mkV (r0 r) (r3 r) (r6 r).
Definition r_UnitY (r : Rotation) := mkV (r1 r) (r4 r) (r7 r).
Definition r_UnitZ (r : Rotation) := mkV (r2 r) (r5 r) (r8 r).

(** frames.inl:552-554 *)
Definition r_id : Rotation := mkR 1 0 0 0 1 0 0 0 1.

(** frames.inl:526-533 *)
Definition r_app (r : Rotation) (v : Vector) : Vector :=
  mkV (r0 r * vx v + r1 r * vy v + r2 r * vz v)
      (r3 r * vx v + r4 r * vy v + r5 r * vz v)
      (r6 r * vx v + r7 r * vy v + r8 r * vz v).

(** frames.cpp:173-188 *)
Definition r_mul (l r : Rotation) : Rotation :=
  mkR (r0 l * r0 r + r1 l * r3 r + r2 l * r6 r)
      (r0 l * r1 r + r1 l * r4 r + r2 l * r7 r)
      (r0 l * r2 r + r1 l * r5 r + r2 l * r8 r)
      (r3 l * r0 r + r4 l * r3 r + r5 l * r6 r)
      (r3 l * r1 r + r4 l * r4 r + r5 l * r7 r)
      (r3 l * r2 r + r4 l * r5 r + r5 l * r8 r)
      (r6 l * r0 r + r7 l * r3 r + r8 l * r6 r)
      (r6 l * r1 r + r7 l * r4 r + r8 l * r7 r)
      (r6 l * r2 r + r7 l * r5 r + r8 l * r8 r).

(** frames.inl:637-642 and SetInverse 653-659: the inverse is the transpose. *)
Definition r_inv (r : Rotation) : Rotation :=
  mkR (r0 r) (r3 r) (r6 r) (r1 r) (r4 r) (r7 r) (r2 r) (r5 r) (r8 r).

(** frames.inl:644-650, [Rotation::Inverse(Vector)] *)
Definition r_invapp (r : Rotation) (v : Vector) : Vector :=
  mkV (r0 r * vx v + r3 r * vy v + r6 r * vz v)
      (r1 r * vx v + r4 r * vy v + r7 r * vz v)
      (r2 r * vx v + r5 r * vy v + r8 r * vz v).

(** frames.inl:605-619 *)
Definition r_RotX (angle : R) : Rotation :=
  let cs := cos angle in let sn := sin angle in mkR 1 0 0 0 cs (- sn) 0 sn cs.
Definition r_RotY (angle : R) : Rotation :=
  let cs := cos angle in let sn := sin angle in mkR cs 0 sn 0 1 0 (- sn) 0 cs.
Definition r_RotZ (angle : R) : Rotation :=
  let cs := cos angle in let sn := sin angle in mkR cs (- sn) 0 sn cs 0 0 0 1.

(** frames.inl:556-570 *)
Definition r_DoRotX (r : Rotation) (angle : R) : Rotation :=
  let cs := cos angle in let sn := sin angle in
  let x1 := cs * r1 r + sn * r2 r in
  let x2 := cs * r4 r + sn * r5 r in
  let x3 := cs * r7 r + sn * r8 r in
  mkR (r0 r) x1 (- sn * r1 r + cs * r2 r)
      (r3 r) x2 (- sn * r4 r + cs * r5 r)
      (r6 r) x3 (- sn * r7 r + cs * r8 r).
(** frames.inl:572-586 *)
Definition r_DoRotY (r : Rotation) (angle : R) : Rotation :=
  let cs := cos angle in let sn := sin angle in
  let x1 := cs * r0 r - sn * r2 r in
  let x2 := cs * r3 r - sn * r5 r in
  let x3 := cs * r6 r - sn * r8 r in
  mkR x1 (r1 r) (sn * r0 r + cs * r2 r)
      x2 (r4 r) (sn * r3 r + cs * r5 r)
      x3 (r7 r) (sn * r6 r + cs * r8 r).
(** frames.inl:588-602 *)
Definition r_DoRotZ (r : Rotation) (angle : R) : Rotation :=
  let cs := cos angle in let sn := sin angle in
  let x1 := cs * r0 r + sn * r1 r in
  let x2 := cs * r3 r + sn * r4 r in
  let x3 := cs * r6 r + sn * r7 r in
  mkR x1 (- sn * r0 r + cs * r1 r) (r2 r)
      x2 (- sn * r3 r + cs * r4 r) (r5 r)
      x3 (- sn * r6 r + cs * r7 r) (r8 r).

(** frames.cpp:237-246 *)
Definition r_RPY (roll pitch yaw : R) : Rotation :=
  let ca1 := cos yaw in let sa1 := sin yaw in
  let cb1 := cos pitch in let sb1 := sin pitch in
  let cc1 := cos roll in let sc1 := sin roll in
  mkR (ca1*cb1) (ca1*sb1*sc1 - sa1*cc1) (ca1*sb1*cc1 + sa1*sc1)
      (sa1*cb1) (sa1*sb1*sc1 + ca1*cc1) (sa1*sb1*cc1 - ca1*sc1)
      (- sb1)   (cb1*sc1)               (cb1*cc1).

(** frames.cpp:249-260, result (roll, pitch, yaw); local epsilon = 1E-12.
    Simplification: PI_2 is PI/2 exactly. *)
Definition rpy_epsilon : R := / 1000000000000.
Definition r_GetRPY (r : Rotation) : R * R * R :=
  let pitch := atan2 (- r6 r) (sqrt (sqr (r0 r) + sqr (r3 r))) in
  if Rlt_dec (PI / 2 - rpy_epsilon) (Rabs pitch)
  then (0, pitch, atan2 (- r1 r) (r4 r))
  else (atan2 (r7 r) (r8 r), pitch, atan2 (r3 r) (r0 r)).

(** frames.hpp:471-473 and 495-497 *)
Definition r_EulerZYX (Alfa Beta Gamma : R) : Rotation := r_RPY Gamma Beta Alfa.
Definition r_GetEulerZYX (r : Rotation) : R * R * R :=
  let '(roll, pitch, yaw) := r_GetRPY r in (yaw, pitch, roll).

(** frames.cpp:262-272 *)
Definition r_EulerZYZ (Alfa Beta Gamma : R) : Rotation :=
  let sa := sin Alfa in let ca := cos Alfa in
  let sb := sin Beta in let cb := cos Beta in
  let sg := sin Gamma in let cg := cos Gamma in
  mkR (ca*cb*cg - sa*sg) (- ca*cb*sg - sa*cg) (ca*sb)
      (sa*cb*cg + ca*sg) (- sa*cb*sg + ca*cg) (sa*sb)
      (- sb*cg)          (sb*sg)              cb.

(** frames.cpp:275-291, result (alpha, beta, gamma) *)
Definition r_GetEulerZYZ (r : Rotation) : R * R * R :=
  if Rlt_dec (1 - rpy_epsilon) (Rabs (r8 r)) then
    if Rlt_dec 0 (r8 r) then (atan2 (r3 r) (r0 r), 0, 0)
    else (atan2 (- r3 r) (- r0 r), PI, 0)
  else (atan2 (r5 r) (r2 r),
        atan2 (sqrt (sqr (r6 r) + sqr (r7 r))) (r8 r),
        atan2 (r7 r) (- r6 r)).

(** frames.cpp:303-332, [Rotation::Rot2] *)
Definition r_Rot2 (rotvec : Vector) (angle : R) : Rotation :=
  let ct := cos angle in
  let st := sin angle in
  let vt := 1 - ct in
  let m_vt_0 := vt * vx rotvec in
  let m_vt_1 := vt * vy rotvec in
  let m_vt_2 := vt * vz rotvec in
  let m_st_0 := vx rotvec * st in
  let m_st_1 := vy rotvec * st in
  let m_st_2 := vz rotvec * st in
  let m_vt_0_1 := m_vt_0 * vy rotvec in
  let m_vt_0_2 := m_vt_0 * vz rotvec in
  let m_vt_1_2 := m_vt_1 * vz rotvec in
  mkR (ct + m_vt_0 * vx rotvec) (- m_st_2 + m_vt_0_1)         (m_st_1 + m_vt_0_2)
      (m_st_2 + m_vt_0_1)       (ct + m_vt_1 * vy rotvec)     (- m_st_0 + m_vt_1_2)
      (- m_st_1 + m_vt_0_2)     (m_st_0 + m_vt_1_2)           (ct + m_vt_2 * vz rotvec).

(** frames.cpp:293-301, [Rotation::Rot(axis,angle)] *)
Definition r_Rot (rotaxis : Vector) (angle : R) : Rotation :=
  r_Rot2 (fst (v_normalize rotaxis)) angle.

(** frames.inl:1107-1128, free function [Rot(axis_a_b)] *)
Definition Rot_vec (axis_a_b : Vector) : Rotation :=
  let '(rotvec, angle) := v_normalize_eps (/ 10000000000) axis_a_b in
  let ct := cos angle in
  let st := sin angle in
  let vt := 1 - ct in
  mkR (ct + vt * vx rotvec * vx rotvec)
      (- vz rotvec * st + vt * vx rotvec * vy rotvec)
      (vy rotvec * st + vt * vx rotvec * vz rotvec)
      (vz rotvec * st + vt * vy rotvec * vx rotvec)
      (ct + vt * vy rotvec * vy rotvec)
      (- vx rotvec * st + vt * vy rotvec * vz rotvec)
      (- vy rotvec * st + vt * vz rotvec * vx rotvec)
      (vx rotvec * st + vt * vz rotvec * vy rotvec)
      (ct + vt * vz rotvec * vz rotvec).

(** frames.cpp:190-197 *)
Definition r_Quaternion (x y z w : R) : Rotation :=
  let x2 := x * x in let y2 := y * y in let z2 := z * z in let w2 := w * w in
  mkR (w2+x2-y2-z2)     (2*x*y-2*w*z)  (2*x*z+2*w*y)
      (2*x*y+2*w*z)     (w2-x2+y2-z2)  (2*y*z-2*w*x)
      (2*x*z-2*w*y)     (2*y*z+2*w*x)  (w2-x2-y2+z2).

(** frames.cpp:204-235, result (x, y, z, w) *)
Definition r_GetQuaternion (r : Rotation) : R * R * R * R :=
  let trace := r0 r + r4 r + r8 r in
  if Rlt_dec rpy_epsilon trace then
    let s := (1/2) / sqrt (trace + 1) in
    ((r7 r - r5 r) * s, (r2 r - r6 r) * s, (r3 r - r1 r) * s, (1/4) / s)
  else if (if Rlt_dec (r4 r) (r0 r) then true else false) &&
          (if Rlt_dec (r8 r) (r0 r) then true else false) then
    let s := 2 * sqrt (1 + r0 r - r4 r - r8 r) in
    ((1/4) * s, (r1 r + r3 r) / s, (r2 r + r6 r) / s, (r7 r - r5 r) / s)
  else if Rlt_dec (r8 r) (r4 r) then
    let s := 2 * sqrt (1 + r4 r - r0 r - r8 r) in
    ((r1 r + r3 r) / s, (1/4) * s, (r5 r + r7 r) / s, (r2 r - r6 r) / s)
  else
    let s := 2 * sqrt (1 + r8 r - r0 r - r4 r) in
    ((r2 r + r6 r) / s, (r5 r + r7 r) / s, (1/4) * s, (r3 r - r1 r) / s).

(** frames.cpp:358-428, result (axis, angle) *)
Definition r_GetRotAngle (r : Rotation) (eps : R) : Vector * R :=
  let epsilon := eps in
  let epsilon2 := eps * 10 in
  let lt a b := if Rlt_dec a b then true else false in
  if lt (Rabs (r1 r - r3 r)) epsilon && lt (Rabs (r2 r - r6 r)) epsilon
     && lt (Rabs (r5 r - r7 r)) epsilon then
    if lt (Rabs (r1 r + r3 r)) epsilon2 && lt (Rabs (r2 r + r6 r)) epsilon2
       && lt (Rabs (r5 r + r7 r)) epsilon2
       && lt (Rabs (r0 r + r4 r + r8 r - 3)) epsilon2 then
      (mkV 0 0 1, 0)
    else
      let xx := (r0 r + 1) / 2 in
      let yy := (r4 r + 1) / 2 in
      let zz := (r8 r + 1) / 2 in
      let xy := (r1 r + r3 r) / 4 in
      let xz := (r2 r + r6 r) / 4 in
      let yz := (r5 r + r7 r) / 4 in
      if lt yy xx && lt zz xx then
        let x := sqrt xx in (mkV x (xy / x) (xz / x), PI)
      else if lt zz yy then
        let y := sqrt yy in (mkV (xy / y) y (yz / y), PI)
      else
        let z := sqrt zz in (mkV (xz / z) (yz / z) z, PI)
  else
    let f := (r0 r + r4 r + r8 r - 1) / 2 in
    let axis := mkV (r7 r - r5 r) (r2 r - r6 r) (r3 r - r1 r) in
    let angle := atan2 (v_norm axis / 2) f in
    (fst (v_normalize axis), angle).

(** frames.cpp:336-344 *)
Definition r_GetRot (r : Rotation) : Vector :=
  let '(axis, angle) := r_GetRotAngle r kdl_epsilon in v_scale axis angle.

(** frames.cpp:159-169 *)
Definition r_Equal (a b : Rotation) (eps : R) : bool :=
  Equal_d (r0 a) (r0 b) eps && Equal_d (r1 a) (r1 b) eps && Equal_d (r2 a) (r2 b) eps &&
  Equal_d (r3 a) (r3 b) eps && Equal_d (r4 a) (r4 b) eps && Equal_d (r5 a) (r5 b) eps &&
  Equal_d (r6 a) (r6 b) eps && Equal_d (r7 a) (r7 b) eps && Equal_d (r8 a) (r8 b) eps.

(** frames.inl:1133-1136; [R_a_b1 * R_b1_b2.GetRot() / dt] parses as
    [(R_a_b1 * v) / dt]. *)
Definition r_diff (R1 R2 : Rotation) (dt : R) : Vector :=
  v_div (r_app R1 (r_GetRot (r_mul (r_inv R1) R2))) dt.
(** frames.inl:1160-1162 *)
Definition r_addDelta (a : Rotation) (da : Vector) (dt : R) : Rotation :=
  r_mul (Rot_vec (v_scale da dt)) a.

(** * Twist *)

(** frames.hpp:723-797 *)
Record Twist := mkT { tvel : Vector; trot : Vector }.

(** frames.inl:290-293 *)
Definition t_zero : Twist := mkT v_zero v_zero.
(** frames.inl:361-375 and 345-358 *)
Definition t_add (a b : Twist) := mkT (v_add (tvel a) (tvel b)) (v_add (trot a) (trot b)).
Definition t_sub (a b : Twist) := mkT (v_sub (tvel a) (tvel b)) (v_sub (trot a) (trot b)).
Definition t_neg (a : Twist) := mkT (v_neg (tvel a)) (v_neg (trot a)).
Definition t_scale (a : Twist) (s : R) := mkT (v_scale (tvel a) s) (v_scale (trot a) s).
Definition t_scale_l (s : R) (a : Twist) := mkT (v_scale_l s (tvel a)) (v_scale_l s (trot a)).
Definition t_div (a : Twist) (s : R) := mkT (v_div (tvel a) s) (v_div (trot a) s).
(** frames.inl:302-310 *)
Definition t_RefPoint (t : Twist) (v_base_AB : Vector) : Twist :=
  mkT (v_add (tvel t) (v_cross (trot t) v_base_AB)) (trot t).
(** frames.inl:535-542 *)
Definition r_app_t (r : Rotation) (t : Twist) := mkT (r_app r (tvel t)) (r_app r (trot t)).
(** frames.inl:180-183 *)
Definition r_invapp_t (r : Rotation) (t : Twist) := mkT (r_invapp r (tvel t)) (r_invapp r (trot t)).
(** frames.inl:379-382, spatial cross product of twists *)
Definition t_cross (l r : Twist) : Twist :=
  mkT (v_add (v_cross (trot l) (tvel r)) (v_cross (tvel l) (trot r)))
      (v_cross (trot l) (trot r)).
(** frames.inl:1049-1052 *)
Definition t_Equal (a b : Twist) (eps : R) : bool :=
  v_Equal (trot a) (trot b) eps && v_Equal (tvel a) (tvel b) eps.
(** frames.inl:1144-1146, 1169-1171 *)
Definition t_diff (a b : Twist) (dt : R) := mkT (v_diff (tvel a) (tvel b) dt) (v_diff (trot a) (trot b) dt).
Definition t_addDelta (a da : Twist) (dt : R) :=
  mkT (v_addDelta (tvel a) (tvel da) dt) (v_addDelta (trot a) (trot da) dt).

(** * Wrench *)

(** frames.hpp:881-960 *)
Record Wrench := mkW { wforce : Vector; wtorque : Vector }.

(** frames.inl:185-188 *)
Definition w_zero : Wrench := mkW v_zero v_zero.
(** frames.inl:242-272 *)
Definition w_add (a b : Wrench) := mkW (v_add (wforce a) (wforce b)) (v_add (wtorque a) (wtorque b)).
Definition w_sub (a b : Wrench) := mkW (v_sub (wforce a) (wforce b)) (v_sub (wtorque a) (wtorque b)).
Definition w_neg (a : Wrench) := mkW (v_neg (wforce a)) (v_neg (wtorque a)).
Definition w_scale (a : Wrench) (s : R) := mkW (v_scale (wforce a) s) (v_scale (wtorque a) s).
Definition w_scale_l (s : R) (a : Wrench) := mkW (v_scale_l s (wforce a)) (v_scale_l s (wtorque a)).
Definition w_div (a : Wrench) (s : R) := mkW (v_div (wforce a) s) (v_div (wtorque a) s).
(** frames.inl:197-206: the torque is [torque + force * v_base_AB]. *)
Definition w_RefPoint (w : Wrench) (v_base_AB : Vector) : Wrench :=
  mkW (wforce w) (v_add (wtorque w) (v_cross (wforce w) v_base_AB)).
(** frames.inl:544-550 *)
Definition r_app_w (r : Rotation) (w : Wrench) := mkW (r_app r (wforce w)) (r_app r (wtorque w)).
(** frames.inl:175-178 *)
Definition r_invapp_w (r : Rotation) (w : Wrench) := mkW (r_invapp r (wforce w)) (r_invapp r (wtorque w)).
(** frames.inl:383-386, spatial cross product twist x wrench *)
Definition tw_cross (l : Twist) (r : Wrench) : Wrench :=
  mkW (v_cross (trot l) (wforce r))
      (v_add (v_cross (trot l) (wtorque r)) (v_cross (tvel l) (wforce r))).
(** frames.inl:1016-1022 (both argument orders compute the same expression) *)
Definition tw_dot (t : Twist) (w : Wrench) : R :=
  v_dot (tvel t) (wforce w) + v_dot (trot t) (wtorque w).
(** frames.inl:1044-1047 *)
Definition w_Equal (a b : Wrench) (eps : R) : bool :=
  v_Equal (wforce a) (wforce b) eps && v_Equal (wtorque a) (wtorque b) eps.
(** frames.inl:1148-1153, 1172-1174 *)
Definition w_diff (a b : Wrench) (dt : R) :=
  mkW (v_diff (wforce a) (wforce b) dt) (v_diff (wtorque a) (wtorque b) dt).
Definition w_addDelta (a da : Wrench) (dt : R) :=
  mkW (v_addDelta (wforce a) (wforce da) dt) (v_addDelta (wtorque a) (wtorque da) dt).

(** * Frame *)

(** frames.hpp:572-716 *)
Record Frame := mkF { fM : Rotation; fp : Vector }.

(** frames.inl:700-702 *)
Definition f_id : Frame := mkF r_id v_zero.
(** frames.inl:388-404 *)
Definition f_of_rot (r : Rotation) : Frame := mkF r v_zero.
Definition f_of_vec (v : Vector) : Frame := mkF r_id v.
(** frames.inl:406-410 *)
Definition f_mul (l r : Frame) : Frame :=
  mkF (r_mul (fM l) (fM r)) (v_add (r_app (fM l) (fp r)) (fp l)).
(** frames.inl:412-415 *)
Definition f_app (f : Frame) (v : Vector) : Vector := v_add (r_app (fM f) v) (fp f).
(** frames.inl:417-420 *)
Definition f_invapp (f : Frame) (v : Vector) : Vector := r_invapp (fM f) (v_sub v (fp f)).
(** frames.inl:422-425 *)
Definition f_inv (f : Frame) : Frame := mkF (r_inv (fM f)) (v_neg (r_invapp (fM f) (fp f))).
(** frames.inl:274-281 *)
Definition f_app_t (f : Frame) (t : Twist) : Twist :=
  let rot := r_app (fM f) (trot t) in
  mkT (v_add (r_app (fM f) (tvel t)) (v_cross (fp f) rot)) rot.
(** frames.inl:282-288 *)
Definition f_invapp_t (f : Frame) (t : Twist) : Twist :=
  mkT (r_invapp (fM f) (v_sub (tvel t) (v_cross (fp f) (trot t)))) (r_invapp (fM f) (trot t)).
(** frames.inl:156-163 *)
Definition f_app_w (f : Frame) (w : Wrench) : Wrench :=
  let force := r_app (fM f) (wforce w) in
  mkW force (v_add (r_app (fM f) (wtorque w)) (v_cross (fp f) force)).
(** frames.inl:165-171 *)
Definition f_invapp_w (f : Frame) (w : Wrench) : Wrench :=
  mkW (r_invapp (fM f) (wforce w))
      (r_invapp (fM f) (v_sub (wtorque w) (v_cross (fp f) (wforce w)))).
(** frames.inl:1039-1042 *)
Definition f_Equal (a b : Frame) (eps : R) : bool :=
  v_Equal (fp a) (fp b) eps && r_Equal (fM a) (fM b) eps.
(** frames.inl:1138-1143, 1163-1168 *)
Definition f_diff (a b : Frame) (dt : R) : Twist :=
  mkT (v_diff (fp a) (fp b) dt) (r_diff (fM a) (fM b) dt).
Definition f_addDelta (a : Frame) (da : Twist) (dt : R) : Frame :=
  mkF (r_addDelta (fM a) (trot da) dt) (v_addDelta (fp a) (tvel da) dt).
(** frames.inl:624-635 *)
Definition f_Integrate (f : Frame) (t_this : Twist) (samplefrequency : R) : Frame :=
  let n := v_norm (trot t_this) / samplefrequency in
  if Rlt_dec n kdl_epsilon then
    mkF (fM f) (v_add (fp f) (r_app (fM f) (v_div (tvel t_this) samplefrequency)))
  else f_mul f (mkF (r_Rot (trot t_this) n) (v_div (tvel t_this) samplefrequency)).
(** frames.cpp:53-68 *)
Definition f_DH_Craig1989 (a alpha d theta : R) : Frame :=
  let ct := cos theta in let st := sin theta in
  let sa := sin alpha in let ca := cos alpha in
  mkF (mkR ct (- st) 0 (st*ca) (ct*ca) (- sa) (st*sa) (ct*sa) ca)
      (mkV a (- sa*d) (ca*d)).
(** frames.cpp:70-85 *)
Definition f_DH (a alpha d theta : R) : Frame :=
  let ct := cos theta in let st := sin theta in
  let sa := sin alpha in let ca := cos alpha in
  mkF (mkR ct (- st*ca) (st*sa) st (ct*ca) (- ct*sa) 0 sa ca)
      (mkV (a*ct) (a*st) d).

(** frames.inl:493-496 and 683-697: element access.  Out-of-range indices are
    undefined behaviour (FRAMES_CHECKI is a debug assertion): [None]. *)
Definition v_get (v : Vector) (i : nat) : option R :=
  match i with 0 => Some (vx v) | 1 => Some (vy v) | 2 => Some (vz v) | _ => None end%nat.
Definition r_get (r : Rotation) (i j : nat) : option R :=
  match i, j with
  | 0, 0 => Some (r0 r) | 0, 1 => Some (r1 r) | 0, 2 => Some (r2 r)
  | 1, 0 => Some (r3 r) | 1, 1 => Some (r4 r) | 1, 2 => Some (r5 r)
  | 2, 0 => Some (r6 r) | 2, 1 => Some (r7 r) | 2, 2 => Some (r8 r)
  | _, _ => None end%nat.
Definition f_get (f : Frame) (i j : nat) : option R :=
  match i, j with
  | 3, 3 => Some 1%R
  | 3, _ => if Nat.ltb j 3 then Some 0%R else None
  | _, 3 => v_get (fp f) i
  | _, _ => r_get (fM f) i j end%nat.

(** frames.cpp:39-51: the 16 doubles written by [Make4x4], row-major. *)
Definition f_Make4x4 (f : Frame) : list R :=
  let M := fM f in let p := fp f in
  [ r0 M; r1 M; r2 M; vx p;
    r3 M; r4 M; r5 M; vy p;
    r6 M; r7 M; r8 M; vz p;
    0; 0; 0; 1 ].

(** * Planar types *)

(** frames.hpp:960-1043 *)
Record Vector2 := mkV2 { v2x : R; v2y : R }.
(** frames.inl:745-767, 784-786, 813-816 *)
Definition v2_zero := mkV2 0 0.
Definition v2_add (a b : Vector2) := mkV2 (v2x a + v2x b) (v2y a + v2y b).
Definition v2_sub (a b : Vector2) := mkV2 (v2x a - v2x b) (v2y a - v2y b).
Definition v2_scale (a : Vector2) (s : R) := mkV2 (v2x a * s) (v2y a * s).
Definition v2_div (a : Vector2) (s : R) := mkV2 (v2x a / s) (v2y a / s).
Definition v2_neg (a : Vector2) := mkV2 (- v2x a) (- v2y a).
(** frames.cpp:87-100 *)
Definition v2_norm_eps (eps : R) (v : Vector2) : R :=
  let tmp1 := Rabs (v2x v) in
  let tmp2 := Rabs (v2y v) in
  if (if Rlt_dec tmp1 eps then true else false) && (if Rlt_dec tmp2 eps then true else false)
  then 0
  else if Rlt_dec tmp2 tmp1 then tmp1 * sqrt (1 + sqr (v2y v / v2x v))
       else tmp2 * sqrt (1 + sqr (v2x v / v2y v)).
Definition v2_norm (v : Vector2) : R := v2_norm_eps kdl_epsilon v.
(** frames.cpp:104-113 *)
Definition v2_normalize_eps (eps : R) (a : Vector2) : Vector2 * R :=
  let v := v2_norm a in
  if Rlt_dec v eps then (mkV2 1 0, 0) else (v2_div a v, v).

(** frames.hpp:1051-1096, fields s and c *)
Record Rotation2 := mkR2 { rot2_c : R; rot2_s : R }.
(** frames.inl:856-858 *)
Definition rot2_app (r : Rotation2) (v : Vector2) : Vector2 :=
  mkV2 (v2x v * rot2_c r - v2y v * rot2_s r) (v2x v * rot2_s r + v2y v * rot2_c r).
(** frames.inl:860-867 *)
Definition rot2_get (r : Rotation2) (i j : nat) : option R :=
  if Nat.ltb 1 i || Nat.ltb 1 j then None
  else if Nat.eqb i j then Some (rot2_c r)
  else if Nat.eqb i 0 then Some (rot2_s r) else Some (- rot2_s r).
(** frames.inl:870-872 *)
Definition rot2_mul (l r : Rotation2) : Rotation2 :=
  mkR2 (rot2_c l * rot2_c r - rot2_s l * rot2_s r) (rot2_s l * rot2_c r + rot2_c l * rot2_s r).
(** frames.inl:874-888 *)
Definition rot2_inv (r : Rotation2) : Rotation2 := mkR2 (rot2_c r) (- rot2_s r).
Definition rot2_invapp (r : Rotation2) (v : Vector2) : Vector2 :=
  mkV2 (v2x v * rot2_c r + v2y v * rot2_s r) (- v2x v * rot2_s r + v2y v * rot2_c r).
Definition rot2_id : Rotation2 := mkR2 1 0.
(** frames.inl:900-906 *)
Definition rot2_Rot (angle : R) : Rotation2 := mkR2 (cos angle) (sin angle).
Definition rot2_GetRot (r : Rotation2) : R := atan2 (rot2_s r) (rot2_c r).

(** frames.hpp:1098-1140 *)
Record Frame2 := mkF2 { f2M : Rotation2; f2p : Vector2 }.
Definition f2_id : Frame2 := mkF2 rot2_id v2_zero.
(** frames.inl:930-964 *)
Definition f2_mul (l r : Frame2) : Frame2 :=
  mkF2 (rot2_mul (f2M l) (f2M r)) (v2_add (rot2_app (f2M l) (f2p r)) (f2p l)).
Definition f2_app (f : Frame2) (v : Vector2) : Vector2 := v2_add (rot2_app (f2M f) v) (f2p f).
Definition f2_invapp (f : Frame2) (v : Vector2) : Vector2 := rot2_invapp (f2M f) (v2_sub v (f2p f)).
Definition f2_inv (f : Frame2) : Frame2 :=
  let M := rot2_inv (f2M f) in mkF2 M (v2_neg (rot2_app M (f2p f))).

(** frames.inl:458-482: the receiver's new value *)
Definition v_Set2DXY (this : Vector) (v : Vector2) : Vector := mkV (v2x v) (v2y v) 0.
Definition v_Set2DYZ (this : Vector) (v : Vector2) : Vector := mkV 0 (v2x v) (v2y v).
Definition v_Set2DZX (this : Vector) (v : Vector2) : Vector := mkV (v2y v) 0 (v2x v).
(** frames.inl:707-714: only the local [tmp_XY] is written, [*this] is not. *)
Definition v_Set2DPlane (this : Vector) (F_someframe_XY : Frame) (v_XY : Vector2) : Vector :=
  let tmp_XY := v_Set2DXY v_zero v_XY in
  let tmp_XY := f_app F_someframe_XY tmp_XY in
  this.
(** frames.inl:819-845 *)
Definition v2_Set3DXY (this : Vector2) (v : Vector) : Vector2 := mkV2 (vx v) (vy v).
Definition v2_Set3DYZ (this : Vector2) (v : Vector) : Vector2 := mkV2 (vy v) (vz v).
Definition v2_Set3DZX (this : Vector2) (v : Vector) : Vector2 := mkV2 (vz v) (vx v).
Definition v2_Set3DPlane (this : Vector2) (F : Frame) (v : Vector) : Vector2 :=
  let tmp := f_invapp F v in mkV2 (vx tmp) (vy tmp).
