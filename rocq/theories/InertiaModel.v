(** Model of the inertia classes of KDL: [RotationalInertia],
    [RigidBodyInertia], [ArticulatedBodyInertia].

    Sources: /repo/orocos_kdl/src/rotationalinertia.{hpp,cpp},
    rigidbodyinertia.{hpp,cpp}, articulatedbodyinertia.{hpp,cpp}.

    A 3x3 Eigen matrix is a value of type [Rotation] read as a plain matrix
    (fields r0..r8, row by row).  [Eigen::Map<Matrix3d>(data)] reads [data] in
    column-major order, hence it is the transpose of the row-major reading; this
    is kept explicitly as [eig]. *)
From Coq Require Import Reals.
From Verif Require Import FramesModel.
Local Open Scope R_scope.

(** Eigen 3x3 matrix arithmetic (Eigen itself is trusted). *)
Definition Mat3 := Rotation.
Definition m3_zero : Mat3 := mkR 0 0 0 0 0 0 0 0 0.
Definition m3_id : Mat3 := mkR 1 0 0 0 1 0 0 0 1.
Definition m3_add (a b : Mat3) : Mat3 :=
  mkR (r0 a + r0 b) (r1 a + r1 b) (r2 a + r2 b)
      (r3 a + r3 b) (r4 a + r4 b) (r5 a + r5 b)
      (r6 a + r6 b) (r7 a + r7 b) (r8 a + r8 b).
Definition m3_scale (s : R) (a : Mat3) : Mat3 :=
  mkR (s * r0 a) (s * r1 a) (s * r2 a) (s * r3 a) (s * r4 a) (s * r5 a) (s * r6 a) (s * r7 a) (s * r8 a).
Definition m3_sub (a b : Mat3) : Mat3 :=
  mkR (r0 a - r0 b) (r1 a - r1 b) (r2 a - r2 b)
      (r3 a - r3 b) (r4 a - r4 b) (r5 a - r5 b)
      (r6 a - r6 b) (r7 a - r7 b) (r8 a - r8 b).
Definition m3_mul (a b : Mat3) : Mat3 :=
  mkR (r0 a * r0 b + r1 a * r3 b + r2 a * r6 b) (r0 a * r1 b + r1 a * r4 b + r2 a * r7 b)
      (r0 a * r2 b + r1 a * r5 b + r2 a * r8 b)
      (r3 a * r0 b + r4 a * r3 b + r5 a * r6 b) (r3 a * r1 b + r4 a * r4 b + r5 a * r7 b)
      (r3 a * r2 b + r4 a * r5 b + r5 a * r8 b)
      (r6 a * r0 b + r7 a * r3 b + r8 a * r6 b) (r6 a * r1 b + r7 a * r4 b + r8 a * r7 b)
      (r6 a * r2 b + r7 a * r5 b + r8 a * r8 b).
Definition m3_tr (a : Mat3) : Mat3 := mkR (r0 a) (r3 a) (r6 a) (r1 a) (r4 a) (r7 a) (r2 a) (r5 a) (r8 a).
Definition m3_app (a : Mat3) (v : Vector) : Vector :=
  mkV (r0 a * vx v + r1 a * vy v + r2 a * vz v)
      (r3 a * vx v + r4 a * vy v + r5 a * vz v)
      (r6 a * vx v + r7 a * vy v + r8 a * vz v).
(** [a * b.transpose()] for two column vectors *)
Definition m3_outer (a b : Vector) : Mat3 :=
  mkR (vx a * vx b) (vx a * vy b) (vx a * vz b)
      (vy a * vx b) (vy a * vy b) (vy a * vz b)
      (vz a * vx b) (vz a * vy b) (vz a * vz b).
(** [Eigen::Map<Matrix3d>(data)] of a row-major array of nine numbers, and the
    array whose map is a given matrix *)
Definition eig (data : Mat3) : Mat3 := m3_tr data.
Definition uneig (m : Mat3) : Mat3 := m3_tr m.

(** * RotationalInertia *)

(** rotationalinertia.hpp:34,65: [double data[9]] *)
Record RotationalInertia := mkRI { ri_data : Mat3 }.
(** rotationalinertia.cpp:28-37 *)
Definition ri_make (Ixx Iyy Izz Ixy Ixz Iyz : R) : RotationalInertia :=
  mkRI (mkR Ixx Ixy Ixz Ixy Iyy Iyz Ixz Iyz Izz).
(** rotationalinertia.hpp:39-41 *)
Definition ri_zero : RotationalInertia := ri_make 0 0 0 0 0 0.
(** rotationalinertia.cpp:43-48 *)
Definition ri_app (I : RotationalInertia) (omega : Vector) : Vector := m3_app (eig (ri_data I)) omega.
(** rotationalinertia.cpp:50-54 *)
Definition ri_scale (a : R) (I : RotationalInertia) : RotationalInertia :=
  mkRI (uneig (m3_scale a (eig (ri_data I)))).
(** rotationalinertia.cpp:56-60 *)
Definition ri_add (Ia Ib : RotationalInertia) : RotationalInertia :=
  mkRI (uneig (m3_add (eig (ri_data Ia)) (eig (ri_data Ib)))).

(** * RigidBodyInertia *)

(** rigidbodyinertia.hpp:37,100-102 *)
Record RigidBodyInertia := mkRB { rb_m : R; rb_h : Vector; rb_I : RotationalInertia }.

(** rigidbodyinertia.cpp:35-40: mass, centre of gravity, inertia at the cog *)
Definition rb_make (m : R) (c : Vector) (Ic : RotationalInertia) : RigidBodyInertia :=
  mkRB m (v_scale_l m c)
    (mkRI (uneig (m3_sub (eig (ri_data Ic))
                         (m3_scale m (m3_sub (m3_outer c c) (m3_scale (v_dot c c) m3_id)))))).
(** rigidbodyinertia.hpp:49-51 *)
Definition rb_zero : RigidBodyInertia := rb_make 0 v_zero ri_zero.
(** rigidbodyinertia.cpp:42-44 *)
Definition rb_scale (a : R) (I : RigidBodyInertia) : RigidBodyInertia :=
  mkRB (a * rb_m I) (v_scale_l a (rb_h I)) (ri_scale a (rb_I I)).
(** rigidbodyinertia.cpp:46-48 *)
Definition rb_add (Ia Ib : RigidBodyInertia) : RigidBodyInertia :=
  mkRB (rb_m Ia + rb_m Ib) (v_add (rb_h Ia) (rb_h Ib)) (ri_add (rb_I Ia) (rb_I Ib)).
(** rigidbodyinertia.cpp:50-52 *)
Definition rb_app (I : RigidBodyInertia) (t : Twist) : Wrench :=
  mkW (v_sub (v_scale_l (rb_m I) (tvel t)) (v_cross (rb_h I) (trot t)))
      (v_add (ri_app (rb_I I) (trot t)) (v_cross (rb_h I) (tvel t))).
(** rigidbodyinertia.cpp:54-70 *)
Definition f_app_rb (T : Frame) (I : RigidBodyInertia) : RigidBodyInertia :=
  let X := f_inv T in
  let hmr := v_sub (rb_h I) (v_scale_l (rb_m I) (fp X)) in
  let r := fp X in
  let rcrosshcross := m3_sub (m3_outer (rb_h I) r) (m3_scale (v_dot r (rb_h I)) m3_id) in
  let hmrcrossrcross := m3_sub (m3_outer r hmr) (m3_scale (v_dot hmr r) m3_id) in
  let RR := eig (fM X) in
  let Ib := mkRI (uneig (m3_mul RR (m3_mul (m3_add (m3_add (eig (ri_data (rb_I I))) rcrosshcross) hmrcrossrcross)
                                          (m3_tr RR)))) in
  mkRB (rb_m I) (r_app (fM T) hmr) Ib.
(** rigidbodyinertia.cpp:72-81 *)
Definition r_app_rb (M : Rotation) (I : RigidBodyInertia) : RigidBodyInertia :=
  let RR := eig M in
  mkRB (rb_m I) (r_app M (rb_h I)) (mkRI (uneig (m3_mul (m3_tr RR) (m3_mul (eig (ri_data (rb_I I))) RR)))).
(** rigidbodyinertia.cpp:83-97 *)
Definition rb_RefPoint (I : RigidBodyInertia) (p : Vector) : RigidBodyInertia :=
  let hmr := v_sub (rb_h I) (v_scale_l (rb_m I) p) in
  let rcrosshcross := m3_sub (m3_outer (rb_h I) p) (m3_scale (v_dot p (rb_h I)) m3_id) in
  let hmrcrossrcross := m3_sub (m3_outer p hmr) (m3_scale (v_dot hmr p) m3_id) in
  mkRB (rb_m I) hmr
       (mkRI (uneig (m3_add (m3_add (eig (ri_data (rb_I I))) rcrosshcross) hmrcrossrcross))).
(** rigidbodyinertia.hpp:86-89 *)
Definition rb_getCOG (I : RigidBodyInertia) : Vector :=
  if Req_EM_T (rb_m I) 0 then v_zero else v_div (rb_h I) (rb_m I).

(** * ArticulatedBodyInertia *)

(** articulatedbodyinertia.hpp:40,89-91 *)
Record ArticulatedBodyInertia := mkAB { ab_M : Mat3; ab_H : Mat3; ab_I : Mat3 }.
(** the cross-product matrix written out at articulatedbodyinertia.cpp:32-34,
    82-84 and 100-102 *)
Definition m3_skew (v : Vector) : Mat3 :=
  mkR 0 (- vz v) (vy v) (vz v) 0 (- vx v) (- vy v) (vx v) 0.
(** articulatedbodyinertia.hpp:65-67 *)
Definition ab_zero : ArticulatedBodyInertia := mkAB m3_zero m3_zero m3_zero.
(** articulatedbodyinertia.cpp:28-35 *)
Definition ab_of_rb (I : RigidBodyInertia) : ArticulatedBodyInertia :=
  mkAB (m3_scale (rb_m I) m3_id) (m3_skew (rb_h I)) (eig (ri_data (rb_I I))).
(** articulatedbodyinertia.cpp:49-51 *)
Definition ab_scale (a : R) (I : ArticulatedBodyInertia) : ArticulatedBodyInertia :=
  mkAB (m3_scale a (ab_M I)) (m3_scale a (ab_H I)) (m3_scale a (ab_I I)).
(** articulatedbodyinertia.cpp:53-55 *)
Definition ab_add (Ia Ib : ArticulatedBodyInertia) : ArticulatedBodyInertia :=
  mkAB (m3_add (ab_M Ia) (ab_M Ib)) (m3_add (ab_H Ia) (ab_H Ib)) (m3_add (ab_I Ia) (ab_I Ib)).
(** articulatedbodyinertia.cpp:60-62 *)
Definition ab_sub (Ia Ib : ArticulatedBodyInertia) : ArticulatedBodyInertia :=
  mkAB (m3_sub (ab_M Ia) (ab_M Ib)) (m3_sub (ab_H Ia) (ab_H Ib)) (m3_sub (ab_I Ia) (ab_I Ib)).
(** articulatedbodyinertia.cpp:68-73 *)
Definition ab_app (I : ArticulatedBodyInertia) (t : Twist) : Wrench :=
  mkW (v_add (m3_app (ab_M I) (tvel t)) (m3_app (m3_tr (ab_H I)) (trot t)))
      (v_add (m3_app (ab_I I) (trot t)) (m3_app (ab_H I) (tvel t))).
(** articulatedbodyinertia.cpp:75-88 *)
Definition f_app_ab (T : Frame) (I : ArticulatedBodyInertia) : ArticulatedBodyInertia :=
  let X := f_inv T in
  let E := eig (fM X) in
  let rcross := m3_skew (fp X) in
  let HrM := m3_sub (ab_H I) (m3_mul rcross (ab_M I)) in
  mkAB (m3_mul (m3_mul E (ab_M I)) (m3_tr E))
       (m3_mul (m3_mul E HrM) (m3_tr E))
       (m3_mul (m3_mul E (m3_add (m3_sub (ab_I I) (m3_mul rcross (m3_tr (ab_H I)))) (m3_mul HrM rcross))) (m3_tr E)).
(** articulatedbodyinertia.cpp:90-93 *)
Definition r_app_ab (M : Rotation) (I : ArticulatedBodyInertia) : ArticulatedBodyInertia :=
  let E := eig M in
  mkAB (m3_mul (m3_mul (m3_tr E) (ab_M I)) E) (m3_mul (m3_mul (m3_tr E) (ab_H I)) E)
       (m3_mul (m3_mul (m3_tr E) (ab_I I)) E).
(** articulatedbodyinertia.cpp:95-106 *)
Definition ab_RefPoint (I : ArticulatedBodyInertia) (p : Vector) : ArticulatedBodyInertia :=
  let rcross := m3_skew p in
  let HrM := m3_sub (ab_H I) (m3_mul rcross (ab_M I)) in
  mkAB (ab_M I) HrM (m3_add (m3_sub (ab_I I) (m3_mul rcross (m3_tr (ab_H I)))) (m3_mul HrM rcross)).
