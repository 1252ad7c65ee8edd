(** Model of the comparison operators and of the hash functions of the geometric types.

    Sources (in /repo/orocos_kdl/src): frames.inl, frames.cpp, framevel.inl, frameacc.inl, frames.hpp, framevel.hpp,
    frameacc.hpp, utilities/rall1d.h, utilities/rall2d.h, utilities/hash_combine.h; KDL_USE_EQUAL is defined
    (utilities/kdl-config.h:33).  Doubles are reals; std::size_t has 64 bits; std::hash<double> is a parameter. *)
From Coq Require Import Reals ZArith Bool.
From Verif Require Import FramesModel DualModel.
Local Open Scope R_scope.

(** * Equal *)
(** frames.inl:1054-1057 *)
Definition v2_Equal (a b : Vector2) (eps : R) : bool := Equal_d (v2x a) (v2x b) eps && Equal_d (v2y a) (v2y b) eps.
(** frames.inl:1059-1061 *)
Definition rot2_Equal (a b : Rotation2) (eps : R) : bool := Equal_d (rot2_c a) (rot2_c b) eps && Equal_d (rot2_s a) (rot2_s b) eps.
(** frames.inl:1063-1066 *)
Definition f2_Equal (a b : Frame2) (eps : R) : bool := v2_Equal (f2p a) (f2p b) eps && rot2_Equal (f2M a) (f2M b) eps.
(** rall1d.h:469-472 *)
Definition d1_Equal (y x : dVel) (eps : R) : bool := Equal_d (d1t x) (d1t y) eps && Equal_d (d1g x) (d1g y) eps.
(** rall2d.h:525-532 *)
Definition d2_Equal (y x : dAcc) (eps : R) : bool :=
  Equal_d (d2t x) (d2t y) eps && Equal_d (d2d x) (d2d y) eps && Equal_d (d2dd x) (d2dd y) eps.
(** framevel.inl:360-368 *)
Definition vv_Equal (a b : VectorVel) (eps : R) : bool := v_Equal (vvp a) (vvp b) eps && v_Equal (vvv a) (vvv b) eps.
Definition vv_Equal_l (a : Vector) (b : VectorVel) (eps : R) : bool := v_Equal a (vvp b) eps && v_Equal v_zero (vvv b) eps.
Definition vv_Equal_r (a : VectorVel) (b : Vector) (eps : R) : bool := v_Equal (vvp a) b eps && v_Equal (vvv a) v_zero eps.
(** framevel.inl:404-412 *)
Definition rv_Equal (a b : RotationVel) (eps : R) : bool := v_Equal (rvw a) (rvw b) eps && r_Equal (rvR a) (rvR b) eps.
Definition rv_Equal_l (a : Rotation) (b : RotationVel) (eps : R) : bool := v_Equal v_zero (rvw b) eps && r_Equal a (rvR b) eps.
Definition rv_Equal_r (a : RotationVel) (b : Rotation) (eps : R) : bool := v_Equal (rvw a) v_zero eps && r_Equal (rvR a) b eps.
(** framevel.inl:75-83 *)
Definition fv_Equal (a b : FrameVel) (eps : R) : bool := rv_Equal (fvM a) (fvM b) eps && vv_Equal (fvp a) (fvp b) eps.
Definition fv_Equal_l (a : Frame) (b : FrameVel) (eps : R) : bool := rv_Equal_l (fM a) (fvM b) eps && vv_Equal_l (fp a) (fvp b) eps.
Definition fv_Equal_r (a : FrameVel) (b : Frame) (eps : R) : bool := rv_Equal_r (fvM a) (fM b) eps && vv_Equal_r (fvp a) (fp b) eps.
(** framevel.inl:448-459 *)
Definition tv_Equal (a b : TwistVel) (eps : R) : bool := vv_Equal (tvrot a) (tvrot b) eps && vv_Equal (tvvel a) (tvvel b) eps.
Definition tv_Equal_l (a : Twist) (b : TwistVel) (eps : R) : bool := vv_Equal_l (trot a) (tvrot b) eps && vv_Equal_l (tvel a) (tvvel b) eps.
Definition tv_Equal_r (a : TwistVel) (b : Twist) (eps : R) : bool := vv_Equal_r (tvrot a) (trot b) eps && vv_Equal_r (tvvel a) (tvel b) eps.
(** frameacc.inl:159-178 *)
Definition va_Equal (a b : VectorAcc) (eps : R) : bool :=
  v_Equal (vap a) (vap b) eps && v_Equal (vav a) (vav b) eps && v_Equal (vadv a) (vadv b) eps.
Definition va_Equal_l (a : Vector) (b : VectorAcc) (eps : R) : bool :=
  v_Equal a (vap b) eps && v_Equal v_zero (vav b) eps && v_Equal v_zero (vadv b) eps.
Definition va_Equal_r (a : VectorAcc) (b : Vector) (eps : R) : bool :=
  v_Equal (vap a) b eps && v_Equal (vav a) v_zero eps && v_Equal (vadv a) v_zero eps.
(** frameacc.inl:323-333 *)
Definition ra_Equal (a b : RotationAcc) (eps : R) : bool :=
  v_Equal (raw a) (raw b) eps && r_Equal (raR a) (raR b) eps && v_Equal (radw a) (radw b) eps.
Definition ra_Equal_l (a : Rotation) (b : RotationAcc) (eps : R) : bool :=
  v_Equal v_zero (raw b) eps && r_Equal a (raR b) eps && v_Equal v_zero (radw b) eps.
Definition ra_Equal_r (a : RotationAcc) (b : Rotation) (eps : R) : bool :=
  v_Equal (raw a) v_zero eps && r_Equal (raR a) b eps && v_Equal (radw a) v_zero eps.
(** frameacc.inl:393-401 *)
Definition fa_Equal (a b : FrameAcc) (eps : R) : bool := ra_Equal (faM a) (faM b) eps && va_Equal (fap a) (fap b) eps.
Definition fa_Equal_l (a : Frame) (b : FrameAcc) (eps : R) : bool := ra_Equal_l (fM a) (faM b) eps && va_Equal_l (fp a) (fap b) eps.
Definition fa_Equal_r (a : FrameAcc) (b : Frame) (eps : R) : bool := ra_Equal_r (faM a) (fM b) eps && va_Equal_r (fap a) (fp b) eps.
(** frameacc.inl:586-597 *)
Definition ta_Equal (a b : TwistAcc) (eps : R) : bool := va_Equal (tarot a) (tarot b) eps && va_Equal (tavel a) (tavel b) eps.
Definition ta_Equal_l (a : Twist) (b : TwistAcc) (eps : R) : bool := va_Equal_l (trot a) (tarot b) eps && va_Equal_l (tvel a) (tavel b) eps.
Definition ta_Equal_r (a : TwistAcc) (b : Twist) (eps : R) : bool := va_Equal_r (tarot a) (trot b) eps && va_Equal_r (tavel a) (tvel b) eps.

(** * operator== and operator!= : Equal with the default argument [epsilon] *)
(** frames.inl:1275-1343, frames.cpp:430-444 *)
Definition v_eq (a b : Vector) : bool := v_Equal a b kdl_epsilon.
Definition r_eq (a b : Rotation) : bool := r_Equal a b kdl_epsilon.
Definition f_eq (a b : Frame) : bool := f_Equal a b kdl_epsilon.
Definition t_eq (a b : Twist) : bool := t_Equal a b kdl_epsilon.
Definition w_eq (a b : Wrench) : bool := w_Equal a b kdl_epsilon.
Definition v2_eq (a b : Vector2) : bool := v2_Equal a b kdl_epsilon.
Definition v_ne (a b : Vector) : bool := negb (v_eq a b).
Definition r_ne (a b : Rotation) : bool := negb (r_eq a b).
Definition f_ne (a b : Frame) : bool := negb (f_eq a b).
Definition t_ne (a b : Twist) : bool := negb (t_eq a b).
Definition w_ne (a b : Wrench) : bool := negb (w_eq a b).
Definition v2_ne (a b : Vector2) : bool := negb (v2_eq a b).
(** rall1d.h:475-488, rall2d.h:535-551 *)
Definition d1_eq (y x : dVel) : bool := d1_Equal y x kdl_epsilon.
Definition d2_eq (y x : dAcc) : bool := d2_Equal y x kdl_epsilon.
(** framevel.inl:84-94, 369-379, 413-423, 460-470 *)
Definition vv_eq (a b : VectorVel) : bool := vv_Equal a b kdl_epsilon.
Definition rv_eq (a b : RotationVel) : bool := rv_Equal a b kdl_epsilon.
Definition fv_eq (a b : FrameVel) : bool := fv_Equal a b kdl_epsilon.
Definition tv_eq (a b : TwistVel) : bool := tv_Equal a b kdl_epsilon.
Definition vv_ne (a b : VectorVel) : bool := negb (vv_eq a b).
Definition rv_ne (a b : RotationVel) : bool := negb (rv_eq a b).
Definition fv_ne (a b : FrameVel) : bool := negb (fv_eq a b).
Definition tv_ne (a b : TwistVel) : bool := negb (tv_eq a b).

(** * std::hash *)
Local Open Scope Z_scope.
Definition word : Z := 2 ^ 64.
(** hash_combine.h:19-24, on the hash [h] of the object *)
Definition combine (seed h : Z) : Z :=
  Z.lxor seed ((h + 0x9e3779b9 + (Z.shiftl seed 6) mod word + Z.shiftr seed 2) mod word).
Section Hash.
(** std::hash<double> *)
Variable hd : R -> Z.
(** frames.hpp:1262-1352 *)
Definition hash_v (v : Vector) : Z := combine (combine (combine 0 (hd (vx v))) (hd (vy v))) (hd (vz v)).
Definition hash_r (r : Rotation) : Z :=
  let '(x, y, z, w) := r_GetQuaternion r in combine (combine (combine (combine 0 (hd x)) (hd y)) (hd z)) (hd w).
Definition hash_f (f : Frame) : Z := combine (combine 0 (hash_v (fp f))) (hash_r (fM f)).
Definition hash_w (w : Wrench) : Z := combine (combine 0 (hash_v (wforce w))) (hash_v (wtorque w)).
Definition hash_t (t : Twist) : Z := combine (combine 0 (hash_v (tvel t))) (hash_v (trot t)).
Definition hash_v2 (v : Vector2) : Z := combine (combine 0 (hd (v2x v))) (hd (v2y v)).
Definition hash_rot2 (r : Rotation2) : Z := combine 0 (hd (rot2_GetRot r)).
Definition hash_f2 (f : Frame2) : Z := combine (combine 0 (hash_v2 (f2p f))) (hash_rot2 (f2M f)).
(** framevel.hpp:415-468 *)
Definition hash_d1 (d : dVel) : Z := combine (combine 0 (hd (d1t d))) (hd (d1g d)).
Definition hash_vv (v : VectorVel) : Z := combine (combine 0 (hash_v (vvp v))) (hash_v (vvv v)).
Definition hash_rv (r : RotationVel) : Z := combine (combine 0 (hash_r (rvR r))) (hash_v (rvw r)).
Definition hash_fv (f : FrameVel) : Z := combine (combine 0 (hash_rv (fvM f))) (hash_vv (fvp f)).
Definition hash_tv (t : TwistVel) : Z := combine (combine 0 (hash_vv (tvvel t))) (hash_vv (tvrot t)).
(** frameacc.hpp:257-313 *)
Definition hash_d2 (d : dAcc) : Z := combine (combine (combine 0 (hd (d2t d))) (hd (d2d d))) (hd (d2dd d)).
Definition hash_va (v : VectorAcc) : Z := combine (combine (combine 0 (hash_v (vap v))) (hash_v (vav v))) (hash_v (vadv v)).
Definition hash_ra (r : RotationAcc) : Z := combine (combine (combine 0 (hash_r (raR r))) (hash_v (raw r))) (hash_v (radw r)).
Definition hash_fa (f : FrameAcc) : Z := combine (combine 0 (hash_ra (faM f))) (hash_va (fap f)).
Definition hash_ta (t : TwistAcc) : Z := combine (combine 0 (hash_va (tavel t))) (hash_va (tarot t)).
End Hash.
