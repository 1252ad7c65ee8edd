(** Forward kinematics in rounded arithmetic.

    The other model files take a C++ double for a real number.  Here every operation is
    followed by a rounding function [rnd], in the order in which the C++ expressions are
    evaluated (left to right, no contraction into fused operations), and sin and cos are
    the functions [fsin] and [fcos] of the C library.  Negation, copying and the constants
    0 and 1 are exact.  Overflow, infinities and NaN are not modelled. *)
From Coq Require Import Reals String List ZArith Bool.
From Verif Require Import FramesModel Outcome InertiaModel DualModel KinModel.
Import ListNotations.
Local Open Scope list_scope.
Local Open Scope R_scope.

Section Rounded.
Variable rnd : R -> R.
Variables fsin fcos : R -> R.

(** a * b + c * d + e * f *)
Definition fl_dot3 (a b c d e f : R) : R := rnd (rnd (rnd (a * b) + rnd (c * d)) + rnd (e * f)).

(** frames.inl:57-64 (operator +), 83-90 (operator * with a number) *)
Definition fl_v_add (a b : Vector) : Vector := mkV (rnd (vx a + vx b)) (rnd (vy a + vy b)) (rnd (vz a + vz b)).
Definition fl_v_scale (a : Vector) (s : R) : Vector := mkV (rnd (vx a * s)) (rnd (vy a * s)) (rnd (vz a * s)).

(** frames.inl:526-533 *)
Definition fl_r_app (r : Rotation) (v : Vector) : Vector :=
  mkV (fl_dot3 (r0 r) (vx v) (r1 r) (vy v) (r2 r) (vz v))
      (fl_dot3 (r3 r) (vx v) (r4 r) (vy v) (r5 r) (vz v))
      (fl_dot3 (r6 r) (vx v) (r7 r) (vy v) (r8 r) (vz v)).

(** frames.cpp:173-188 *)
Definition fl_r_mul (l r : Rotation) : Rotation :=
  mkR (fl_dot3 (r0 l) (r0 r) (r1 l) (r3 r) (r2 l) (r6 r))
      (fl_dot3 (r0 l) (r1 r) (r1 l) (r4 r) (r2 l) (r7 r))
      (fl_dot3 (r0 l) (r2 r) (r1 l) (r5 r) (r2 l) (r8 r))
      (fl_dot3 (r3 l) (r0 r) (r4 l) (r3 r) (r5 l) (r6 r))
      (fl_dot3 (r3 l) (r1 r) (r4 l) (r4 r) (r5 l) (r7 r))
      (fl_dot3 (r3 l) (r2 r) (r4 l) (r5 r) (r5 l) (r8 r))
      (fl_dot3 (r6 l) (r0 r) (r7 l) (r3 r) (r8 l) (r6 r))
      (fl_dot3 (r6 l) (r1 r) (r7 l) (r4 r) (r8 l) (r7 r))
      (fl_dot3 (r6 l) (r2 r) (r7 l) (r5 r) (r8 l) (r8 r)).

(** frames.inl:406-410 *)
Definition fl_f_mul (l r : Frame) : Frame :=
  mkF (fl_r_mul (fM l) (fM r)) (fl_v_add (fl_r_app (fM l) (fp r)) (fp l)).

(** frames.inl:605-619 *)
Definition fl_RotX (angle : R) : Rotation :=
  let cs := fcos angle in let sn := fsin angle in mkR 1 0 0 0 cs (- sn) 0 sn cs.
Definition fl_RotY (angle : R) : Rotation :=
  let cs := fcos angle in let sn := fsin angle in mkR cs 0 sn 0 1 0 (- sn) 0 cs.
Definition fl_RotZ (angle : R) : Rotation :=
  let cs := fcos angle in let sn := fsin angle in mkR cs (- sn) 0 sn cs 0 0 0 1.

(** frames.cpp:303-332 *)
Definition fl_Rot2 (rotvec : Vector) (angle : R) : Rotation :=
  let ct := fcos angle in
  let st := fsin angle in
  let vt := rnd (1 - ct) in
  let m_vt_0 := rnd (vt * vx rotvec) in
  let m_vt_1 := rnd (vt * vy rotvec) in
  let m_vt_2 := rnd (vt * vz rotvec) in
  let m_st_0 := rnd (vx rotvec * st) in
  let m_st_1 := rnd (vy rotvec * st) in
  let m_st_2 := rnd (vz rotvec * st) in
  let m_vt_0_1 := rnd (m_vt_0 * vy rotvec) in
  let m_vt_0_2 := rnd (m_vt_0 * vz rotvec) in
  let m_vt_1_2 := rnd (m_vt_1 * vz rotvec) in
  mkR (rnd (ct + rnd (m_vt_0 * vx rotvec))) (rnd (- m_st_2 + m_vt_0_1)) (rnd (m_st_1 + m_vt_0_2))
      (rnd (m_st_2 + m_vt_0_1)) (rnd (ct + rnd (m_vt_1 * vy rotvec))) (rnd (- m_st_0 + m_vt_1_2))
      (rnd (- m_st_1 + m_vt_0_2)) (rnd (m_st_0 + m_vt_1_2)) (rnd (ct + rnd (m_vt_2 * vz rotvec))).

(** joint.cpp:68-91 *)
Definition fl_joint_pose (j : Joint) (q : R) : Frame :=
  let a := rnd (rnd (jscale j * q) + joffset j) in
  match jtype j with
  | RotAxis => mkF (fl_Rot2 (jaxis j) a) (jorigin j)
  | RotX => f_of_rot (fl_RotX a)
  | RotY => f_of_rot (fl_RotY a)
  | RotZ => f_of_rot (fl_RotZ a)
  | TransAxis => f_of_vec (fl_v_add (jorigin j) (fl_v_scale (jaxis j) a))
  | TransX => f_of_vec (mkV a 0 0)
  | TransY => f_of_vec (mkV 0 a 0)
  | TransZ => f_of_vec (mkV 0 0 a)
  | Fixed => f_id
  end.

(** segment.cpp:57-60 *)
Definition fl_segment_pose (s : Segment) (q : R) : Frame := fl_f_mul (fl_joint_pose (sjoint s) q) (sf_tip s).

(** chainfksolverpos_recursive.cpp:49-56: one iteration; state (j, p_out) *)
Definition fl_fk_body (c : Chain) (q : list R) (i : nat) (st : nat * Frame) : outcome (nat * Frame) :=
  let '(j, p) := st in
  let! s := chain_getSegment c i in
  if moving s then
    let! x := aget q j in
    Ret (S j, fl_f_mul p (fl_segment_pose s x))
  else Ret (j, fl_f_mul p (fl_segment_pose s 0)).

(** chainfksolverpos_recursive.cpp:34-59: (return code, p_out) *)
Definition fl_fk_JntToCart (c : Chain) (q : list R) (seg_nr : Z) : outcome (Z * Frame) :=
  let n := segment_nr c seg_nr in
  let p := f_id in
  if negb (Nat.eqb (length q) (ch_nj c)) then Ret (E_SIZE_MISMATCH, p)
  else if Nat.ltb (ch_ns c) n then Ret (E_OUT_OF_RANGE, p)
  else let! st := for_loop n 0 (fl_fk_body c q) (0%nat, p) in
       Ret (E_NOERROR, snd st).
End Rounded.
