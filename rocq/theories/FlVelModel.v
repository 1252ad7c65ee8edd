(** Forward velocity kinematics in rounded arithmetic: every operation is followed by a rounding
    function, as in [FlModel].  Overflow, infinities and NaN are not modelled. *)
From Coq Require Import Reals String List ZArith Bool.
From Verif Require Import FramesModel Outcome InertiaModel DualModel KinModel FlModel FlJacModel.
Import ListNotations.
Local Open Scope list_scope.
Local Open Scope R_scope.

Section Rounded.
Variable rnd : R -> R.
Variables fsin fcos : R -> R.

(** framevel.inl:129-131 *)
Definition fl_rv_mul (a b : RotationVel) : RotationVel :=
  mkRV (fl_r_mul rnd (rvR a) (rvR b)) (fl_v_add rnd (rvw a) (fl_r_app rnd (rvR a) (rvw b))).
(** framevel.inl:189-192 *)
Definition fl_rv_app (a : RotationVel) (x : VectorVel) : VectorVel :=
  let tmp := fl_r_app rnd (rvR a) (vvp x) in
  mkVV tmp (fl_v_add rnd (fl_v_cross rnd (rvw a) tmp) (fl_r_app rnd (rvR a) (vvv x))).
(** framevel.inl:245-247 *)
Definition fl_vv_add (a b : VectorVel) : VectorVel := mkVV (fl_v_add rnd (vvp a) (vvp b)) (fl_v_add rnd (vvv a) (vvv b)).
(** framevel.inl:33-36 *)
Definition fl_fv_mul (a b : FrameVel) : FrameVel :=
  mkFV (fl_rv_mul (fvM a) (fvM b)) (fl_vv_add (fl_rv_app (fvM a) (fvp b)) (fvp a)).

(** chainfksolvervel_recursive.cpp:53-63: one iteration; state (j, out) *)
Definition fl_fkvel_body (c : Chain) (q qdot : list R) (i : nat) (st : nat * FrameVel) : outcome (nat * FrameVel) :=
  let '(j, p) := st in
  let! s := chain_getSegment c i in
  if moving s then
    let! x := aget q j in
    let! xd := aget qdot j in
    Ret (S j, fl_fv_mul p (fv_make (fl_segment_pose rnd fsin fcos s x) (fl_segment_twist rnd fsin fcos s x xd)))
  else Ret (j, fl_fv_mul p (fv_make (fl_segment_pose rnd fsin fcos s 0) (fl_segment_twist rnd fsin fcos s 0 0))).

(** chainfksolvervel_recursive.cpp:37-66 *)
Definition fl_fkvel_JntToCart (c : Chain) (q qdot : list R) (seg_nr : Z) : outcome (Z * FrameVel) :=
  let n := segment_nr c seg_nr in
  let p := fv_id in
  if negb (Nat.eqb (length q) (ch_nj c) && Nat.eqb (length qdot) (ch_nj c)) then Ret (E_SIZE_MISMATCH, p)
  else if Nat.ltb (ch_ns c) n then Ret (E_OUT_OF_RANGE, p)
  else let! st := for_loop n 0 (fl_fkvel_body c q qdot) (0%nat, p) in
       Ret (E_NOERROR, snd st).
End Rounded.
