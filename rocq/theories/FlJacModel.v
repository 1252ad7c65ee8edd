(** The Jacobian of a chain in rounded arithmetic: every operation is followed by a rounding function,
    as in [FlModel].  Overflow, infinities and NaN are not modelled. *)
From Coq Require Import Reals String List ZArith Bool.
From Verif Require Import FramesModel Outcome InertiaModel DualModel KinModel FlModel.
Import ListNotations.
Local Open Scope list_scope.
Local Open Scope R_scope.

Section Rounded.
Variable rnd : R -> R.
Variables fsin fcos : R -> R.

(** frames.inl:66-73 *)
Definition fl_v_sub (a b : Vector) : Vector := mkV (rnd (vx a - vx b)) (rnd (vy a - vy b)) (rnd (vz a - vz b)).
(** frames.inl:110-118 *)
Definition fl_v_cross (a b : Vector) : Vector :=
  mkV (rnd (rnd (vy a * vz b) - rnd (vz a * vy b)))
      (rnd (rnd (vz a * vx b) - rnd (vx a * vz b)))
      (rnd (rnd (vx a * vy b) - rnd (vy a * vx b))).
(** frames.inl:302-310 *)
Definition fl_t_RefPoint (t : Twist) (v_base_AB : Vector) : Twist :=
  mkT (fl_v_add rnd (tvel t) (fl_v_cross (trot t) v_base_AB)) (trot t).
(** frames.inl:535-542 *)
Definition fl_r_app_t (r : Rotation) (t : Twist) : Twist := mkT (fl_r_app rnd r (tvel t)) (fl_r_app rnd r (trot t)).

(** joint.cpp:93-116 *)
Definition fl_joint_twist (j : Joint) (qdot : R) : Twist :=
  let s := rnd (jscale j * qdot) in
  match jtype j with
  | RotAxis => mkT (mkV 0 0 0) (fl_v_scale rnd (jaxis j) s)
  | RotX => mkT (mkV 0 0 0) (mkV s 0 0)
  | RotY => mkT (mkV 0 0 0) (mkV 0 s 0)
  | RotZ => mkT (mkV 0 0 0) (mkV 0 0 s)
  | TransAxis => mkT (fl_v_scale rnd (jaxis j) s) (mkV 0 0 0)
  | TransX => mkT (mkV s 0 0) (mkV 0 0 0)
  | TransY => mkT (mkV 0 s 0) (mkV 0 0 0)
  | TransZ => mkT (mkV 0 0 s) (mkV 0 0 0)
  | Fixed => t_zero
  end.
(** segment.cpp:62-65 *)
Definition fl_segment_twist (s : Segment) (q qdot : R) : Twist :=
  fl_t_RefPoint (fl_joint_twist (sjoint s) qdot) (fl_r_app rnd (fM (fl_joint_pose rnd fsin fcos (sjoint s) q)) (fp (sf_tip s))).

(** chainjnttojacsolver.cpp:71-97: one iteration *)
Definition fl_jac_body (c : Chain) (locked : list bool) (q : list R) (i : nat) (st : jacstate) : outcome jacstate :=
  let! s := chain_getSegment c i in
  let! r :=
    (if moving s then
       let! x := aget q (js_j st) in
       let! l := aget locked (js_j st) in
       Ret (fl_f_mul rnd (js_T st) (fl_segment_pose rnd fsin fcos s x),
            if negb l then fl_r_app_t (fM (js_T st)) (fl_segment_twist s x 1) else js_t st)
     else Ret (fl_f_mul rnd (js_T st) (fl_segment_pose rnd fsin fcos s 0), js_t st)) in
  let '(total, t) := r in
  let! jac := jac_inplace (fun u => fl_t_RefPoint u (fl_v_sub (fp total) (fp (js_T st)))) (js_jac st) in
  if moving s then
    let! l := aget locked (js_j st) in
    if negb l then
      let! jac' := jac_setColumn jac (js_k st) t in
      Ret (mkJS (S (js_j st)) (S (js_k st)) total t jac')
    else Ret (mkJS (S (js_j st)) (js_k st) total t jac)
  else Ret (mkJS (js_j st) (js_k st) total t jac).

(** chainjnttojacsolver.cpp:48-99: (code, jac) *)
Definition fl_jac_JntToJac (c : Chain) (locked : list bool) (q : list R) (jac : list Twist) (seg_nr : Z)
  : outcome (Z * list Twist) :=
  if negb (Nat.eqb (length locked) (ch_nj c)) then Ret (E_NOT_UP_TO_DATE, jac)
  else
    let n := segment_nr c seg_nr in
    let jac0 := jac_zero jac in
    if negb (Nat.eqb (length q) (ch_nj c)) || negb (Nat.eqb (length jac) (ch_nj c))
    then Ret (E_SIZE_MISMATCH, jac0)
    else if Nat.ltb (ch_ns c) n then Ret (E_OUT_OF_RANGE, jac0)
    else
      let! st := for_loop n 0 (fl_jac_body c locked q) (mkJS 0 0 f_id t_zero jac0) in
      Ret (E_NOERROR, js_jac st).
End Rounded.
