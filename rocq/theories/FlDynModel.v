(** Inverse dynamics of a chain in rounded arithmetic: the solver of [DynModel] with a rounding after every operation;
    conventions as in [FlModel].  Overflow, infinities and NaN are not modelled. *)
From Coq Require Import Reals String List ZArith Bool.
From Verif Require Import FramesModel Outcome InertiaModel DualModel KinModel LinModel DynModel FlModel FlJacModel FlRotModel.
Import ListNotations.
Local Open Scope list_scope.
Local Open Scope R_scope.

Section Rounded.
Variable rnd : R -> R.
Variables fsin fcos : R -> R.

(** frames.inl:92-99 *)
Definition fl_v_scale_l (s : R) (a : Vector) : Vector := mkV (rnd (s * vx a)) (rnd (s * vy a)) (rnd (s * vz a)).
(** frames.inl:1012-1014 *)
Definition fl_v_dot (a b : Vector) : R := fl_dot3 rnd (vx b) (vx a) (vy b) (vy a) (vz b) (vz a).
(** frames.inl:361-366 and 345-350 *)
Definition fl_t_add (a b : Twist) : Twist := mkT (fl_v_add rnd (tvel a) (tvel b)) (fl_v_add rnd (trot a) (trot b)).
Definition fl_t_scale (a : Twist) (s : R) : Twist := mkT (fl_v_scale rnd (tvel a) s) (fl_v_scale rnd (trot a) s).
(** frames.inl:379-382 *)
Definition fl_t_cross (l r : Twist) : Twist :=
  mkT (fl_v_add rnd (fl_v_cross rnd (trot l) (tvel r)) (fl_v_cross rnd (tvel l) (trot r))) (fl_v_cross rnd (trot l) (trot r)).
(** frames.inl:180-183 *)
Definition fl_r_invapp_t (r : Rotation) (t : Twist) : Twist := mkT (fl_r_invapp rnd r (tvel t)) (fl_r_invapp rnd r (trot t)).
(** frames.inl:282-288 *)
Definition fl_f_invapp_t (f : Frame) (t : Twist) : Twist :=
  mkT (fl_r_invapp rnd (fM f) (fl_v_sub rnd (tvel t) (fl_v_cross rnd (fp f) (trot t)))) (fl_r_invapp rnd (fM f) (trot t)).
(** frames.inl:258-267 *)
Definition fl_w_add (a b : Wrench) : Wrench := mkW (fl_v_add rnd (wforce a) (wforce b)) (fl_v_add rnd (wtorque a) (wtorque b)).
Definition fl_w_sub (a b : Wrench) : Wrench := mkW (fl_v_sub rnd (wforce a) (wforce b)) (fl_v_sub rnd (wtorque a) (wtorque b)).
(** frames.inl:383-386 *)
Definition fl_tw_cross (l : Twist) (r : Wrench) : Wrench :=
  mkW (fl_v_cross rnd (trot l) (wforce r)) (fl_v_add rnd (fl_v_cross rnd (trot l) (wtorque r)) (fl_v_cross rnd (tvel l) (wforce r))).
(** frames.inl:1016-1022 *)
Definition fl_tw_dot (t : Twist) (w : Wrench) : R := rnd (fl_v_dot (tvel t) (wforce w) + fl_v_dot (trot t) (wtorque w)).
(** frames.inl:156-163 *)
Definition fl_f_app_w (f : Frame) (w : Wrench) : Wrench :=
  let force := fl_r_app rnd (fM f) (wforce w) in
  mkW force (fl_v_add rnd (fl_r_app rnd (fM f) (wtorque w)) (fl_v_cross rnd (fp f) force)).
(** rotationalinertia.cpp:43-48; the order of Eigen's sums is taken to be from left to right *)
Definition fl_ri_app (I : RotationalInertia) (omega : Vector) : Vector := fl_r_app rnd (eig (ri_data I)) omega.
(** rigidbodyinertia.cpp:50-52 *)
Definition fl_rb_app (I : RigidBodyInertia) (t : Twist) : Wrench :=
  mkW (fl_v_sub rnd (fl_v_scale_l (rb_m I) (tvel t)) (fl_v_cross rnd (rb_h I) (trot t)))
      (fl_v_add rnd (fl_ri_app (rb_I I) (trot t)) (fl_v_cross rnd (rb_h I) (tvel t))).

(** chainidsolver_recursive_newton_euler.cpp:55-86 *)
Definition fl_rne_fwd_body (c : Chain) (ag : Twist) (q qd qdd : list R) (fext : list Wrench)
    (i : nat) (st : rnesweep) : outcome rnesweep :=
  let! s := chain_getSegment c i in
  let! r :=
    (if moving s then
       let! x := aget q (sw_j st) in
       let! xd := aget qd (sw_j st) in
       let! xdd := aget qdd (sw_j st) in
       Ret (x, xd, xdd, S (sw_j st))
     else Ret (0, 0, 0, sw_j st)) in
  let '(x, xd, xdd, j') := r in
  let! Xs := aset (sw_X st) i (fl_segment_pose rnd fsin fcos s x) in
  let! Xi := aget Xs i in
  let vj := fl_r_invapp_t (fM Xi) (fl_segment_twist rnd fsin fcos s x xd) in
  let! Ss := aset (sw_S st) i (fl_r_invapp_t (fM Xi) (fl_segment_twist rnd fsin fcos s x 1)) in
  let! Si := aget Ss i in
  let! va :=
    (if Nat.eqb i 0 then
       let! vs := aset (sw_v st) i vj in
       let! vi := aget vs i in
       let! as_ := aset (sw_a st) i (fl_t_add (fl_t_add (fl_f_invapp_t Xi ag) (fl_t_scale Si xdd)) (fl_t_cross vi vj)) in
       Ret (vs, as_)
     else
       let! vp := aget (sw_v st) (i - 1) in
       let! vs := aset (sw_v st) i (fl_t_add (fl_f_invapp_t Xi vp) vj) in
       let! vi := aget vs i in
       let! ap := aget (sw_a st) (i - 1) in
       let! as_ := aset (sw_a st) i (fl_t_add (fl_t_add (fl_f_invapp_t Xi ap) (fl_t_scale Si xdd)) (fl_t_cross vi vj)) in
       Ret (vs, as_)) in
  let '(vs, as_) := va in
  let Ii := sI s in
  let! vi := aget vs i in
  let! ai := aget as_ i in
  let! fe := aget fext i in
  let! fs := aset (sw_f st) i (fl_w_sub (fl_w_add (fl_rb_app Ii ai) (fl_tw_cross vi (fl_rb_app Ii vi))) fe) in
  Ret (mkSw j' Xs Ss vs as_ fs).

(** chainidsolver_recursive_newton_euler.cpp:89-97 *)
Definition fl_rne_bwd_body (c : Chain) (ns : nat) (Xs : list Frame) (Ss : list Twist) (qdd : list R)
    (t : nat) (st : Z * list Wrench * list R) : outcome (Z * list Wrench * list R) :=
  let i := (ns - 1 - t)%nat in
  let '(j, fs, tau) := st in
  let! s := chain_getSegment c i in
  let! r :=
    (if moving s then
       let! Si := aget Ss i in
       let! fi := aget fs i in
       let! tau1 := zaset tau j (fl_tw_dot Si fi) in
       let! x := zaget tau1 j in
       let! xdd := zaget qdd j in
       let! tau2 := zaset tau1 j (rnd (x + rnd (jinertia (sjoint s) * xdd))) in
       Ret ((j - 1)%Z, tau2)
     else Ret (j, tau)) in
  let '(j', tau') := r in
  if Nat.eqb i 0 then Ret (j', fs, tau')
  else
    let! fp := aget fs (i - 1) in
    let! Xi := aget Xs i in
    let! fi := aget fs i in
    let! fs' := aset fs (i - 1) (fl_w_add fp (fl_f_app_w Xi fi)) in
    Ret (j', fs', tau').

(** chainidsolver_recursive_newton_euler.cpp:44-99: (code, torques) *)
Definition fl_rne_CartToJnt (c : Chain) (st : rne) (q qd qdd : list R) (fext : list Wrench) (tau : list R)
  : outcome (Z * list R) :=
  if negb (Nat.eqb (rn_nj st) (ch_nj c)) || negb (Nat.eqb (rn_ns st) (ch_ns c))
  then Ret (E_NOT_UP_TO_DATE, tau)
  else if negb (Nat.eqb (length q) (rn_nj st) && Nat.eqb (length qd) (rn_nj st) &&
                Nat.eqb (length qdd) (rn_nj st) && Nat.eqb (length tau) (rn_nj st) &&
                Nat.eqb (length fext) (rn_ns st))
  then Ret (E_SIZE_MISMATCH, tau)
  else
    let n := rn_ns st in
    let! sw := for_loop n 0 (fl_rne_fwd_body c (rn_ag st) q qd qdd fext)
      (mkSw 0 (repeat f_id n) (repeat t_zero n) (repeat t_zero n) (repeat t_zero n) (repeat w_zero n)) in
    let! r := for_loop n 0 (fl_rne_bwd_body c n (sw_X sw) (sw_S sw) qdd)
      ((Z.of_nat (rn_nj st) - 1)%Z, sw_f sw, tau) in
    let '(_, _, tau') := r in
    Ret (E_NOERROR, tau').

(** chaindynparam.cpp:127-136 and 139-147 *)
Definition fl_dyn_JntToCoriolis (c : Chain) (st : dynparam) (q qd : list R) (out : list R) : outcome (Z * list R) :=
  fl_rne_CartToJnt c (dp_coriolis st) q qd (map (fun _ => 0) (dp_null st)) (dp_wnull st) out.
Definition fl_dyn_JntToGravity (c : Chain) (st : dynparam) (q : list R) (out : list R) : outcome (Z * list R) :=
  fl_rne_CartToJnt c (dp_gravity st) q (map (fun _ => 0) (dp_null st)) (map (fun _ => 0) (dp_null st)) (dp_wnull st) out.
End Rounded.
