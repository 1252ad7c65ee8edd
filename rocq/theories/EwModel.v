(** Model of the external wrench estimator.

    Source: /repo/orocos_kdl/src/chainexternalwrenchestimator.{hpp,cpp}, with
    jntspaceinertiamatrix.cpp and jntarray.cpp for the sizes of the buffers.

    The chain is held by reference and is a separate argument.  The singular value
    routine (utilities/svd_eigen_HH.cpp, modelled on its own in SvdModel.v) is an
    arbitrary function [svd] of the iteration limit and the matrix, as in
    VelIkModel.v.  The buffers jnt_mass_matrix_dot, total_torque,
    estimated_ext_torque, jacobian_end_eff_transpose(_inv), U, V, S, S_inv and tmp
    are written before they are read in every call and are not part of the state. *)
From Coq Require Import Reals List ZArith Bool Arith.
From Verif Require Import FramesModel Outcome InertiaModel DualModel KinModel LinModel LmaModel DynModel VelIkModel.
Import ListNotations.
Local Open Scope list_scope.
Local Open Scope R_scope.

(** chainexternalwrenchestimator.hpp:49-53 *)
Definition EW_FKSOLVERPOS_FAILED : Z := (-100)%Z.
Definition EW_JACSOLVER_FAILED : Z := (-101)%Z.
Definition EW_MASS_FAILED : Z := (-102)%Z.
Definition EW_CORIOLIS_FAILED : Z := (-103)%Z.
Definition EW_GRAVITY_FAILED : Z := (-104)%Z.

(** An entry by entry expression of two Eigen vectors; sizes that differ are an assertion *)
Definition vzip (f : R -> R -> R) (a b : list R) : outcome (list R) :=
  if Nat.eqb (length a) (length b) then Ret (map2 f a b) else Undef.
(** The difference of two matrices divided by a number; sizes that differ are an assertion *)
Definition m_rate (a b : Mat) (dt : R) : outcome Mat :=
  if Nat.eqb (mrows a) (mrows b) && Nat.eqb (mcols a) (mcols b)
  then Ret (mkM (mrows a) (mcols a) (fun i j => (mentry a i j - mentry b i j) / dt)) else Undef.

(** chainexternalwrenchestimator.hpp:111-124.  [ew_prev] is None when the contents of
    previous_jnt_mass_matrix are not specified. *)
Record ew := mkEW {
  ew_dt : R; ew_filter : R; ew_eps : R; ew_maxiter : Z; ew_nj : nat; ew_ns : nat;
  ew_M : Mat; ew_prev : option Mat; ew_p0 : list R; ew_int : list R; ew_filt : list R;
  ew_grav : list R; ew_cor : list R; ew_jac : list Twist; ew_gain : list R;
  ew_dyn : dynparam; ew_locked : list bool; ew_error : Z }.

(** chainexternalwrenchestimator.cpp:25-43.  A sample frequency of zero makes the sample time infinite;
    the reals have no such number. *)
Definition ew_make (c : Chain) (grav : Vector) (freq gain filter eps : R) (maxiter : Z) : outcome ew :=
  let! dt := rdiv 1 freq in
  let n := ch_nj c in
  Ret (mkEW dt filter eps maxiter n (ch_ns c)
        (mat_zero n) (Some (mat_zero n)) (repeat 0 n) (repeat 0 n) (repeat 0 n)
        (repeat 0 n) (repeat 0 n) (jac_make n) (repeat gain n)
        (dyn_make c grav) (jacsolver_make c) E_NOERROR).

(** jntspaceinertiamatrix.cpp:53-56: Eigen's resize keeps the contents when the size stays the same and
    leaves them unspecified otherwise. *)
Definition m_resize (m : option Mat) (n : nat) : option Mat :=
  match m with
  | Some a => if Nat.eqb (mrows a) n && Nat.eqb (mcols a) n then m else None
  | None => None
  end.
(** chainexternalwrenchestimator.cpp:45-71: updateInternalDataStructures.  The contents of jnt_mass_matrix after
    a change of size are zero here and unspecified in the code: JntToMass writes all of them before they are
    read.  ESTIMATION_GAIN(0) is read whatever the size (line 67). *)
Definition ew_update (c : Chain) (s : ew) : outcome ew :=
  let n := ch_nj c in
  let! g0 := aget (ew_gain s) 0 in
  Ret (mkEW (ew_dt s) (ew_filter s) (ew_eps s) (ew_maxiter s) n (ch_ns c)
        (match m_resize (Some (ew_M s)) n with Some a => a | None => mat_zero n end)
        (m_resize (ew_prev s) n) (vec_resize (ew_p0 s) n 0) (vec_resize (ew_int s) n 0) (vec_resize (ew_filt s) n 0)
        (vec_resize (ew_grav s) n 0) (vec_resize (ew_cor s) n 0) (vec_resize (ew_jac s) n t_zero) (vec_resize (ew_gain s) n g0)
        (dyn_update c (ew_dyn s)) (jacsolver_update c (ew_locked s)) (ew_error s)).

(** The same object with another value in the member [error] *)
Definition ew_fail (s : ew) (code : Z) : ew :=
  mkEW (ew_dt s) (ew_filter s) (ew_eps s) (ew_maxiter s) (ew_nj s) (ew_ns s) (ew_M s) (ew_prev s) (ew_p0 s) (ew_int s) (ew_filt s)
       (ew_grav s) (ew_cor s) (ew_jac s) (ew_gain s) (ew_dyn s) (ew_locked s) code.
(** The same object after the three calls of dynparam_solver *)
Definition ew_dynamics (s : ew) (M : Mat) (cor grav : list R) : ew :=
  mkEW (ew_dt s) (ew_filter s) (ew_eps s) (ew_maxiter s) (ew_nj s) (ew_ns s) M (ew_prev s) (ew_p0 s) (ew_int s) (ew_filt s)
       grav cor (ew_jac s) (ew_gain s) (ew_dyn s) (ew_locked s) (ew_error s).
(** The same object with other values in the members that remember the past *)
Definition ew_remember (s : ew) (prev : Mat) (int filt : list R) : ew :=
  mkEW (ew_dt s) (ew_filter s) (ew_eps s) (ew_maxiter s) (ew_nj s) (ew_ns s) (ew_M s) (Some prev) (ew_p0 s) int filt
       (ew_grav s) (ew_cor s) (ew_jac s) (ew_gain s) (ew_dyn s) (ew_locked s) (ew_error s).
(** The same object with another Jacobian *)
Definition ew_jacobian (s : ew) (jac : list Twist) : ew :=
  mkEW (ew_dt s) (ew_filter s) (ew_eps s) (ew_maxiter s) (ew_nj s) (ew_ns s) (ew_M s) (ew_prev s) (ew_p0 s) (ew_int s) (ew_filt s)
       (ew_grav s) (ew_cor s) jac (ew_gain s) (ew_dyn s) (ew_locked s) (ew_error s).

(** chainexternalwrenchestimator.cpp:74-91 *)
Definition ew_setInitialMomentum (c : Chain) (s : ew) (q qd : list R) : outcome (Z * ew) :=
  if negb (Nat.eqb (length q) (ew_nj s)) || negb (Nat.eqb (length qd) (ew_nj s))
  then Ret (E_SIZE_MISMATCH, ew_fail s E_SIZE_MISMATCH)
  else
    let! (e, M) := dyn_JntToMass c (ew_dyn s) q (ew_M s) in
    let s1 := ew_dynamics s M (ew_cor s) (ew_grav s) in
    if negb (e =? E_NOERROR)%Z then Ret (EW_MASS_FAILED, ew_fail s1 EW_MASS_FAILED)
    else
      let! p0 := m_vec M qd in
      Ret (E_NOERROR,
           mkEW (ew_dt s) (ew_filter s) (ew_eps s) (ew_maxiter s) (ew_nj s) (ew_ns s) M (ew_prev s) p0
             (map (fun _ => 0) (ew_int s)) (map (fun _ => 0) (ew_filt s))
             (ew_grav s) (ew_cor s) (ew_jac s) (ew_gain s) (ew_dyn s) (ew_locked s) E_NOERROR).
(** chainexternalwrenchestimator.cpp:94-97 and 100-103 *)
Definition ew_setSVDEps (s : ew) (eps : R) : ew :=
  mkEW (ew_dt s) (ew_filter s) eps (ew_maxiter s) (ew_nj s) (ew_ns s) (ew_M s) (ew_prev s) (ew_p0 s) (ew_int s) (ew_filt s)
       (ew_grav s) (ew_cor s) (ew_jac s) (ew_gain s) (ew_dyn s) (ew_locked s) (ew_error s).
Definition ew_setSVDMaxIter (s : ew) (maxiter : Z) : ew :=
  mkEW (ew_dt s) (ew_filter s) (ew_eps s) maxiter (ew_nj s) (ew_ns s) (ew_M s) (ew_prev s) (ew_p0 s) (ew_int s) (ew_filt s)
       (ew_grav s) (ew_cor s) (ew_jac s) (ew_gain s) (ew_dyn s) (ew_locked s) (ew_error s).
(** chainexternalwrenchestimator.cpp:198-202; the assertion is on the size of the caller's array *)
Definition ew_getEstimatedJntTorque (s : ew) (out : list R) : outcome (list R) :=
  if Nat.eqb (length out) (length (ew_filt s)) then Ret (ew_filt s) else Undef.

(** chainexternalwrenchestimator.cpp:139-156: total_torque, estimated_momentum_integral, estimated_ext_torque,
    filtered_estimated_ext_torque; the result is the integral and the filtered torque *)
Definition ew_observe (s : ew) (M prev : Mat) (cor grav qd tau : list R) : outcome (list R * list R) :=
  let! Mdot := m_rate M prev (ew_dt s) in
  let! tg := vzip Rminus tau grav in
  let! tgc := vzip Rminus tg cor in
  let! md := m_vec Mdot qd in
  let! total_torque := vzip Rplus tgc md in
  let! driven := vzip Rplus total_torque (ew_filt s) in
  let! int := vzip (fun x y => x + y * ew_dt s) (ew_int s) driven in
  let! p := m_vec M qd in
  let! pi := vzip Rminus p int in
  let! b := vzip Rminus pi (ew_p0 s) in
  let! est := vzip Rmult (ew_gain s) b in
  let! filt := vzip (fun x y => ew_filter s * x + (1 - ew_filter s) * y) (ew_filt s) est in
  Ret (int, filt).
(** the six columns of the transposed Jacobian *)
Definition jac_transpose (J : list Twist) : Mat := mkM (length J) 6 (fun j r => t_at (nth j J t_zero) r).
(** chainexternalwrenchestimator.cpp:183-184: S_inv(i) *)
Definition ew_sinv (eps : R) (d : Decomp) (i : nat) : outcome R :=
  if Rlt_dec (Rabs (dc_S d i)) eps then Ret 0 else rdiv 1 (dc_S d i).
(** chainexternalwrenchestimator.cpp:187-192: V * S_inv * U^T * torque, written to the six components *)
Definition ew_wrench (nj : nat) (d : Decomp) (sinv filt : list R) : Wrench :=
  let e i := total nj (fun j => total 6 (fun k => dc_V d i k * nth k sinv 0 * dc_U d j k) * nth j filt 0) in
  mkW (mkV (e 0%nat) (e 1%nat) (e 2%nat)) (mkV (e 3%nat) (e 4%nat) (e 5%nat)).

Section Estimate.
Variable svd : Z -> Mat -> Decomp.

(** chainexternalwrenchestimator.cpp:106-195: (code, external_wrench, object) *)
Definition ew_JntToExtWrench (c : Chain) (s : ew) (q qd tau : list R) (w : Wrench) : outcome (Z * Wrench * ew) :=
  if negb (Nat.eqb (ew_nj s) (ch_nj c)) || negb (Nat.eqb (ew_ns s) (ch_ns c))
  then Ret (E_NOT_UP_TO_DATE, w, ew_fail s E_NOT_UP_TO_DATE)
  else if negb (Nat.eqb (length q) (ew_nj s)) || negb (Nat.eqb (length qd) (ew_nj s)) || negb (Nat.eqb (length tau) (ew_nj s))
  then Ret (E_SIZE_MISMATCH, w, ew_fail s E_SIZE_MISMATCH)
  else
    let! (e1, M) := dyn_JntToMass c (ew_dyn s) q (ew_M s) in
    let s1 := ew_dynamics s M (ew_cor s) (ew_grav s) in
    if negb (e1 =? E_NOERROR)%Z then Ret (EW_MASS_FAILED, w, ew_fail s1 EW_MASS_FAILED) else
    let! (e2, cor) := dyn_JntToCoriolis c (ew_dyn s) q qd (ew_cor s) in
    let s2 := ew_dynamics s1 M cor (ew_grav s) in
    if negb (e2 =? E_NOERROR)%Z then Ret (EW_CORIOLIS_FAILED, w, ew_fail s2 EW_CORIOLIS_FAILED) else
    let! (e3, grav) := dyn_JntToGravity c (ew_dyn s) q (ew_grav s) in
    let s3 := ew_dynamics s2 M cor grav in
    if negb (e3 =? E_NOERROR)%Z then Ret (EW_GRAVITY_FAILED, w, ew_fail s3 EW_GRAVITY_FAILED) else
    let! prev := (match ew_prev s with Some p => Ret p | None => Undef end) in
    let! (int, filt) := ew_observe s3 M prev cor grav qd tau in
    let s4 := ew_remember s3 M int filt in
    let! (e4, F) := fk_JntToCart c q (-1) in
    if negb (e4 =? E_NOERROR)%Z then Ret (EW_FKSOLVERPOS_FAILED, w, ew_fail s4 EW_FKSOLVERPOS_FAILED) else
    let! (e5, J) := jac_JntToJac c (ew_locked s) q (ew_jac s) (-1) in
    if negb (e5 =? E_NOERROR)%Z then Ret (EW_JACSOLVER_FAILED, w, ew_fail (ew_jacobian s4 J) EW_JACSOLVER_FAILED) else
    let! Je := jac_changeBase J (r_inv (fM F)) in
    let s5 := ew_jacobian s4 Je in
    let d := svd (ew_maxiter s) (jac_transpose Je) in
    if negb (dc_rc d =? E_NOERROR)%Z then Ret (E_SVD_FAILED, w, ew_fail s5 E_SVD_FAILED) else
    let! sinv := entries (ew_sinv (ew_eps s) d) 0 6 in
    Ret (E_NOERROR, ew_wrench (ew_nj s) d sinv filt, ew_fail s5 E_NOERROR).
End Estimate.
