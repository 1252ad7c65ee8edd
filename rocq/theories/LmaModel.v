(** Model of the Levenberg-Marquardt position inverse kinematics solver.

    Source: /repo/orocos_kdl/src/chainiksolverpos_lma.{hpp,cpp}.

    The solver does its own forward kinematics and Jacobian.  Its singular value
    decomposition is Eigen's JacobiSVD, which is not part of the repository: it is
    an arbitrary function [svd] here, and the theorems say which of its properties
    they use.  A 6 x n matrix is the list of its columns, a column of six numbers
    is a [Twist] (rows 0-2 [tvel], rows 3-5 [trot]).

    Not modelled: the members lastSV, original_Aii, A, ldlt, which no result
    depends on (lastSV is the diagnostic copy of the singular values; with
    maxiter = 0 it is read from a decomposition that was never computed), and
    display_information's output.  [q_init] and [q_out] are different objects. *)
From Coq Require Import Reals List ZArith Bool Arith.
From Verif Require Import FramesModel Outcome InertiaModel DualModel KinModel.
Import ListNotations.
Local Open Scope R_scope.

(** chainiksolverpos_lma.hpp:72-73 *)
Definition E_GRADIENT_JOINTS_TOO_SMALL : Z := (-100)%Z.
Definition E_INCREMENT_JOINTS_TOO_SMALL : Z := (-101)%Z.

(** A division whose divisor is zero gives an infinity or a NaN, which the reals
    do not have: the model does not follow the code there. *)
Definition rdiv (a b : R) : outcome R := if Req_EM_T b 0 then Undef else Ret (a / b).

(** ** 6-vectors *)
(** [u.transpose()*v] for columns of six *)
Definition t_dot6 (a b : Twist) : R :=
  vx (tvel a) * vx (tvel b) + vy (tvel a) * vy (tvel b) + vz (tvel a) * vz (tvel b) +
  vx (trot a) * vx (trot b) + vy (trot a) * vy (trot b) + vz (trot a) * vz (trot b).
(** [.norm()] of six, of topRows(3), of bottomRows(3) *)
Definition norm6 (a : Twist) : R := sqrt (t_dot6 a a).
Definition norm3 (v : Vector) : R := sqrt (vx v * vx v + vy v * vy v + vz v * vz v).
(** [L.asDiagonal()*e] *)
Definition weigh (L e : Twist) : Twist :=
  mkT (mkV (vx (tvel L) * vx (tvel e)) (vy (tvel L) * vy (tvel e)) (vz (tvel L) * vz (tvel e)))
      (mkV (vx (trot L) * vx (trot e)) (vy (trot L) * vy (trot e)) (vz (trot L) * vz (trot e))).

(** ** joint vectors *)
Definition vdot (a b : list R) : R := fold_right Rplus 0 (map (fun p => fst p * snd p) (combine a b)).
Definition vplus (a b : list R) : list R := map (fun p => fst p + snd p) (combine a b).
(** [V*x], V given by its columns of length n *)
Definition cols_times (n : nat) (V : list (list R)) (x : list R) : list R :=
  map (fun j => fold_right Rplus 0 (map (fun p => nth j (fst p) 0 * snd p) (combine V x))) (seq 0 n).
(** [lpNorm<Eigen::Infinity>()] *)
Definition max_norm (a : list R) : R := fold_right (fun x m => Rmax (Rabs x) m) 0 a.

Record Svd := mkSvd { svd_U : list Twist; svd_S : list R; svd_V : list (list R) }.

Section Lma.
Variable svd : list Twist -> Svd.

(** chainiksolverpos_lma.hpp:165-252.  [la_L] are the six weights. *)
Record lma := mkLMA {
  la_nj : nat; la_L : Twist; la_maxiter : nat; la_eps : R; la_epsj : R;
  la_jac : list Twist; la_roots : list Frame; la_tips : list Frame;
  la_iter : nat; la_diff : R; la_trans : R; la_rot : R; la_error : Z }.

(** chainiksolverpos_lma.cpp:50-82.  The buffers are not initialised by the code;
    the model's contents are never read.  A negative [_maxiter] becomes a huge
    unsigned one and is outside the model. *)
Definition lma_make (c : Chain) (L : Twist) (eps : R) (maxiter : nat) (epsj : R) : lma :=
  mkLMA (ch_nj c) L maxiter eps epsj (repeat t_zero (ch_nj c)) (repeat f_id (ch_nj c)) (repeat f_id (ch_nj c))
        0 0 0 0 E_NOERROR.
(** chainiksolverpos_lma.cpp:84-120 *)
Definition lma_make_default (c : Chain) (eps : R) (maxiter : nat) (epsj : R) : lma :=
  lma_make c (mkT (mkV 1 1 1) (mkV (1 / 100) (1 / 100) (1 / 100))) eps maxiter epsj.
(** chainiksolverpos_lma.cpp:122-137 *)
Definition lma_update (c : Chain) (s : lma) : lma :=
  mkLMA (ch_nj c) (la_L s) (la_maxiter s) (la_eps s) (la_epsj s)
        (vec_resize (la_jac s) (ch_nj c) t_zero) (vec_resize (la_roots s) (ch_nj c) f_id) (vec_resize (la_tips s) (ch_nj c) f_id)
        (la_iter s) (la_diff s) (la_trans s) (la_rot s) (la_error s).

(** chainiksolverpos_lma.cpp:145-155: one iteration; state (jointndx, T_base_head,
    T_base_jointroot, T_base_jointtip) *)
Definition lma_fwd_body (c : Chain) (q : list R) (i : nat) (st : nat * Frame * list Frame * list Frame)
  : outcome (nat * Frame * list Frame * list Frame) :=
  let '(j, head, roots, tips) := st in
  let! s := chain_getSegment c i in
  if moving s then
    let! roots := aset roots j head in
    let! x := aget q j in
    let head := f_mul head (segment_pose s x) in
    let! tips := aset tips j head in
    Ret (S j, head, roots, tips)
  else Ret (j, f_mul head (segment_pose s 0), roots, tips).
(** chainiksolverpos_lma.cpp:141-156 *)
Definition lma_fwdpos (c : Chain) (q : list R) (roots tips : list Frame) : outcome (Frame * list Frame * list Frame) :=
  let! (_, head, roots, tips) := for_loop (ch_ns c) 0 (lma_fwd_body c q) (0%nat, f_id, roots, tips) in
  Ret (head, roots, tips).

(** chainiksolverpos_lma.cpp:161-174: one iteration; state (jointndx, jac) *)
Definition lma_jac_body (c : Chain) (q : list R) (head : Frame) (roots tips : list Frame) (i : nat)
    (st : nat * list Twist) : outcome (nat * list Twist) :=
  let '(j, jac) := st in
  let! s := chain_getSegment c i in
  if moving s then
    let! r := aget roots j in
    let! x := aget q j in
    let! t := aget tips j in
    let! jac := aset jac j (t_RefPoint (r_app_t (fM r) (segment_twist s x 1)) (v_sub (fp head) (fp t))) in
    Ret (S j, jac)
  else Ret (j, jac).
(** chainiksolverpos_lma.cpp:158-175 *)
Definition lma_jacobian (c : Chain) (q : list R) (head : Frame) (roots tips : list Frame) (jac : list Twist)
  : outcome (list Twist) :=
  let! (_, jac) := for_loop (ch_ns c) 0 (lma_jac_body c q head roots tips) (0%nat, jac) in
  Ret jac.

(** chainiksolverpos_lma.cpp:229-236: the singular values are damped by lambda *)
Fixpoint lma_damped (U : list Twist) (S : list R) (lambda : R) (e : Twist) : outcome (list R) :=
  match U, S with
  | u :: U', s :: S' =>
      let! a := rdiv s (s * s + lambda) in
      let! r := lma_damped U' S' lambda e in
      Ret (a * t_dot6 u e :: r)
  | [], [] => Ret []
  | _, _ => Undef (* sizes of an Eigen product *)
  end.
(** chainiksolverpos_lma.cpp:229-237: diffq *)
Definition lma_step (nj : nat) (jac : list Twist) (lambda : R) (e : Twist) : outcome (list R) :=
  let d := svd jac in
  let! tmp := lma_damped (svd_U d) (svd_S d) lambda e in
  Ret (cols_times nj (svd_V d) tmp).

(** What CartToJnt leaves behind: code, q_out, lastNrOfIter, lastDifference,
    lastTransDiff, lastRotDiff and the buffers *)
Record lma_end := mkEnd {
  le_code : Z; le_q : list R; le_iter : nat; le_diff : R; le_trans : R; le_rot : R;
  le_jac : list Twist; le_roots : list Frame; le_tips : list Frame }.

(** chainiksolverpos_lma.cpp:227-313; [n] iterations are left, [i] are done *)
Fixpoint lma_loop (n i : nat) (c : Chain) (s : lma) (goal : Frame) (q : list R) (e : Twist) (en lambda v : R)
    (jac : list Twist) (roots tips : list Frame) : outcome lma_end :=
  match n with
  | O => Ret (mkEnd E_MAX_ITERATIONS_EXCEEDED q (la_maxiter s) en (norm3 (tvel e)) (norm3 (trot e)) jac roots tips)
  | S n' =>
      let! dq := lma_step (la_nj s) jac lambda e in
      let grad := map (fun col => t_dot6 col e) jac in
      if Rlt_dec (max_norm dq) (la_epsj s) then
        let! (head, roots, tips) := lma_fwdpos c q roots tips in
        let e := f_diff head goal 1 in
        Ret (mkEnd E_INCREMENT_JOINTS_TOO_SMALL q i en (norm3 (tvel e)) (norm3 (trot e)) jac roots tips)
      else if Rlt_dec (vdot grad grad) (la_epsj s * la_epsj s) then
        let! (head, roots, tips) := lma_fwdpos c q roots tips in
        let e := f_diff head goal 1 in
        Ret (mkEnd E_GRADIENT_JOINTS_TOO_SMALL q i en (norm3 (tvel e)) (norm3 (trot e)) jac roots tips)
      else
        let q_new := vplus q dq in
        let! (head, roots, tips) := lma_fwdpos c q_new roots tips in
        let e_new := weigh (la_L s) (f_diff head goal 1) in
        let en_new := norm6 e_new in
        let! rho := rdiv (en * en - en_new * en_new) (vdot dq (vplus (map (fun x => lambda * x) dq) grad)) in
        if Rgt_dec rho 0 then
          if Rlt_dec en_new (la_eps s) then
            let e := f_diff head goal 1 in
            Ret (mkEnd E_NOERROR q_new i en_new (norm3 (tvel e)) (norm3 (trot e)) jac roots tips)
          else
            let! jac := lma_jacobian c q_new head roots tips jac in
            let jac := map (weigh (la_L s)) jac in
            let t := 2 * rho - 1 in
            lma_loop n' (S i) c s goal q_new e_new en_new (lambda * Rmax (1 / 3) (1 - t * t * t)) 2 jac roots tips
        else lma_loop n' (S i) c s goal q e en (lambda * v) (2 * v) jac roots tips
  end.

(** chainiksolverpos_lma.cpp:187-315: (code, q_out, solver) *)
Definition lma_CartToJnt (c : Chain) (s : lma) (q_init : list R) (goal : Frame) (q_out : list R)
  : outcome (Z * list R * lma) :=
  let fail code := Ret (code, q_out,
    mkLMA (la_nj s) (la_L s) (la_maxiter s) (la_eps s) (la_epsj s) (la_jac s) (la_roots s) (la_tips s)
          (la_iter s) (la_diff s) (la_trans s) (la_rot s) code) in
  if negb (Nat.eqb (la_nj s) (ch_nj c)) then fail E_NOT_UP_TO_DATE
  else if negb (Nat.eqb (la_nj s) (length q_init)) || negb (Nat.eqb (la_nj s) (length q_out)) then fail E_SIZE_MISMATCH
  else
    let! (head, roots, tips) := lma_fwdpos c q_init (la_roots s) (la_tips s) in
    let e := weigh (la_L s) (f_diff head goal 1) in
    let! r :=
      (if Rlt_dec (norm6 e) (la_eps s) then
         let e := f_diff head goal 1 in
         Ret (mkEnd E_NOERROR q_init 0 (norm6 e) (norm3 (tvel e)) (norm3 (trot e)) (la_jac s) roots tips)
       else
         let! jac := lma_jacobian c q_init head roots tips (la_jac s) in
         lma_loop (la_maxiter s) 0 c s goal q_init e (norm6 e) 10 2 (map (weigh (la_L s)) jac) roots tips) in
    Ret (le_code r, le_q r,
         mkLMA (la_nj s) (la_L s) (la_maxiter s) (la_eps s) (la_epsj s) (le_jac r) (le_roots r) (le_tips r)
               (le_iter r) (le_diff r) (le_trans r) (le_rot r) (le_code r)).
End Lma.
