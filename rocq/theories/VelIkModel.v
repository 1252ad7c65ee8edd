(** Model of the inverse velocity kinematics solvers built on a singular value
    decomposition.

    Sources: /repo/orocos_kdl/src/chainiksolvervel_pinv.{hpp,cpp},
    chainiksolvervel_pinv_nso.{hpp,cpp}, chainiksolvervel_wdls.{hpp,cpp},
    treeiksolvervel_wdls.{hpp,cpp}.

    The decomposition itself (utilities/svd_HH.cpp, svd_eigen_HH.cpp) is an
    arbitrary function [svd] of the iteration limit and the matrix: both routines
    overwrite U, S and V without reading them.  The solvers' U, S and V have the
    sizes of the constructor, so [svd]'s answer is given by entry functions.  The
    buffers U, S, V and tmp are written before they are read in every call and are
    not part of the modelled state (except S, which getSigma returns). *)
From Coq Require Import Reals String List ZArith Bool Arith.
From Verif Require Import FramesModel Outcome InertiaModel DualModel KinModel TreeModel LinModel IkModel LmaModel.
Import ListNotations.
Local Open Scope list_scope.
Local Open Scope R_scope.

(** What a decomposition routine leaves behind: return code, U(r,i), S(i), V(j,i) *)
Record Decomp := mkD { dc_rc : Z; dc_U : nat -> nat -> R; dc_S : nat -> R; dc_V : nat -> nat -> R }.

(** [for (i=0;i<n;i++) sum+=...] *)
Fixpoint total (n : nat) (f : nat -> R) : R :=
  match n with O => 0 | S m => total m f + f m end.
(** frames.inl:335-342: Twist::operator()(i), indices 0..5 *)
Definition t_at (t : Twist) (i : nat) : R :=
  match i with
  | 0%nat => vx (tvel t) | 1%nat => vy (tvel t) | 2%nat => vz (tvel t)
  | 3%nat => vx (trot t) | 4%nat => vy (trot t) | _ => vz (trot t)
  end.
(** The 6 x n matrix of a Jacobian (jacobian.hpp: member data) *)
Definition jac_mat (J : list Twist) : Mat := mkM 6 (length J) (fun r j => t_at (nth j J t_zero) r).
(** Eigen products; sizes that do not fit are an assertion *)
Definition m_mul (a b : Mat) : outcome Mat :=
  if Nat.eqb (mcols a) (mrows b)
  then Ret (mkM (mrows a) (mcols b) (fun i j => total (mcols a) (fun k => mentry a i k * mentry b k j)))
  else Undef.
Definition m_vec (a : Mat) (x : list R) : outcome (list R) :=
  if Nat.eqb (mcols a) (length x)
  then Ret (map (fun i => total (mcols a) (fun k => mentry a i k * nth k x 0)) (seq 0 (mrows a)))
  else Undef.
Definition m_identity (n : nat) : Mat := mkM n n (fun i j => if Nat.eqb i j then 1 else 0).
(** Evaluation of a vector expression entry by entry *)
Fixpoint entries (f : nat -> outcome R) (i n : nat) : outcome (list R) :=
  match n with
  | O => Ret []
  | S n' => let! x := f i in let! r := entries f (S i) n' in Ret (x :: r)
  end.
(** Unsigned 32-bit subtraction of jac.columns() and jac.rows() *)
Definition unsigned_minus (a b : nat) : Z := ((Z.of_nat a - Z.of_nat b) mod 2 ^ 32)%Z.
Definition count_below (eps : R) (S : nat -> R) (n : nat) : nat :=
  length (filter (fun i => if Rlt_dec (Rabs (S i)) eps then true else false) (seq 0 n)).

Section VelIk.
Variable svd : Z -> Mat -> Decomp.

(** * ChainIkSolverVel_pinv *)
(** chainiksolvervel_pinv.hpp:45 and chainiksolvervel_wdls.hpp:67 *)
Definition E_CONVERGE_PINV_SINGULAR : Z := 100%Z.
(** chainiksolvervel_pinv.hpp:101-114 *)
Record pinv := mkPV {
  pv_nj : nat; pv_locked : list bool; pv_jac : list Twist; pv_eps : R; pv_maxiter : Z;
  pv_zeros : nat; pv_svd : Z; pv_error : Z }.
(** chainiksolvervel_pinv.cpp:26-42 *)
Definition pinv_make (c : Chain) (eps : R) (maxiter : Z) : pinv :=
  mkPV (ch_nj c) (jacsolver_make c) (jac_make (ch_nj c)) eps maxiter 0 0 E_NOERROR.
(** chainiksolvervel_pinv.cpp:44-56 *)
Definition pinv_update (c : Chain) (s : pinv) : pinv :=
  mkPV (ch_nj c) (jacsolver_update c (pv_locked s)) (vec_resize (pv_jac s) (ch_nj c) t_zero) (pv_eps s) (pv_maxiter s)
       (pv_zeros s) (pv_svd s) (pv_error s).
Definition pinv_leave (s : pinv) (jac : list Twist) (zeros : nat) (rc code : Z) : pinv :=
  mkPV (pv_nj s) (pv_locked s) jac (pv_eps s) (pv_maxiter s) zeros rc code.
(** chainiksolvervel_pinv.cpp:94-109: tmp(i) *)
Definition pinv_tmp (eps : R) (d : Decomp) (v : Twist) (i : nat) : outcome R :=
  let sum := total 6 (fun j => dc_U d j i * t_at v j) in
  if Rlt_dec (Rabs (dc_S d i)) eps then Ret 0 else rdiv sum (dc_S d i).
(** chainiksolvervel_pinv.cpp:62-130 *)
Definition pinv_CartToJnt (c : Chain) (s : pinv) (q : list R) (v : Twist) (qdot : list R) : outcome (Z * list R * pinv) :=
  if negb (Nat.eqb (pv_nj s) (ch_nj c)) then
    Ret (E_NOT_UP_TO_DATE, qdot, pinv_leave s (pv_jac s) (pv_zeros s) (pv_svd s) E_NOT_UP_TO_DATE)
  else if negb (Nat.eqb (pv_nj s) (length q)) || negb (Nat.eqb (pv_nj s) (length qdot)) then
    Ret (E_SIZE_MISMATCH, qdot, pinv_leave s (pv_jac s) (pv_zeros s) (pv_svd s) E_SIZE_MISMATCH)
  else
    let! (e, jac) := jac_JntToJac c (pv_locked s) q (pv_jac s) (-1) in
    if (e <? 0)%Z then Ret (e, qdot, pinv_leave s jac (pv_zeros s) (pv_svd s) e)
    else
      let d := svd (pv_maxiter s) (jac_mat jac) in
      if negb (dc_rc d =? 0)%Z then
        Ret (E_SVD_FAILED, repeat 0 (length qdot), pinv_leave s jac 0 (dc_rc d) E_SVD_FAILED)
      else
        let n := length jac in
        let! tmp := entries (pinv_tmp (pv_eps s) d v) 0 n in
        let qdot := map (fun i => total n (fun j => dc_V d i j * nth j tmp 0)) (seq 0 n) in
        let zeros := count_below (pv_eps s) (dc_S d) n in
        let code := if (unsigned_minus n 6 <? Z.of_nat zeros)%Z then E_CONVERGE_PINV_SINGULAR else E_NOERROR in
        Ret (code, qdot, pinv_leave s jac zeros (dc_rc d) code).

(** * ChainIkSolverVel_pinv_nso *)
(** chainiksolvervel_pinv_nso.hpp, members *)
Record nso := mkNS {
  ns_nj : nat; ns_locked : list bool; ns_jac : list Twist; ns_eps : R; ns_maxiter : Z; ns_svd : Z;
  ns_alpha : R; ns_weights : list R; ns_opt : list R; ns_error : Z }.
(** chainiksolvervel_pinv_nso.cpp:27-45 *)
Definition nso_make (c : Chain) (opt weights : list R) (eps : R) (maxiter : Z) (alpha : R) : nso :=
  mkNS (ch_nj c) (jacsolver_make c) (jac_make (ch_nj c)) eps maxiter 0 alpha weights opt E_NOERROR.
(** chainiksolvervel_pinv_nso.cpp:47-63: the arrays are default constructed *)
Definition nso_make_default (c : Chain) (eps : R) (maxiter : Z) (alpha : R) : nso :=
  nso_make c [] [] eps maxiter alpha.
(** chainiksolvervel_pinv_nso.cpp:65-77 *)
Definition nso_update (c : Chain) (s : nso) : nso :=
  mkNS (ch_nj c) (jacsolver_update c (ns_locked s)) (vec_resize (ns_jac s) (ch_nj c) t_zero) (ns_eps s) (ns_maxiter s) (ns_svd s)
       (ns_alpha s) (vec_resize (ns_weights s) (ch_nj c) 1) (vec_resize (ns_opt s) (ch_nj c) 0) (ns_error s).
Definition nso_leave (s : nso) (jac : list Twist) (rc code : Z) : nso :=
  mkNS (ns_nj s) (ns_locked s) jac (ns_eps s) (ns_maxiter s) rc (ns_alpha s) (ns_weights s) (ns_opt s) code.
(** chainiksolvervel_pinv_nso.cpp:166-172 *)
Definition nso_setWeights (s : nso) (w : list R) : Z * nso :=
  if negb (Nat.eqb (ns_nj s) (length w)) then (E_SIZE_MISMATCH, nso_leave s (ns_jac s) (ns_svd s) E_SIZE_MISMATCH)
  else (E_NOERROR, mkNS (ns_nj s) (ns_locked s) (ns_jac s) (ns_eps s) (ns_maxiter s) (ns_svd s) (ns_alpha s) w (ns_opt s) E_NOERROR).
(** chainiksolvervel_pinv_nso.cpp:174-180 *)
Definition nso_setOptPos (s : nso) (o : list R) : Z * nso :=
  if negb (Nat.eqb (ns_nj s) (length o)) then (E_SIZE_MISMATCH, nso_leave s (ns_jac s) (ns_svd s) E_SIZE_MISMATCH)
  else (E_NOERROR, mkNS (ns_nj s) (ns_locked s) (ns_jac s) (ns_eps s) (ns_maxiter s) (ns_svd s) (ns_alpha s) (ns_weights s) o E_NOERROR).
(** chainiksolvervel_pinv_nso.cpp:182-186 *)
Definition nso_setAlpha (s : nso) (a : R) : Z * nso :=
  (0%Z, mkNS (ns_nj s) (ns_locked s) (ns_jac s) (ns_eps s) (ns_maxiter s) (ns_svd s) a (ns_weights s) (ns_opt s) (ns_error s)).
(** chainiksolvervel_pinv_nso.cpp:113-115: Sinv(i) *)
Definition nso_sinv (eps : R) (d : Decomp) (i : nat) : outcome R :=
  if Rlt_dec (Rabs (dc_S d i)) eps then Ret 0 else rdiv 1 (dc_S d i).
(** chainiksolvervel_pinv_nso.cpp:155: one column of [U*S.asDiagonal()*V.transpose()*tmp] *)
Definition nso_forward (n : nat) (d : Decomp) (x : list R) (r : nat) : R :=
  total n (fun i => dc_U d r i * (dc_S d i * total n (fun j => dc_V d j i * nth j x 0))).
(** [V*Sinv.asDiagonal()*U.transpose()*y], y of six *)
Definition nso_back (n : nat) (d : Decomp) (sinv : list R) (y : nat -> R) : list R :=
  map (fun j => total n (fun i => dc_V d j i * (nth i sinv 0 * total 6 (fun r => dc_U d r i * y r)))) (seq 0 n).
(** chainiksolvervel_pinv_nso.cpp:84-164.  Lines 116-118 write six entries into
    tmp, which has nj. *)
Definition nso_CartToJnt (c : Chain) (s : nso) (q : list R) (v : Twist) (qdot : list R) : outcome (Z * list R * nso) :=
  if negb (Nat.eqb (ns_nj s) (ch_nj c)) then
    Ret (E_NOT_UP_TO_DATE, qdot, nso_leave s (ns_jac s) (ns_svd s) E_NOT_UP_TO_DATE)
  else if negb (Nat.eqb (ns_nj s) (length q)) || negb (Nat.eqb (ns_nj s) (length qdot)) ||
          negb (Nat.eqb (ns_nj s) (length (ns_opt s))) || negb (Nat.eqb (ns_nj s) (length (ns_weights s))) then
    Ret (E_SIZE_MISMATCH, qdot, nso_leave s (ns_jac s) (ns_svd s) E_SIZE_MISMATCH)
  else
    let! (e, jac) := jac_JntToJac c (ns_locked s) q (ns_jac s) (-1) in
    if (e <? 0)%Z then Ret (e, qdot, nso_leave s jac (ns_svd s) e)
    else
      let d := svd (ns_maxiter s) (jac_mat jac) in
      if negb (dc_rc d =? 0)%Z then
        Ret (E_SVD_FAILED, repeat 0 (length qdot), nso_leave s jac (dc_rc d) E_SVD_FAILED)
      else if Nat.ltb (ns_nj s) 6 then Undef
      else
        let n := ns_nj s in
        let! sinv := entries (nso_sinv (ns_eps s) d) 0 n in
        let qdot := nso_back n d sinv (t_at v) in
        let dev i := nth i q 0 - nth i (ns_opt s) 0 in
        let w i := nth i (ns_weights s) 0 in
        let g := total n (fun i => (1 / 2) * dev i * dev i * w i) in
        let A := total n (fun i => dev i * dev i * w i * w i) in
        let done := nso_leave s jac (dc_rc d) E_NOERROR in
        if Rgt_dec A (1 / 1000000000) then
          let tmp := map (fun i => w i * dev i / A) (seq 0 n) in
          let tmp2 := nso_back n d sinv (nso_forward n d tmp) in
          Ret (E_NOERROR, map (fun i => nth i qdot 0 + (- (2)) * ns_alpha s * g * (nth i tmp 0 - nth i tmp2 0)) (seq 0 n), done)
        else Ret (E_NOERROR, qdot, done).

(** * ChainIkSolverVel_wdls *)
(** chainiksolvervel_wdls.hpp, members *)
Record wdls := mkWD {
  wd_nj : nat; wd_locked : list bool; wd_jac : list Twist; wd_eps : R; wd_maxiter : Z;
  wd_ts : Mat; wd_js : Mat; wd_lambda : R; wd_scaled : R; wd_S : list R;
  wd_zeros : nat; wd_svd : Z; wd_smin : R; wd_error : Z }.
(** chainiksolvervel_wdls.cpp:28-52 *)
Definition wdls_make (c : Chain) (eps : R) (maxiter : Z) : wdls :=
  mkWD (ch_nj c) (jacsolver_make c) (jac_make (ch_nj c)) eps maxiter (m_identity 6) (m_identity (ch_nj c)) 0 0
       (repeat 0 (ch_nj c)) 0 0 0 E_NOERROR.
(** chainiksolvervel_wdls.cpp:54-70; conservativeResizeLike keeps the common part *)
Definition wdls_update (c : Chain) (s : wdls) : wdls :=
  let n := ch_nj c in
  mkWD n (jacsolver_update c (wd_locked s)) (vec_resize (wd_jac s) n t_zero) (wd_eps s) (wd_maxiter s)
       (wd_ts s)
       (mkM n n (fun i j => if Nat.ltb i (mrows (wd_js s)) && Nat.ltb j (mcols (wd_js s)) then mentry (wd_js s) i j
                            else if Nat.eqb i j then 1 else 0))
       (wd_lambda s) (wd_scaled s) (vec_resize (wd_S s) n 0) (wd_zeros s) (wd_svd s) (wd_smin s) (wd_error s).
Definition wdls_error (s : wdls) (code : Z) : wdls :=
  mkWD (wd_nj s) (wd_locked s) (wd_jac s) (wd_eps s) (wd_maxiter s) (wd_ts s) (wd_js s) (wd_lambda s) (wd_scaled s) (wd_S s)
       (wd_zeros s) (wd_svd s) (wd_smin s) code.
(** chainiksolvervel_wdls.cpp:76-84.  [size()] is rows times columns. *)
Definition wdls_setWeightJS (c : Chain) (s : wdls) (M : Mat) : Z * wdls :=
  if negb (Nat.eqb (wd_nj s) (ch_nj c)) then (E_NOT_UP_TO_DATE, wdls_error s E_NOT_UP_TO_DATE)
  else if negb (Nat.eqb (mrows M * mcols M) (mrows (wd_js s) * mcols (wd_js s))) then (E_SIZE_MISMATCH, wdls_error s E_SIZE_MISMATCH)
  else (E_NOERROR, mkWD (wd_nj s) (wd_locked s) (wd_jac s) (wd_eps s) (wd_maxiter s) (wd_ts s) M (wd_lambda s) (wd_scaled s) (wd_S s)
                        (wd_zeros s) (wd_svd s) (wd_smin s) E_NOERROR).
(** chainiksolvervel_wdls.cpp:86-91 *)
Definition wdls_setWeightTS (s : wdls) (M : Mat) : Z * wdls :=
  if negb (Nat.eqb (mrows M * mcols M) (mrows (wd_ts s) * mcols (wd_ts s))) then (E_SIZE_MISMATCH, wdls_error s E_SIZE_MISMATCH)
  else (E_NOERROR, mkWD (wd_nj s) (wd_locked s) (wd_jac s) (wd_eps s) (wd_maxiter s) M (wd_js s) (wd_lambda s) (wd_scaled s) (wd_S s)
                        (wd_zeros s) (wd_svd s) (wd_smin s) E_NOERROR).
(** chainiksolvervel_wdls.cpp:93-106 *)
Definition wdls_setLambda (s : wdls) (l : R) : wdls :=
  mkWD (wd_nj s) (wd_locked s) (wd_jac s) (wd_eps s) (wd_maxiter s) (wd_ts s) (wd_js s) l (wd_scaled s) (wd_S s)
       (wd_zeros s) (wd_svd s) (wd_smin s) (wd_error s).
Definition wdls_setEps (s : wdls) (e : R) : wdls :=
  mkWD (wd_nj s) (wd_locked s) (wd_jac s) e (wd_maxiter s) (wd_ts s) (wd_js s) (wd_lambda s) (wd_scaled s) (wd_S s)
       (wd_zeros s) (wd_svd s) (wd_smin s) (wd_error s).
Definition wdls_setMaxIter (s : wdls) (m : Z) : wdls :=
  mkWD (wd_nj s) (wd_locked s) (wd_jac s) (wd_eps s) m (wd_ts s) (wd_js s) (wd_lambda s) (wd_scaled s) (wd_S s)
       (wd_zeros s) (wd_svd s) (wd_smin s) (wd_error s).
(** chainiksolvervel_wdls.cpp:108-114: (code, Sout, solver) *)
Definition wdls_getSigma (s : wdls) (Sout : list R) : Z * list R * wdls :=
  if negb (Nat.eqb (length Sout) (length (wd_S s))) then (E_SIZE_MISMATCH, Sout, wdls_error s E_SIZE_MISMATCH)
  else (E_NOERROR, wd_S s, wdls_error s E_NOERROR).
Definition wdls_leave (s : wdls) (jac : list Twist) (scaled : R) (S : list R) (zeros : nat) (rc : Z) (smin : R) (code : Z) : wdls :=
  mkWD (wd_nj s) (wd_locked s) jac (wd_eps s) (wd_maxiter s) (wd_ts s) (wd_js s) (wd_lambda s) scaled S zeros rc smin code.
(** chainiksolvervel_wdls.cpp:177-180; a zero eps is not below any singular value *)
Definition wdls_scaled (smin eps lambda : R) : R :=
  if Rlt_dec smin eps then sqrt (1 - (smin / eps) * (smin / eps)) * lambda else 0.
(** chainiksolvervel_wdls.cpp:166-195: tmp(i) *)
Definition wdls_tmp (eps scaled : R) (ts : Mat) (d : Decomp) (v : Twist) (i : nat) : outcome R :=
  let sum := if Nat.ltb i 6 then total 6 (fun j => total 6 (fun k => mentry ts j k * dc_U d k i) * t_at v j) else 0 in
  if Rlt_dec (Rabs (dc_S d i)) eps then
    if Nat.ltb i 6 then let! f := rdiv (dc_S d i) (dc_S d i * dc_S d i + scaled * scaled) in Ret (sum * f)
    else Ret 0
  else rdiv sum (dc_S d i).
(** chainiksolvervel_wdls.cpp:116-216.  U is 6 x nj, so the 6 x 6 corner of line
    154 is outside it for fewer than six joints. *)
Definition wdls_CartToJnt (c : Chain) (s : wdls) (q : list R) (v : Twist) (qdot : list R) : outcome (Z * list R * wdls) :=
  if negb (Nat.eqb (wd_nj s) (ch_nj c)) then Ret (E_NOT_UP_TO_DATE, qdot, wdls_error s E_NOT_UP_TO_DATE)
  else if negb (Nat.eqb (wd_nj s) (length q)) || negb (Nat.eqb (wd_nj s) (length qdot)) then
    Ret (E_SIZE_MISMATCH, qdot, wdls_error s E_SIZE_MISMATCH)
  else
    let! (e, jac) := jac_JntToJac c (wd_locked s) q (wd_jac s) (-1) in
    if (e <? 0)%Z then Ret (e, qdot, wdls_leave s jac (wd_scaled s) (wd_S s) (wd_zeros s) (wd_svd s) (wd_smin s) e)
    else
      let! w1 := m_mul (jac_mat jac) (wd_js s) in
      let! w2 := m_mul (wd_ts s) w1 in
      let d := svd (wd_maxiter s) w2 in
      let n := wd_nj s in
      let S := map (dc_S d) (seq 0 n) in
      if negb (dc_rc d =? 0)%Z then
        Ret (E_SVD_FAILED, repeat 0 (length qdot), wdls_leave s jac 0 S 0 (dc_rc d) 0 E_SVD_FAILED)
      else if Nat.ltb n 6 then Undef
      else
        let smin := dc_S d 5 in
        let scaled := wdls_scaled smin (wd_eps s) (wd_lambda s) in
        let! tmp := entries (wdls_tmp (wd_eps s) scaled (wd_ts s) d v) 0 n in
        let! js := m_mul (wd_js s) (mkM n n (dc_V d)) in
        let! qdot := m_vec js tmp in
        let zeros := count_below (wd_eps s) (dc_S d) n in
        let code := if (unsigned_minus n 6 <? Z.of_nat zeros)%Z then E_CONVERGE_PINV_SINGULAR else E_NOERROR in
        Ret (code, qdot, wdls_leave s jac scaled S zeros (dc_rc d) smin code).

(** * TreeIkSolverVel_wdls *)
(** treeiksolvervel_wdls.hpp, members: the number of endpoints given, the map of
    Jacobians (only its keys and the number of columns matter: every Jacobian is
    recomputed before use), the weights and lambda *)
Record twdls := mkTW { tw_tree : Tree; tw_ends : nat; tw_jacs : dict (list Twist); tw_Wy : Mat; tw_Wq : Mat; tw_lambda : R }.
(** treeiksolvervel_wdls.cpp:12-31; the member jnttojacsolver copies the copied tree *)
Definition twdls_make (t : Tree) (endpoints : list string) : outcome twdls :=
  let! t1 := tree_copy t in
  let! t2 := treejac_make t1 in
  Ret (mkTW t2 (length endpoints) (dict_of endpoints (jac_make (tr_nj t1)))
            (m_identity (6 * length endpoints)) (m_identity (tr_nj t1)) 0).
(** treeiksolvervel_wdls.cpp:36-46 *)
Definition twdls_setWeightJS (s : twdls) (M : Mat) : twdls := mkTW (tw_tree s) (tw_ends s) (tw_jacs s) (tw_Wy s) M (tw_lambda s).
Definition twdls_setWeightTS (s : twdls) (M : Mat) : twdls := mkTW (tw_tree s) (tw_ends s) (tw_jacs s) M (tw_Wq s) (tw_lambda s).
Definition twdls_setLambda (s : twdls) (l : R) : twdls := mkTW (tw_tree s) (tw_ends s) (tw_jacs s) (tw_Wy s) (tw_Wq s) l.
(** treeiksolvervel_wdls.cpp:60-74: the loop over the map.  Result: an early return
    code, or the Jacobians and twists in the order of the map.  [v_in.find(..)->second]
    of a name that is not there is undefined. *)
Fixpoint twdls_gather (t : Tree) (q : list R) (v_in : dict Twist) (js : dict (list Twist))
  : outcome (Z + list (list Twist * Twist)) :=
  match js with
  | [] => Ret (inr [])
  | (k, buf) :: rest =>
      let! (rc, J) := treejac_JntToJac t q buf k in
      if (rc <? 0)%Z then Ret (inl rc)
      else match dict_find v_in k with
           | None => Undef
           | Some tw =>
               let! r := twdls_gather t q v_in rest in
               Ret (match r with inl e => inl e | inr l => inr ((J, tw) :: l) end)
           end
  end.
(** treeiksolvervel_wdls.cpp:68-71: J and t; the rows past the last endpoint of the
    map keep the zeros of the constructor *)
Definition stack_J (l : list (list Twist * Twist)) (ends nj : nat) : Mat :=
  mkM (6 * ends) nj (fun r j => t_at (nth j (fst (nth (r / 6) l ([], t_zero))) t_zero) (r mod 6)).
Definition stack_t (l : list (list Twist * Twist)) (ends : nat) : list R :=
  map (fun r => t_at (snd (nth (r / 6) l ([], t_zero))) (r mod 6)) (seq 0 (6 * ends)).
(** treeiksolvervel_wdls.cpp:48-105: (returned double, qdot_out).  Line 82 uses the
    default iteration limit of svd_eigen_HH (svd_eigen_HH.hpp:56). *)
Definition twdls_CartToJnt (s : twdls) (q : list R) (v_in : dict Twist) (qdot : list R) : outcome (R * list R) :=
  let nj := tr_nj (tw_tree s) in
  if negb (forallb (fun e => match dict_find (tw_jacs s) (fst e) with Some _ => true | None => false end) v_in) then Ret (-2, qdot)
  else if negb (Nat.eqb (length q) nj) then Ret (-1, qdot)
  else
    let! g := twdls_gather (tw_tree s) q v_in (tw_jacs s) in
    match g with
    | inl e => Ret (IZR e, qdot)
    | inr l =>
        let m := (6 * tw_ends s)%nat in
        let! J_Wq := m_mul (stack_J l (tw_ends s) nj) (tw_Wq s) in
        let! B := m_mul (tw_Wy s) J_Wq in
        let d := svd 150 B in
        if (dc_rc d <? 0)%Z then Ret (IZR E_SVD_FAILED, qdot)
        else
          let! Wy_t := m_vec (tw_Wy s) (stack_t l (tw_ends s)) in
          let! Wq_V := m_mul (tw_Wq s) (mkM nj nj (dc_V d)) in
          let! tmp := entries (fun i =>
             let sum := if Nat.ltb i m then total m (fun j => dc_U d j i * nth j Wy_t 0) else 0 in
             let! f := rdiv (dc_S d i) (dc_S d i * dc_S d i + tw_lambda s * tw_lambda s) in
             Ret (sum * f)) 0 nj in
          let! qdot := m_vec Wq_V tmp in
          Ret (sqrt (total m (fun j => nth j Wy_t 0 * nth j Wy_t 0)), qdot)
    end.
End VelIk.
