(** Model of the inverse velocity solver that updates a singular value
    decomposition with plane rotations.

    Sources: /repo/orocos_kdl/src/utilities/svd_eigen_Macie.{hpp,cpp} and
    /repo/orocos_kdl/src/chainiksolvervel_pinv_givens.{hpp,cpp}.

    Matrices are entry functions; the solver gives A the size m x n, U m x m, V
    n x n, S n, with n <= m, and every index stays in range.  The loop
    [while(rotate)] has no bound in the code, so the model runs at most [fuel]
    sweeps and says so with [None] when they do not suffice.  Comparisons with
    NaN are false: 0/0 in the orthogonality test means "rotate".  A rotation
    with c = 0 fills the columns with NaN; the model calls that [Undef].
    S is not initialised by the solver's constructor: its entries are [None]
    until they are written, and reading such an entry is [Undef].
    The buffers B, tempi, UY, qdot_eigen, v_in_eigen and jac_eigen are written
    before they are read in each call and are not part of the state.  The entries
    of SUY from n on are zero for ever. *)
From Coq Require Import Reals List ZArith Bool Arith.
From Verif Require Import FramesModel Outcome DualModel KinModel SvdModel VelIkModel.
Import ListNotations.
Local Open Scope list_scope.
Local Open Scope R_scope.

(** * svd_eigen_Macie *)

(** [B.col(i).dot(B.col(j))] of a matrix with [rows] rows *)
Definition cdot (rows : nat) (B : mat) (i j : nat) : R := total rows (fun a => B a i * B a j).

(** svd_eigen_Macie.cpp:42-49, 106-115: the pair is left alone.  The quotient with
    a zero divisor is NaN or infinite and not below the threshold. *)
Definition left_alone (threshold p qi qj : R) : bool :=
  if Req_EM_T (qi * qj) 0 then false
  else if Rlt_dec (p * p / (qi * qj)) threshold then true else false.

(** svd_eigen_Macie.cpp:52-63, 118-129: (cos, sin) *)
Definition plane (p q : R) : outcome (R * R) :=
  let c := sqrt (4 * (p * p) + q * q) in
  if Req_EM_T c 0 then Undef
  else if Rle_dec 0 q then
    let cos := sqrt ((c + q) / (2 * c)) in Ret (cos, p / (c * cos))
  else
    let sin := if Rlt_dec p 0 then - sqrt ((c - q) / (2 * c)) else sqrt ((c - q) / (2 * c)) in
    Ret (p / (c * sin), sin).

(** svd_eigen_Macie.cpp:66-68, 71-73, 132-134, 138-140 *)
Definition turn (i j : nat) (cs sn : R) (X : mat) : mat := fun a b =>
  if Nat.eqb b i then cs * X a i + sn * X a j
  else if Nat.eqb b j then - sn * X a i + cs * X a j
  else X a b.

(** svd_eigen_Macie.cpp:40-76, 104-143: one pair.  State: B, the matrix turned
    along with it, the number of rotations *)
Definition jacobi_pair (threshold : R) (rows : nat) (i j : nat) (st : mat * mat * nat) : outcome (mat * mat * nat) :=
  let '(B, W, k) := st in
  let p := cdot rows B i j in
  let qi := cdot rows B i i in
  let qj := cdot rows B j j in
  if left_alone threshold p qi qj then Ret st
  else let! (cs, sn) := plane p (qi - qj) in
       Ret (turn i j cs sn B, turn i j cs sn W, S k).

(** svd_eigen_Macie.cpp:37-77, 101-144: one sweep over the pairs i < j < n *)
Definition jacobi_sweep (threshold : R) (rows n : nat) (B W : mat) : outcome (mat * mat * nat) :=
  for_loop n 0 (fun i => for_loop (n - S i) (S i) (jacobi_pair threshold rows i)) (B, W, 0%nat).

(** svd_eigen_Macie.cpp:80-91, 148-155: the columns of B, divided by their lengths *)
Definition unit_columns (rows n : nat) (B : mat) : mat := fun a i =>
  if Nat.ltb i n then
    let si := sqrt (cdot rows B i i) in if Req_EM_T si 0 then B a i else B a i / si
  else 0.
Definition column_lengths (rows n : nat) (B : mat) (Sg : nat -> option R) : nat -> option R := fun i =>
  if Nat.ltb i n then Some (sqrt (cdot rows B i i)) else Sg i.

(** svd_eigen_Macie.cpp:35-95, 99-159: sweeps until one makes no rotation.  [F] is
    the factor computed from B: U in the first branch, V in the second.  The result:
    the matrix turned along, F, S, the number of sweeps *)
Fixpoint jacobi (fuel : nat) (threshold : R) (rows n : nat) (B W F : mat) (Sg : nat -> option R) (sweeps : nat)
  : outcome (option (mat * mat * (nat -> option R) * nat)) :=
  match fuel with
  | O => Ret None
  | S fuel' =>
      let! (B', W', rotations) := jacobi_sweep threshold rows n B W in
      if Nat.eqb rotations 0 then Ret (Some (W', F, Sg, sweeps))
      else jacobi fuel' threshold rows n B' W' (unit_columns rows n B') (column_lengths rows n B' Sg) (S sweeps)
  end.

(** svd_eigen_Macie.cpp:25-161: (U, S, V, sweeps).  The second branch works on the
    rows of U^T A: it is the same loop on the columns of the transpose. *)
Definition svd_eigen_Macie (fuel m n : nat) (A U : mat) (Sg : nat -> option R) (V : mat) (threshold : R) (toggle : bool)
  : outcome (option (mat * (nat -> option R) * mat * nat)) :=
  if toggle then
    let B : mat := fun a b => total n (fun k => A a k * V k b) in
    let! r := jacobi fuel threshold m n B V U Sg 0 in
    Ret (match r with Some (V', U', S', k) => Some (U', S', V', k) | None => None end)
  else
    let Bt : mat := fun b i => total m (fun k => U k i * A k b) in
    let! r := jacobi fuel threshold n n Bt U V Sg 0 in
    Ret (match r with Some (U', V', S', k) => Some (U', S', V', k) | None => None end).

(** * ChainIkSolverVel_pinv_givens *)

(** chainiksolvervel_pinv_givens.hpp, members *)
Record givens := mkGV {
  gv_nj : nat; gv_locked : list bool; gv_jac : list Twist; gv_toggle : bool;
  gv_U : mat; gv_S : nat -> option R; gv_V : mat; gv_error : Z }.
(** The members m, n and transpose are functions of nj: lines 32-34, 52-54 *)
Definition gv_m (nj : nat) : nat := Nat.max 6 nj.
Definition gv_n (nj : nat) : nat := Nat.min 6 nj.
Definition gv_transpose (nj : nat) : bool := Nat.ltb 6 nj.

Definition eye : mat := fun a b => if Nat.eqb a b then 1 else 0.
(** conservativeResizeLike(Identity) of an old x old matrix: entries outside the old
    block come from the identity *)
Definition keep_block (old : nat) (X : mat) : mat := fun a b =>
  if Nat.ltb a old && Nat.ltb b old then X a b else eye a b.

(** chainiksolvervel_pinv_givens.cpp:27-46 *)
Definition givens_make (c : Chain) : givens :=
  mkGV (ch_nj c) (jacsolver_make c) (jac_make (ch_nj c)) true eye (fun _ => None) eye E_NOERROR.

(** chainiksolvervel_pinv_givens.cpp:48-63 *)
Definition givens_update (c : Chain) (s : givens) : givens :=
  mkGV (ch_nj c) (jacsolver_update c (gv_locked s)) (vec_resize (gv_jac s) (ch_nj c) t_zero) (gv_toggle s)
       (keep_block (gv_m (gv_nj s)) (gv_U s))
       (fun i => if Nat.ltb i (gv_n (gv_nj s)) then gv_S s i else None)
       (keep_block (gv_n (gv_nj s)) (gv_V s)) (gv_error s).

(** chainiksolvervel_pinv_givens.cpp:101-110: SUY(i) *)
Definition givens_suy (Sg : nat -> option R) (uy : nat -> R) (i : nat) : outcome R :=
  match Sg i with
  | None => Undef
  | Some alpha => Ret ((if Req_EM_T alpha 0 then 0 else 1 / alpha) * uy i)
  end.

Definition givens_leave (s : givens) (toggle : bool) (jac : list Twist) (code : Z) : givens :=
  mkGV (gv_nj s) (gv_locked s) jac toggle (gv_U s) (gv_S s) (gv_V s) code.

(** The threshold of line 94 *)
Definition givens_threshold : R := 1 / 10 ^ 15.

(** chainiksolvervel_pinv_givens.cpp:70-121; [None]: still inside svd_eigen_Macie
    after [fuel] sweeps *)
Definition givens_CartToJnt (fuel : nat) (c : Chain) (s : givens) (q : list R) (v : Twist) (qdot : list R)
  : outcome (option (Z * list R * givens)) :=
  if negb (Nat.eqb (gv_nj s) (ch_nj c)) then
    Ret (Some (E_NOT_UP_TO_DATE, qdot, givens_leave s (gv_toggle s) (gv_jac s) E_NOT_UP_TO_DATE))
  else if negb (Nat.eqb (gv_nj s) (length q)) || negb (Nat.eqb (gv_nj s) (length qdot)) then
    Ret (Some (E_SIZE_MISMATCH, qdot, givens_leave s (gv_toggle s) (gv_jac s) E_SIZE_MISMATCH))
  else
    let toggle := negb (gv_toggle s) in
    let! (e, jac) := jac_JntToJac c (gv_locked s) q (gv_jac s) (-1) in
    if (e <? 0)%Z then Ret (Some (e, qdot, givens_leave s toggle jac e))
    else
      let nj := gv_nj s in
      let m := gv_m nj in
      let n := gv_n nj in
      let A : mat := fun i j => if gv_transpose nj then t_at (nth i jac t_zero) j else t_at (nth j jac t_zero) i in
      let! r := svd_eigen_Macie fuel m n A (gv_U s) (gv_S s) (gv_V s) givens_threshold toggle in
      match r with
      | None => Ret None
      | Some (U, Sg, V, _) =>
          let uy := fun i => if gv_transpose nj then total 6 (fun k => V k i * t_at v k)
                             else total 6 (fun k => U k i * t_at v k) in
          let! suy := entries (givens_suy Sg uy) 0 n in
          let qdot := map (fun j => if gv_transpose nj then total nj (fun k => U j k * nth k suy 0)
                                    else total nj (fun k => V j k * nth k suy 0)) (seq 0 nj) in
          Ret (Some (E_NOERROR, qdot, mkGV nj (gv_locked s) jac toggle U Sg V E_NOERROR))
      end.
