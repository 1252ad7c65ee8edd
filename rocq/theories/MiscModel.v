(** Model of the small value classes: JntSpaceInertiaMatrix, Stiffness, the I/O error stack and the random numbers.

    Sources (in /repo/orocos_kdl/src): jntspaceinertiamatrix.{hpp,cpp}, stiffness.hpp, utilities/error_stack.cxx,
    utilities/utility.h.  Doubles are reals. *)
From Coq Require Import Reals Ascii String List ZArith Bool Arith.
From Verif Require Import FramesModel Outcome InertiaModel KinModel JntModel.
Import ListNotations.
Local Open Scope list_scope.
Local Open Scope R_scope.

(** * JntSpaceInertiaMatrix *)
(** jntspaceinertiamatrix.hpp:73: Eigen::MatrixXd, square, stored column after column. *)
Record jmat := mkJM { jm_n : nat; jm_d : list R }.
(** live objects and what they hold *)
Definition mstore := ref -> jmat.
Definition m_put (st : mstore) (r : ref) (m : jmat) : mstore := fun r' => if Nat.eqb r' r then m else st r'.
Definition m_data (st : mstore) : store := fun r => jm_d (st r).

(** jntspaceinertiamatrix.cpp:26-28 *)
Definition jm_default : jmat := mkJM 0 [].
(** 30-34 *)
Definition jm_make (n : nat) : jmat := mkJM n (repeat 0 (n * n)).
(** 53-56, MatrixXd::resize: nothing happens when the size stays the same; otherwise the contents are whatever the new
    memory holds ([junk]). *)
Definition jm_resize (junk : nat -> list R) (m : jmat) (n : nat) : jmat :=
  if Nat.eqb n (jm_n m) then m else mkJM n (junk n).
(** 58-66; outside the matrix the behaviour is undefined *)
Definition jm_get (m : jmat) (i j : nat) : outcome R :=
  if (Nat.ltb i (jm_n m) && Nat.ltb j (jm_n m))%bool then aget (jm_d m) (j * jm_n m + i) else Undef.
Definition jm_set (m : jmat) (i j : nat) (x : R) : outcome jmat :=
  if (Nat.ltb i (jm_n m) && Nat.ltb j (jm_n m))%bool
  then let! l := aset (jm_d m) (j * jm_n m + i) x in Ret (mkJM (jm_n m) l) else Undef.

(** The coefficient-wise assignments of JntModel on the stored coefficients; the destination takes the size of the
    expression. *)
Definition jm_binary (op : R -> R -> R) (st : mstore) (a b dest : ref) : outcome mstore :=
  if Nat.eqb (jm_n (st a)) (jm_n (st b)) then
    let! s := eigen_binary op (m_data st) a b dest in Ret (m_put st dest (mkJM (jm_n (st a)) (s dest)))
  else Undef.
Definition jm_unary (op : R -> R) (st : mstore) (a dest : ref) : outcome mstore :=
  let! s := eigen_unary op (m_data st) a dest in Ret (m_put st dest (mkJM (jm_n (st a)) (s dest))).

(** 36-45: copy and assignment *)
Definition jm_assign (st : mstore) (src dest : ref) : outcome mstore := jm_unary (fun x => x) st src dest.
(** 79-82 *)
Definition jm_Add (st : mstore) (src1 src2 dest : ref) : outcome mstore := jm_binary Rplus st src1 src2 dest.
(** 84-87 *)
Definition jm_Subtract (st : mstore) (src1 src2 dest : ref) : outcome mstore := jm_binary Rminus st src1 src2 dest.
(** 89-92 *)
Definition jm_Multiply (st : mstore) (src : ref) (factor : R) (dest : ref) : outcome mstore :=
  jm_unary (fun x => factor * x) st src dest.
(** 94-97.  Statements about it carry the guard factor <> 0. *)
Definition jm_Divide (st : mstore) (src : ref) (factor : R) (dest : ref) : outcome mstore :=
  jm_unary (fun x => x / factor) st src dest.
(** 104-107 *)
Definition jm_SetToZero (st : mstore) (a : ref) : outcome mstore :=
  Ret (m_put st a (mkJM (jm_n (st a)) (repeat 0 (length (jm_d (st a)))))).
(** 109-114 *)
Definition jm_Equal (a b : jmat) (eps : R) : bool :=
  if Nat.eqb (jm_n a) (jm_n b)
  then forallb (fun p => entry_isZero eps (fst p - snd p)) (combine (jm_d a) (jm_d b)) else false.
(** 116; default eps of jntspaceinertiamatrix.hpp:226 *)
Definition jm_eq (a b : jmat) : bool := jm_Equal a b kdl_epsilon.

(** 99-102: dest.data = src.data.lazyProduct(vec.data).  A lazy product has no temporary: each coefficient is computed
    from what vec holds at that moment and stored at once (one after the other; a vectorised build computes two or more
    at a time before storing them). *)
Fixpoint jm_row (m : jmat) (v : list R) (i j : nat) (k : nat) : outcome R :=
  match k with
  | O => Ret 0
  | S k => let! a := jm_get m i j in let! x := aget v j in let! r := jm_row m v i (S j) k in Ret (a * x + r)
  end.
Definition jm_Multiply_vec (m : jmat) (st : store) (vec dest : ref) : outcome store :=
  if Nat.eqb (jm_n m) (length (st vec)) then
    eigen_assign st (jm_n m) (fun st i => jm_row m (st vec) i 0 (jm_n m)) dest
  else Undef.

(** * Stiffness *)
(** stiffness.hpp:37: six numbers, translations first *)
Record Stiffness := mkStiff { st_t : Vector; st_r : Vector }.
(** 39-46, 55-62 *)
Definition stiff_zero : Stiffness := mkStiff v_zero v_zero.
Definition stiff_make (x y z rx ry rz : R) : Stiffness := mkStiff (mkV x y z) (mkV rx ry rz).
(** 47-54 *)
Definition stiff_of_array (d : list R) : outcome Stiffness :=
  let! a := aget d 0 in let! b := aget d 1 in let! c := aget d 2 in
  let! e := aget d 3 in let! f := aget d 4 in let! g := aget d 5 in Ret (stiff_make a b c e f g).
Definition v_times (a b : Vector) : Vector := mkV (vx a * vx b) (vy a * vy b) (vz a * vz b).
Definition v_over (a b : Vector) : Vector := mkV (vx a / vx b) (vy a / vy b) (vz a / vz b).
(** 69-78.  Statements about it carry the guard that no entry is 0. *)
Definition stiff_Inverse (s : Stiffness) (w : Wrench) : Twist := mkT (v_over (wforce w) (st_t s)) (v_over (wtorque w) (st_r s)).
(** 81-90 *)
Definition stiff_mul (s : Stiffness) (t : Twist) : Wrench := mkW (v_times (st_t s) (tvel t)) (v_times (st_r s) (trot t)).
(** 92-101 *)
Definition stiff_add (a b : Stiffness) : Stiffness := mkStiff (v_add (st_t a) (st_t b)) (v_add (st_r a) (st_r b)).

(** * Random numbers *)
(** utility.h:274-280; [r] is what rand() returned, [m] is RAND_MAX *)
Definition rand_sym (r m : Z) : R := 198 / 100 * IZR r / IZR m - 99 / 100.
Definition rand_pos (r m : Z) : R := 1 / 1000 + 99 / 100 * IZR r / IZR m.
(** stiffness.hpp:102-114; the results of six calls of rand() *)
Definition stiff_posrandom (m r0 r1 r2 r3 r4 r5 : Z) : Stiffness :=
  stiff_make (rand_pos r0 m) (rand_pos r1 m) (rand_pos r2 m) (rand_pos r3 m) (rand_pos r4 m) (rand_pos r5 m).
Definition stiff_random := stiff_posrandom.

(** * The error stack *)
(** error_stack.cxx 27-30: std::stack<std::string>, the top is the head *)
Definition errorstack := list string.
Definition es_trace (d : string) (e : errorstack) : errorstack := d :: e.
(** 33-40; pop of an empty stack is undefined *)
Definition es_pop (e : errorstack) : outcome errorstack := match e with _ :: t => Ret t | [] => Undef end.
(** c_str(): the characters up to the first NUL *)
Fixpoint c_str (s : string) : list ascii :=
  match s with
  | EmptyString => []
  | String c r => if Ascii.eqb c "000" then [] else c :: c_str r
  end.
(** 42-47: the text written, and the stack afterwards *)
Definition es_output (e : errorstack) : list ascii * errorstack :=
  (fold_right (fun s t => c_str s ++ "010"%char :: t) [] e, []).
(** strncpy(buffer,s,n): exactly n characters, NULs after the end of s; a buffer that is shorter is overrun *)
Definition strncpy (buffer s : list ascii) (n : nat) : outcome (list ascii) :=
  if Nat.leb n (length buffer) then Ret (firstn n (s ++ repeat "000"%char n) ++ skipn n buffer) else Undef.
(** 50-68 *)
Definition es_popStr (e : errorstack) (buffer : list ascii) (size : Z) : outcome (errorstack * list ascii) :=
  if (size <=? 0)%Z then Ret (e, buffer) else
  match e with
  | [] => let! b := aset buffer 0 "000"%char in Ret (e, b)
  | s :: t =>
    let n := Z.to_nat size in
    let! b := strncpy buffer (c_str s) n in
    let! b := aset b (n - 1) "000"%char in
    Ret (t, b)
  end.
(** calls in the order they are made *)
Inductive es_op := Es_Trace (d : string) | Es_Pop.
Fixpoint es_run (l : list es_op) (e : errorstack) : outcome errorstack :=
  match l with
  | [] => Ret e
  | Es_Trace d :: r => es_run r (es_trace d e)
  | Es_Pop :: r => let! e := es_pop e in es_run r e
  end.
