(** Model of joint arrays and the operations on them.

    Sources (in /repo/orocos_kdl/src): jntarray.{hpp,cpp}, jntarrayvel.{hpp,cpp},
    jntarrayacc.{hpp,cpp}.

    The free functions take their destination by reference and may be called
    with the destination equal to an operand, so arrays live in a store and are
    named by references.  Eigen evaluates a coefficient-wise expression directly
    into the destination, one coefficient after the other (no temporary); this
    is modelled by a loop that reads the current store. *)
From Coq Require Import Reals List ZArith Bool Arith.
From Verif Require Import FramesModel Outcome InertiaModel DualModel KinModel.
Import ListNotations.
Local Open Scope R_scope.

(** Addresses of live [JntArray] objects and what they hold. *)
Definition ref := nat.
Definition store := ref -> list R.
Definition s_put (st : store) (r : ref) (l : list R) : store :=
  fun r' => if Nat.eqb r' r then l else st r'.

(** jntarray.cpp:30-34 *)
Definition jnt_make (n : nat) : list R := repeat 0 n.
(** jntarray.cpp:53-56, conservativeResizeLike(Zero(newSize)): the old
    coefficients are kept, new ones come from the zero vector. *)
Definition jnt_resize (l : list R) (n : nat) : list R := vec_resize l n 0.
(** jntarray.cpp:58-68 *)
Definition jnt_get (l : list R) (i : nat) : outcome R := aget l i.
Definition jnt_set (l : list R) (i : nat) (x : R) : outcome (list R) := aset l i x.
(** jntarray.cpp:70-78; a default-constructed array (26-28) is the empty list. *)
Definition jnt_rows (l : list R) : nat := length l.

(** Eigen: [dest.data = expr] for a coefficient-wise [expr] of [n] rows.  The
    destination is resized first when its size differs (its coefficients are
    then indeterminate; here 0, and all of them are written by the loop). *)
Definition eigen_assign (st : store) (n : nat) (coeff : store -> nat -> outcome R) (dest : ref) : outcome store :=
  let st := if Nat.eqb (length (st dest)) n then st else s_put st dest (repeat 0 n) in
  for_loop n 0
    (fun i st => let! x := coeff st i in
                 let! l := aset (st dest) i x in
                 Ret (s_put st dest l)) st.

(** A coefficient-wise binary expression; operands of different sizes violate
    an Eigen assertion and are undefined behaviour without it. *)
Definition eigen_binary (op : R -> R -> R) (st : store) (a b dest : ref) : outcome store :=
  if Nat.eqb (length (st a)) (length (st b)) then
    eigen_assign st (length (st a))
      (fun st i => let! x := aget (st a) i in let! y := aget (st b) i in Ret (op x y)) dest
  else Undef.
Definition eigen_unary (op : R -> R) (st : store) (a dest : ref) : outcome store :=
  eigen_assign st (length (st a)) (fun st i => let! x := aget (st a) i in Ret (op x)) dest.

(** jntarray.cpp:80-83 *)
Definition jnt_Add (st : store) (src1 src2 dest : ref) : outcome store := eigen_binary Rplus st src1 src2 dest.
(** jntarray.cpp:85-88 *)
Definition jnt_Subtract (st : store) (src1 src2 dest : ref) : outcome store := eigen_binary Rminus st src1 src2 dest.
(** jntarray.cpp:90-93 (Eigen stores the scalar by value in the expression) *)
Definition jnt_Multiply (st : store) (src : ref) (factor : R) (dest : ref) : outcome store :=
  eigen_unary (fun x => factor * x) st src dest.
(** jntarray.cpp:95-98.  Statements about it carry the guard factor <> 0. *)
Definition jnt_Divide (st : store) (src : ref) (factor : R) (dest : ref) : outcome store :=
  eigen_unary (fun x => x / factor) st src dest.
(** jntarray.cpp:42-46 *)
Definition jnt_assign (st : store) (src dest : ref) : outcome store := eigen_unary (fun x => x) st src dest.
(** jntarray.cpp:106-109 *)
Definition jnt_SetToZero (st : store) (a : ref) : outcome store :=
  Ret (s_put st a (repeat 0 (length (st a)))).
(** jntarray.cpp:111-116; [isZero] as in the model of Jacobian's Equal *)
Definition jnt_Equal (a b : list R) (eps : R) : bool :=
  if Nat.eqb (length a) (length b)
  then forallb (fun p => entry_isZero eps (fst p - snd p)) (combine a b)
  else false.
(** jntarray.cpp:118 with the default eps of jntarray.hpp:223 *)
Definition jnt_eq (a b : list R) : bool := jnt_Equal a b kdl_epsilon.

(** * JntArrayVel *)

(** jntarrayvel.hpp: two arrays.  The object is named by the addresses of its members. *)
Record jvref := mkJV { jv_q : ref; jv_qdot : ref }.

(** jntarrayvel.cpp:57-61 *)
Definition jv_Add (st : store) (a b d : jvref) : outcome store :=
  let! st := jnt_Add st (jv_q a) (jv_q b) (jv_q d) in
  jnt_Add st (jv_qdot a) (jv_qdot b) (jv_qdot d).
(** jntarrayvel.cpp:62-66 *)
Definition jv_Add_q (st : store) (a : jvref) (b : ref) (d : jvref) : outcome store :=
  let! st := jnt_Add st (jv_q a) b (jv_q d) in
  jnt_assign st (jv_qdot a) (jv_qdot d).
(** jntarrayvel.cpp:68-72 *)
Definition jv_Subtract (st : store) (a b d : jvref) : outcome store :=
  let! st := jnt_Subtract st (jv_q a) (jv_q b) (jv_q d) in
  jnt_Subtract st (jv_qdot a) (jv_qdot b) (jv_qdot d).
(** jntarrayvel.cpp:73-77 *)
Definition jv_Subtract_q (st : store) (a : jvref) (b : ref) (d : jvref) : outcome store :=
  let! st := jnt_Subtract st (jv_q a) b (jv_q d) in
  jnt_assign st (jv_qdot a) (jv_qdot d).
(** jntarrayvel.cpp:79-83 *)
Definition jv_Multiply (st : store) (a : jvref) (factor : R) (d : jvref) : outcome store :=
  let! st := jnt_Multiply st (jv_q a) factor (jv_q d) in
  jnt_Multiply st (jv_qdot a) factor (jv_qdot d).
(** jntarrayvel.cpp:84-90 *)
Definition jv_Multiply_vel (st : store) (a : jvref) (factor : dVel) (d : jvref) : outcome store :=
  let! st := jnt_Multiply st (jv_q a) (d1g factor) (jv_q d) in
  let! st := jnt_Multiply st (jv_qdot a) (d1t factor) (jv_qdot d) in
  let! st := jnt_Add st (jv_qdot d) (jv_q d) (jv_qdot d) in
  jnt_Multiply st (jv_q a) (d1t factor) (jv_q d).
(** jntarrayvel.cpp:92-96 *)
Definition jv_Divide (st : store) (a : jvref) (factor : R) (d : jvref) : outcome store :=
  let! st := jnt_Divide st (jv_q a) factor (jv_q d) in
  jnt_Divide st (jv_qdot a) factor (jv_qdot d).
(** jntarrayvel.cpp:97-103 *)
Definition jv_Divide_vel (st : store) (a : jvref) (factor : dVel) (d : jvref) : outcome store :=
  let! st := jnt_Multiply st (jv_q a) (d1g factor / d1t factor / d1t factor) (jv_q d) in
  let! st := jnt_Divide st (jv_qdot a) (d1t factor) (jv_qdot d) in
  let! st := jnt_Subtract st (jv_qdot d) (jv_q d) (jv_qdot d) in
  jnt_Divide st (jv_q a) (d1t factor) (jv_q d).
(** jntarrayvel.cpp:105-109 *)
Definition jv_SetToZero (st : store) (a : jvref) : outcome store :=
  let! st := jnt_SetToZero st (jv_q a) in jnt_SetToZero st (jv_qdot a).
(** jntarrayvel.cpp:111-114 *)
Definition jv_Equal (st : store) (a b : jvref) (eps : R) : bool :=
  jnt_Equal (st (jv_q a)) (st (jv_q b)) eps && jnt_Equal (st (jv_qdot a)) (st (jv_qdot b)) eps.

(** * JntArrayAcc *)

(** jntarrayacc.hpp: three arrays. *)
Record jaref := mkJA { ja_q : ref; ja_qdot : ref; ja_qdd : ref }.

(** jntarrayacc.cpp:66-71 *)
Definition ja_Add (st : store) (a b d : jaref) : outcome store :=
  let! st := jnt_Add st (ja_q a) (ja_q b) (ja_q d) in
  let! st := jnt_Add st (ja_qdot a) (ja_qdot b) (ja_qdot d) in
  jnt_Add st (ja_qdd a) (ja_qdd b) (ja_qdd d).
(** jntarrayacc.cpp:72-77 *)
Definition ja_Add_vel (st : store) (a : jaref) (b : jvref) (d : jaref) : outcome store :=
  let! st := jnt_Add st (ja_q a) (jv_q b) (ja_q d) in
  let! st := jnt_Add st (ja_qdot a) (jv_qdot b) (ja_qdot d) in
  jnt_assign st (ja_qdd a) (ja_qdd d).
(** jntarrayacc.cpp:78-83 *)
Definition ja_Add_q (st : store) (a : jaref) (b : ref) (d : jaref) : outcome store :=
  let! st := jnt_Add st (ja_q a) b (ja_q d) in
  let! st := jnt_assign st (ja_qdot a) (ja_qdot d) in
  jnt_assign st (ja_qdd a) (ja_qdd d).
(** jntarrayacc.cpp:85-90 *)
Definition ja_Subtract (st : store) (a b d : jaref) : outcome store :=
  let! st := jnt_Subtract st (ja_q a) (ja_q b) (ja_q d) in
  let! st := jnt_Subtract st (ja_qdot a) (ja_qdot b) (ja_qdot d) in
  jnt_Subtract st (ja_qdd a) (ja_qdd b) (ja_qdd d).
(** jntarrayacc.cpp:91-96 *)
Definition ja_Subtract_vel (st : store) (a : jaref) (b : jvref) (d : jaref) : outcome store :=
  let! st := jnt_Subtract st (ja_q a) (jv_q b) (ja_q d) in
  let! st := jnt_Subtract st (ja_qdot a) (jv_qdot b) (ja_qdot d) in
  jnt_assign st (ja_qdd a) (ja_qdd d).
(** jntarrayacc.cpp:97-102 *)
Definition ja_Subtract_q (st : store) (a : jaref) (b : ref) (d : jaref) : outcome store :=
  let! st := jnt_Subtract st (ja_q a) b (ja_q d) in
  let! st := jnt_assign st (ja_qdot a) (ja_qdot d) in
  jnt_assign st (ja_qdd a) (ja_qdd d).
(** jntarrayacc.cpp:104-109 *)
Definition ja_Multiply (st : store) (a : jaref) (factor : R) (d : jaref) : outcome store :=
  let! st := jnt_Multiply st (ja_q a) factor (ja_q d) in
  let! st := jnt_Multiply st (ja_qdot a) factor (ja_qdot d) in
  jnt_Multiply st (ja_qdd a) factor (ja_qdd d).
(** jntarrayacc.cpp:110-119 *)
Definition ja_Multiply_vel (st : store) (a : jaref) (factor : dVel) (d : jaref) : outcome store :=
  let! st := jnt_Multiply st (ja_qdot a) (d1g factor * 2) (ja_qdot d) in
  let! st := jnt_Multiply st (ja_qdd a) (d1t factor) (ja_qdd d) in
  let! st := jnt_Add st (ja_qdot d) (ja_qdd d) (ja_qdd d) in
  let! st := jnt_Multiply st (ja_q a) (d1g factor) (ja_q d) in
  let! st := jnt_Multiply st (ja_qdot a) (d1t factor) (ja_qdot d) in
  let! st := jnt_Add st (ja_qdot d) (ja_q d) (ja_qdot d) in
  jnt_Multiply st (ja_q a) (d1t factor) (ja_q d).
(** jntarrayacc.cpp:120-131 *)
Definition ja_Multiply_acc (st : store) (a : jaref) (factor : dAcc) (d : jaref) : outcome store :=
  let! st := jnt_Multiply st (ja_q a) (d2dd factor) (ja_q d) in
  let! st := jnt_Multiply st (ja_qdot a) (d2d factor * 2) (ja_qdot d) in
  let! st := jnt_Multiply st (ja_qdd a) (d2t factor) (ja_qdd d) in
  let! st := jnt_Add st (ja_qdd d) (ja_qdot d) (ja_qdd d) in
  let! st := jnt_Add st (ja_qdd d) (ja_q d) (ja_qdd d) in
  let! st := jnt_Multiply st (ja_q a) (d2d factor) (ja_q d) in
  let! st := jnt_Multiply st (ja_qdot a) (d2t factor) (ja_qdot d) in
  let! st := jnt_Add st (ja_qdot d) (ja_q d) (ja_qdot d) in
  jnt_Multiply st (ja_q a) (d2t factor) (ja_q d).
(** jntarrayacc.cpp:133-138 *)
Definition ja_Divide (st : store) (a : jaref) (factor : R) (d : jaref) : outcome store :=
  let! st := jnt_Divide st (ja_q a) factor (ja_q d) in
  let! st := jnt_Divide st (ja_qdot a) factor (ja_qdot d) in
  jnt_Divide st (ja_qdd a) factor (ja_qdd d).
(** jntarrayacc.cpp:139-150 *)
Definition ja_Divide_vel (st : store) (a : jaref) (factor : dVel) (d : jaref) : outcome store :=
  let t := d1t factor in let g := d1g factor in
  let! st := jnt_Multiply st (ja_q a) ((2 * g * g) / (t * t * t)) (ja_q d) in
  let! st := jnt_Multiply st (ja_qdot a) ((2 * g) / (t * t)) (ja_qdot d) in
  let! st := jnt_Divide st (ja_qdd a) t (ja_qdd d) in
  let! st := jnt_Subtract st (ja_qdd d) (ja_qdot d) (ja_qdd d) in
  let! st := jnt_Add st (ja_qdd d) (ja_q d) (ja_qdd d) in
  let! st := jnt_Multiply st (ja_q a) (g / (t * t)) (ja_q d) in
  let! st := jnt_Divide st (ja_qdot a) t (ja_qdot d) in
  let! st := jnt_Subtract st (ja_qdot d) (ja_q d) (ja_qdot d) in
  jnt_Divide st (ja_q a) t (ja_q d).
(** jntarrayacc.cpp:151-162 *)
Definition ja_Divide_acc (st : store) (a : jaref) (factor : dAcc) (d : jaref) : outcome store :=
  let t := d2t factor in let g := d2d factor in let dd := d2dd factor in
  let! st := jnt_Multiply st (ja_q a) ((2 * g * g) / (t * t * t) - dd / (t * t)) (ja_q d) in
  let! st := jnt_Multiply st (ja_qdot a) ((2 * g) / (t * t)) (ja_qdot d) in
  let! st := jnt_Divide st (ja_qdd a) t (ja_qdd d) in
  let! st := jnt_Subtract st (ja_qdd d) (ja_qdot d) (ja_qdd d) in
  let! st := jnt_Add st (ja_qdd d) (ja_q d) (ja_qdd d) in
  let! st := jnt_Multiply st (ja_q a) (g / (t * t)) (ja_q d) in
  let! st := jnt_Divide st (ja_qdot a) t (ja_qdot d) in
  let! st := jnt_Subtract st (ja_qdot d) (ja_q d) (ja_qdot d) in
  jnt_Divide st (ja_q a) t (ja_q d).
(** jntarrayacc.cpp:164-169 *)
Definition ja_SetToZero (st : store) (a : jaref) : outcome store :=
  let! st := jnt_SetToZero st (ja_q a) in
  let! st := jnt_SetToZero st (ja_qdot a) in jnt_SetToZero st (ja_qdd a).
(** jntarrayacc.cpp:171-174 *)
Definition ja_Equal (st : store) (a b : jaref) (eps : R) : bool :=
  jnt_Equal (st (ja_q a)) (st (ja_q b)) eps && jnt_Equal (st (ja_qdot a)) (st (ja_qdot b)) eps &&
  jnt_Equal (st (ja_qdd a)) (st (ja_qdd b)) eps.
