(** Specification vocabulary for the solver that updates a decomposition with plane
    rotations (C67). *)
From Coq Require Import Reals List ZArith.
From Verif Require Import FramesModel Outcome KinModel KinSpec LinSpec SvdModel VelIkModel VelIkSpec GivensModel.
Import ListNotations.
Local Open Scope list_scope.
Local Open Scope R_scope.

(** Matrix times vector, squared length, inner product of two columns. *)
Definition mv (n : nat) (A : nat -> nat -> R) (x : nat -> R) (a : nat) : R := sumn n (fun k => A a k * x k).
Definition sq (n : nat) (x : nat -> R) : R := sumn n (fun k => x k * x k).
Definition gram (rows : nat) (B : nat -> nat -> R) (i j : nat) : R := sumn rows (fun a => B a i * B a j).
(** |A x|^2 >= low |x|^2 for the rows x n matrix A: with low > 0, the columns of A are
    linearly independent. *)
Definition stretches (rows n : nat) (low : R) (A : nat -> nat -> R) : Prop :=
  forall x, low * sq n x <= sq rows (mv n A x).
Definition stretched_at_most (rows n : nat) (high : R) (A : nat -> nat -> R) : Prop :=
  forall x, sq rows (mv n A x) <= high * sq n x.
Definition transposed (A : nat -> nat -> R) (i j : nat) : R := A j i.
(** Two of the columns make an angle whose squared cosine is not below 1e-15 (or one
    of them is zero). *)
Definition skewed (rows n : nat) (B : nat -> nat -> R) : Prop :=
  exists i j, (i < j < n)%nat /\ ~ gram rows B i j * gram rows B i j < 1 / 10 ^ 15 * (gram rows B i i * gram rows B j j).

(** The states an object can get into when it is used with one chain. *)
Inductive givens_used (c : Chain) : givens -> Prop :=
| used_new : givens_used c (givens_make c)
| used_update s : givens_used c s -> givens_used c (givens_update c s)
| used_call s fuel q v qdot code out s' : givens_used c s ->
    givens_CartToJnt fuel c s q v qdot = Ret (Some (code, out, s')) -> givens_used c s'.

(** The Jacobian, or its transpose if the chain has more than six joints. *)
Definition tall_jacobian (c : Chain) (q : list R) (i j : nat) : R :=
  if Nat.ltb 6 (ch_nj c) then tip_jacobian c q j i else tip_jacobian c q i j.
(** Calls alternate: a new object makes a row call first.  A column call starts from
    the product of this matrix with the stored V, a row call from that of its
    transpose with the stored U. *)
Definition column_call (s : givens) : Prop := gv_toggle s = false.
Definition row_call (s : givens) : Prop := gv_toggle s = true.
Definition column_start (c : Chain) (s : givens) (q : list R) (a i : nat) : R :=
  sumn (Nat.min 6 (ch_nj c)) (fun k => tall_jacobian c q a k * gv_V s k i).
Definition row_start (c : Chain) (s : givens) (q : list R) (b i : nat) : R :=
  sumn (Nat.max 6 (ch_nj c)) (fun k => gv_U s k i * tall_jacobian c q k b).

(** The columns that the call starts from are already orthogonal, up to the threshold. *)
Definition start_is_orthogonal (c : Chain) (s : givens) (q : list R) : Prop :=
  if gv_toggle s then ~ skewed (Nat.min 6 (ch_nj c)) (Nat.min 6 (ch_nj c)) (row_start c s q)
  else ~ skewed (Nat.max 6 (ch_nj c)) (Nat.min 6 (ch_nj c)) (column_start c s q).

(** The call returns normally, with this result, once it is given enough sweeps. *)
Definition finishes (c : Chain) (s : givens) (q : list R) (v : Twist) (qdot out : list R) (s' : givens) : Prop :=
  exists enough, forall fuel, (enough <= fuel)%nat ->
  givens_CartToJnt fuel c s q v qdot = Ret (Some (E_NOERROR, out, s')).
(** It goes on for ever or runs into undefined behaviour. *)
Definition never_finishes (c : Chain) (s : givens) (q : list R) (v : Twist) (qdot : list R) : Prop :=
  forall fuel code out s', givens_CartToJnt fuel c s q v qdot <> Ret (Some (code, out, s')).
