(** Vocabulary for C72. *)
From Coq Require Import Reals Ascii String List ZArith.
From Verif Require Import FramesModel Outcome JntModel MiscModel.
Import ListNotations.
Local Open Scope list_scope.
Local Open Scope R_scope.

(** a matrix object of n rows holds n*n coefficients *)
Definition square (m : jmat) : Prop := length (jm_d m) = (jm_n m * jm_n m)%nat.
(** what the caller reads at row i, column j *)
Definition reads_entry (m : jmat) (i j : nat) (x : R) : Prop := jm_get m i j = Ret x.
(** [c] has the size of [a], and every entry is the given function of the entries of [a] (and [b]) *)
Definition m_entries2 (op : R -> R -> R) (a b c : jmat) : Prop :=
  square c /\ jm_n c = jm_n a /\ forall i j, (i < jm_n a)%nat -> (j < jm_n a)%nat ->
    exists x y, reads_entry a i j x /\ reads_entry b i j y /\ reads_entry c i j (op x y).
Definition m_entries (op : R -> R) (a c : jmat) : Prop :=
  square c /\ jm_n c = jm_n a /\ forall i j, (i < jm_n a)%nat -> (j < jm_n a)%nat ->
    exists x, reads_entry a i j x /\ reads_entry c i j (op x).
Definition m_only_changed (st st' : mstore) (d : ref) : Prop := forall r, r <> d -> st' r = st r.

(** f 0 + ... + f (n-1) *)
Fixpoint total (f : nat -> R) (n : nat) : R := match n with O => 0 | S k => total f k + f k end.

(** none of the six entries is 0; none is negative *)
Definition stiff_entries (s : Stiffness) : list R := [vx (st_t s); vy (st_t s); vz (st_t s); vx (st_r s); vy (st_r s); vz (st_r s)].

(** what a C program sees in a buffer: the characters before the first NUL, provided there is one *)
Inductive c_string : list ascii -> list ascii -> Prop :=
| cs_end r : c_string ("000"%char :: r) []
| cs_char c r s : c <> "000"%char -> c_string r s -> c_string (c :: r) (c :: s).
(** calls that open and close in pairs *)
Inductive balanced : list es_op -> Prop :=
| bal_nil : balanced []
| bal_pair d l : balanced l -> balanced (Es_Trace d :: l ++ [Es_Pop])
| bal_app a b : balanced a -> balanced b -> balanced (a ++ b).
