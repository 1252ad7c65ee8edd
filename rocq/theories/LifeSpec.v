(** Words for C81. *)
From Coq Require Import Reals List Arith Bool.
From Verif Require Import LifeModel.
Import ListNotations.

(** the object at b is used by the object at a: b is a itself, or something a refers to uses it *)
Inductive used (h : list (option obj)) (a : nat) : nat -> Prop :=
| used_self : used h a a
| used_by : forall b c s refs own, used h a b -> cell h b = Some (Sol s refs own) -> In c refs -> used h a c.
Definition named (s : state) (a : nat) : Prop := exists y, assoc y (names s) = Some a.

(** the name an operation binds or removes *)
Definition rebinds (o : op) : list nat :=
  match o with
  | NewVal x _ _ | CopyVal x _ | GetAttr x _ _ | NewKin x _ | CopyKin x _ | NewSol x _ _ | Alias x _ | Del x => [x]
  | _ => []
  end.
Definition untouched (x : nat) (p : list op) : Prop := forall o, In o p -> ~ In x (rebinds o).
(** a program in which no name is given twice or deleted *)
Definition keeps_names (p : list op) : Prop := NoDup (concat (map rebinds p)) /\ (forall x, ~ In (Del x) p).

(** one number of an object, by its position *)
Definition item (s : state) (z j : nat) : option R :=
  match assoc z (names s) with
  | None => None
  | Some a => match read (heap s) a with Some (Some d) => nth_error d j | _ => None end
  end.
(** where the numbers of an object are: the object they belong to and the position of the first *)
Definition at_place (s : state) (z : nat) (c : cls) (root off : nat) : Prop :=
  exists a, assoc z (names s) = Some a /\ place (heap s) a = Some (c, root, off).
(** what a chain or tree holds *)
Definition holds_segs (s : state) (z : nat) (t : bool) (l : list nat) : Prop := exists a, assoc z (names s) = Some a /\ cell (heap s) a = Some (Kin t l).
