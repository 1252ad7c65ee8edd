(** What a client of paths and trajectories may do and may expect. *)
From Coq Require Import List Bool Permutation.
From Verif Require Import OwnModel.
Import ListNotations.

Definition start : state := mkSt [] 0.
Definition empty (s : state) : Prop := forall p, live s p = false.
Fixpoint delete_all (l : list addr) (s : state) : res unit :=
  match l with [] => Ok s tt | p :: r => bind (delete p s) (fun s _ => delete_all r s) end.

(** The pointers that an operation takes over (all aggregate flags are true), and those that it works on. *)
Definition consumed (o : op) : list addr :=
  match o with
  | NewLine p _ | NewCircle p _ | NewCyclic p _ | NewRounded p _ _ | AddPath _ p _ | AddTraj _ p | DoDelete p => [p]
  | NewTSeg g m _ => [g; m]
  | _ => []
  end.
Definition used (o : op) : list addr :=
  match o with AddPath p _ _ | AddTraj p _ | Destroy p | RoundedAdd p _ | RoundedFinish p _ | DoClone p => [p] | _ => [] end.
(** What the types of C++ guarantee, and aggregate = true, the default. *)
Definition is_orient (s : state) (p : addr) : Prop := cell_at s p = Some COrient.
Definition is_comp (s : state) (p : addr) : Prop := exists gv, cell_at s p = Some (CComp gv).
Definition typed (s : state) (o : op) : Prop :=
  match o with
  | NewLeaf c => In c [COrient; CProf; CPoint; CStat; CComp []; CTComp []]
  | NewLine p a | NewCircle p a | NewRounded p a _ => a = true /\ is_orient s p
  | NewCyclic _ a | NewTSeg _ _ a => a = true
  | AddPath p _ a => a = true /\ is_comp s p
  | AddTraj p _ | Destroy p => exists vt, cell_at s p = Some (CTComp vt)
  | RoundedAdd p _ | RoundedFinish p _ => exists c o a, cell_at s p = Some (CRounded c o a)
  | _ => True
  end.
(** A client that holds the pointers [handles] may call [o]; it keeps [rest]. *)
Definition allowed (handles : list addr) (s : state) (o : op) (rest : list addr) : Prop :=
  Permutation handles (consumed o ++ rest) /\ (forall p, In p (used o) -> In p rest) /\ typed s o.

Section History.
Variable thr : nat -> bool.
Variable right_first : bool.
(** Calls that may throw: [safe] says which. *)
Variable safe : state -> op -> Prop.
(** [history handles s]: s is a state that a client can reach, holding these pointers.  After an exception the pointers that the call had
    taken over are gone. *)
Inductive history : list addr -> state -> Prop :=
| h_start : history [] start
| h_done : forall handles s o rest s' r, history handles s -> allowed handles s o rest ->
    step thr right_first o s = Ok s' r -> history (match r with Some p => p :: rest | None => rest end) s'
| h_throw : forall handles s o rest s', history handles s -> allowed handles s o rest -> safe s o ->
    step thr right_first o s = Throw s' -> history rest s'.
End History.

(** Exceptions that leak nothing.  Not: a rounded composite with eqradius <= 0, in a call or in a text; a copy of a trajectory or of a
    rounded composite. *)
Definition simple (c : cell) : bool := match c with CRounded _ _ _ | CTSeg _ _ _ | CTComp _ => false | _ => true end.
Inductive plain (s : state) : addr -> Prop :=
| plain_node : forall p c, cell_at s p = Some c -> simple c = true -> (forall q, In q (deleted_by c) -> plain s q) -> plain s p.
Fixpoint text_ok (t : text) : Prop :=
  match t with
  | TRounded _ _ e _ _ _ => e = true
  | TComp _ l _ => fold_right (fun t P => text_ok t /\ P) True l
  | TCyclic t _ => text_ok t
  | _ => True
  end.
Definition leak_free (s : state) (o : op) : Prop :=
  match o with
  | NewRounded _ _ e => e = true
  | DoClone p => plain s p
  | ReadPath t | ReadTraj _ t _ _ => text_ok t
  | _ => True
  end.
Definition any (s : state) (o : op) : Prop := True.

(** Two objects of the same class that own as many objects, pairwise alike. *)
Definition class (c : cell) : nat :=
  match c with
  | COrient => 0 | CProf => 1 | CPoint => 2 | CStat => 3 | CLine _ _ => 4 | CCircle _ _ => 5 | CCyclic _ _ => 6 | CComp _ => 7
  | CRounded _ _ _ => 8 | CTSeg _ _ _ => 9 | CTComp _ => 10
  end.
Inductive alike (s s' : state) : addr -> addr -> Prop :=
| alike_node : forall p q c c', cell_at s p = Some c -> cell_at s' q = Some c' -> class c = class c' ->
    Forall2 (alike s s') (deleted_by c) (deleted_by c') -> alike s s' p q.

(** A fixed program; None where an operation throws or is undefined. *)
Fixpoint run (thr : nat -> bool) (rf : bool) (l : list op) (s : state) : option state :=
  match l with
  | [] => Some s
  | o :: r => match step thr rf o s with Ok s' _ => run thr rf r s' | _ => None end
  end.

(** Construction with aggregate = false: the object borrows what it is given. *)
Definition borrows (s : state) (o : op) : Prop :=
  match o with
  | NewLine p a | NewCircle p a | NewRounded p a _ => a = false /\ is_orient s p
  | NewCyclic g a => a = false /\ live s g = true
  | NewTSeg g m a => a = false /\ live s g = true /\ live s m = true
  | _ => False
  end.
(** of these, the ones whose copy shares or owns everything it points to *)
Definition copied_well (o : op) : Prop := match o with NewLine _ _ | NewRounded _ _ _ | NewTSeg _ _ _ => True | _ => False end.
