(** Which objects refer to which, and how long they live: solvers and the chains, trees and solvers they are made from; attributes of
    Python objects.  Models the members that are references in the solver headers, and the bindings in
    /repo/python_orocos_kdl/PyKDL/{kinfam,dynamics,frames,framevel}.cpp.

    Objects live at addresses; programs know them by names (numbers).  An object dies when no name is bound to it and no living object keeps
    it alive: the reference counting of CPython (no cycles arise), or in C++ the end of the scope of its variable.  Addresses are not reused.

    Simplifications.  A segment is a number, a chain or tree the list of its segments; what a solver call computes is what it reads: the
    segments of the kinematic structures it refers to.  The result of a call when the number of joints has changed is C26's subject.
    Attributes of JntArrayVel (their memory is reallocated on resize) are left out, and so is the order in which dead objects are destroyed:
    no destructor of these classes touches another object. *)
From Coq Require Import Reals List Arith Bool.
Import ListNotations.

(** * Solvers *)
Inductive solver :=
| FkPos | FkVel | Jac | JacDot | VelPinv | VelNso | VelWdls | VelGivens | PosNR | PosNRJL | PosLMA | IdRNE | FdRNE | HdVereshchagin | DynParam | Estimator
| TFkPos | TJac | TVelWdls | TPosNRJL | TPosOnline | TIdRNE.
(** what a constructor parameter must be *)
Inductive role := AChain | ATree | AChainFk | AChainVel | ATreeFk | ATreeVel.
(** how the member is declared: `const Chain& chain` or `Tree tree` *)
Inductive how := ByReference | ByValue.
(** chainfksolverpos_recursive.hpp:48, chainfksolvervel_recursive.hpp:47, chainjnttojacsolver.hpp:68, chainjnttojacdotsolver.hpp:168-175 (and the
    two solvers inside, made from the same chain), chainiksolvervel_pinv.hpp:101, _pinv_nso.hpp:141, _wdls.hpp:219, _pinv_givens.hpp:47,
    chainiksolverpos_nr.hpp:82-86, _nr_jl.hpp:112-117, _lma.hpp:160, chainidsolver_recursive_newton_euler.hpp:66,
    chainfdsolver_recursive_newton_euler.hpp:95, chainhdsolver_vereshchagin.hpp:466, chaindynparam.hpp:61, chainexternalwrenchestimator.hpp:111,
    treefksolverpos_recursive.hpp:46, treejnttojacsolver.hpp:32, treeiksolvervel_wdls.hpp:81, treeiksolverpos_nr_jl.hpp:68-72,
    treeiksolverpos_online.hpp:97-98, treeidsolver_recursive_newton_euler.hpp:69 *)
Definition parameters (s : solver) : list (role * how) :=
  match s with
  | FkPos | FkVel | Jac | JacDot | VelPinv | VelNso | VelWdls | VelGivens | PosLMA | IdRNE | FdRNE | HdVereshchagin | DynParam | Estimator => [(AChain, ByReference)]
  | PosNR | PosNRJL => [(AChain, ByReference); (AChainFk, ByReference); (AChainVel, ByReference)]
  | TFkPos | TJac | TVelWdls => [(ATree, ByValue)]
  | TPosNRJL => [(ATree, ByValue); (ATreeFk, ByReference); (ATreeVel, ByReference)]
  | TPosOnline => [(ATreeFk, ByReference); (ATreeVel, ByReference)]
  | TIdRNE => [(ATree, ByReference)]
  end.

(** * Classes with attributes *)
Inductive cls := CVector | CRotation | CFrame | CTwist | CWrench | CVectorVel | CRotationVel | CFrameVel | CTwistVel.
(** how many doubles an object holds *)
Definition width (c : cls) : nat :=
  match c with CVector => 3 | CRotation => 9 | CFrame => 12 | CTwist | CWrench | CVectorVel => 6 | CRotationVel => 12 | CFrameVel => 18 | CTwistVel => 12 end.
(** assignment converts nothing here: the classes must be the same *)
Definition code (c : cls) : nat :=
  match c with CVector => 0 | CRotation => 1 | CFrame => 2 | CTwist => 3 | CWrench => 4 | CVectorVel => 5 | CRotationVel => 6 | CFrameVel => 7 | CTwistVel => 8 end.
Definition same (a b : cls) : bool := Nat.eqb (code a) (code b).
(** def_readwrite: frames.cpp:125-126, 200-201, 406-407, framevel.cpp:83-84, 173-174, 255-256, 339-340; the first and the second attribute, with
    where it starts (the order of the members in frames.hpp and framevel.hpp) *)
Definition attribute (c : cls) (second : bool) : option (cls * nat) :=
  match c, second with
  | CFrame, false => Some (CRotation, 3) | CFrame, true => Some (CVector, 0)
  | CTwist, false => Some (CVector, 0) | CTwist, true => Some (CVector, 3)
  | CWrench, false => Some (CVector, 0) | CWrench, true => Some (CVector, 3)
  | CVectorVel, false => Some (CVector, 0) | CVectorVel, true => Some (CVector, 3)
  | CRotationVel, false => Some (CRotation, 0) | CRotationVel, true => Some (CVector, 9)
  | CFrameVel, false => Some (CRotationVel, 0) | CFrameVel, true => Some (CVectorVel, 12)
  | CTwistVel, false => Some (CVectorVel, 0) | CTwistVel, true => Some (CVectorVel, 6)
  | _, _ => None
  end.

(** * Objects *)
Inductive obj :=
| Val (c : cls) (data : list R)
| Attr (c : cls) (root off : nat) (parent : nat)        (* a Python object for a member of another: where its data are, and whom it keeps alive *)
| Kin (tree : bool) (segs : list nat)
| Sol (s : solver) (refs : list nat) (own : list (list nat)).  (* what it refers to; copies of the structures it took by value *)

Section Lifetimes.
(** Whether the constructors of the bindings say py::keep_alive: they do not (kinfam.cpp:357-516, dynamics.cpp:88), so this is [false] for the code. *)
Variable keep_alive : bool.

(** def_readwrite has policy reference_internal: the attribute keeps the object it was taken from alive *)
Definition keeps (o : obj) : list nat :=
  match o with Attr _ _ _ p => [p] | Sol _ refs _ => if keep_alive then refs else [] | _ => [] end.

Record state := mkSt { heap : list (option obj); names : list (nat * nat) }.
Definition start : state := mkSt [] [].
Definition cell (h : list (option obj)) (a : nat) : option obj := nth a h None.
Fixpoint assoc (x : nat) (l : list (nat * nat)) : option nat :=
  match l with [] => None | (y, a) :: r => if Nat.eqb x y then Some a else assoc x r end.
Definition unbind (x : nat) (l : list (nat * nat)) : list (nat * nat) := filter (fun p => negb (Nat.eqb x (fst p))) l.
Fixpoint put {A} (n : nat) (x : A) (l : list A) : list A :=
  match l, n with [], _ => [] | _ :: r, 0 => x :: r | y :: r, S m => y :: put m x r end.

(** Objects keep only older ones alive, so one pass from the newest to the oldest finds the dead. *)
Fixpoint sweep (n : nat) (kept : list nat) (h : list (option obj)) : list (option obj) :=
  match n with
  | 0 => h
  | S a =>
      match cell h a with
      | None => sweep a kept h
      | Some o => if existsb (Nat.eqb a) kept then sweep a (keeps o ++ kept) h else sweep a kept (put a None h)
      end
  end.
Definition collect (s : state) : state := mkSt (sweep (length (heap s)) (map snd (names s)) (heap s)) (names s).
(** x = the object at a *)
Definition bind (x a : nat) (s : state) : state := collect (mkSt (heap s) ((x, a) :: unbind x (names s))).
(** x = a new object *)
Definition fresh (x : nat) (o : obj) (s : state) : state := bind x (length (heap s)) (mkSt (heap s ++ [Some o]) (names s)).

(** * Where the data of an object are *)
Definition place (h : list (option obj)) (a : nat) : option (cls * nat * nat) :=
  match cell h a with Some (Val c _) => Some (c, a, 0) | Some (Attr c r off _) => Some (c, r, off) | _ => None end.
Definition slice (off n : nat) (l : list R) : list R := firstn n (skipn off l).
Definition paste (off : nat) (new l : list R) : list R := firstn off l ++ new ++ skipn (off + length new) l.

Inductive value := Nothing | Numbers (l : list R) | Structures (l : list (list nat)).
Inductive result := Done (s : state) (v : value) | Raises | Bad.   (* Bad: use of a dead object *)

(** doubles read through a Python object *)
Definition read (h : list (option obj)) (a : nat) : option (option (list R)) :=   (* None: type error; Some None: dead memory *)
  match place h a with
  | None => None
  | Some (c, r, off) => match cell h r with Some (Val _ d) => Some (Some (slice off (width c) d)) | _ => Some None end
  end.

(** * What a call of a solver reads *)
Fixpoint observe (fuel : nat) (h : list (option obj)) (a : nat) : option (list (list nat)) :=
  match cell h a with
  | Some (Kin _ l) => Some [l]
  | Some (Sol _ refs own) =>
      match fuel with
      | 0 => None
      | S f => fold_right (fun r acc => match observe f h r, acc with Some x, Some y => Some (x ++ y) | _, _ => None end) (Some own) refs
      end
  | _ => None
  end.

Definition fits (h : list (option obj)) (p : role * how) (a : nat) : bool :=
  match fst p, cell h a with
  | AChain, Some (Kin false _) => true
  | ATree, Some (Kin true _) => true
  | AChainFk, Some (Sol FkPos _ _) => true
  | AChainVel, Some (Sol (VelPinv | VelNso | VelWdls | VelGivens) _ _) => true
  | ATreeFk, Some (Sol TFkPos _ _) => true
  | ATreeVel, Some (Sol TVelWdls _ _) => true
  | _, _ => false
  end.
Definition referred (ps : list (role * how)) (l : list nat) : list nat :=
  map snd (filter (fun x => match snd (fst x) with ByReference => true | ByValue => false end) (combine ps l)).
Definition copied (h : list (option obj)) (ps : list (role * how)) (l : list nat) : list (list nat) :=
  map (fun x => match cell h (snd x) with Some (Kin _ segs) => segs | _ => [] end)
      (filter (fun x => match snd (fst x) with ByReference => false | ByValue => true end) (combine ps l)).
Fixpoint lookup_all (l : list nat) (n : list (nat * nat)) : option (list nat) :=
  match l with
  | [] => Some []
  | x :: r => match assoc x n, lookup_all r n with Some a, Some b => Some (a :: b) | _, _ => None end
  end.

(** * Programs *)
Inductive op :=
| NewVal (x : nat) (c : cls) (d : list R)      (* x = Frame(...) *)
| CopyVal (x y : nat)                          (* x = Frame(y), copy.copy(y) *)
| GetAttr (x y : nat) (second : bool)          (* x = y.p *)
| SetAttr (y : nat) (second : bool) (z : nat)  (* y.p = z *)
| SetItem (x i : nat) (v : R)                  (* x[i] = v, in the order of the members *)
| Read (x : nat)
| NewKin (x : nat) (tree : bool)               (* x = Chain(), x = Tree() *)
| CopyKin (x y : nat)                          (* x = Chain(y) *)
| AddSeg (x n : nat)                           (* x.addSegment(...) *)
| NewSol (x : nat) (s : solver) (args : list nat)
| Call (x : nat)
| Alias (x y : nat)                            (* x = y *)
| Del (x : nat).                               (* del x, or the end of a scope *)

Definition step (s : state) (o : op) : result :=
  match o with
  | NewVal x c d => if Nat.eqb (length d) (width c) then Done (fresh x (Val c d) s) Nothing else Raises
  | CopyVal x y =>
      match assoc y (names s) with
      | None => Raises
      | Some a => match place (heap s) a, read (heap s) a with
                  | Some (c, _, _), Some (Some d) => Done (fresh x (Val c d) s) Nothing
                  | Some _, Some None => Bad
                  | _, _ => Raises
                  end
      end
  | GetAttr x y second =>
      match assoc y (names s) with
      | None => Raises
      | Some a => match place (heap s) a with
                  | Some (c, r, off) =>
                      match attribute c second with Some (c', k) => Done (fresh x (Attr c' r (off + k) a) s) Nothing | None => Raises end
                  | None => Raises
                  end
      end
  | SetAttr y second z =>
      match assoc y (names s), assoc z (names s) with
      | Some a, Some b =>
          match place (heap s) a, place (heap s) b, read (heap s) b with
          | Some (c, r, off), Some (cz, _, _), Some data =>
              match attribute c second with
              | None => Raises
              | Some (c', k) =>
                  if same c' cz then
                    match data, cell (heap s) r with
                    | Some d, Some (Val cr dr) => Done (mkSt (put r (Some (Val cr (paste (off + k) d dr))) (heap s)) (names s)) Nothing
                    | _, _ => Bad
                    end
                  else Raises
              end
          | _, _, _ => Raises
          end
      | _, _ => Raises
      end
  | SetItem x i v =>
      match assoc x (names s) with
      | None => Raises
      | Some a =>
          match place (heap s) a with
          | None => Raises
          | Some (c, r, off) =>
              if Nat.ltb i (width c) then
                match cell (heap s) r with
                | Some (Val cr dr) => Done (mkSt (put r (Some (Val cr (put (off + i) v dr))) (heap s)) (names s)) Nothing
                | _ => Bad
                end
              else Raises
          end
      end
  | Read x =>
      match assoc x (names s) with
      | None => Raises
      | Some a => match read (heap s) a with None => Raises | Some None => Bad | Some (Some d) => Done s (Numbers d) end
      end
  | NewKin x t => Done (fresh x (Kin t []) s) Nothing
  | CopyKin x y =>
      match assoc y (names s) with
      | None => Raises
      | Some a => match cell (heap s) a with Some (Kin t l) => Done (fresh x (Kin t l) s) Nothing | _ => Raises end
      end
  | AddSeg x n =>
      match assoc x (names s) with
      | None => Raises
      | Some a => match cell (heap s) a with Some (Kin t l) => Done (mkSt (put a (Some (Kin t (l ++ [n]))) (heap s)) (names s)) Nothing | _ => Raises end
      end
  | NewSol x cl args =>
      match lookup_all args (names s) with
      | None => Raises
      | Some l =>
          if Nat.eqb (length l) (length (parameters cl)) && forallb (fun p => fits (heap s) (fst p) (snd p)) (combine (parameters cl) l)
          then Done (fresh x (Sol cl (referred (parameters cl) l) (copied (heap s) (parameters cl) l)) s) Nothing
          else Raises
      end
  | Call x =>
      match assoc x (names s) with
      | None => Raises
      | Some a => match cell (heap s) a with
                  | Some (Sol _ _ _) => match observe (S a) (heap s) a with Some l => Done s (Structures l) | None => Bad end
                  | _ => Raises
                  end
      end
  | Alias x y => match assoc y (names s) with None => Raises | Some a => Done (bind x a s) Nothing end
  | Del x => match assoc x (names s) with None => Raises | Some _ => Done (collect (mkSt (heap s) (unbind x (names s)))) Nothing end
  end.

(** A program: an exception leaves the state as it was and the program goes on (it is caught). *)
Fixpoint run (p : list op) (s : state) : option state :=
  match p with
  | [] => Some s
  | o :: r => match step s o with Done s' _ => run r s' | Raises => run r s | Bad => None end
  end.
End Lifetimes.
