(** Ownership of paths, orientation interpolators, velocity profiles and trajectories: which object is allocated, deleted and
    leaked, also when constructors throw.

    Sources: /repo/orocos_kdl/src/path*.cpp, rotational_interpolation*.cpp, velocityprofile*.cpp, trajectory*.cpp, trajectory_segment.hpp,
    utilities/scoped_ptr.hpp.

    Simplifications.  The numbers inside the objects are left out; where they decide whether a constructor throws, an oracle [thr]
    (answer for the n-th Path_Circle constructed) or an argument of the operation decides.  std::bad_alloc is not modelled.  Addresses are
    not reused.  Types are not checked, except where a function needs a class.  A member function is taken to read the object it is called on
    and the pointers named here, not the objects behind them.  The order in which the arguments of a constructor are evaluated, unspecified
    in C++, is the parameter [right_first]. *)
From Coq Require Import List Bool Arith.
Import ListNotations.

Definition addr := nat.
Inductive cell :=
| COrient                                            (* RotationalInterpolation_SingleAxis *)
| CProf                                              (* a VelocityProfile *)
| CPoint                                             (* Path_Point *)
| CStat                                              (* Trajectory_Stationary *)
| CLine (orient : addr) (aggregate : bool)           (* path_line.hpp:60-77 *)
| CCircle (orient : addr) (aggregate : bool)         (* path_circle.hpp:60-79 *)
| CCyclic (geom : addr) (aggregate : bool)           (* path_cyclic_closed.hpp:60-65 *)
| CComp (gv : list (addr * bool))                    (* path_composite.hpp:58-62 *)
| CRounded (comp orient : addr) (aggregate : bool)   (* path_roundedcomposite.hpp:60-76 *)
| CTSeg (geom motprof : addr) (aggregate : bool)     (* trajectory_segment.hpp:62-67 *)
| CTComp (vt : list addr).                           (* trajectory_composite.hpp:30-40 *)
(** The heap: the cell at an address, None after delete; and the number of circles constructed so far. *)
Record state := mkSt { hp : list (option cell); tick : nat }.
Inductive res (A : Type) := Ok (s : state) (a : A) | Throw (s : state) | Ub | NoFuel.
Arguments Ok {A}. Arguments Throw {A}. Arguments Ub {A}. Arguments NoFuel {A}.
Definition bind {A B} (x : res A) (f : state -> A -> res B) : res B :=
  match x with Ok s a => f s a | Throw s => Throw s | Ub => Ub | NoFuel => NoFuel end.

Definition cell_at (s : state) (p : addr) : option cell := match nth_error (hp s) p with Some (Some c) => Some c | _ => None end.
Definition live (s : state) (p : addr) : bool := match cell_at s p with Some _ => true | None => false end.
Fixpoint put (h : list (option cell)) (p : addr) (x : option cell) : list (option cell) :=
  match h, p with [], _ => [] | _ :: r, 0 => x :: r | y :: r, S q => y :: put r q x end.
Definition set_cell (s : state) (p : addr) (x : option cell) : state := mkSt (put (hp s) p x) (tick s).
(** operator new *)
Definition alloc (s : state) (c : cell) : res addr := Ok (mkSt (hp s ++ [Some c]) (tick s)) (length (hp s)).
(** the memory of one object is given back; not defined for memory that is free *)
Definition free (s : state) (p : addr) : res unit := if live s p then Ok (set_cell s p None) tt else Ub.

(** The pointers the destructor deletes, in this order: path_line.cpp:148-151, path_circle.cpp:153-156, path_cyclic_closed.cpp:73-76,
    path_composite.cpp:153-159, path_roundedcomposite.cpp:191-195, trajectory_segment.cpp:92-99, trajectory_composite.cpp:94-105 *)
Definition deleted_by (c : cell) : list addr :=
  match c with
  | COrient | CProf | CPoint | CStat => []
  | CLine o a | CCircle o a => if a then [o] else []
  | CCyclic g a => if a then [g] else []
  | CComp gv => map fst (filter snd gv)
  | CRounded comp o a => (if a then [o] else []) ++ [comp]
  | CTSeg g m a => if a then [m; g] else []
  | CTComp vt => vt
  end.
(** delete p *)
Fixpoint del (n : nat) (p : addr) (s : state) : res unit :=
  match n with
  | 0 => NoFuel
  | S k =>
    match cell_at s p with
    | None => Ub
    | Some c =>
      bind ((fix go (l : list addr) (s : state) : res unit :=
               match l with [] => Ok s tt | a :: r => bind (del k a s) (fun s _ => go r s) end) (deleted_by c) s)
        (fun s _ => free s p)
    end
  end.
Definition delete (p : addr) (s : state) : res unit := del (S (length (hp s))) p s.
(** delete p, then go on unwinding *)
Definition delete_throw {A} (p : addr) (s : state) : res A := bind (delete p s) (fun s _ => Throw s).

Section Own.
Variable thr : nat -> bool.
Variable right_first : bool.

(** path_line.cpp:45-84 and 86-131: calls orient->SetStartEnd *)
Definition new_line (o : addr) (a : bool) (s : state) : res addr := if live s o then alloc s (CLine o a) else Ub.
(** path_circle.cpp:47-97: throws for a circle that is too small or has no plane, after deleting an aggregated orient *)
Definition new_circle (o : addr) (a : bool) (s : state) : res addr :=
  if live s o then
    let s' := mkSt (hp s) (S (tick s)) in
    if thr (tick s) then (if a then delete_throw o s' else Throw s') else alloc s' (CCircle o a)
  else Ub.
(** path_composite.cpp:82-86: calls geom->PathLength() *)
Definition comp_add (p g : addr) (a : bool) (s : state) : res unit :=
  match cell_at s p with
  | Some (CComp gv) => if live s g then Ok (set_cell s p (Some (CComp (gv ++ [(g, a)])))) tt else Ub
  | _ => Ub
  end.
(** trajectory_composite.cpp:88-92: calls elem->Duration() *)
Definition tcomp_add (p t : addr) (s : state) : res unit :=
  match cell_at s p with
  | Some (CTComp vt) => if live s t then Ok (set_cell s p (Some (CTComp (vt ++ [t])))) tt else Ub
  | _ => Ub
  end.
(** path_roundedcomposite.cpp:61-69: the composite is allocated first; for eqradius <= 0 the constructor throws, and neither the
    composite nor orient is deleted *)
Definition new_rounded (o : addr) (a : bool) (eqradius_positive : bool) (s : state) : res addr :=
  bind (alloc s (CComp [])) (fun s c => if eqradius_positive then alloc s (CRounded c o a) else Throw s).

(** Clone: rotational_interpolation_sa.cpp:83-85, velocityprofile_*.*, path_point.cpp:73-75, path_line.cpp:153-171, path_circle.cpp:140-151,
    path_cyclic_closed.cpp:78-80, path_composite.cpp:113-119 (the copy is held by a scoped_ptr), path_roundedcomposite.cpp:198-200,
    trajectory_stationary.hpp:49-51, trajectory_segment.hpp:90-95, trajectory_composite.cpp:116-122 (the copy is held by a plain pointer) *)
Fixpoint clone (n : nat) (p : addr) (s : state) : res addr :=
  match n with
  | 0 => NoFuel
  | S k =>
    let two a b s (f : addr -> addr -> state -> res addr) :=
      if right_first then bind (clone k b s) (fun s b' => bind (clone k a s) (fun s a' => f a' b' s))
      else bind (clone k a s) (fun s a' => bind (clone k b s) (fun s b' => f a' b' s)) in
    match cell_at s p with
    | None => Ub
    | Some COrient => alloc s COrient
    | Some CProf => alloc s CProf
    | Some CPoint => alloc s CPoint
    | Some CStat => alloc s CStat
    | Some (CLine o true) => if live s o then bind (clone k o s) (fun s o' => new_line o' true s) else Ub
    | Some (CLine o false) => new_line o false s
    | Some (CCircle o a) => if live s o then bind (clone k o s) (fun s o' => new_circle o' a s) else Ub
    | Some (CCyclic g a) => bind (clone k g s) (fun s g' => alloc s (CCyclic g' a))
    | Some (CComp gv) =>
        bind (alloc s (CComp [])) (fun s c =>
        (fix go (l : list (addr * bool)) (s : state) : res addr :=
           match l with
           | [] => Ok s c
           | (g, a) :: r =>
             match clone k g s with
             | Ok s g' => bind (comp_add c g' a s) (fun s _ => go r s)
             | Throw s => delete_throw c s
             | Ub => Ub | NoFuel => NoFuel
             end
           end) gv s)
    | Some (CRounded comp o a) => two comp o s (fun c' o' s => alloc s (CRounded c' o' true))
    | Some (CTSeg g m true) => two g m s (fun g' m' s => alloc s (CTSeg g' m' true))
    | Some (CTSeg g m false) => alloc s (CTSeg g m false)
    | Some (CTComp vt) =>
        bind (alloc s (CTComp [])) (fun s c =>
        (fix go (l : list addr) (s : state) : res addr :=
           match l with
           | [] => Ok s c
           | t :: r => bind (clone k t s) (fun s t' => bind (tcomp_add c t' s) (fun s _ => go r s))
           end) vt s)
    end
  end.
Definition Clone (p : addr) (s : state) : res addr := clone (S (length (hp s))) p s.

(** path_roundedcomposite.cpp:71-137, by what the points give: one of the first two points; an infeasible corner; parallel lines;
    a corner, whose circle may throw.  The two auxiliary lines are held by scoped_ptr. *)
Inductive corner := Early | Infeasible | Parallel | Round.
Definition rounded_line (comp o : addr) (s : state) : res unit :=
  bind (Clone o s) (fun s o' => bind (new_line o' true s) (fun s l => comp_add comp l true s)).
Definition rounded_add (p : addr) (k : corner) (s : state) : res unit :=
  match cell_at s p with
  | Some (CRounded comp o _) =>
    match k with
    | Early => Ok s tt
    | Infeasible => Throw s
    | Parallel => rounded_line comp o s
    | Round =>
      bind (Clone o s) (fun s o1 => bind (new_line o1 true s) (fun s l1 =>
      bind (Clone o s) (fun s o2 => bind (new_line o2 true s) (fun s l2 =>
      bind (rounded_line comp o s) (fun s _ =>
      bind (Clone o s) (fun s o4 =>
      match new_circle o4 true s with
      | Ok s c => bind (comp_add comp c true s) (fun s _ => bind (delete l2 s) (fun s _ => delete l1 s))
      | Throw s => bind (delete l2 s) (fun s _ => delete_throw l1 s)
      | Ub => Ub | NoFuel => NoFuel
      end))))))
    end
  | _ => Ub
  end.
(** path_roundedcomposite.cpp:139-145 *)
Definition rounded_finish (p : addr) (has_points : bool) (s : state) : res unit :=
  match cell_at s p with
  | Some (CRounded comp o _) => if has_points then rounded_line comp o s else Ok s tt
  | _ => Ub
  end.
(** trajectory_composite.cpp:94-101 *)
Definition tcomp_destroy (p : addr) (s : state) : res unit :=
  match cell_at s p with
  | Some (CTComp vt) =>
    bind ((fix go (l : list addr) (s : state) : res unit :=
             match l with [] => Ok s tt | a :: r => bind (delete a s) (fun s _ => go r s) end) vt s)
      (fun s _ => Ok (set_cell s p (Some (CTComp []))) tt)
  | _ => Ub
  end.
(** The implicit copy constructor copies the pointers and the flags; none of the classes deletes or replaces it. *)
Definition copy (p : addr) (s : state) : res addr := match cell_at s p with Some c => alloc s c | None => Ub end.

(** Path::Read and Trajectory::Read (path.cpp:59-165, trajectory.cpp:56-73) by what the text says: [ok] flags tell whether the reading of
    the numbers before the interpolator, of the interpolator, or of the rest succeeds or throws. *)
Inductive text :=
| TBad | TPoint (ok : bool)
| TLine (ok orient_ok rest_ok : bool) | TCircle (ok orient_ok rest_ok : bool)
| TRounded (ok orient_ok eqradius_positive : bool) (points : list (bool * corner)) (has_points rest_ok : bool)
| TComp (ok : bool) (l : list text) (rest_ok : bool) | TCyclic (t : text) (rest_ok : bool).
Definition read_orient (ok : bool) (s : state) : res addr := if ok then alloc s COrient else Throw s.
Fixpoint rounded_points (p : addr) (l : list (bool * corner)) (s : state) : res unit :=
  match l with
  | [] => Ok s tt
  | (ok, k) :: r => if ok then bind (rounded_add p k s) (fun s _ => rounded_points p r s) else Throw s
  end.
(** an exception inside the scope of a scoped_ptr that holds p *)
Definition scoped {A B} (p : addr) (x : res A) (f : state -> A -> res B) : res B :=
  match x with Ok s a => f s a | Throw s => delete_throw p s | Ub => Ub | NoFuel => NoFuel end.
Fixpoint read_path (t : text) (s : state) : res addr :=
  match t with
  | TBad => Throw s
  | TPoint ok => if ok then alloc s CPoint else Throw s
  | TLine ok1 ok2 ok3 =>
    if ok1 then bind (read_orient ok2 s) (fun s o => if ok3 then new_line o true s else delete_throw o s) else Throw s
  | TCircle ok1 ok2 ok3 =>
    if ok1 then bind (read_orient ok2 s) (fun s o => if ok3 then new_circle o true s else delete_throw o s) else Throw s
  | TRounded ok1 ok2 e pts hp ok3 =>
    if ok1 then bind (read_orient ok2 s) (fun s o => bind (new_rounded o true e s) (fun s p =>
      scoped p (rounded_points p pts s) (fun s _ => scoped p (rounded_finish p hp s) (fun s _ =>
      if ok3 then Ok s p else delete_throw p s)))) else Throw s
  | TComp ok l ok3 =>
    bind (alloc s (CComp [])) (fun s p =>
    if ok then
      (fix go (l : list text) (s : state) : res addr :=
         match l with
         | [] => if ok3 then Ok s p else delete_throw p s
         | t :: r => scoped p (read_path t s) (fun s g => scoped p (comp_add p g true s) (fun s _ => go r s))
         end) l s
    else delete_throw p s)
  | TCyclic t ok => bind (read_path t s) (fun s g => if ok then alloc s (CCyclic g true) else delete_throw g s)
  end.
Definition read_trajectory (ok : bool) (t : text) (profile_ok rest_ok : bool) (s : state) : res addr :=
  if ok then bind (read_path t s) (fun s g =>
    scoped g (if profile_ok then alloc s CProf else Throw s) (fun s m =>
    if rest_ok then alloc s (CTSeg g m true) else bind (delete m s) (fun s _ => delete_throw g s)))
  else Throw s.
(** What a client does.  New objects are returned by their address. *)
Inductive op :=
| NewLeaf (c : cell)
| NewLine (o : addr) (a : bool) | NewCircle (o : addr) (a : bool) | NewCyclic (g : addr) (a : bool)
| NewRounded (o : addr) (a : bool) (eqradius_positive : bool) | NewTSeg (g m : addr) (a : bool)
| AddPath (p g : addr) (a : bool) | AddTraj (p t : addr) | Destroy (p : addr)
| RoundedAdd (p : addr) (k : corner) | RoundedFinish (p : addr) (has_points : bool)
| DoClone (p : addr) | DoDelete (p : addr)
| ReadPath (t : text) | ReadTraj (ok : bool) (t : text) (profile_ok rest_ok : bool).
Definition some (x : res addr) : res (option addr) := bind x (fun s a => Ok s (Some a)).
Definition none (x : res unit) : res (option addr) := bind x (fun s _ => Ok s None).
Definition step (o : op) (s : state) : res (option addr) :=
  match o with
  | NewLeaf c => some (alloc s c)
  | NewLine o a => some (new_line o a s)
  | NewCircle o a => some (new_circle o a s)
  | NewCyclic g a => some (alloc s (CCyclic g a))
  | NewRounded o a e => some (new_rounded o a e s)
  | NewTSeg g m a => some (alloc s (CTSeg g m a))
  | AddPath p g a => none (comp_add p g a s)
  | AddTraj p t => none (tcomp_add p t s)
  | Destroy p => none (tcomp_destroy p s)
  | RoundedAdd p k => none (rounded_add p k s)
  | RoundedFinish p b => none (rounded_finish p b s)
  | DoClone p => some (Clone p s)
  | DoDelete p => none (delete p s)
  | ReadPath t => some (read_path t s)
  | ReadTraj ok t pok rok => some (read_trajectory ok t pok rok s)
  end.
End Own.
