(** C78 - who owns paths, interpolators, velocity profiles and trajectories. *)
From Coq Require Import List Bool Arith Permutation.
From Verif Require Import OwnModel OwnSpec OwnProofs4 OwnBorrow.
Import ListNotations.

(** For every pattern of exceptions [thr] and every order of argument evaluation [rf]. *)

Theorem C78_no_undefined_behaviour : forall thr rf h s o rest, history thr rf any h s -> allowed h s o rest ->
  (exists s' r, step thr rf o s = Ok s' r) \/ (exists s', step thr rf o s = Throw s').
Proof. exact (fun thr rf => progress thr rf any). Qed.
Print Assumptions C78_no_undefined_behaviour.

Theorem C78_pointers_stay_valid : forall thr rf h s, history thr rf any h s -> NoDup h /\ forall p, In p h -> live s p = true.
Proof. exact (fun thr rf => handles_valid thr rf any). Qed.
Print Assumptions C78_pointers_stay_valid.

Theorem C78_delete_in_any_order : forall thr rf h s l, history thr rf any h s -> Permutation l h -> exists s', delete_all l s = Ok s' tt.
Proof. exact (fun thr rf => delete_everything thr rf any). Qed.
Print Assumptions C78_delete_in_any_order.

Theorem C78_nothing_leaks : forall thr rf h s l, history thr rf leak_free h s -> Permutation l h ->
  exists s', delete_all l s = Ok s' tt /\ empty s'.
Proof. exact no_leak. Qed.
Print Assumptions C78_nothing_leaks.

Theorem C78_clone_is_deep : forall thr rf h s p s' q, history thr rf any h s -> In p h -> step thr rf (DoClone p) s = Ok s' (Some q) ->
  live s q = false /\ (forall a, live s a = true -> cell_at s' a = cell_at s a) /\ alike s s' p q /\
  exists s2, delete p s' = Ok s2 tt /\ alike s s2 p q /\ exists s3, delete q s2 = Ok s3 tt.
Proof. exact (fun thr rf => clone_independent thr rf any). Qed.
Print Assumptions C78_clone_is_deep.

Example C78_example : history throw_first true leak_free [21; 2] ex6 /\ (exists c o a, cell_at ex6 21 = Some (CRounded c o a)) /\ plain ex6 8 /\
  step throw_first true (RoundedAdd 2 Round) ex2 = Throw ex3.
Proof. exact example_history. Qed.

(** With aggregate = false nothing is taken over: the new object can be deleted, and everything is as before it was made; if the constructor
    throws, what was alive is untouched. *)
Theorem C78_borrowed_survive : forall thr rf s o, borrows s o ->
  (exists s' p s2, step thr rf o s = Ok s' (Some p) /\ live s p = false /\ delete p s' = Ok s2 tt /\ forall a, cell_at s2 a = cell_at s a) \/
  (exists s', step thr rf o s = Throw s' /\ forall a, live s a = true -> cell_at s' a = cell_at s a).
Proof. exact borrowed_survive. Qed.
Print Assumptions C78_borrowed_survive.
(** The copy of such a line, trajectory or rounded composite can be deleted too, in either order, with nothing lost or left over. *)
Theorem C78_borrower_copy : forall thr rf s o s' p, borrows s o -> copied_well o -> step thr rf o s = Ok s' (Some p) ->
  exists s'' q, step thr rf (DoClone p) s' = Ok s'' (Some q) /\
    forall l, Permutation l [p; q] -> exists s3, delete_all l s'' = Ok s3 tt /\ forall a, cell_at s3 a = cell_at s a.
Proof. exact borrower_copy. Qed.
Print Assumptions C78_borrower_copy.
Example C78_borrow_example : borrows (mkSt [Some COrient; Some CProf; Some CPoint] 0) (NewRounded 0 false true) /\
  borrows (mkSt [Some COrient; Some CProf; Some CPoint] 0) (NewTSeg 2 1 false).
Proof. exact borrow_example. Qed.

(** The implicit copy constructor of a class that owns something. *)
Theorem C78_implicit_copy_deletes_twice : forall thr rf h s p c, history thr rf any h s -> In p h -> cell_at s p = Some c -> deleted_by c <> [] ->
  exists s' q, copy p s = Ok s' q /\ delete_all [p; q] s' = Ub /\ delete_all [q; p] s' = Ub.
Proof. exact (fun thr rf => copy_bad thr rf any). Qed.
Print Assumptions C78_implicit_copy_deletes_twice.

(** "Nothing leaks" is false without the restriction on exceptions: a rounded composite with eqradius <= 0 loses the interpolator and its
    composite, in a call and in a text, *)
Theorem C78_rounded_constructor_refuted : exists s, history no_throw true any [] s /\ ~ empty s.
Proof. exact rounded_leak. Qed.
Print Assumptions C78_rounded_constructor_refuted.
Theorem C78_read_rounded_refuted : exists s, step no_throw true (ReadPath (TRounded true true false [] false true)) start = Throw s /\ ~ empty s.
Proof. exact read_leak. Qed.
Print Assumptions C78_read_rounded_refuted.
(** and a trajectory whose copy fails half way loses what has been copied. *)
Theorem C78_clone_trajectory_refuted : exists s h, history (throw_at 1) true any h s /\
  forall l s', Permutation l h -> delete_all l s = Ok s' tt -> ~ empty s'.
Proof. exact clone_leak. Qed.
Print Assumptions C78_clone_trajectory_refuted.
(** With aggregate = false, the copy of a circle, of a composite or of a cyclic path copies an object that nobody owns. *)
Theorem C78_borrowing_circle_refuted : exists s s', run no_throw true [NewLeaf COrient; NewCircle 0 false; DoClone 1] start = Some s /\
  delete_all [3; 1; 0] s = Ok s' tt /\ live s' 2 = true.
Proof. exact borrowed_circle. Qed.
Print Assumptions C78_borrowing_circle_refuted.
Theorem C78_borrowing_composite_refuted : exists s s', run no_throw true [NewLeaf CPoint; NewLeaf (CComp []); AddPath 1 0 false; DoClone 1] start = Some s /\
  delete_all [2; 1; 0] s = Ok s' tt /\ live s' 3 = true.
Proof. exact borrowed_composite. Qed.
Print Assumptions C78_borrowing_composite_refuted.
Theorem C78_borrowing_cyclic_refuted : exists s s', run no_throw true [NewLeaf CPoint; NewCyclic 0 false; DoClone 1] start = Some s /\
  delete_all [3; 1; 0] s = Ok s' tt /\ live s' 2 = true.
Proof. exact borrowed_cyclic. Qed.
Print Assumptions C78_borrowing_cyclic_refuted.
