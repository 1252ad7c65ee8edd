(** Specification vocabulary for kinematics.  Independent of the solvers: only
    the data types, the pose of a single segment and elementary calculus. *)
From Coq Require Import Reals List ZArith Bool.
From Verif Require Import FramesModel FramesSpec Outcome InertiaModel DualModel KinModel.
Import ListNotations.
Local Open Scope R_scope.

(** * Calculus *)

(** Componentwise derivative of a time-dependent vector. *)
Definition v_derive (f : R -> Vector) (t : R) (d : Vector) : Prop :=
  derivable_pt_lim (fun s => vx (f s)) t (vx d) /\
  derivable_pt_lim (fun s => vy (f s)) t (vy d) /\
  derivable_pt_lim (fun s => vz (f s)) t (vz d).

(** Componentwise derivative of a time-dependent twist (e.g. a Jacobian column). *)
Definition tw_derive (f : R -> Twist) (t : R) (d : Twist) : Prop :=
  v_derive (fun s => tvel (f s)) t (tvel d) /\ v_derive (fun s => trot (f s)) t (trot d).

(** [tw] is the velocity twist of the moving frame [F] at time [t], with the
    frame's origin as reference point and the axes of the frame [F] is expressed
    in: a point [x] fixed in the moving frame moves with velocity
    v + omega x (R x).  ([x = 0] gives the velocity of the origin.) *)
Definition frame_velocity (F : R -> Frame) (t : R) (tw : Twist) : Prop :=
  forall x : Vector,
    v_derive (fun s => f_app (F s) x) t (v_add (tvel tw) (v_cross (trot tw) (r_app (fM (F t)) x))).

(** The joint array [q] of [n] entries moves with velocity [qd] at time [t]. *)
Definition joint_motion (n : nat) (q : R -> list R) (t : R) (qd : list R) : Prop :=
  (forall s, length (q s) = n) /\ length qd = n /\
  forall i, (i < n)%nat -> derivable_pt_lim (fun s => nth i (q s) 0) t (nth i qd 0).

(** * Well-formed objects *)

(** The axis of a general revolute joint has length one. *)
Definition joint_ok (j : Joint) : Prop := jtype j = RotAxis -> unit_vector (jaxis j).
Definition segment_ok (s : Segment) : Prop := joint_ok (sjoint s) /\ rigid (sf_tip s).

(** Number of segments whose joint is not Fixed. *)
Definition count_moving (segs : list Segment) : nat := length (filter moving segs).

(** The chain's counters describe its segments (see C18: true after every
    history of chain operations). *)
Definition chain_wf (c : Chain) : Prop :=
  ch_ns c = length (ch_segs c) /\ ch_nj c = count_moving (ch_segs c).
Definition chain_ok (c : Chain) : Prop := chain_wf c /\ Forall segment_ok (ch_segs c).

(** * Chain histories (C18) *)

(** [built c l]: the chain object [c] results from some finite history of
    operations whose added segments, in order, are [l]. *)
Inductive built : Chain -> list Segment -> Prop :=
| built_empty : built chain_empty []
| built_addSegment c l s : built c l -> built (chain_addSegment c s) (l ++ [s])
| built_addChain c l d m e :
    built c l -> built d m -> chain_addChain c d = Ret e -> built e (l ++ m)
| built_copy c l e : built c l -> chain_copy c = Ret e -> built e l
| built_assign c l d m e :
    built c l -> built d m -> chain_assign c d = Ret e -> built e m
| built_setFrameToTip c before s after i f e :
    built c (before ++ s :: after) -> length before = i ->
    chain_setFrameToTip c i f = Ret e ->
    built e (before ++ segment_setFrameToTip s f :: after).

(** * Forward kinematics (C19-C21) *)

(** Pair every segment with its joint value: the non-fixed joints consume the
    values of [q] in order, fixed joints take none. *)
Fixpoint assign (segs : list Segment) (q : list R) : list (Segment * R) :=
  match segs with
  | [] => []
  | s :: rest =>
      if moving s
      then match q with x :: q' => (s, x) :: assign rest q' | [] => [] end
      else (s, 0) :: assign rest q
  end.

(** The product of the poses, from base to tip. *)
Fixpoint pose_product (l : list (Segment * R)) : Frame :=
  match l with
  | [] => f_id
  | (s, x) :: l' => f_mul (segment_pose s x) (pose_product l')
  end.

(** The tip frame of the first [k] segments. *)
Definition tip_frame (c : Chain) (q : list R) (k : nat) : Frame :=
  pose_product (assign (firstn k (ch_segs c)) q).

(** The number of segments an [int] segment argument denotes: negative = all. *)
Definition denotes (c : Chain) (seg_nr : Z) (k : nat) : Prop :=
  ((seg_nr < 0)%Z /\ k = length (ch_segs c)) \/ (0 <= seg_nr)%Z /\ Z.of_nat k = seg_nr.

(** * Jacobians (C22-C25) *)

(** The entries of [l] whose mask entry is false (unlocked), in order. *)
Fixpoint unlocked {A : Type} (mask : list bool) (l : list A) : list A :=
  match mask, l with
  | m :: mask', x :: l' => if m then unlocked mask' l' else x :: unlocked mask' l'
  | _, _ => []
  end.

(** Joint velocities with the locked ones set to zero. *)
Fixpoint freeze (mask : list bool) (l : list R) : list R :=
  match mask, l with
  | m :: mask', x :: l' => (if m then 0 else x) :: freeze mask' l'
  | _, _ => []
  end.

(** The Jacobian of the tip of segment [seg_nr] as returned by a freshly built
    solver (no locked joints) into a matrix of the right size. *)
Definition jacobian_at (c : Chain) (seg_nr : Z) (q : list R) : list Twist :=
  match jac_JntToJac c (jacsolver_make c) q (jac_make (ch_nj c)) seg_nr with
  | Ret (_, J) => J
  | Undef => []
  end.

(** The same Jacobian in the three representations of the Jdot solver, the tip
    frame being [F]: HYBRID base axes and tip reference point, BODYFIXED tip axes
    and tip reference point, INERTIAL base axes and base reference point. *)
Definition represent (rep : Z) (F : Frame) (J : list Twist) : list Twist :=
  if (rep =? HYBRID)%Z then J
  else if (rep =? BODYFIXED)%Z then map (r_app_t (r_inv (fM F))) J
  else map (fun t => t_RefPoint t (v_neg (fp F))) J.

(** * Solver histories (C26) *)
Inductive solver_event : Type :=
| EvAddSegment (s : Segment)          (* the user edits the chain *)
| EvUpdate                            (* updateInternalDataStructures() *)
| EvSetLocked (mask : list bool)
| EvCall (q : list R) (jac : list Twist) (seg_nr : Z).

(** Execution of one event on the pair (chain, solver state of ChainJntToJacSolver). *)
Definition jac_step (w : Chain * list bool) (e : solver_event) : outcome (Chain * list bool) :=
  let '(c, m) := w in
  match e with
  | EvAddSegment s => Ret (chain_addSegment c s, m)
  | EvUpdate => Ret (c, jacsolver_update c m)
  | EvSetLocked mask => Ret (c, snd (jacsolver_setLocked c m mask))
  | EvCall q jac seg => let! _ := jac_JntToJac c m q jac seg in Ret (c, m)
  end.
Fixpoint jac_run (w : Chain * list bool) (h : list solver_event) : outcome (Chain * list bool) :=
  match h with [] => Ret w | e :: h' => let! w' := jac_step w e in jac_run w' h' end.

(** Execution of one event on (chain, state of ChainJntToJacDotSolver); the call
    passes [q] also as joint velocities. *)
Definition jd_step (w : Chain * jdsolver) (e : solver_event) : outcome (Chain * jdsolver) :=
  let '(c, st) := w in
  match e with
  | EvAddSegment s => Ret (chain_addSegment c s, st)
  | EvUpdate => Ret (c, jdsolver_update c st)
  | EvSetLocked mask => Ret (c, snd (jdsolver_setLocked st mask))
  | EvCall q jac seg =>
      let! r := jd_JntToJacDot c st q q jac seg in Ret (c, snd r)
  end.
Fixpoint jd_run (w : Chain * jdsolver) (h : list solver_event) : outcome (Chain * jdsolver) :=
  match h with [] => Ret w | e :: h' => let! w' := jd_step w e in jd_run w' h' end.

(** True when a joint was added after the last update (or construction). *)
Fixpoint stale (pending : bool) (h : list solver_event) : bool :=
  match h with
  | [] => pending
  | EvAddSegment s :: h' => stale (pending || moving s) h'
  | EvUpdate :: h' => stale false h'
  | _ :: h' => stale pending h'
  end.

(** Histories of a ChainJntToJacDotSolver on which setLockedJoints was never
    called: construction, chain edits, updates, representation changes, calls. *)
Inductive jd_history : Chain -> jdsolver -> Prop :=
| jdh_make c : chain_ok c -> jd_history c (jdsolver_make c)
| jdh_add c st s : jd_history c st -> segment_ok s -> jd_history (chain_addSegment c s) st
| jdh_update c st : jd_history c st -> jd_history c (jdsolver_update c st)
| jdh_rep c st rep : jd_history c st -> jd_history c (jdsolver_setRepresentation st rep)
| jdh_call c st q qd jdot z code out st' :
    jd_history c st -> jd_JntToJacDot c st q qd jdot z = Ret (code, out, st') -> jd_history c st'
| jdh_call_twist c st q qd tw z code out st' :
    jd_history c st -> jd_JntToJacDot_twist c st q qd tw z = Ret (code, out, st') -> jd_history c st'.

(** The tip frame as returned by the position solver. *)
Definition tip_at (c : Chain) (seg_nr : Z) (q : list R) : Frame :=
  match fk_JntToCart c q seg_nr with Ret (_, f) => f | Undef => f_id end.

(** [Jd] is, column by column, the time derivative at [t] of the Jacobian in
    representation [rep] along the joint motion [q]. *)
Definition jd_exact (c : Chain) (z : Z) (rep : Z) (q : R -> list R) (t : R) (Jd : list Twist) : Prop :=
  length Jd = ch_nj c /\
  forall i, (i < ch_nj c)%nat ->
    tw_derive (fun s => nth i (represent rep (tip_at c z (q s)) (jacobian_at c z (q s))) t_zero) t (nth i Jd t_zero).
