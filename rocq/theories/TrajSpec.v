(** Specification vocabulary for trajectories. *)
From Coq Require Import Reals List.
From Verif Require Import FramesModel FramesSpec Outcome KinSpec ProfModel ProfSpec PathModel PathSpec.
Import ListNotations.
Local Open Scope R_scope.

(** [u] is a trajectory object with the contents of [t], whatever was asked of
    its paths before, and whose profiles answer like those of [t]. *)
Fixpoint variant (t u : Traj) {struct t} : Prop :=
  match t, u with
  | TSegment g m, TSegment h k => same_path g h /\ made h /\ same_answers m k
  | TStationary d F, TStationary d' F' => d = d' /\ F = F'
  | TComposite vt vd d, TComposite vu ud d' =>
      (fix all (vt vu : list Traj) {struct vt} : Prop :=
         match vt, vu with
         | [], [] => True
         | c :: r, c' :: r' => variant c c' /\ all r r'
         | _, _ => False
         end) vt vu /\ vd = ud /\ d = d'
  | _, _ => False
  end.

(** Some object with the contents of [t] answers the query at [time] with [a]. *)
Definition observed_traj {A : Type} (query : Traj -> R -> result (A * Traj)) (t : Traj) (time : R) (a : A) : Prop :=
  exists t1 t2, variant t t1 /\ query t1 time = Val (a, t2).

(** Every object with the contents of [t] answers the query at [time]. *)
Definition always_answers {A : Type} (query : Traj -> R -> result (A * Traj)) (t : Traj) (time : R) : Prop :=
  forall t1, variant t t1 -> exists a t2, query t1 time = Val (a, t2).

(** A composite trajectory to which the elements [ts] were added, in this order,
    with any queries in between, and never destroyed. *)
Inductive composed : Traj -> list Traj -> Prop :=
| composed_make : composed tc_make []
| composed_add t ts c t' : composed t ts -> variant c c -> tc_Add t c = Val t' -> composed t' (ts ++ [c])
| composed_pos t ts time F t' : composed t ts -> traj_Pos t time = Val (F, t') -> composed t' ts
| composed_vel t ts time V t' : composed t ts -> traj_Vel t time = Val (V, t') -> composed t' ts
| composed_acc t ts time V t' : composed t ts -> traj_Acc t time = Val (V, t') -> composed t' ts.

(** What the sequence [ts] plays at [time]: element [c] at its own time [u].
    Before the start, the first element at zero; after the end, the last one at
    its duration; the switch happens at the end of an element. *)
Fixpoint playing (ts : list Traj) (time : R) (c : Traj) (u : R) : Prop :=
  match ts with
  | [] => False
  | x :: r =>
      (time < 0 /\ c = x /\ u = 0) \/
      (0 <= time /\ exists d, traj_Duration x = Val d /\
         ((time < d /\ c = x /\ u = time) \/
          (d <= time /\ match r with [] => c = x /\ u = d | _ => playing r (time - d) c u end)))
  end.

(** [D] is the sum of the durations. *)
Fixpoint lasts (ts : list Traj) (D : R) : Prop :=
  match ts with
  | [] => D = 0
  | x :: r => exists d, traj_Duration x = Val d /\ lasts r (D - d)
  end.

(** Clone works on every part: the paths are copyable and the copies of the
    profiles answer like the originals. *)
Fixpoint copyable_traj (t : Traj) : Prop :=
  match t with
  | TSegment g m => made g /\ copyable g /\ exists k, prof_clone m = Ret k /\ same_answers m k
  | TStationary _ _ => True
  | TComposite vt vd d =>
      (fix all (vt : list Traj) : Prop := match vt with [] => True | c :: r => copyable_traj c /\ all r end) vt /\
      exists ts, composed t ts
  end.

(** Whatever was asked of the object before, it answers [a] at time [u]. *)
Definition answers {A : Type} (query : Traj -> R -> result (A * Traj)) (t : Traj) (u : R) (a : A) : Prop :=
  forall t1, variant t t1 -> exists t2, query t1 u = Val (a, t2).

(** The object moves as described by [pos] and [vel] for the duration [D]: these
    are its answers at every time, and [vel] is the velocity twist of [pos]. *)
Definition animates (t : Traj) (D : R) (pos : R -> Frame) (vel : R -> Twist) : Prop :=
  variant t t /\ traj_Duration t = Val D /\
  (forall u, answers traj_Pos t u (pos u) /\ answers traj_Vel t u (vel u)) /\
  (forall u, frame_velocity pos u (vel u)).

(** A motion from [F] to [G], standing still before and after. *)
Definition leads_to (D : R) (F G : Frame) (pos : R -> Frame) : Prop :=
  0 <= D /\ (forall u, u <= 0 -> pos u = F) /\ (forall u, D <= u -> pos u = G).

(** The elements follow each other: each one is a motion from rest to rest and
    starts where the previous one ends. *)
Fixpoint relay (ts : list Traj) (F G : Frame) : Prop :=
  match ts with
  | [] => F = G
  | c :: r => exists D pos vel H, animates c D pos vel /\ leads_to D F H pos /\ relay r H G
  end.

(** A client that moves along straight lines through the points [F], [Fs],
    stopping at each: one Trajectory_Segment per leg ... *)
Fixpoint straight_legs (o : SA) (eq mv ma : R) (F : Frame) (Fs : list Frame) : option (list Traj) :=
  match Fs with
  | [] => Some []
  | G :: r =>
      let l := line_make F G o eq in
      match trap_setProfile (trap_make mv ma) 0 (ln_len l), straight_legs o eq mv ma G r with
      | Ret m, Some ts => Some (TSegment (PLeaf (LLine l)) (PTrap m) :: ts)
      | _, _ => None
      end
  end.
(** ... added to a Trajectory_Composite. *)
Fixpoint add_trajs (t : Traj) (ts : list Traj) : result Traj :=
  match ts with [] => Val t | c :: r => let? t' := tc_Add t c in add_trajs t' r end.
(** Each frame is related to the next. *)
Fixpoint stepwise (P : Frame -> Frame -> Prop) (F : Frame) (Fs : list Frame) : Prop :=
  match Fs with [] => True | G :: r => P F G /\ stepwise P G r end.
