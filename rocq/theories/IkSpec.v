(** Specification vocabulary for inverse position kinematics (C47-C49). *)
From Coq Require Import Reals String List ZArith.
From Verif Require Import FramesModel FramesSpec Outcome InertiaModel DualModel KinModel KinSpec IkModel.
Import ListNotations.
Local Open Scope list_scope.
Local Open Scope R_scope.

(** Two poses agree to the accuracy [eps]: every coordinate of the positions to
    [eps]; every entry of the orientation matrices to twice [eps] (a rotation
    vector has three components), and the library's global tolerance, below
    which it does not see rotations at all (C10). *)
Definition pose_within (eps : R) (a b : Frame) : Prop :=
  v_close (fp a) (fp b) eps /\ r_close (fM a) (fM b) (2 * (eps + kdl_epsilon)).

(** Joint limits: entrywise, for joints whose lower limit is not above the upper. *)
Definition within (lo hi q : list R) : Prop :=
  length q = length lo /\ length q = length hi /\
  forall i, (i < length q)%nat -> nth i q 0 <= nth i hi 0 /\
    (nth i lo 0 <= nth i hi 0 -> nth i lo 0 <= nth i q 0).

(** What a caller can observe of the inner solvers: the sequence of calls made
    to them, with arguments and results. *)
Inductive call :=
| FkCall (q : list R) (rc : Z) (f : Frame)
| IkCall (q : list R) (t : Twist) (rc : Z) (dq : list R).
Definition is_fk (c : call) : bool := match c with FkCall _ _ _ => true | _ => false end.
Definition is_ik (c : call) : bool := match c with IkCall _ _ _ _ => true | _ => false end.
Definition fk_calls (tr : list call) : nat := length (filter is_fk tr).
Definition ik_calls (tr : list call) : nat := length (filter is_ik tr).

(** The same inner solvers, with a record of the calls. *)
Definition record_fk {W : Type} (fk : W -> list R -> outcome (Z * Frame * W)) :
    W * list call -> list R -> outcome (Z * Frame * (W * list call)) :=
  fun w q => let! (rc, f, w') := fk (fst w) q in Ret (rc, f, (w', snd w ++ [FkCall q rc f])).
Definition record_ik {W : Type} (ikv : W -> list R -> Twist -> list R -> outcome (Z * list R * W)) :
    W * list call -> list R -> Twist -> list R -> outcome (Z * list R * (W * list call)) :=
  fun w q t d => let! (rc, dq, w') := ikv (fst w) q t d in Ret (rc, dq, (w', snd w ++ [IkCall q t rc dq])).

(** An inner FK solver that computes the chain's tip frame whenever it reports success. *)
Definition fk_correct {W : Type} (c : Chain) (fk : W -> list R -> outcome (Z * Frame * W)) : Prop :=
  forall w q rc f w', fk w q = Ret (rc, f, w') -> (0 <= rc)%Z -> length q = ch_nj c ->
    f = tip_frame c q (length (ch_segs c)).
(** ChainFkSolverPos_recursive as inner solver; it has no state of its own. *)
Definition kdl_fk (c : Chain) : unit -> list R -> outcome (Z * Frame * unit) :=
  fun w q => let! (rc, f) := fk_JntToCart c q (-1) in Ret (rc, f, w).

(** Inner solvers that never misbehave: every call returns, and the velocity
    solver fills an array of the right size. *)
Definition inner_total {W : Type} (nj : nat) (fk : W -> list R -> outcome (Z * Frame * W))
    (ikv : W -> list R -> Twist -> list R -> outcome (Z * list R * W)) : Prop :=
  (forall w q, exists r, fk w q = Ret r) /\
  (forall w q t d, exists rc dq w', ikv w q t d = Ret (rc, dq, w') /\ length dq = nj).

(** Entrywise sum of two arrays of the same size. *)
Definition array_sum (a b c : list R) : Prop :=
  length a = length b /\ length c = length a /\
  forall i, (i < length a)%nat -> nth i c 0 = nth i a 0 + nth i b 0.

(** A forward call whose pose does not meet the target. *)
Definition off_target (eps : R) (p : Frame) (c : call) : Prop :=
  match c with
  | FkCall _ rc f => (0 <= rc)%Z -> t_Equal (f_diff f p 1) t_zero eps = false
  | IkCall _ _ _ _ => True
  end.

(** Forgetting the record. *)
Definition erase4 {W A B C : Type} (r : outcome (A * B * C * (W * list call))) : outcome (A * B * C * W) :=
  let! (a, b, c, w) := r in Ret (a, b, c, fst w).

(** ** Tree solvers *)

(** The limits as a box, for joints whose lower limit is not above the upper one. *)
Definition in_box (lo hi q : list R) : Prop :=
  length q = length lo /\ length q = length hi /\
  forall i, (i < length q)%nat -> nth i lo 0 <= nth i hi 0 -> nth i lo 0 <= nth i q 0 <= nth i hi 0.
(** [q'] is the array inside the box that is nearest to [q], joint by joint. *)
Definition nearest_in_box (lo hi q q' : list R) : Prop :=
  in_box lo hi q' /\ length q' = length q /\
  forall i x, (i < length q)%nat -> nth i lo 0 <= nth i hi 0 -> nth i lo 0 <= x <= nth i hi 0 ->
    Rabs (nth i q' 0 - nth i q 0) <= Rabs (x - nth i q 0).
(** [v'] is [v] slowed down by the largest common factor that makes every entry
    respect its limit. *)
Definition slowed (dmax v v' : list R) : Prop :=
  length v' = length v /\
  exists k, 0 < k <= 1 /\ (forall i, (i < length v)%nat -> nth i v' 0 = k * nth i v 0 /\ Rabs (nth i v' 0) <= nth i dmax 0) /\
    (k = 1 \/ exists i, (i < length v)%nat /\ Rabs (nth i v' 0) = nth i dmax 0).

(** Calls made by the tree solvers. *)
Inductive tcall :=
| TFkCall (q : list R) (name : string) (f : Frame)
| TIkCall (q : list R) (ts : dict Twist) (res : R) (dq : list R).
Definition is_tfk (c : tcall) : bool := match c with TFkCall _ _ _ => true | _ => false end.
Definition is_tik (c : tcall) : bool := match c with TIkCall _ _ _ _ => true | _ => false end.
Definition tfk_calls (tr : list tcall) : nat := length (filter is_tfk tr).
Definition tik_calls (tr : list tcall) : nat := length (filter is_tik tr).
Definition record_tfk {W : Type} (tfk : W -> list R -> string -> Frame -> outcome (Frame * W)) :
    W * list tcall -> list R -> string -> Frame -> outcome (Frame * (W * list tcall)) :=
  fun w q k f0 => let! (f, w') := tfk (fst w) q k f0 in Ret (f, (w', snd w ++ [TFkCall q k f])).
Definition record_tik {W : Type} (tikv : W -> list R -> dict Twist -> list R -> outcome (R * list R * W)) :
    W * list tcall -> list R -> dict Twist -> list R -> outcome (R * list R * (W * list tcall)) :=
  fun w q t d => let! (res, dq, w') := tikv (fst w) q t d in Ret (res, dq, (w', snd w ++ [TIkCall q t res dq])).

(** The forward solver computes [pose q name] for the names in [P]. *)
Definition tfk_correct {W : Type} (P : string -> Prop) (nj : nat) (pose : list R -> string -> Frame)
    (tfk : W -> list R -> string -> Frame -> outcome (Frame * W)) : Prop :=
  forall w q k f f' w', P k -> length q = nj -> tfk w q k f = Ret (f', w') -> f' = pose q k.
(** The velocity solver is asked for [g] of the pose error at every requested
    endpoint; at the endpoints that are not requested it is asked for whatever
    [old] says. *)
Definition asked (g : Twist -> Twist) (pose : list R -> string -> Frame) (q : list R) (p_in : dict Frame)
    (old twists : dict Twist) : Prop :=
  (forall k f, In (k, f) p_in -> dict_find twists k = Some (g (f_diff (pose q k) f 1))) /\
  (forall k, ~ In k (map fst p_in) -> dict_find twists k = dict_find old k).
(** The two maps of a solver have the same keys. *)
Definition same_keys {A B : Type} (m : dict A) (n : dict B) : Prop :=
  forall k, dict_find m k = None <-> dict_find n k = None.
Definition all_known {A : Type} (p_in : dict Frame) (m : dict A) : Prop :=
  forall k, In k (map fst p_in) -> dict_find m k <> None.
(** Forgetting the record. *)
Definition forget {A W : Type} (r : outcome (A * (W * list tcall))) : outcome (A * W) :=
  let! (a, w) := r in Ret (a, fst w).

(** The velocity solver's answers so far, none below [eps]. *)
Definition above (eps : R) (c : tcall) : Prop :=
  match c with TIkCall _ _ res _ => eps <= res | TFkCall _ _ _ => True end.

(** Inner tree solvers that never misbehave. *)
Definition tinner_total {W : Type} (tfk : W -> list R -> string -> Frame -> outcome (Frame * W))
    (tikv : W -> list R -> dict Twist -> list R -> outcome (R * list R * W)) (nj : nat) : Prop :=
  (forall w q k f, exists r, tfk w q k f = Ret r) /\
  (forall w q t d, exists res dq w', tikv w q t d = Ret (res, dq, w') /\ length dq = nj).
