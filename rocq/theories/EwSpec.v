(** Specification vocabulary for the external wrench estimator (C66). *)
From Coq Require Import Reals List ZArith Bool Arith.
From Verif Require Import FramesModel Outcome InertiaModel DualModel KinModel KinSpec LinModel LinSpec LmaModel DynModel DynSpec VelIkModel VelIkSpec EwModel.
Import ListNotations.
Local Open Scope list_scope.
Local Open Scope R_scope.

(** ** The dynamics of the chain, as a freshly built ChainDynParam reports them (C35, C36, C39) *)
Definition mass_at (c : Chain) (g : Vector) (q : list R) (i j : nat) : R :=
  match dyn_JntToMass c (dyn_make c g) q (mat_zero (ch_nj c)) with Ret (_, M) => mentry M i j | Undef => 0 end.
Definition coriolis_at (c : Chain) (g : Vector) (q qd : list R) (j : nat) : R :=
  match dyn_JntToCoriolis c (dyn_make c g) q qd (repeat 0 (ch_nj c)) with Ret (_, C) => nth j C 0 | Undef => 0 end.
Definition gravity_at (c : Chain) (g : Vector) (q : list R) (j : nat) : R :=
  match dyn_JntToGravity c (dyn_make c g) q (repeat 0 (ch_nj c)) with Ret (_, G) => nth j G 0 | Undef => 0 end.
(** M(q) x *)
Definition momentum_at (c : Chain) (g : Vector) (q x : list R) (j : nat) : R :=
  sumn (ch_nj c) (fun m => mass_at c g q j m * nth m x 0).

(** ** What is done with an estimator *)
Inductive ew_event : Type :=
| Sample (q qd tau : list R)      (* JntToExtWrench *)
| Start (q qd : list R)           (* setInitialMomentum *)
| SetEps (eps : R)
| SetMaxIter (n : Z)
| Update.                         (* updateInternalDataStructures *)
Definition fits (n : nat) (e : ew_event) : Prop :=
  match e with
  | Sample q qd tau => length q = n /\ length qd = n /\ length tau = n
  | Start q qd => length q = n /\ length qd = n
  | SetEps eps => 0 < eps
  | SetMaxIter _ => True
  | Update => n <> 0%nat
  end.
(** One event on the object; the answer is the code and the wrench of a call that has them. *)
Definition ew_do (svd : Z -> Mat -> Decomp) (c : Chain) (w : Wrench) (s : ew) (e : ew_event) : outcome (Z * Wrench * ew) :=
  match e with
  | Sample q qd tau => ew_JntToExtWrench svd c s q qd tau w
  | Start q qd => let! (code, s') := ew_setInitialMomentum c s q qd in Ret (code, w, s')
  | SetEps eps => Ret (E_NOERROR, w, ew_setSVDEps s eps)
  | SetMaxIter n => Ret (E_NOERROR, w, ew_setSVDMaxIter s n)
  | Update => let! s' := ew_update c s in Ret (E_NOERROR, w, s')
  end.
(** A history of events, all on the same chain; the caller passes the same wrench variable to every call. *)
Fixpoint ew_run (svd : Z -> Mat -> Decomp) (c : Chain) (w : Wrench) (s : ew) (l : list ew_event) : outcome (list Z * Wrench * ew) :=
  match l with
  | [] => Ret ([], w, s)
  | e :: l' => let! (code, w1, s1) := ew_do svd c w s e in
               let! (codes, w2, s2) := ew_run svd c w1 s1 l' in Ret (code :: codes, w2, s2)
  end.

(** ** The reference: a first order observer for each joint.
    Its input is the external torque that explains the change of velocity between two samples:
    M(q') (qd - qd') / dt - (tau - gravity - coriolis), with q', qd' the previous sample. *)
Definition apparent (c : Chain) (g : Vector) (dt : R) (last : option (list R * list R)) (q qd tau : list R) (j : nat) : R :=
  match last with
  | Some (q', qd') => (momentum_at c g q' qd j - momentum_at c g q' qd' j) / dt
  | None => 0
  end - (nth j tau 0 - gravity_at c g q j - coriolis_at c g q qd j).
(** one step with gain [K] and filter constant [f]; the state is the estimate before and after the filter *)
Definition observer_step (K dt f u : R) (x : R * R) : R * R :=
  let raw := fst x + K * dt * (u - snd x) in (raw, f * snd x + (1 - f) * raw).
(** a sequence of inputs *)
Fixpoint observer (K dt f : R) (x : R * R) (us : list R) : R * R :=
  match us with [] => x | u :: us' => observer K dt f (observer_step K dt f u x) us' end.
(** The reference for a whole history: the last sample and the observer state of each joint. *)
Definition ref_state : Type := option (list R * list R) * (nat -> R * R).
Definition ref_start : ref_state := (None, fun _ => (0, 0)).
Definition ref_do (c : Chain) (g : Vector) (K dt f : R) (r : ref_state) (e : ew_event) : ref_state :=
  match e with
  | Sample q qd tau => (Some (q, qd), fun j => observer_step K dt f (apparent c g dt (fst r) q qd tau j) (snd r j))
  | Start q qd =>
      (* the estimate restarts from the momentum of the last sample, counted from the given one *)
      (fst r, fun j => (K * (match fst r with Some (q', qd') => momentum_at c g q' qd' j | None => 0 end - momentum_at c g q qd j), 0))
  | _ => r
  end.
Definition ref_run (c : Chain) (g : Vector) (K dt f : R) (r : ref_state) (l : list ew_event) : ref_state :=
  fold_left (ref_do c g K dt f) l r.

(** The samples of a robot on whose joints the torques [ext] act besides those of the motors: between two samples
    the velocities change by M(q')^-1 (tau + ext - gravity - coriolis) dt.  [last] is the sample before. *)
Fixpoint moves_under (c : Chain) (g : Vector) (dt : R) (ext : nat -> R) (last : list R * list R) (l : list ew_event) : Prop :=
  match l with
  | [] => True
  | Sample q qd tau :: l' =>
      (forall j, (j < ch_nj c)%nat ->
         sumn (ch_nj c) (fun m => mass_at c g (fst last) j m * (nth m qd 0 - nth m (snd last) 0)) =
         dt * (nth j tau 0 + ext j - gravity_at c g q j - coriolis_at c g q qd j)) /\
      moves_under c g dt ext (q, qd) l'
  | _ => False
  end.
Definition is_call (e : ew_event) : Prop := match e with Sample _ _ _ | Start _ _ => True | _ => False end.

(** ** The wrench *)
(** The external wrenches of a load [w] on the last link, given in the frame of that link. *)
Definition tip_load (c : Chain) (w : Wrench) : list Wrench := repeat w_zero (ch_ns c - 1) ++ [w].
Definition w_at (w : Wrench) (i : nat) : R := t_at (mkT (wforce w) (wtorque w)) i.
Definition w_list (w : Wrench) : list R := map (w_at w) (seq 0 6).
(** The transposed Jacobian of the tip in the axes of the tip: what maps a wrench on the tip to joint torques. *)
Definition tip_axes_jacobian (c : Chain) (q : list R) (j r : nat) : R :=
  t_at (r_invapp_t (fM (tip_at c (-1) q)) (nth j (jacobian_at c (-1) q) t_zero)) r.
Definition ew_matrix (c : Chain) (q : list R) : Mat := mkM (ch_nj c) 6 (tip_axes_jacobian c q).

(** ** Objects *)
(** the buffers have the sizes the object believes in *)
Definition ew_sized (s : ew) : Prop :=
  let n := ew_nj s in
  mrows (ew_M s) = n /\ mcols (ew_M s) = n /\ length (ew_p0 s) = n /\ length (ew_int s) = n /\ length (ew_filt s) = n /\
  length (ew_grav s) = n /\ length (ew_cor s) = n /\ length (ew_jac s) = n /\ length (ew_gain s) = n /\
  ew_locked s = repeat false n /\ dp_nj (ew_dyn s) = n /\ dp_ns (ew_dyn s) = ew_ns s /\
  (forall P, ew_prev s = Some P -> mrows P = n /\ mcols P = n).
(** Everything that can happen to an estimator, with a chain that is edited in between. *)
Inductive ew_reach (svd : Z -> Mat -> Decomp) (g : Vector) : Chain -> ew -> Prop :=
| ew_r_make c freq gain filter eps n s : chain_ok c -> inertias_symmetric c -> 0 < eps -> ew_make c g freq gain filter eps n = Ret s -> ew_reach svd g c s
| ew_r_edit c c' s : ew_reach svd g c s -> chain_ok c' -> inertias_symmetric c' -> ew_reach svd g c' s
| ew_r_do c s e w code w' s' : ew_reach svd g c s -> (forall eps, e = SetEps eps -> 0 < eps) -> ew_do svd c w s e = Ret (code, w', s') -> ew_reach svd g c s'.
Definition ew_current (c : Chain) (s : ew) : Prop := ew_nj s = ch_nj c /\ ew_ns s = ch_ns c.
