(** Property theorems C46 (trajectories).  Definitions: PathModel.v (code),
    PathSpec.v and TrajSpec.v (specification vocabulary). *)
From Coq Require Import Reals List.
From Verif Require Import FramesModel FramesSpec Outcome KinSpec ProfModel ProfSpec PathModel PathSpec TrajSpec
  TrajProofs TrajProofs2 TrajProofs3 PathProofs5 PathWitness.
Import ListNotations.
Local Open Scope R_scope.

(** ** Segments *)
Theorem C46_segment_velocity : forall g m T pos vel acc fr t V,
  made g -> inhabited_path g -> all_leaves smooth_leaf g -> evaluates m T pos vel acc ->
  (forall u, 0 <= pos u <= path_len g -> observed_traj traj_Pos (TSegment g m) u (fr u)) ->
  inside g (pos t) -> derivable_pt_lim pos t (vel t) ->
  observed_traj traj_Vel (TSegment g m) t V -> frame_velocity fr t V.
Proof. exact (@segment_velocity). Qed.
Print Assumptions C46_segment_velocity.

Theorem C46_segment_acceleration : forall g m T pos vel acc vl t A,
  made g -> inhabited_path g -> all_leaves smooth_leaf g -> evaluates m T pos vel acc ->
  (forall u, 0 <= pos u <= path_len g -> observed_traj traj_Vel (TSegment g m) u (vl u)) ->
  inside g (pos t) -> derivable_pt_lim pos t (vel t) -> derivable_pt_lim vel t (acc t) ->
  observed_traj traj_Acc (TSegment g m) t A -> tw_derive vl t A.
Proof. exact (@segment_acceleration). Qed.
Print Assumptions C46_segment_acceleration.

Theorem C46_elementary_segment : forall l m T pos vel acc,
  smooth_leaf l -> 0 <= leaf_len l -> evaluates m T pos vel acc -> velocity pos vel ->
  animates (TSegment (PLeaf l) m) T (fun u => leaf_Pos l (pos u)) (fun u => leaf_Vel l (pos u) (vel u)) /\
  forall u, answers traj_Acc (TSegment (PLeaf l) m) u (leaf_Acc l (pos u) (vel u) (acc u)) /\
    (derivable_pt_lim vel u (acc u) -> tw_derive (fun u => leaf_Vel l (pos u) (vel u)) u (leaf_Acc l (pos u) (vel u) (acc u))).
Proof. exact (@leaf_segment). Qed.
Print Assumptions C46_elementary_segment.

Theorem C46_straight_move : forall o F G eqradius mv ma,
  resolved F G -> 0 < eqradius -> 0 < mv -> 0 < ma ->
  let l := line_make F G o eqradius in
  exists m, trap_setProfile (trap_make mv ma) 0 (ln_len l) = Ret m /\
    (exists pos vel, animates (TSegment (PLeaf (LLine l)) (PTrap m)) (trap_duration m) pos vel /\ leads_to (trap_duration m) F G pos /\
       forall u, euclid_norm (tvel (vel u)) <= mv /\ eqradius * euclid_norm (trot (vel u)) <= mv /\
                 exists x, 0 <= x <= 1 /\ on_straight F G x (pos u)) /\
    forall D, 0 < D -> exists t pos vel,
       segment_for_duration (PLeaf (LLine l)) (trap_make mv ma) D = Val t /\
       animates t (Rmax D (trap_duration m)) pos vel /\ leads_to (Rmax D (trap_duration m)) F G pos /\
       forall u, euclid_norm (tvel (vel u)) <= mv /\ eqradius * euclid_norm (trot (vel u)) <= mv /\
                 exists x, 0 <= x <= 1 /\ on_straight F G x (pos u).
Proof. exact (@line_trajectory). Qed.
Print Assumptions C46_straight_move.

Theorem C46_stationary : forall d F,
  0 <= d -> animates (TStationary d F) d (fun _ => F) (fun _ => t_zero) /\ leads_to d F F (fun _ => F).
Proof. exact (@stationary_motion). Qed.
Print Assumptions C46_stationary.


(** ** Sequences *)
Theorem C46_composite_duration : forall t ts,
  composed t ts -> exists D, traj_Duration t = Val D /\ lasts ts D.
Proof. exact (@composed_duration). Qed.
Print Assumptions C46_composite_duration.

Theorem C46_composite_answers : forall (A : Type) (seg : Path -> Prof -> R -> result (A * Path)) stat t ts time c u,
  composed t ts -> ts <> [] -> playing ts time c u ->
  (forall a t', traj_eval seg stat t time = Val (a, t') -> observed_traj (traj_eval seg stat) c u a) /\
  (always_answers (traj_eval seg stat) c u -> exists a t', traj_eval seg stat t time = Val (a, t')).
Proof. exact (@composed_answers). Qed.
Print Assumptions C46_composite_answers.

Theorem C46_always_something_playing : forall t ts time,
  composed t ts -> ts <> [] -> exists c u, playing ts time c u.
Proof. exact (@playing_total). Qed.
Print Assumptions C46_always_something_playing.

Theorem C46_playing_unique : forall ts,
  forall time c u c' u', playing ts time c u -> playing ts time c' u' -> c = c' /\ u = u'.
Proof. exact (@playing_unique). Qed.
Print Assumptions C46_playing_unique.

Theorem C46_composite_motion : forall t ts F G,
  composed t ts -> ts <> [] -> relay ts F G ->
  exists D pos vel, lasts ts D /\ animates t D pos vel /\ leads_to D F G pos.
Proof. exact (@composed_motion). Qed.
Print Assumptions C46_composite_motion.

Theorem C46_via_points : forall o eqradius mv ma F Fs,
  0 < eqradius -> 0 < mv -> 0 < ma -> stepwise resolved F Fs -> Fs <> [] ->
  exists ts t, straight_legs o eqradius mv ma F Fs = Some ts /\ add_trajs tc_make ts = Val t /\
    exists D pos vel, lasts ts D /\ animates t D pos vel /\ leads_to D F (last Fs F) pos.
Proof. exact (@via_points). Qed.
Print Assumptions C46_via_points.

Theorem C46_clone : forall t,
  copyable_traj t -> exists t', traj_Clone t = Val t' /\ variant t t'.
Proof. exact (@traj_clone). Qed.
Print Assumptions C46_clone.

Theorem C46_destroy_resets_duration_refuted : forall d1 d2 F,
  exists t1 t2, tc_Add tc_make (TStationary d1 F) = Val t1 /\ tc_Add (tc_Destroy t1) (TStationary d2 F) = Val t2 /\
    traj_Duration t2 = Val (d1 + d2).
Proof. exact (@destroy_keeps_duration). Qed.
Print Assumptions C46_destroy_resets_duration_refuted.

Theorem C46_empty_composite_undefined : forall u,
  traj_Pos tc_make u = Undefd /\ traj_Vel tc_make u = Undefd /\ traj_Acc tc_make u = Undefd.
Proof. exact (@empty_traj_undefined). Qed.
Print Assumptions C46_empty_composite_undefined.


(** ** The hypotheses are satisfiable *)
Theorem C46_via_points_witness : stepwise resolved (mkF r_id (mkV 0 0 0)) [mkF r_id (mkV (0 + 1) 0 0); mkF r_id (mkV (0 + 1 + -1) 0 0)].
Proof. exact (@via_witness). Qed.
Print Assumptions C46_via_points_witness.

Theorem C46_clone_witness : exists m, trap_setProfile (trap_make 1 1) 0 2 = Ret m /\ copyable_traj (TSegment there_and_back (PTrap m)).
Proof. exact (@trap_clonable). Qed.
Print Assumptions C46_clone_witness.

