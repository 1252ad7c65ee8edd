(** Property theorems C44, C45 and C62 (geometric paths).  Definitions:
    PathModel.v (code), PathSpec.v (specification vocabulary). *)
From Coq Require Import Reals List ZArith.
From Verif Require Import FramesModel FramesSpec Outcome KinSpec PathModel PathSpec
  PathProofs PathProofs2 PathProofs3 PathProofs4 PathProofs5 PathProofs6 PathProofs7 PathWitness.
Import ListNotations.
Local Open Scope R_scope.

(** ** C44: lines and circles *)
Theorem C44_line : forall o F G eqradius,
  resolved F G -> 0 < eqradius ->
  let l := line_make F G o eqradius in
  straight F G (ln_len l) (line_Pos l) /\
  curve_derivatives (line_Pos l) (line_Vel l) (line_Acc l) /\
  (0 < ln_len l -> normalised_speed eqradius (line_Vel l)) /\
  euclid_norm (v_sub (fp G) (fp F)) <= ln_len l /\
  (forall d, F <> G -> fp F <> fp G -> 0 <= d ->
     exists s, line_LengthToS l d = Val s /\
       euclid_norm (v_sub (fp (line_Pos l s)) (fp F)) = d).
Proof. exact (@line_correct). Qed.
Print Assumptions C44_line.

Theorem C44_line_near_tolerance : forall o F G eqradius,
  rigid F -> rigid G -> 0 < eqradius ->
  resolved_rotation (fM F) (fM G) \/ r_close (r_mul (r_inv (fM F)) (fM G)) r_id kdl_epsilon ->
  let l := line_make F G o eqradius in
  line_Pos l 0 = F /\ f_close (line_Pos l (ln_len l)) G (3 * kdl_epsilon) /\
  curve_derivatives (line_Pos l) (line_Vel l) (line_Acc l).
Proof. exact (@line_near). Qed.
Print Assumptions C44_line_near_tolerance.

Theorem C44_line_from_twist : forall o F w eqradius,
  resolved F (mkF (r_mul (fM F) (r_Rot (trot w) (v_norm (trot w)))) (v_add (fp F) (tvel w))) -> 0 < eqradius ->
  let l := line_make_twist F w o eqradius in
  straight F (mkF (r_mul (fM F) (r_Rot (trot w) (v_norm (trot w)))) (v_add (fp F) (tvel w))) (ln_len l) (line_Pos l).
Proof. exact (@line_twist_end). Qed.
Print Assumptions C44_line_from_twist.

Theorem C44_circle : forall F center p Rend alpha o eqradius,
  rigid F -> is_rotation Rend -> resolved_rotation (fM F) Rend -> resolved_displacement center p -> center <> p ->
  0 < alpha -> 0 < eqradius ->
  match circle_make F center p Rend alpha o eqradius with
  | Val c =>
      (exists z, plane_normal (v_sub (fp F) center) (v_sub p center) z /\
                 circular F center z alpha (ci_len c) (circle_Pos c)) /\
      fM (circle_Pos c (ci_len c)) = Rend /\
      (forall s, euclid_norm (v_sub (fp (circle_Pos c s)) center) = euclid_norm (v_sub (fp F) center)) /\
      curve_derivatives (circle_Pos c) (circle_Vel c) (circle_Acc c) /\
      normalised_speed eqradius (circle_Vel c) /\
      alpha * euclid_norm (v_sub (fp F) center) <= ci_len c /\
      (forall u, circle_LengthToS c (u * (alpha * euclid_norm (v_sub (fp F) center))) = Val (u * ci_len c))
  | Throw CircleToSmall => euclid_norm (v_sub (fp F) center) < 2 * kdl_epsilon
  | Throw CircleNoPlane =>
      euclid_norm (v_cross (v_sub (fp F) center) (v_sub p center))
        < 2 * kdl_epsilon * (euclid_norm (v_sub (fp F) center) * euclid_norm (v_sub p center))
  | _ => False
  end.
Proof. exact (@circle_correct). Qed.
Print Assumptions C44_circle.

Theorem C44_line_clone : forall o F G eqradius,
  resolved F G -> 0 < eqradius ->
  line_Clone (line_make F G o eqradius) = line_make F G o eqradius.
Proof. exact (@line_clone). Qed.
Print Assumptions C44_line_clone.

Theorem C44_zero_eqradius_refuted : forall o F G,
  resolved F G -> fp F = fp G -> fM F <> fM G ->
  let l := line_make F G o 0 in ln_len l = 0 /\ line_Pos l (ln_len l) = F /\ F <> G.
Proof. exact (@line_zero_eqradius). Qed.
Print Assumptions C44_zero_eqradius_refuted.

Theorem C44_twist_in_base_frame_refuted : exists F w, let e := mkF (r_mul (fM F) (r_Rot (trot w) (v_norm (trot w)))) (v_add (fp F) (tvel w)) in
  resolved F e /\ forall o eqradius, 0 < eqradius ->
  let l := line_make_twist F w o eqradius in
  fM (line_Pos l (ln_len l)) <> r_mul (r_Rot (trot w) (v_norm (trot w))) (fM F).
Proof. exact (@line_twist_not_base). Qed.
Print Assumptions C44_twist_in_base_frame_refuted.

Theorem C44_zero_angle_circle_refuted : forall F center p o eqradius,
  rigid F ->
  match circle_make F center p (fM F) 0 o eqradius with Val _ => False | _ => True end.
Proof. exact (@circle_zero_angle). Qed.
Print Assumptions C44_zero_angle_circle_refuted.

Theorem C44_circle_clone_refuted : exists c c', circle_make unit_arc_start v_zero (mkV 0 1 0) r_id 1 sa_make 1 = Val c /\
    circle_Clone c = Val c' /\ ci_len c = 1 /\ ci_len c' = 180 / PI /\ ci_len c <> ci_len c'.
Proof. exact (@circle_clone_wrong). Qed.
Print Assumptions C44_circle_clone_refuted.


(** ** C45: composite and cyclic paths *)
Theorem C45_composite_length : forall gv dv len ca,
  made (PComposite gv dv len ca) -> len = total_length gv /\ 0 <= len.
Proof. exact (@comp_length). Qed.
Print Assumptions C45_composite_length.

Theorem C45_answers : forall (A : Type) (f : Leaf -> R -> A) p s,
  made p -> inhabited_path p -> 0 <= s <= path_len p ->
  exists a p', path_eval f p s = Val (a, p') /\ covers f p s a /\ same_path p p'.
Proof. exact (@path_answer). Qed.
Print Assumptions C45_answers.

Theorem C45_only_covering_component : forall (A : Type) (f : Leaf -> R -> A) p s a,
  inhabited_path p -> 0 <= s <= path_len p ->
  observed (path_eval f) p s a -> covers f p s a.
Proof. exact (@observed_covers). Qed.
Print Assumptions C45_only_covering_component.

Theorem C45_history_independent : forall (A : Type) (f : Leaf -> R -> A) p s a b,
  made p -> inhabited_path p ->
  0 <= s <= path_len p -> ~ knot p s ->
  observed (path_eval f) p s a -> observed (path_eval f) p s b -> a = b.
Proof. exact (@history_free). Qed.
Print Assumptions C45_history_independent.

Theorem C45_history_independent_pos : forall p s F G,
  made p -> inhabited_path p -> joined p ->
  0 <= s <= path_len p -> observed path_Pos p s F -> observed path_Pos p s G -> F = G.
Proof. exact (@joined_history_free). Qed.
Print Assumptions C45_history_independent_pos.

Theorem C45_velocity : forall p pos s t sd V,
  made p -> inhabited_path p -> all_leaves smooth_leaf p ->
  (forall u, 0 <= u <= path_len p -> observed path_Pos p u (pos u)) ->
  inside p (s t) -> derivable_pt_lim s t sd ->
  observed (fun q u => path_Vel q u sd) p (s t) V ->
  frame_velocity (fun u => pos (s u)) t V.
Proof. exact (@path_velocity). Qed.
Print Assumptions C45_velocity.

Theorem C45_acceleration : forall p vel s s' t sdd A,
  made p -> inhabited_path p -> all_leaves smooth_leaf p ->
  (forall u v, 0 <= u <= path_len p -> observed (fun q u => path_Vel q u v) p u (vel u v)) ->
  inside p (s t) -> derivable_pt_lim s t (s' t) -> derivable_pt_lim s' t sdd ->
  observed (fun q u => path_Acc q u (s' t) sdd) p (s t) A ->
  tw_derive (fun u => vel (s u) (s' u)) t A.
Proof. exact (@path_acceleration). Qed.
Print Assumptions C45_acceleration.

Theorem C45_cyclic_period : forall (A : Type) (f : Leaf -> R -> A) g n s k,
  0 <= s -> (0 <= k)%Z -> 0 < path_len g ->
  path_eval f (PCyclic g n) (s + IZR k * path_len g) = path_eval f (PCyclic g n) s.
Proof. exact (@cyclic_periodic). Qed.
Print Assumptions C45_cyclic_period.

Theorem C45_clone : forall p,
  made p -> copyable p -> exists q, path_Clone p = Val q /\ same_path p q /\ made q.
Proof. exact (@path_clone). Qed.
Print Assumptions C45_clone.

Theorem C45_outside_undefined : forall (A : Type) (f : Leaf -> R -> A) gv dv len ca s,
  s < - / 1000000000000 \/ len + / 1000000000000 < s ->
  path_eval f (PComposite gv dv len ca) s = Undefd.
Proof. exact (@comp_outside). Qed.
Print Assumptions C45_outside_undefined.

Theorem C45_empty_undefined : forall (A : Type) (f : Leaf -> R -> A),
  path_eval f comp_make 0 = Undefd.
Proof. exact (@comp_empty). Qed.
Print Assumptions C45_empty_undefined.

Theorem C45_no_length_to_s : forall gv dv len ca g n x,
  path_LengthToS (PComposite gv dv len ca) x = Throw NotApplicable /\ path_LengthToS (PCyclic g n) x = Throw NotApplicable.
Proof. exact (@no_length_to_s). Qed.
Print Assumptions C45_no_length_to_s.

Theorem C45_velocity_at_knot_refuted : exists V W, V <> W /\ made there_and_back /\ inhabited_path there_and_back /\ joined there_and_back /\
  0 <= 1 <= path_len there_and_back /\
  observed (fun q u => path_Vel q u 1) there_and_back 1 V /\ observed (fun q u => path_Vel q u 1) there_and_back 1 W.
Proof. exact (@seam_velocity). Qed.
Print Assumptions C45_velocity_at_knot_refuted.


(** ** C62: rounded polylines *)
Theorem C62_corner : forall comp r eqradius n Fs Fv F p',
  (2 <= n)%nat -> resolved Fs Fv -> resolved Fv F -> 2 * kdl_epsilon <= r -> 0 < eqradius ->
  rounded_Add (PRounded comp r eqradius n Fs Fv) F = (p', Val tt) ->
  let ab := v_sub (fp Fv) (fp Fs) in
  let bc := v_sub (fp F) (fp Fv) in
  exists alpha, angle_between ab bc alpha /\ alpha <= PI - corner_eps /\ 0 < euclid_norm ab /\ 0 < euclid_norm bc /\
  (alpha < corner_eps -> p' = PRounded (comp_Add comp (PLeaf (LLine (line_make Fs Fv sa_make eqradius)))) r eqradius (S n) Fv F) /\
  (corner_eps <= alpha ->
   let d := r * tan (alpha / 2) in
   exists A B c,
     p' = PRounded (comp_Add (comp_Add comp (PLeaf (LLine (line_make Fs A sa_make eqradius)))) (PLeaf (LCircle c))) r eqradius (S n) B F /\
     0 < d < euclid_norm ab /\ d < euclid_norm bc /\
     on_straight Fs Fv (1 - d / euclid_norm ab) A /\ fp A = towards (fp Fv) (fp Fs) d /\
     on_straight Fv F (d / euclid_norm bc) B /\ fp B = towards (fp Fv) (fp F) d /\
     (kdl_epsilon <= max_abs (v_cross ab (v_cross ab bc)) -> resolved_rotation (fM A) (fM B) ->
        circle_Pos c 0 = A /\ circle_Pos c (ci_len c) = B /\ 0 < ci_len c /\
        (exists C, forall s, euclid_norm (v_sub (fp (circle_Pos c s)) C) = r) /\
        curve_derivatives (circle_Pos c) (circle_Vel c) (circle_Acc c) /\
        exists k, 0 < k /\ tvel (circle_Vel c 0 1) = v_scale ab (k / euclid_norm ab) /\
                  tvel (circle_Vel c (ci_len c) 1) = v_scale bc (k / euclid_norm bc))).
Proof. exact (@rounded_corner). Qed.
Print Assumptions C62_corner.

Theorem C62_polyline : forall M r eqradius a b rest p0 p,
  is_rotation M -> 2 * kdl_epsilon <= r -> 0 < eqradius ->
  rounded_make r eqradius = Val p0 -> adds p0 (map (mkF M) (a :: b :: rest)) = Some p -> clean_corners r a b rest ->
  let f := rounded_Finish p in
  made f /\ inhabited_path f /\ joined f /\ all_leaves smooth_leaf f /\
  (forall F, observed path_Pos f 0 F <-> F = mkF M a) /\
  (forall F, observed path_Pos f (path_len f) F <-> F = mkF M (last rest b)).
Proof. exact (@rounded_path). Qed.
Print Assumptions C62_polyline.

Theorem C62_short_legs_refuted : let F0 := mkF r_id v_zero in let F1 := mkF r_id (mkV (5 / 1000) 0 0) in let F2 := mkF r_id (mkV (5 / 1000) (5 / 1000) 0) in
  exists p0 l c B, rounded_make (1 / 1000) 1 = Val p0 /\
  adds p0 [F0; F1; F2] =
    Some (PRounded (comp_Add (comp_Add comp_make (PLeaf l)) (PLeaf (LCircle c))) (1 / 1000) 1 3 B F2) /\
  fp (leaf_end (LCircle c)) = mkV (3 / 1000) (1 / 1000) 0 /\ fp B = mkV (5 / 1000) (1 / 1000) 0.
Proof. exact (@short_legs_wrong). Qed.
Print Assumptions C62_short_legs_refuted.

Theorem C62_failed_add_changes_path_refuted : let F0 := mkF r_id v_zero in let F1 := mkF r_id (mkV 1 0 0) in let F2 := mkF r_id (mkV 1 1 0) in
  exists p0 p p', rounded_make (/ 10000000) 1 = Val p0 /\ adds p0 [F0; F1] = Some p /\
  rounded_Add p F2 = (p', Throw CircleToSmall) /\ path_len p = 0 /\ / 2 <= path_len p'.
Proof. exact (@add_not_atomic). Qed.
Print Assumptions C62_failed_add_changes_path_refuted.

Theorem C62_single_point_refuted : forall r eqradius F p0 p,
  rounded_make r eqradius = Val p0 -> adds p0 [F] = Some p ->
  rounded_Finish p = PRounded (comp_Add comp_make (PLeaf (LLine (line_make F f_id sa_make eqradius)))) r eqradius 1 F f_id.
Proof. exact (@rounded_one_point). Qed.
Print Assumptions C62_single_point_refuted.


(** ** The hypotheses are satisfiable *)
Theorem C44_line_witness : resolved (mkF (r_RotZ (PI / 2)) v_zero) (mkF (r_mul (r_RotZ (PI / 2)) (r_RotX (PI / 2))) (mkV 0 0 1)).
Proof. exact (@line_witness). Qed.
Print Assumptions C44_line_witness.

Theorem C44_circle_witness : exists c, circle_make unit_arc_start v_zero (mkV 0 1 0) r_id 1 sa_make 1 = Val c /\ ci_len c = 1.
Proof. exact (@arc_witness). Qed.
Print Assumptions C44_circle_witness.

Theorem C45_composite_witness : made there_and_back /\ inhabited_path there_and_back /\ joined there_and_back /\
  all_leaves smooth_leaf there_and_back /\ inside there_and_back (/ 2) /\ inside there_and_back (3 / 2) /\ ~ knot there_and_back (/ 2) /\
  copyable there_and_back /\ path_len there_and_back = 2.
Proof. exact (@composite_witness). Qed.
Print Assumptions C45_composite_witness.

Theorem C45_cyclic_witness : made (PCyclic there_and_back 3) /\ inhabited_path (PCyclic there_and_back 3) /\
  path_len (PCyclic there_and_back 3) = 6 /\ inside (PCyclic there_and_back 3) (5 / 2).
Proof. exact (@cyclic_witness). Qed.
Print Assumptions C45_cyclic_witness.

Theorem C62_polyline_witness_corners : clean_corners (/ 10) v_zero (mkV 1 0 0) [mkV 1 1 0].
Proof. exact (@ell_clean). Qed.
Print Assumptions C62_polyline_witness_corners.

Theorem C62_polyline_witness : exists p0 p, rounded_make (/ 10) 1 = Val p0 /\
  adds p0 (map (mkF r_id) [v_zero; mkV 1 0 0; mkV 1 1 0]) = Some p.
Proof. exact (@ell_added). Qed.
Print Assumptions C62_polyline_witness.

