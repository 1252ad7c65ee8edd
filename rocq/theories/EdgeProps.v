(** Boundary cases of C28, C43, C44, C45, C62 and C63 that the other property
    files leave open.  Definitions: KinModel.v, TreeModel.v, ProfModel.v,
    PathModel.v (code), TreeSpec.v, EdgeSpec.v (specification vocabulary). *)
From Coq Require Import Reals String List ZArith Bool.
From Verif Require Import FramesModel FramesSpec Outcome KinModel ProfModel PathModel PathSpec TreeModel TreeSpec EdgeSpec EdgeProofs.
Import ListNotations.
Local Open Scope list_scope.
Local Open Scope R_scope.

(** ** Splines *)
Theorem C43_fresh_spline : spline_duration spline_make = 0 /\ forall t, spline_pos spline_make t = 0 /\ spline_vel spline_make t = 0 /\ spline_acc spline_make t = 0.
Proof. exact (@spline_fresh). Qed.
Print Assumptions C43_fresh_spline.

Theorem C43_instant_spline : forall p1 v1 a1 p2 v2 a2 T t,
  T <= dbl_epsilon ->
  spline_pos (spline_cubic p1 v1 p2 v2 T) t = p2 + v2 * t /\ spline_vel (spline_cubic p1 v1 p2 v2 T) t = v2 /\
  spline_acc (spline_cubic p1 v1 p2 v2 T) t = 0 /\ spline_duration (spline_cubic p1 v1 p2 v2 T) = T /\
  spline_pos (spline_quintic p1 v1 a1 p2 v2 a2 T) t = p2 + v2 * t + a2 / 2 * (t * t) /\
  spline_vel (spline_quintic p1 v1 a1 p2 v2 a2 T) t = v2 + a2 * t /\
  spline_acc (spline_quintic p1 v1 a1 p2 v2 a2 T) t = a2 /\ spline_duration (spline_quintic p1 v1 a1 p2 v2 a2 T) = T.
Proof. exact (@spline_instant). Qed.
Print Assumptions C43_instant_spline.


(** ** Masks and representations of the differential solvers *)
Theorem C63_jacobian_mask : forall c locked mask,
  length locked = ch_nj c ->
  (length mask = ch_nj c -> jacsolver_setLocked c locked mask = (E_NOERROR, mask)) /\
  (length mask <> ch_nj c -> jacsolver_setLocked c locked mask = (E_SIZE_MISMATCH, locked)).
Proof. exact (@jac_mask). Qed.
Print Assumptions C63_jacobian_mask.

Theorem C63_derivative_mask : forall st mask,
  (length mask = length (jd_locked st) -> exists st', jdsolver_setLocked st mask = (E_NOERROR, st') /\ jd_locked st' = mask /\
     jd_inner st' = jd_inner st /\ jd_rep st' = jd_rep st) /\
  (length mask <> length (jd_locked st) -> jdsolver_setLocked st mask = (E_SIZE_MISMATCH, st)).
Proof. exact (@jd_mask). Qed.
Print Assumptions C63_derivative_mask.

Theorem C63_representation : forall st r,
  jd_rep (jdsolver_setRepresentation st r) =
    (if (r =? 0)%Z || (r =? 1)%Z || (r =? 2)%Z then r else jd_rep st) /\
  jd_locked (jdsolver_setRepresentation st r) = jd_locked st.
Proof. exact (@jd_rep_set). Qed.
Print Assumptions C63_representation.

Theorem C63_representation_history : forall c l codes st,
  jd_run (jdsolver_make c) l = Some (codes, st) ->
  (jd_rep st = HYBRID \/ jd_rep st = BODYFIXED \/ jd_rep st = INERTIAL) /\ ~ In E_JAC_DOT_FAILED codes.
Proof. exact (@jd_history). Qed.
Print Assumptions C63_representation_history.


(** ** A tree added to itself *)
Theorem C28_tree_to_itself : forall t hook e,
  reachable t -> tfind t (tr_root t) = Some e ->
  tree_addTree_self t hook = Ret (match te_children e with [] => true | _ => false end, t).
Proof. exact (@addTree_itself). Qed.
Print Assumptions C28_tree_to_itself.


(** ** Paths *)
Theorem C44_point_path : forall F s sd sdd,
  leaf_len (LPoint F) = 0 /\ leaf_Pos (LPoint F) s = F /\ leaf_Vel (LPoint F) s sd = t_zero /\
  leaf_Acc (LPoint F) s sd sdd = t_zero /\ leaf_Clone (LPoint F) = Val (LPoint F).
Proof. exact (@point_path). Qed.
Print Assumptions C44_point_path.

Theorem C45_cyclic_negative : forall (A : Type) (f : Leaf -> R -> A) g n s,
  s <= 0 -> 0 < path_len g -> exists k, (0 <= k)%Z /\
  - path_len g < s + IZR k * path_len g <= 0 /\
  path_eval f (PCyclic g n) s =
    match path_eval f g (s + IZR k * path_len g) with Val (a, g') => Val (a, PCyclic g' n) | Throw e => Throw e | Undefd => Undefd end.
Proof. exact (@cyclic_negative). Qed.
Print Assumptions C45_cyclic_negative.

Theorem C62_rejections : forall comp radius eqr n Fs Fv F,
  let p := PRounded comp radius eqr (S (S n)) Fs Fv in
  let ab := v_sub (fp Fv) (fp Fs) in let bc := v_sub (fp F) (fp Fv) in
  let alpha := acos (kdl_max (-1) (kdl_min (v_dot ab bc / v_norm ab / v_norm bc) 1)) in
  let d := radius / tan ((PI - alpha) / 2) in let eps := / 10000000 in
  (v_norm ab < eps -> rounded_Add p F = (p, Throw (NotFeasible 2))) /\
  (eps <= v_norm ab -> v_norm bc < eps -> rounded_Add p F = (p, Throw (NotFeasible 3))) /\
  (eps <= v_norm ab -> eps <= v_norm bc -> PI - alpha < eps -> rounded_Add p F = (p, Throw (NotFeasible 4))) /\
  (eps <= v_norm ab -> eps <= v_norm bc -> eps <= alpha -> eps <= PI - alpha -> v_norm ab <= d -> rounded_Add p F = (p, Throw (NotFeasible 5))) /\
  (eps <= v_norm ab -> eps <= v_norm bc -> eps <= alpha -> eps <= PI - alpha -> d < v_norm ab -> v_norm bc <= d -> rounded_Add p F = (p, Throw (NotFeasible 6))).
Proof. exact (@rounded_rejects). Qed.
Print Assumptions C62_rejections.

Theorem C62_rejections_witness : forall r F G,
  0 < r -> 
  exists p0 p2, rounded_make r 1 = Val p0 /\ adds p0 [F; F] = Some p2 /\ rounded_Add p2 G = (p2, Throw (NotFeasible 2)).
Proof. exact (@repeated_way_point). Qed.
Print Assumptions C62_rejections_witness.

