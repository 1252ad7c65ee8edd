(** Theorems about lengths, unit vectors and rotations about any axis in rounded arithmetic (C88). *)
From Coq Require Import Reals.
From Flocq Require Import Core.
From Verif Require Import FramesModel FramesSpec SvdRound FlModel FlSpec FlWitness FlRotSpec FlQuatModel FlNormModel FlNormSpec FlNormProofs FlNormFinal.
Local Open Scope R_scope.

(** The computed length has a small relative error at every scale, and nothing is divided by zero. *)
Theorem C88_norm : forall eps rnd, 0 <= eps <= / 50000 -> precise eps rnd -> forall v, 2 * kdl_epsilon <= euclid_norm v ->
  exists n, fl_norm rnd v = Some n /\ Rabs (n - euclid_norm v) <= 21 * eps * euclid_norm v.
Proof. exact (@norm_ok). Qed.
Print Assumptions C88_norm.

(** Normalising gives the direction of the vector, *)
Theorem C88_normalize : forall eps rnd, 0 <= eps <= / 50000 -> precise eps rnd -> forall v, 2 * kdl_epsilon <= euclid_norm v ->
  exists u n, fl_normalize rnd v = Some (u, n) /\ v_near (25 * eps) u (v_div v (euclid_norm v)) /\ Rabs (n - euclid_norm v) <= 21 * eps * euclid_norm v.
Proof. exact (@normalize_ok). Qed.
Print Assumptions C88_normalize.

(** of length one, *)
Theorem C88_unit : forall eps rnd v u n, 0 <= eps <= / 50000 -> precise eps rnd -> 2 * kdl_epsilon <= euclid_norm v -> fl_normalize rnd v = Some (u, n) ->
  Rabs (vx u ^ 2 + vy u ^ 2 + vz u ^ 2 - 1) <= 90 * eps.
Proof. exact (@unit_length). Qed.
Print Assumptions C88_unit.

(** and the x axis for a vector that is too short, as in exact arithmetic. *)
Theorem C88_short : forall eps rnd, 0 <= eps <= / 50000 -> precise eps rnd -> forall v, euclid_norm v <= kdl_epsilon / 2 ->
  fl_normalize rnd v = Some (mkV 1 0 0, 0) /\ v_normalize v = (mkV 1 0 0, 0).
Proof. exact (fun eps rnd He Hp v H => conj (normalize_short eps rnd He Hp v H) (exact_short v H)). Qed.
Print Assumptions C88_short.

(** The axis a joint stores is the unit vector it was given up to rounding, as C71 assumes of stored chains. *)
Theorem C88_joint_axis : forall eps rnd, 0 <= eps <= / 50000 -> precise eps rnd -> forall v, 2 * kdl_epsilon <= euclid_norm v ->
  exists u, fl_joint_axis rnd v = Some u /\ v_near (25 * eps) u (v_div v (euclid_norm v)).
Proof. exact (@joint_axis_ok). Qed.
Print Assumptions C88_joint_axis.

(** The rotation about any axis. *)
Theorem C88_rot : forall eps rnd fsin fcos v a, 0 <= eps <= / 100000 -> precise eps rnd -> computes eps fsin sin -> computes eps fcos cos -> clear_axis v ->
  exists M, fl_Rot rnd fsin fcos v a = Some M /\ is_rotation (r_Rot v a) /\ r_near (850 * eps) M (r_Rot v a).
Proof. exact (@rot_ok). Qed.
Print Assumptions C88_rot.

(** Such rotations may occur in the programs of C86. *)
Theorem C88_rot_program : forall eps rnd fsin fcos v a, 0 <= eps <= / 50000 -> precise eps rnd -> clear_axis v ->
  exists u w, fl_Rot rnd fsin fcos v a = Some (fl_run rnd fsin fcos (PRot2 u a)) /\ r_Rot v a = run (PRot2 w a) /\ prog_stored (25 * eps) (PRot2 u a) (PRot2 w a).
Proof. exact (@rot_program). Qed.
Print Assumptions C88_rot_program.

(** IEEE doubles. *)
Theorem C88_double : precise ulp1 double /\ forall v, 2 * kdl_epsilon <= euclid_norm v ->
  exists u n, fl_normalize double v = Some (u, n) /\ fl_norm double v = Some n /\ v_near (1 / 10 ^ 14) u (v_div v (euclid_norm v)) /\
    Rabs (vx u ^ 2 + vy u ^ 2 + vz u ^ 2 - 1) <= 3 / 10 ^ 14 /\ Rabs (n - euclid_norm v) <= 1 / 10 ^ 14 * euclid_norm v.
Proof. exact (conj double_precise double_normalize). Qed.
Print Assumptions C88_double.

Theorem C88_double_rot : forall fsin fcos v a, computes ulp1 fsin sin -> computes ulp1 fcos cos -> clear_axis v ->
  exists M, fl_Rot double fsin fcos v a = Some M /\ is_rotation (r_Rot v a) /\ r_near (2 / 10 ^ 13) M (r_Rot v a).
Proof. exact (@double_rot). Qed.
Print Assumptions C88_double_rot.

(** The vector (1, 2, -2) at any scale. *)
Theorem C88_scale_example : forall s, 1 <= s ->
  exists u n, fl_normalize double (mkV s (2 * s) (- (2 * s))) = Some (u, n) /\ v_near (1 / 10 ^ 14) u (mkV (1/3) (2/3) (-2/3)) /\ Rabs (n - 3 * s) <= 3 / 10 ^ 14 * s.
Proof. exact (@scale_example). Qed.
Print Assumptions C88_scale_example.
