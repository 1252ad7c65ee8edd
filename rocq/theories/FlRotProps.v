(** Theorems about rotations and frames computed in rounded arithmetic (C86). *)
From Coq Require Import Reals.
From Flocq Require Import Core.
From Verif Require Import FramesModel FramesSpec SvdRound FlModel FlSpec FlWitness FlRotModel FlRotSpec FlRotProofs FlFrameProofs FlRotFinal.
Local Open Scope R_scope.

(** However the calls are nested, the computed matrix stays near the exact one, which is a rotation. *)
Theorem C86_rotation_error : forall eps rnd fsin fcos p' p,
  0 <= eps <= / 2500 -> rounds eps rnd -> computes eps fsin sin -> computes eps fcos cos -> prog_stored eps p' p ->
  is_rotation (run p) /\ r_near ((1 + 110 * eps) ^ calls p - 1) (fl_run rnd fsin fcos p') (run p).
Proof. exact (@rot_drift). Qed.
Print Assumptions C86_rotation_error.

(** The bound grows linearly with the number of calls. *)
Theorem C86_linear : forall eps n, 0 <= eps -> 220 * INR n * eps <= 1 -> (1 + 110 * eps) ^ n - 1 <= 220 * INR n * eps.
Proof. exact (@rot_linear). Qed.
Print Assumptions C86_linear.

(** The computed matrix is orthonormal up to twice that error. *)
Theorem C86_orthonormal : forall eps rnd fsin fcos p' p,
  0 <= eps <= / 2500 -> rounds eps rnd -> computes eps fsin sin -> computes eps fcos cos -> prog_stored eps p' p ->
  let M := fl_run rnd fsin fcos p' in r_near ((1 + 110 * eps) ^ (2 * calls p) - 1) (r_mul (r_inv M) M) r_id.
Proof. exact (@rot_orthonormal). Qed.
Print Assumptions C86_orthonormal.

(** IEEE doubles and up to a million calls: right to 1e-7, orthonormal to 2e-7. *)
Theorem C86_rotation_double : forall fsin fcos p' p,
  computes ulp1 fsin sin -> computes ulp1 fcos cos -> prog_stored ulp1 p' p -> INR (calls p) <= 1000000 ->
  let M := fl_run double fsin fcos p' in is_rotation (run p) /\ r_near (1 / 10 ^ 7) M (run p) /\ r_near (2 / 10 ^ 7) (r_mul (r_inv M) M) r_id.
Proof. exact (@rot_double). Qed.
Print Assumptions C86_rotation_double.

(** Frames: products and inverses, with positions of length up to D. *)
Theorem C86_frame_error : forall eps D rnd fsin fcos p' p,
  0 <= eps <= / 2500 -> 1 <= D -> rounds eps rnd -> computes eps fsin sin -> computes eps fcos cos -> frame_stored eps D p' p ->
  rigid (frun p) /\ r_near ((1 + 110 * eps) ^ fcalls p - 1) (fM (fl_frun rnd fsin fcos p')) (fM (frun p)) /\
  v_near (D * INR (fcalls p) * ((1 + 110 * eps) ^ fweight p - 1)) (fp (fl_frun rnd fsin fcos p')) (fp (frun p)).
Proof. exact (@frame_error). Qed.
Print Assumptions C86_frame_error.

(** A point moved by the computed frame. *)
Theorem C86_point_error : forall eps D rnd fsin fcos p' p v,
  0 <= eps <= / 2500 -> 1 <= D -> rounds eps rnd -> computes eps fsin sin -> computes eps fcos cos -> frame_stored eps D p' p -> euclid_norm v <= D ->
  v_near (D * INR (S (fcalls p)) * ((1 + 110 * eps) ^ S (fweight p) - 1)) (fl_f_app rnd (fl_frun rnd fsin fcos p') v) (f_app (frun p) v).
Proof. exact (@point_error). Qed.
Print Assumptions C86_point_error.

(** The number of roundings of a position in terms of the number of calls. *)
Theorem C86_weight : forall p, (fweight p <= fcalls p * fcalls p)%nat /\ (without_inverse p -> fweight p = fcalls p).
Proof. exact (fun p => conj (weight_square p) (weight_plain p)). Qed.
Print Assumptions C86_weight.

(** IEEE doubles, lengths up to 2 m; a hundred calls, or a thousand without inverses, meet the bound on the counts. *)
Theorem C86_frame_double : forall fsin fcos p' p,
  computes ulp1 fsin sin -> computes ulp1 fcos cos -> frame_stored ulp1 2 p' p -> INR (fcalls p) * INR (fweight p) <= 1000000 ->
  rigid (frun p) /\ r_near (1 / 10 ^ 7) (fM (fl_frun double fsin fcos p')) (fM (frun p)) /\ v_near (1 / 10 ^ 7) (fp (fl_frun double fsin fcos p')) (fp (frun p)).
Proof. exact (@frame_double). Qed.
Print Assumptions C86_frame_double.

(** Turning the rotation of the quaternion (0.6, 0, 0, 0.8), which has no exact representation, in place up to a million times. *)
Theorem C86_spin_example : forall a n, INR n + 1 <= 1000000 ->
  let M := fl_run double (fun x => double (sin x)) (fun x => double (cos x)) (spin double a n) in
  r_near (1 / 10 ^ 7) M (r_mul (r_Quaternion (3/5) 0 0 (4/5)) (r_RotZ (INR n * a))) /\ r_near (2 / 10 ^ 7) (r_mul (r_inv M) M) r_id.
Proof. exact (@spin_example). Qed.
Print Assumptions C86_spin_example.

(** A frame times its own inverse is the identity up to 1e-7, whatever the roll angle. *)
Theorem C86_back_example : forall a, let F := fl_frun double (fun x => double (sin x)) (fun x => double (cos x)) (back double a) in
  r_near (1 / 10 ^ 7) (fM F) r_id /\ v_near (1 / 10 ^ 7) (fp F) v_zero.
Proof. exact (@back_example). Qed.
Print Assumptions C86_back_example.
