(** Theorems about quaternions read from matrices in rounded arithmetic (C87). *)
From Coq Require Import Reals.
From Flocq Require Import Core.
From Verif Require Import FramesModel FramesSpec SvdRound FlModel FlSpec FlWitness FlRotModel FlRotSpec FlQuatModel FlQuatSpec FlQuatMain FlQuatFinal FlQuatJump.
Local Open Scope R_scope.

(** For a matrix within eta of any rotation, no square root of a negative number is taken and nothing is divided by zero, and the result is near
    a unit quaternion of that rotation, whichever branch the rounded comparisons select. *)
Theorem C87_quaternion_error : forall eps eta rnd M' M,
  0 <= eps -> 0 <= eta -> eps + eta <= / 2000 -> rounds eps rnd -> is_rotation M -> r_near eta M' M ->
  exists q' q, fl_GetQuaternion rnd M' = Some q' /\ stands_for q M /\ q_near (60 * (eps + eta)) q' q.
Proof. exact (@fl_quat_error). Qed.
Print Assumptions C87_quaternion_error.

(** Its length is one up to rounding. *)
Theorem C87_length : forall eps eta rnd M' M q,
  0 <= eps -> 0 <= eta -> eps + eta <= / 2000 -> rounds eps rnd -> is_rotation M -> r_near eta M' M ->
  fl_GetQuaternion rnd M' = Some q -> Rabs (q_length2 q - 1) <= 250 * (eps + eta).
Proof. exact (@quaternion_length). Qed.
Print Assumptions C87_length.

(** Matrix to quaternion and back. *)
Theorem C87_matrix_round_trip : forall eps eta rnd M' M,
  0 <= eps -> 0 <= eta -> eps + eta <= / 150000 -> rounds eps rnd -> is_rotation M -> r_near eta M' M ->
  exists x y z w, fl_GetQuaternion rnd M' = Some (x, y, z, w) /\ r_near (1800 * (eps + eta)) (fl_Quaternion rnd x y z w) M.
Proof. exact (@matrix_there_and_back). Qed.
Print Assumptions C87_matrix_round_trip.

(** Quaternion to matrix and back, up to the common sign. *)
Theorem C87_quaternion_round_trip : forall eps rnd x' y' z' w' x y z w,
  0 <= eps <= / 100000 -> rounds eps rnd -> x ^ 2 + y ^ 2 + z ^ 2 + w ^ 2 = 1 -> q_near eps (x', y', z', w') (x, y, z, w) ->
  exists q, fl_GetQuaternion rnd (fl_Quaternion rnd x' y' z' w') = Some q /\ (q_near (1860 * eps) q (x, y, z, w) \/ q_near (1860 * eps) q (- x, - y, - z, - w)).
Proof. exact (@quaternion_there_and_back). Qed.
Print Assumptions C87_quaternion_round_trip.

(** IEEE doubles. *)
Theorem C87_double : forall M' M, is_rotation M -> r_near (1 / 10 ^ 15) M' M ->
  exists x y z w q, fl_GetQuaternion double M' = Some (x, y, z, w) /\ stands_for q M /\ q_near (1 / 10 ^ 13) (x, y, z, w) q /\
    Rabs (q_length2 (x, y, z, w) - 1) <= 4 / 10 ^ 13 /\ r_near (3 / 10 ^ 12) (fl_Quaternion double x y z w) M.
Proof. exact (@quaternion_double). Qed.
Print Assumptions C87_double.

(** The result of any program of at most a million calls (C86). *)
Theorem C87_program : forall fsin fcos p' p,
  computes ulp1 fsin sin -> computes ulp1 fcos cos -> prog_stored ulp1 p' p -> INR (calls p) <= 1000000 ->
  exists q' q, fl_GetQuaternion double (fl_run double fsin fcos p') = Some q' /\ stands_for q (run p) /\ q_near (7 / 10 ^ 6) q' q.
Proof. exact (@program_quaternion). Qed.
Print Assumptions C87_program.

(** The sign of the result cannot be predicted from a matrix known only nearly: even in exact arithmetic, rotations as near to each other as one
    likes have quaternions far apart. *)
Theorem C87_sign_refuted : forall e, 0 < e -> exists a b x1 y1 z1 w1 x2 y2 z2 w2, r_near e (r_RotX a) (r_RotX b) /\
  r_GetQuaternion (r_RotX a) = (x1, y1, z1, w1) /\ r_GetQuaternion (r_RotX b) = (x2, y2, z2, w2) /\ x1 <= 0 /\ 1/2 <= x2.
Proof. exact (@quat_jump). Qed.
Print Assumptions C87_sign_refuted.

(** A turn about the first axis by any angle, with the rounded sine and cosine. *)
Theorem C87_turn_example : forall a, exists q, fl_GetQuaternion double (fl_RotX (fun x => double (sin x)) (fun x => double (cos x)) a) = Some q /\
  (q_near (1 / 10 ^ 13) q (sin (a / 2), 0, 0, cos (a / 2)) \/ q_near (1 / 10 ^ 13) q (- sin (a / 2), 0, 0, - cos (a / 2))).
Proof. exact (@turn_example). Qed.
Print Assumptions C87_turn_example.
