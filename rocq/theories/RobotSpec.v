(** What is known about the Puma 560 and the Kuka LWR. *)
From Coq Require Import Reals List.
From Verif Require Import FramesModel FramesSpec InertiaModel InertiaSpec KinModel KinSpec.
Import ListNotations.
Local Open Scope R_scope.

(** Where the wrist of the Puma is: shoulder and elbow links of 0.4318 m, an elbow offset of 0.0203 m and a shoulder offset of 0.15005 m.
    [reach] is measured from the vertical axis, along the arm. *)
Definition puma_reach (q2 q3 : R) : R := 0.4318 * cos q2 + 0.0203 * cos (q2 + q3) - 0.4318 * sin (q2 + q3).
Definition puma_height (q2 q3 : R) : R := 0.4318 * sin q2 + 0.0203 * sin (q2 + q3) + 0.4318 * cos (q2 + q3).
Definition puma_wrist (q1 q2 q3 : R) : Vector :=
  mkV (cos q1 * puma_reach q2 q3 + sin q1 * 0.15005) (sin q1 * puma_reach q2 q3 - cos q1 * 0.15005) (puma_height q2 q3).
(** the orientation of the hand: that of the forearm, then turns by q4 about the forearm, q5 about the wrist axis, q6 about the hand *)
Definition puma_hand (q1 q2 q3 q4 q5 q6 : R) : Rotation :=
  r_mul (r_RotZ q1) (r_mul (r_RotX (PI / 2)) (r_mul (r_RotZ (q2 + q3)) (r_mul (r_RotX (- (PI / 2)))
  (r_mul (r_RotZ q4) (r_mul (r_RotX (PI / 2)) (r_mul (r_RotZ q5) (r_mul (r_RotX (- (PI / 2))) (r_RotZ q6)))))))).

(** The configurations in which the Puma cannot move its hand in every direction: hand and forearm in line; wrist above the shoulder; arm
    stretched or folded. *)
Definition puma_singular (q2 q3 q5 : R) : Prop :=
  sin q5 = 0 \/ puma_reach q2 q3 = 0 \/ 0.4318 * cos q3 + 0.0203 * sin q3 = 0.
(** Some joint motion leaves the tip at rest. *)
Definition singular_at (c : Chain) (q : list R) : Prop :=
  exists qd, length qd = ch_nj c /\ (exists j, nth j qd 0 <> 0) /\ jac_mul (jacobian_at c (-1) q) qd = t_zero.

(** The Kuka LWR: turns about the axes of its seven joints, each perpendicular to the next up to the angle e (the code's literal for a quarter
    turn); the upper arm is 0.4 m and the forearm 0.39 m long, the shoulder is 0.31 m above the base. *)
Definition kuka_upper (e q1 q2 : R) : Rotation := r_mul (r_RotZ q1) (r_mul (r_RotX e) (r_mul (r_RotZ q2) (r_RotX (- e)))).
Definition kuka_arm (e q1 q2 q3 q4 : R) : Rotation :=
  r_mul (kuka_upper e q1 q2) (r_mul (r_RotZ q3) (r_mul (r_RotX (- e)) (r_mul (r_RotZ q4) (r_RotX e)))).
Definition kuka_hand (e q1 q2 q3 q4 q5 q6 q7 : R) : Rotation :=
  r_mul (kuka_arm e q1 q2 q3 q4) (r_mul (r_RotZ q5) (r_mul (r_RotX e) (r_mul (r_RotZ q6) (r_mul (r_RotX (- e)) (r_RotZ q7))))).
Definition kuka_wrist_at (e q1 q2 q3 q4 : R) : Vector :=
  v_add (mkV 0 0 0.31) (v_add (r_app (kuka_upper e q1 q2) (mkV 0 0 0.4)) (r_app (kuka_arm e q1 q2 q3 q4) (mkV 0 0 0.39))).
