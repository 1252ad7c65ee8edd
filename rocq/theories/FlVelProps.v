(** Theorems about forward velocity kinematics in rounded arithmetic (C83). *)
From Coq Require Import Reals String List ZArith Bool.
From Flocq Require Import Core.
From Verif Require Import FramesModel FramesSpec Outcome InertiaModel DualModel KinModel KinSpec SvdRound FlModel FlSpec FlWitness FlJacModel FlJacSpec FlVelModel FlVelSpec FlVelRun.
Import ListNotations.
Local Open Scope list_scope.
Local Open Scope R_scope.

(** The computed pose and velocity of the tip against those of exact arithmetic. *)
Theorem C83_velocity_error : forall eps A D B rnd fsin fcos c' c q qd z n,
  1 <= A -> 1 <= D -> 1 <= B -> 0 <= eps -> rounds eps rnd -> computes eps fsin sin -> computes eps fcos cos ->
  chain_ok c -> chain_stored eps c' c -> length q = ch_nj c -> length qd = ch_nj c ->
  denotes c z n -> (n <= length (ch_segs c))%nat ->
  Forall (moves_within A D) (assign (ch_segs c) q) -> Forall (speed_within B) (assign (ch_segs c) qd) -> 2500 * INR n * (eps * A) <= 1 ->
  exists V' V, fl_fkvel_JntToCart rnd fsin fcos c' q qd z = Ret (E_NOERROR, V') /\ fkvel_JntToCart c q qd z = Ret (E_NOERROR, V) /\
    fv_near (220 * INR n * (eps * A)) (1850 * INR n * INR n * (eps * A * D))
      (520 * INR n * INR n * (eps * A * B)) (9700 * INR n * INR n * INR n * (eps * A * (B * D))) V' V.
Proof. exact (@fl_vel_error). Qed.
Print Assumptions C83_velocity_error.

(** The computed velocity against the true rate of change of the tip along any motion of the joints with these rates. *)
Theorem C83_near_derivative : forall eps A D B rnd fsin fcos c' c q t qd z n,
  1 <= A -> 1 <= D -> 1 <= B -> 0 <= eps -> rounds eps rnd -> computes eps fsin sin -> computes eps fcos cos ->
  chain_ok c -> chain_stored eps c' c -> joint_motion (ch_nj c) q t qd ->
  denotes c z n -> (n <= length (ch_segs c))%nat ->
  Forall (moves_within A D) (assign (ch_segs c) (q t)) -> Forall (speed_within B) (assign (ch_segs c) qd) -> 2500 * INR n * (eps * A) <= 1 ->
  exists V' u, fl_fkvel_JntToCart rnd fsin fcos c' (q t) qd z = Ret (E_NOERROR, V') /\
    frame_velocity (fun s => tip_frame c (q s) n) t u /\
    t_near (9700 * INR n * INR n * INR n * (eps * A * (B * D))) (520 * INR n * INR n * (eps * A * B)) (fv_GetTwist V') u.
Proof. exact (@fl_vel_derivative). Qed.
Print Assumptions C83_near_derivative.

(** IEEE doubles, up to 20 segments, angles up to 10 rad, lengths up to 2 m, joint speeds up to 1:
    orientation to 1e-10, position to 1e-8, angular velocity to 1e-9, linear velocity to 1e-6. *)
Theorem C83_velocity_double : forall fsin fcos c' c q qd z n,
  computes ulp1 fsin sin -> computes ulp1 fcos cos ->
  chain_ok c -> chain_stored ulp1 c' c -> length q = ch_nj c -> length qd = ch_nj c ->
  denotes c z n -> (n <= length (ch_segs c))%nat -> (n <= 20)%nat ->
  Forall (moves_within 10 2) (assign (ch_segs c) q) -> Forall (speed_within 1) (assign (ch_segs c) qd) ->
  exists V' V, fl_fkvel_JntToCart double fsin fcos c' q qd z = Ret (E_NOERROR, V') /\ fkvel_JntToCart c q qd z = Ret (E_NOERROR, V) /\
    fv_near (1 / 10 ^ 10) (1 / 10 ^ 8) (1 / 10 ^ 9) (1 / 10 ^ 6) V' V.
Proof. exact (@fl_vel_double). Qed.
Print Assumptions C83_velocity_double.

(** Whatever the rounding does, the pose returned with the velocity is the very one the position solver returns, with the same code. *)
Theorem C83_same_pose : forall rnd fsin fcos c q qd z code p,
  length qd = ch_nj c -> fl_fk_JntToCart rnd fsin fcos c q z = Ret (code, p) ->
  exists V, fl_fkvel_JntToCart rnd fsin fcos c q qd z = Ret (code, V) /\ fv_GetFrame V = p.
Proof. exact (@fl_vel_pose). Qed.
Print Assumptions C83_same_pose.

(** Whatever the rounding does, the call returns, with the code of exact arithmetic. *)
Theorem C83_code : forall rnd fsin fcos c q qd z,
  chain_ok c ->
  exists code V' V, fl_fkvel_JntToCart rnd fsin fcos c q qd z = Ret (code, V') /\ fkvel_JntToCart c q qd z = Ret (code, V).
Proof. exact (@fl_vel_code). Qed.
Print Assumptions C83_code.

(** An arm whose data have no exact representation. *)
Theorem C83_example : forall a b c x y w,
  Rabs a <= 10 -> Rabs b <= 10 -> Rabs c <= 10 -> Rabs x <= 1 -> Rabs y <= 1 -> Rabs w <= 1 ->
  exists V' V, fl_fkvel_JntToCart double (fun x => double (sin x)) (fun x => double (cos x)) (arm double) [a; b; c] [x; y; w] (-1)%Z = Ret (E_NOERROR, V') /\
    fkvel_JntToCart (arm (fun x => x)) [a; b; c] [x; y; w] (-1)%Z = Ret (E_NOERROR, V) /\ fv_near (1 / 10 ^ 10) (1 / 10 ^ 8) (1 / 10 ^ 9) (1 / 10 ^ 6) V' V.
Proof. exact (@arm_vel). Qed.
Print Assumptions C83_example.
