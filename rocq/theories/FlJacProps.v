(** Theorems about the Jacobian in rounded arithmetic (C79). *)
From Coq Require Import Reals String List ZArith Bool.
From Flocq Require Import Core.
From Verif Require Import FramesModel FramesSpec Outcome InertiaModel DualModel KinModel KinSpec SvdRound FlModel FlSpec FlWitness FlJacModel FlJacSpec FlJacRun.
Import ListNotations.
Local Open Scope list_scope.
Local Open Scope R_scope.

(** The computed Jacobian against that of exact arithmetic, for every set of locked joints: the linear part is off by at most a constant times
    n^2 eps A B D, the angular part by a constant times n eps A B. *)
Theorem C79_jacobian_error : forall eps A D B rnd fsin fcos c' c mask q jac z n,
  1 <= A -> 1 <= D -> 1 <= B -> 0 <= eps -> rounds eps rnd -> computes eps fsin sin -> computes eps fcos cos ->
  chain_ok c -> chain_stored eps c' c -> length mask = ch_nj c -> length q = ch_nj c -> length jac = ch_nj c ->
  denotes c z n -> (n <= length (ch_segs c))%nat ->
  Forall (moves_within A D) (assign (ch_segs c) q) -> Forall (geared_within B) (ch_segs c) -> 2500 * INR n * (eps * A) <= 1 ->
  exists J' J, fl_jac_JntToJac rnd fsin fcos c' mask q jac z = Ret (E_NOERROR, J') /\ jac_JntToJac c mask q jac z = Ret (E_NOERROR, J) /\
    Forall2 (t_near (17200 * INR n * INR n * (eps * A * (B * D))) (510 * INR n * (eps * A * B))) J' J.
Proof. exact (@fl_jac_error). Qed.
Print Assumptions C79_jacobian_error.

(** Each computed column against the true derivative of the pose with respect to that joint. *)
Theorem C79_near_derivative : forall eps A D B rnd fsin fcos c' c q jac z n j,
  1 <= A -> 1 <= D -> 1 <= B -> 0 <= eps -> rounds eps rnd -> computes eps fsin sin -> computes eps fcos cos ->
  chain_ok c -> chain_stored eps c' c -> length q = ch_nj c -> length jac = ch_nj c ->
  denotes c z n -> (n <= length (ch_segs c))%nat -> (j < ch_nj c)%nat ->
  Forall (moves_within A D) (assign (ch_segs c) q) -> Forall (geared_within B) (ch_segs c) -> 2500 * INR n * (eps * A) <= 1 ->
  exists J' col' col, fl_jac_JntToJac rnd fsin fcos c' (jacsolver_make c') q jac z = Ret (E_NOERROR, J') /\ length J' = ch_nj c /\ nth_error J' j = Some col' /\
    t_near (17200 * INR n * INR n * (eps * A * (B * D))) (510 * INR n * (eps * A * B)) col' col /\
    frame_velocity (fun u => tip_frame c (upd q j u) n) (nth j q 0) col.
Proof. exact (@fl_jac_derivative). Qed.
Print Assumptions C79_near_derivative.

(** IEEE doubles, up to 20 segments, angles up to 10 rad, lengths up to 2 m, joints that move by at most their variable:
    linear rows to 1e-7, angular rows to 1e-10. *)
Theorem C79_jacobian_double : forall fsin fcos c' c mask q jac z n,
  computes ulp1 fsin sin -> computes ulp1 fcos cos ->
  chain_ok c -> chain_stored ulp1 c' c -> length mask = ch_nj c -> length q = ch_nj c -> length jac = ch_nj c ->
  denotes c z n -> (n <= length (ch_segs c))%nat -> (n <= 20)%nat ->
  Forall (moves_within 10 2) (assign (ch_segs c) q) -> Forall (geared_within 1) (ch_segs c) ->
  exists J' J, fl_jac_JntToJac double fsin fcos c' mask q jac z = Ret (E_NOERROR, J') /\ jac_JntToJac c mask q jac z = Ret (E_NOERROR, J) /\
    Forall2 (t_near (1 / 10 ^ 7) (1 / 10 ^ 10)) J' J.
Proof. exact (@fl_jac_double). Qed.
Print Assumptions C79_jacobian_double.

(** Whatever the rounding does, the call returns, with the code of exact arithmetic and as many columns. *)
Theorem C79_code : forall rnd fsin fcos c mask q jac z,
  chain_ok c ->
  exists code J J', fl_jac_JntToJac rnd fsin fcos c mask q jac z = Ret (code, J') /\ jac_JntToJac c mask q jac z = Ret (code, J) /\ length J' = length J.
Proof. exact (@fl_jac_code). Qed.
Print Assumptions C79_code.

(** An arm whose data have no exact representation, with the middle joint locked. *)
Theorem C79_example : forall a b c,
  Rabs a <= 10 -> Rabs b <= 10 -> Rabs c <= 10 ->
  exists J' J, fl_jac_JntToJac double (fun x => double (sin x)) (fun x => double (cos x)) (arm double) [false; true; false] [a; b; c] (repeat t_zero 3) (-1)%Z = Ret (E_NOERROR, J') /\
    jac_JntToJac (arm (fun x => x)) [false; true; false] [a; b; c] (repeat t_zero 3) (-1)%Z = Ret (E_NOERROR, J) /\ Forall2 (t_near (1 / 10 ^ 7) (1 / 10 ^ 10)) J' J.
Proof. exact (@arm_jac). Qed.
Print Assumptions C79_example.
