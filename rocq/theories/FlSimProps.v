(** Theorems about simulations in rounded arithmetic (C91). *)
From Coq Require Import Reals List ZArith.
From Flocq Require Import Core.
From Verif Require Import FramesModel Outcome InertiaModel InertiaSpec KinModel KinSpec LinModel LinSpec DynModel DynSpec PosDefSpec RobotModel RobotSpec RobotProofs
  FlSpec FlDynModel FlMassModel FlDynSpec FlMassSpec FlSimModel FlSimSpec FlSimFinal.
Import ListNotations.
Local Open Scope R_scope.

(** After any number of Runge-Kutta steps positions and velocities are those of exact arithmetic up to a constant times the error. *)
Theorem C91_simulation : forall g c st tau fext dt qdd n q v, chain_ok c -> inertias_symmetric c -> inertias_psd c -> joints_carry c ->
  fd_reach g c c st -> fd_current c st ->
  length q = ch_nj c -> length v = ch_nj c -> length tau = ch_nj c -> length qdd = ch_nj c -> length fext = ch_ns c ->
  exists K e0, 0 <= K /\ 0 < e0 /\ forall eps rnd fsin fcos, arithmetic eps rnd fsin fcos -> eps <= e0 ->
    exists q' v', fl_simulate rnd fsin fcos c st tau fext dt qdd n q v = Ret (q', v') /\
      within (K * eps) q' (fst (simulate (stage c st tau fext) dt qdd n q v)) /\ within (K * eps) v' (snd (simulate (stage c st tau fext) dt qdd n q v)).
Proof. exact (@sim_error). Qed.
Print Assumptions C91_simulation.

(** The same whatever numbers earlier calls left in the object. *)
Theorem C91_any_buffers : forall g c st tau fext dt qdd n q v, chain_ok c -> inertias_symmetric c -> inertias_psd c -> joints_carry c ->
  fd_made g c st -> fd_current c st ->
  length q = ch_nj c -> length v = ch_nj c -> length tau = ch_nj c -> length qdd = ch_nj c -> length fext = ch_ns c ->
  exists K e0, 0 <= K /\ 0 < e0 /\ forall eps rnd fsin fcos, arithmetic eps rnd fsin fcos -> eps <= e0 ->
    exists q' v', fl_simulate rnd fsin fcos c st tau fext dt qdd n q v = Ret (q', v') /\
      within (K * eps) q' (fst (simulate (stage c st tau fext) dt qdd n q v)) /\ within (K * eps) v' (snd (simulate (stage c st tau fext) dt qdd n q v)).
Proof. exact (@sim_buffers). Qed.
Print Assumptions C91_any_buffers.

(** Any accuracy is reached by a fine enough arithmetic. *)
Theorem C91_limit : forall g c st tau fext dt qdd n q v tol, chain_ok c -> inertias_symmetric c -> inertias_psd c -> joints_carry c ->
  fd_reach g c c st -> fd_current c st ->
  length q = ch_nj c -> length v = ch_nj c -> length tau = ch_nj c -> length qdd = ch_nj c -> length fext = ch_ns c -> 0 < tol ->
  exists e0, 0 < e0 /\ forall eps rnd fsin fcos, arithmetic eps rnd fsin fcos -> eps <= e0 ->
    exists q' v', fl_simulate rnd fsin fcos c st tau fext dt qdd n q v = Ret (q', v') /\
      within tol q' (fst (simulate (stage c st tau fext) dt qdd n q v)) /\ within tol v' (snd (simulate (stage c st tau fext) dt qdd n q v)).
Proof. exact (@sim_limit). Qed.
Print Assumptions C91_limit.

(** In exact arithmetic a stage depends neither on the history of the object nor on the old content of its output. *)
Theorem C91_stage : forall g c st st2 tau fext q v old old2, chain_ok c -> inertias_symmetric c -> inertias_psd c -> joints_carry c ->
  fd_reach g c c st -> fd_current c st -> fd_reach g c c st2 -> fd_current c st2 ->
  length q = ch_nj c -> length v = ch_nj c -> length tau = ch_nj c -> length old = ch_nj c -> length old2 = ch_nj c -> length fext = ch_ns c ->
  stage c st tau fext q v old = stage c st2 tau fext q v old2.
Proof. exact (@stage_same). Qed.
Print Assumptions C91_stage.

(** The Puma 560 in binary floating point with enough digits. *)
Theorem C91_example : forall g tau dt n q v, length q = 6%nat -> length v = 6%nat -> length tau = 6%nat ->
  exists K p0, 0 <= K /\ forall p, (p0 <= p)%Z ->
    exists q' v', fl_simulate (digits p) (fun x => digits p (sin x)) (fun x => digits p (cos x)) puma (fd_make puma g) tau (repeat w_zero 11) dt (repeat 0 6) n q v = Ret (q', v') /\
      within (K * bpow radix2 (1 - p)) q' (fst (simulate (stage puma (fd_make puma g) tau (repeat w_zero 11)) dt (repeat 0 6) n q v)) /\
      within (K * bpow radix2 (1 - p)) v' (snd (simulate (stage puma (fd_make puma g) tau (repeat w_zero 11)) dt (repeat 0 6) n q v)).
Proof. exact (@puma_sim). Qed.
Print Assumptions C91_example.

(** ** Arguments stored as floating point numbers, whose own rounding is part of the error *)
Theorem C89_stored : forall c st q qd qdd fext tau, exists K, 0 <= K /\ forall eps rnd fsin fcos, arithmetic eps rnd fsin fcos ->
  same_call (K * eps) (fl_rne_CartToJnt rnd fsin fcos c st (map rnd q) (map rnd qd) (map rnd qdd) fext tau) (rne_CartToJnt c st q qd qdd fext tau).
Proof. exact (@rne_stored). Qed.
Print Assumptions C89_stored.
Theorem C90_stored_mass : forall c st q H, exists K, 0 <= K /\ forall eps rnd fsin fcos, arithmetic eps rnd fsin fcos ->
  same_mass (K * eps) (fl_dyn_JntToMass rnd fsin fcos c st (map rnd q) H) (dyn_JntToMass c st q H).
Proof. exact (@mass_stored). Qed.
Print Assumptions C90_stored_mass.
Theorem C90_stored_forward : forall g c st q qd tau fext qdd, chain_ok c -> inertias_symmetric c -> inertias_psd c -> joints_carry c ->
  fd_reach g c c st -> fd_current c st ->
  length q = ch_nj c -> length qd = ch_nj c -> length tau = ch_nj c -> length qdd = ch_nj c -> length fext = ch_ns c ->
  exists K e0 out st', 0 <= K /\ 0 < e0 /\ fd_CartToJnt c st q qd tau fext qdd = Ret (E_NOERROR, out, st') /\
    forall eps rnd fsin fcos, arithmetic eps rnd fsin fcos -> eps <= e0 ->
    exists out', fl_fd_CartToJnt rnd fsin fcos c st (map rnd q) (map rnd qd) (map rnd tau) fext qdd = Ret (E_NOERROR, out') /\ within (K * eps) out' out.
Proof. exact (@forward_stored). Qed.
Print Assumptions C90_stored_forward.
