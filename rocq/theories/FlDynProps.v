(** Theorems about inverse dynamics in rounded arithmetic (C89). *)
From Coq Require Import Reals List ZArith.
From Flocq Require Import Core.
From Verif Require Import FramesModel Outcome InertiaModel KinModel KinSpec DynModel DynSpec DynWitness FlSpec FlDynModel FlDynSpec FlDynFinal.
Import ListNotations.
Local Open Scope R_scope.

(** The computed torques are those of exact arithmetic up to a constant times the rounding error. *)
Theorem C89_torques : forall g c st q qd qdd fext tau, chain_ok c -> rne_reach g c st -> rne_current c st ->
  length q = ch_nj c -> length qd = ch_nj c -> length qdd = ch_nj c -> length tau = ch_nj c -> length fext = ch_ns c ->
  exists K T, 0 <= K /\ rne_CartToJnt c st q qd qdd fext tau = Ret (E_NOERROR, T) /\
    forall eps rnd fsin fcos, arithmetic eps rnd fsin fcos ->
    exists T', fl_rne_CartToJnt rnd fsin fcos c st q qd qdd fext tau = Ret (E_NOERROR, T') /\ within (K * eps) T' T.
Proof. exact (@rne_torques). Qed.
Print Assumptions C89_torques.

(** Every call, whatever the chain, the solver's state and the sizes: same code, same definedness. *)
Theorem C89_every_call : forall c st q qd qdd fext tau, exists K, 0 <= K /\ forall eps rnd fsin fcos, arithmetic eps rnd fsin fcos ->
  same_call (K * eps) (fl_rne_CartToJnt rnd fsin fcos c st q qd qdd fext tau) (rne_CartToJnt c st q qd qdd fext tau).
Proof. exact (@rne_same_call). Qed.
Print Assumptions C89_every_call.

(** Coriolis and gravity terms. *)
Theorem C89_coriolis_gravity : forall c st q qd out, exists K, 0 <= K /\ forall eps rnd fsin fcos, arithmetic eps rnd fsin fcos ->
  same_call (K * eps) (fl_dyn_JntToCoriolis rnd fsin fcos c st q qd out) (dyn_JntToCoriolis c st q qd out) /\
  same_call (K * eps) (fl_dyn_JntToGravity rnd fsin fcos c st q out) (dyn_JntToGravity c st q out).
Proof. exact (@dyn_same_call). Qed.
Print Assumptions C89_coriolis_gravity.

(** Any accuracy is reached by a fine enough arithmetic. *)
Theorem C89_limit : forall c st q qd qdd fext tau tol, 0 < tol -> exists e0, 0 < e0 /\ forall eps rnd fsin fcos, arithmetic eps rnd fsin fcos -> eps <= e0 ->
  same_call tol (fl_rne_CartToJnt rnd fsin fcos c st q qd qdd fext tau) (rne_CartToJnt c st q qd qdd fext tau).
Proof. exact (@rne_limit). Qed.
Print Assumptions C89_limit.

(** Binary floating point: each further digit halves the bound. *)
Theorem C89_digits : forall c st q qd qdd fext tau, exists K, 0 <= K /\ forall p, (1 <= p)%Z ->
  same_call (K * bpow radix2 (1 - p)) (fl_rne_CartToJnt (digits p) (fun x => digits p (sin x)) (fun x => digits p (cos x)) c st q qd qdd fext tau)
    (rne_CartToJnt c st q qd qdd fext tau).
Proof. exact (@rne_digits). Qed.
Print Assumptions C89_digits.

(** An arm with a revolute, a fixed and a prismatic joint, moving under gravity and a push. *)
Theorem C89_example : exists K T, 0 <= K /\
  rne_CartToJnt wchain (rne_make wchain wgrav) [1 / 3; 1 / 7] [1; 2] [3; -1] (repeat (mkW (mkV 1 2 3) (mkV 0 0 1)) 3) [0; 0] = Ret (E_NOERROR, T) /\
  forall p, (1 <= p)%Z -> exists T', fl_rne_CartToJnt (digits p) (fun x => digits p (sin x)) (fun x => digits p (cos x)) wchain (rne_make wchain wgrav)
    [1 / 3; 1 / 7] [1; 2] [3; -1] (repeat (mkW (mkV 1 2 3) (mkV 0 0 1)) 3) [0; 0] = Ret (E_NOERROR, T') /\ within (K * bpow radix2 (1 - p)) T' T.
Proof. exact (@warm_digits). Qed.
Print Assumptions C89_example.
