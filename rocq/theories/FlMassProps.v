(** Theorems about mass matrices and forward dynamics in rounded arithmetic (C90). *)
From Coq Require Import Reals List ZArith.
From Flocq Require Import Core.
From Verif Require Import FramesModel Outcome InertiaModel InertiaSpec KinModel KinSpec LinModel LinSpec DynModel DynSpec DynWitness PosDefSpec
  FlSpec FlDynModel FlMassModel FlDynSpec FlMassSpec FlMassFinal FlTripProofs.
Import ListNotations.
Local Open Scope R_scope.

(** Mass matrices: every call, whatever the chain, the solver's state and the sizes. *)
Theorem C90_mass : forall c st q H, exists K, 0 <= K /\ forall eps rnd fsin fcos, arithmetic eps rnd fsin fcos ->
  same_mass (K * eps) (fl_dyn_JntToMass rnd fsin fcos c st q H) (dyn_JntToMass c st q H).
Proof. exact (@mass_same_call). Qed.
Print Assumptions C90_mass.

(** Forward dynamics: the accelerations computed are those of exact arithmetic up to a constant times the error, once the error is small enough. *)
Theorem C90_forward : forall g c0 c st q qd tau fext qdd ds H M,
  chain_ok c0 -> fd_reach g c0 c st -> same_counts c0 c -> fd_current c st -> inertias_symmetric c ->
  dyn_reach g c ds -> dyn_current c ds -> mrows H = ch_nj c -> mcols H = ch_nj c ->
  length q = ch_nj c -> length qd = ch_nj c -> length tau = ch_nj c -> length qdd = ch_nj c -> length fext = ch_ns c ->
  dyn_JntToMass c ds q H = Ret (E_NOERROR, M) -> pivots_ok (ch_nj c) (mentry M) ->
  exists K e0 out st', 0 <= K /\ 0 < e0 /\ fd_CartToJnt c st q qd tau fext qdd = Ret (E_NOERROR, out, st') /\
    forall eps rnd fsin fcos, arithmetic eps rnd fsin fcos -> eps <= e0 ->
    exists out', fl_fd_CartToJnt rnd fsin fcos c st q qd tau fext qdd = Ret (E_NOERROR, out') /\ within (K * eps) out' out.
Proof. exact (@forward_error). Qed.
Print Assumptions C90_forward.

(** The same whatever numbers earlier calls, rounded or not, left in the object. *)
Theorem C90_any_buffers : forall g c0 c st q qd tau fext qdd ds H M,
  chain_ok c -> fd_made g c0 st -> same_counts c0 c -> fd_current c st -> inertias_symmetric c ->
  dyn_reach g c ds -> dyn_current c ds -> mrows H = ch_nj c -> mcols H = ch_nj c ->
  length q = ch_nj c -> length qd = ch_nj c -> length tau = ch_nj c -> length qdd = ch_nj c -> length fext = ch_ns c ->
  dyn_JntToMass c ds q H = Ret (E_NOERROR, M) -> pivots_ok (ch_nj c) (mentry M) ->
  exists K e0 out st', 0 <= K /\ 0 < e0 /\ fd_CartToJnt c st q qd tau fext qdd = Ret (E_NOERROR, out, st') /\
    forall eps rnd fsin fcos, arithmetic eps rnd fsin fcos -> eps <= e0 ->
    exists out', fl_fd_CartToJnt rnd fsin fcos c st q qd tau fext qdd = Ret (E_NOERROR, out') /\ within (K * eps) out' out.
Proof. exact (@forward_buffers). Qed.
Print Assumptions C90_any_buffers.

(** Arms whose joints carry mass, with no condition on the mass matrix. *)
Theorem C90_arms_with_mass : forall g c st q qd tau fext qdd, chain_ok c -> inertias_symmetric c -> inertias_psd c -> joints_carry c ->
  fd_reach g c c st -> fd_current c st ->
  length q = ch_nj c -> length qd = ch_nj c -> length tau = ch_nj c -> length qdd = ch_nj c -> length fext = ch_ns c ->
  exists K e0 out st', 0 <= K /\ 0 < e0 /\ fd_CartToJnt c st q qd tau fext qdd = Ret (E_NOERROR, out, st') /\
    forall eps rnd fsin fcos, arithmetic eps rnd fsin fcos -> eps <= e0 ->
    exists out', fl_fd_CartToJnt rnd fsin fcos c st q qd tau fext qdd = Ret (E_NOERROR, out') /\ within (K * eps) out' out.
Proof. exact (@forward_mass). Qed.
Print Assumptions C90_arms_with_mass.

(** Inverse dynamics at the computed accelerations, also in rounded arithmetic, gives the torques back. *)
Theorem C90_round_trip : forall g c0 c st rs q qd tau fext qdd tau0 ds H M,
  chain_ok c0 -> fd_reach g c0 c st -> same_counts c0 c -> fd_current c st -> inertias_symmetric c ->
  rne_reach g c rs -> rne_current c rs -> dyn_reach g c ds -> dyn_current c ds -> mrows H = ch_nj c -> mcols H = ch_nj c ->
  length q = ch_nj c -> length qd = ch_nj c -> length tau = ch_nj c -> length qdd = ch_nj c -> length fext = ch_ns c -> length tau0 = ch_nj c ->
  dyn_JntToMass c ds q H = Ret (E_NOERROR, M) -> pivots_ok (ch_nj c) (mentry M) ->
  exists K e0, 0 <= K /\ 0 < e0 /\ forall eps rnd fsin fcos, arithmetic eps rnd fsin fcos -> eps <= e0 ->
    exists out' T', fl_fd_CartToJnt rnd fsin fcos c st q qd tau fext qdd = Ret (E_NOERROR, out') /\
      fl_rne_CartToJnt rnd fsin fcos c rs q qd out' fext tau0 = Ret (E_NOERROR, T') /\ within (K * eps) T' tau.
Proof. exact (@round_trip). Qed.
Print Assumptions C90_round_trip.
(** and forward dynamics at the computed torques gives the accelerations back. *)
Theorem C90_trip_back : forall g c0 c st rs q qd a fext qdd tau0 ds H M,
  chain_ok c0 -> fd_reach g c0 c st -> same_counts c0 c -> fd_current c st -> inertias_symmetric c ->
  rne_reach g c rs -> rne_current c rs -> dyn_reach g c ds -> dyn_current c ds -> mrows H = ch_nj c -> mcols H = ch_nj c ->
  length q = ch_nj c -> length qd = ch_nj c -> length a = ch_nj c -> length qdd = ch_nj c -> length fext = ch_ns c -> length tau0 = ch_nj c ->
  dyn_JntToMass c ds q H = Ret (E_NOERROR, M) -> pivots_ok (ch_nj c) (mentry M) ->
  exists K e0, 0 <= K /\ 0 < e0 /\ forall eps rnd fsin fcos, arithmetic eps rnd fsin fcos -> eps <= e0 ->
    exists T' out', fl_rne_CartToJnt rnd fsin fcos c rs q qd a fext tau0 = Ret (E_NOERROR, T') /\
      fl_fd_CartToJnt rnd fsin fcos c st q qd T' fext qdd = Ret (E_NOERROR, out') /\ within (K * eps) out' a.
Proof. exact (@trip_back). Qed.
Print Assumptions C90_trip_back.

(** The linear solver alone. *)
Theorem C90_solver : forall A v L D t q n, mrows A = n -> mcols A = n -> length v = n ->
  mrows L = n -> mcols L = n -> length D = n -> length t = n -> length q = n -> pivots_ok n (mentry A) ->
  exists K e0 L2 D2 y x, 0 <= K /\ 0 < e0 /\ ldl_solver A v L D t q = Ret (E_NOERROR, (L2, D2, y, x)) /\
    forall eps rnd, 0 <= eps <= 1 -> rounds eps rnd -> eps <= e0 ->
    exists x', fl_ldl_solver rnd A v L D t q = Ret (E_NOERROR, x') /\ within (K * eps) x' x.
Proof. exact (@ldl_error). Qed.
Print Assumptions C90_solver.

(** An arm with a revolute, a fixed and a prismatic joint, in binary floating point with enough digits. *)
Theorem C90_example : exists K p0 out st', 0 <= K /\
  fd_CartToJnt wchain (fd_make wchain wgrav) [1 / 3; 1 / 7] [1; 2] [3; -1] (repeat (mkW (mkV 1 2 3) (mkV 0 0 1)) 3) [0; 0] = Ret (E_NOERROR, out, st') /\
  forall p, (p0 <= p)%Z -> exists out', fl_fd_CartToJnt (digits p) (fun x => digits p (sin x)) (fun x => digits p (cos x)) wchain (fd_make wchain wgrav)
    [1 / 3; 1 / 7] [1; 2] [3; -1] (repeat (mkW (mkV 1 2 3) (mkV 0 0 1)) 3) [0; 0] = Ret (E_NOERROR, out') /\ within (K * bpow radix2 (1 - p)) out' out.
Proof. exact (@warm_forward). Qed.
Print Assumptions C90_example.

(** A call that is refused is refused alike, and leaves its output alone. *)
Theorem C90_refused : forall rnd fsin fcos c st q qd tau fext qdd,
  (~ fd_current c st -> fl_fd_CartToJnt rnd fsin fcos c st q qd tau fext qdd = Ret (E_NOT_UP_TO_DATE, qdd) /\
     fd_CartToJnt c st q qd tau fext qdd = Ret (E_NOT_UP_TO_DATE, qdd, st)) /\
  (fd_current c st -> ~ (length q = ch_nj c /\ length qd = ch_nj c /\ length qdd = ch_nj c /\ length tau = ch_nj c /\ length fext = ch_ns c) ->
     fl_fd_CartToJnt rnd fsin fcos c st q qd tau fext qdd = Ret (E_SIZE_MISMATCH, qdd) /\
     fd_CartToJnt c st q qd tau fext qdd = Ret (E_SIZE_MISMATCH, qdd, st)).
Proof. exact (@forward_refused). Qed.
Print Assumptions C90_refused.
Theorem C90_solver_refused : forall rnd A v L D t q,
  ~ (mcols A = mrows A /\ length v = mrows A /\ mrows L = mrows A /\ mcols L = mrows A /\ length D = mrows A /\ length t = mrows A /\ length q = mrows A) ->
  fl_ldl_solver rnd A v L D t q = Ret (E_SIZE_MISMATCH, q) /\ ldl_solver A v L D t q = Ret (E_SIZE_MISMATCH, (L, D, t, q)).
Proof. exact (@ldl_refused). Qed.
Print Assumptions C90_solver_refused.

(** Both refusals are met: a position vector of the wrong size, and a chain that grew after the solver was built. *)
Theorem C90_refused_example : forall rnd fsin fcos,
  fl_fd_CartToJnt rnd fsin fcos wchain (fd_make wchain wgrav) [1] [1; 2] [3; -1] (repeat (mkW (mkV 1 2 3) (mkV 0 0 1)) 3) [5; 6] = Ret (E_SIZE_MISMATCH, [5; 6]) /\
  fl_fd_CartToJnt rnd fsin fcos wchain' (fd_make wchain wgrav) [1; 1] [1; 2] [3; -1] (repeat (mkW (mkV 1 2 3) (mkV 0 0 1)) 3) [5; 6] = Ret (E_NOT_UP_TO_DATE, [5; 6]).
Proof. exact (@refused_example). Qed.
Print Assumptions C90_refused_example.
