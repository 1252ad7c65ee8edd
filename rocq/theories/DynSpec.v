(** Specification vocabulary for the dynamics solvers: link poses, velocities and
    Jacobians as delivered by the kinematics solvers, kinetic and potential
    energy, and the histories of solver objects. *)
From Coq Require Import Reals List ZArith Bool.
From Verif Require Import FramesModel FramesSpec Outcome InertiaModel InertiaSpec DualModel KinModel KinSpec LinModel LinSpec DynModel.
Import ListNotations.
Local Open Scope R_scope.

(** * Links.  Link k (k = 0, 1, ...) is the body of segment k. *)

(** pose of its frame (the tip of segment k) in the base, and the Jacobian of
    that frame (base axes, link origin), from the kinematics solvers *)
Definition link_pose (c : Chain) (q : list R) (k : nat) : Frame := tip_at c (Z.of_nat (S k)) q.
Definition link_jacobian (c : Chain) (q : list R) (k : nat) : list Twist := jacobian_at c (Z.of_nat (S k)) q.
(** velocity of the link, in link coordinates *)
Definition link_twist (c : Chain) (q qd : list R) (k : nat) : Twist :=
  r_invapp_t (fM (link_pose c q k)) (jac_mul (link_jacobian c q k) qd).
Definition link_inertia (c : Chain) (k : nat) : RigidBodyInertia := nth k (map sI (ch_segs c)) rb_zero.
(** the rotor inertia of joint j *)
Definition rotor (c : Chain) (j : nat) : R :=
  nth j (map (fun s => jinertia (sjoint s)) (filter moving (ch_segs c))) 0.

(** the inertias are symmetric (every inertia built with the API is, C34) *)
Definition inertias_symmetric (c : Chain) : Prop := Forall (fun s => rb_symmetric (sI s)) (ch_segs c).
Definition inertias_psd (c : Chain) : Prop := Forall (fun s => rb_psd (sI s)) (ch_segs c).

(** * Energies *)
Definition kinetic (c : Chain) (q qd : list R) : R :=
  sumn (ch_ns c) (fun k => / 2 * tw_dot (link_twist c q qd k) (rb_app (link_inertia c k) (link_twist c q qd k))) +
  sumn (ch_nj c) (fun j => / 2 * rotor c j * (nth j qd 0 * nth j qd 0)).
(** gravity [g]: minus g . sum (m p_cog), with m p_cog = m p + R h, h the first moment *)
Definition potential (c : Chain) (g : Vector) (q : list R) : R :=
  - sumn (ch_ns c) (fun k => v_dot g (v_add (v_scale_l (rb_m (link_inertia c k)) (fp (link_pose c q k)))
                                            (r_app (fM (link_pose c q k)) (rb_h (link_inertia c k))))).
(** power of the external wrenches, each given in its link's frame *)
Definition external_power (c : Chain) (q qd : list R) (fext : list Wrench) : R :=
  sumn (ch_ns c) (fun k => tw_dot (link_twist c q qd k) (nth k fext w_zero)).
(** J^T w: the torque of joint j equivalent to the external wrenches *)
Definition external_torque (c : Chain) (q : list R) (fext : list Wrench) (j : nat) : R :=
  sumn (ch_ns c) (fun k => tw_dot (nth j (link_jacobian c q k) t_zero)
                                  (r_app_w (fM (link_pose c q k)) (nth k fext w_zero))).

(** * Histories.  [.._reach g c st]: the object [st] was built with gravity [g] on
    some chain, the chain object was edited in any way and is now [c], and
    updateInternalDataStructures and the solving functions were called any number
    of times in between. *)
Inductive rne_reach (g : Vector) : Chain -> rne -> Prop :=
| rne_r_make c : rne_reach g c (rne_make c g)
| rne_r_edit c c' st : rne_reach g c st -> rne_reach g c' st
| rne_r_update c st : rne_reach g c st -> rne_reach g c (rne_update c st).
Inductive dyn_reach (g : Vector) : Chain -> dynparam -> Prop :=
| dyn_r_make c : dyn_reach g c (dyn_make c g)
| dyn_r_edit c c' st : dyn_reach g c st -> dyn_reach g c' st
| dyn_r_update c st : dyn_reach g c st -> dyn_reach g c (dyn_update c st).
(** for the forward dynamics solver the chain [c0] it was built on is recorded *)
Inductive fd_reach (g : Vector) (c0 : Chain) : Chain -> fdsolver -> Prop :=
| fd_r_make : fd_reach g c0 c0 (fd_make c0 g)
| fd_r_edit c c' st : fd_reach g c0 c st -> chain_ok c' -> fd_reach g c0 c' st
| fd_r_update c st : fd_reach g c0 c st -> fd_reach g c0 c (fd_update c st)
| fd_r_call c st q qd tau fext qdd code out st' : fd_reach g c0 c st ->
    fd_CartToJnt c st q qd tau fext qdd = Ret (code, out, st') -> fd_reach g c0 c st'.

(** the object's counters agree with the chain *)
Definition rne_current (c : Chain) (st : rne) : Prop := rn_nj st = ch_nj c /\ rn_ns st = ch_ns c.
Definition dyn_current (c : Chain) (st : dynparam) : Prop := dp_nj st = ch_nj c /\ dp_ns st = ch_ns c.

Definition fd_current (c : Chain) (st : fdsolver) : Prop := fd_nj st = ch_nj c /\ fd_ns st = ch_ns c.
Definition same_counts (c c' : Chain) : Prop := ch_nj c = ch_nj c' /\ ch_ns c = ch_ns c'.

(** the matrix has an L D L^T factorisation with non-zero pivots *)
Definition pivots_ok (n : nat) (a : nat -> nat -> R) : Prop :=
  exists l d, unit_lower n l /\ ldl_of n a l d /\ forall r, (r < n)%nat -> d r <> 0.

(** * Runge-Kutta *)
(** x + h y, entry by entry *)
Definition axpy (h : R) (x y : list R) : list R := map (fun p => fst p + h * snd p) (combine x y).
(** one classical fourth-order step of size [h] for x' = v, v' = a(x, v) *)
Definition rk4_classical (a : list R -> list R -> list R) (h : R) (x v : list R) : list R * list R :=
  let k1x := v in                   let k1v := a x v in
  let k2x := axpy (h / 2) v k1v in  let k2v := a (axpy (h / 2) x k1x) k2x in
  let k3x := axpy (h / 2) v k2v in  let k3v := a (axpy (h / 2) x k2x) k3x in
  let k4x := axpy h v k3v in        let k4v := a (axpy h x k3x) k4x in
  let weighted k1 k2 k3 k4 := axpy 1 (axpy 2 (axpy 2 k1 k2) k3) k4 in
  (axpy (h / 6) x (weighted k1x k2x k3x k4x), axpy (h / 6) v (weighted k1v k2v k3v k4v)).
