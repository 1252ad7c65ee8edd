(** Specification vocabulary for the hybrid dynamics solver (C65). *)
From Coq Require Import Reals List ZArith Bool.
From Verif Require Import FramesModel FramesSpec Outcome InertiaModel InertiaSpec DualModel KinModel KinSpec LinModel LinSpec DynModel DynSpec
  VelIkModel VelIkSpec HdModel.
Import ListNotations.
Local Open Scope R_scope.

(** [hd_reach svd acc nc c s]: [s] was built with root acceleration [acc] and [nc]
    constraints on some chain, the chain object was edited in any way and is now
    [c], and the object's methods were called any number of times in between. *)
Inductive hd_reach (svd : Z -> Mat -> Decomp) (acc : Twist) (nc : nat) : Chain -> hd -> Prop :=
| hd_r_make c : hd_reach svd acc nc c (hd_make c acc nc)
| hd_r_edit c c' s : hd_reach svd acc nc c s -> hd_reach svd acc nc c' s
| hd_r_update c s : hd_reach svd acc nc c s -> hd_reach svd acc nc c (hd_update c s)
| hd_r_call c s q qd qdd alfa beta fext ff ct code qdd' ct' s' : chain_ok c -> hd_reach svd acc nc c s ->
    hd_CartToJnt svd c s q qd qdd alfa beta fext ff ct = Ret (code, qdd', ct', s') -> hd_reach svd acc nc c s'.
(** the object's sizes agree with the chain *)
Definition hd_current (c : Chain) (s : hd) : Prop := hd_ns s = ch_ns c /\ length (hd_total s) = ch_nj c.
(** the arguments have the documented sizes *)
Definition hd_sizes (c : Chain) (nc : nat) (q qd qdd : list R) (alfa : list Twist) (beta : list R) (fext : list Wrench) (ff ct : list R) : Prop :=
  length q = ch_nj c /\ length qd = ch_nj c /\ length qdd = ch_nj c /\ length ff = ch_nj c /\ length ct = ch_nj c /\
  length fext = ch_ns c /\ length alfa = nc /\ length beta = nc.

(** no joint of the chain is fixed *)
Definition no_fixed (c : Chain) : Prop := Forall (fun s => moving s = true) (ch_segs c).

(** The wrench on the tip, in base axes, with magnitude nu_c along the c-th
    constraint direction. *)
Fixpoint constraint_wrench (alfa : list Twist) (nu : list R) : Wrench :=
  match alfa, nu with
  | a :: alfa', x :: nu' => w_add (w_scale (mkW (tvel a) (trot a)) x) (constraint_wrench alfa' nu')
  | _, _ => w_zero
  end.
(** The wrenches [fext] (base axes, origin at each link's tip) and [w] on the last
    link, in the links' own frames, as the recursive Newton-Euler solver wants them. *)
Definition loads (c : Chain) (q : list R) (fext : list Wrench) (w : Wrench) : list Wrench :=
  map (fun k => r_invapp_w (fM (link_pose c q k))
                  (if Nat.eqb (S k) (ch_ns c) then w_add (nth k fext w_zero) w else nth k fext w_zero)) (seq 0 (ch_ns c)).
(** The part of the motion [t] along the constraint direction [a]. *)
Definition component (a t : Twist) : R := v_dot (tvel a) (tvel t) + v_dot (trot a) (trot t).
(** The twist of the last link's tip at joint rates (or accelerations from rest) [x]. *)
Definition tip_rate (c : Chain) (q x : list R) : Twist := jac_mul (link_jacobian c q (ch_ns c - 1)) x.
(** The violation sum_c (component_c - beta_c)^2. *)
Definition violation (alfa : list Twist) (beta : list R) (t : Twist) : R :=
  sumn (length alfa) (fun i => (component (nth i alfa t_zero) t - nth i beta 0) * (component (nth i alfa t_zero) t - nth i beta 0)).

(** The torques of inverse dynamics at rest, without gravity, with the wrench [w] on
    the tip. *)
Definition rest_torques (c : Chain) (q a : list R) (w : Wrench) (tau : list R) : Prop :=
  rne_CartToJnt c (rne_make c v_zero) q (repeat 0 (ch_nj c)) a (loads c q (repeat w_zero (ch_ns c)) w) (repeat 0 (ch_nj c)) = Ret (E_NOERROR, tau).
(** [a]: the acceleration of the arm at rest, without gravity or joint torques,
    when the environment pushes against the constraints with magnitudes [x]. *)
Definition responds (c : Chain) (q : list R) (alfa : list Twist) (x a : list R) : Prop :=
  length a = ch_nj c /\ rest_torques c q a (w_neg (constraint_wrench alfa x)) (repeat 0 (ch_nj c)).
(** Every unit combination of the constraint wrenches moves the tip of the arm. *)
Definition constraints_mobile (c : Chain) (q : list R) (alfa : list Twist) (eps : R) : Prop :=
  forall x a, length x = length alfa -> responds c q alfa x a ->
    eps * sumn (length alfa) (fun i => nth i x 0 * nth i x 0) <=
    - sumn (length alfa) (fun i => nth i x 0 * component (nth i alfa t_zero) (tip_rate c q a)).
(** The singular value routine is correct on nc x nc matrices. *)
Definition svd_right (nc : nat) (svd : Z -> Mat -> Decomp) : Prop :=
  forall A, mrows A = nc -> mcols A = nc -> svd_of nc nc (mentry A) (svd 150%Z A) /\ forall i, (i < nc)%nat -> 0 <= dc_S (svd 150%Z A) i.

(** The arm has kinetic energy whenever a joint moves. *)
Definition massive (c : Chain) (q : list R) : Prop :=
  forall qd, length qd = ch_nj c -> (exists j, (j < ch_nj c)%nat /\ nth j qd 0 <> 0) -> 0 < kinetic c q qd.
Definition minus (x y : list R) : list R := map (fun p => fst p - snd p) (combine x y).
(** The root acceleration carried to a point p, without its rotation into that frame. *)
Definition root_at (acc : Twist) (p : Vector) : Twist := mkT (v_sub (tvel acc) (v_cross p (trot acc))) (trot acc).
(** [d] is the rate of change of the twist [u] at time [t]. *)
Definition twist_rate (u : R -> Twist) (t : R) (d : Twist) : Prop :=
  v_derive (fun s => tvel (u s)) t (tvel d) /\ v_derive (fun s => trot (u s)) t (trot d).
(** the matrix of the arm's response: pushing with magnitudes x changes the tip's
    acceleration along the constraints by A x *)
Definition mobility (c : Chain) (q : list R) (alfa : list Twist) (A : Mat) : Prop :=
  mrows A = length alfa /\ mcols A = length alfa /\
  forall x a, length x = length alfa -> responds c q alfa x a ->
    forall i, (i < length alfa)%nat -> component (nth i alfa t_zero) (tip_rate c q a) = image (length alfa) (mentry A) x i.
(** [D]: the inertia felt at joint j: the torque that gives it a unit acceleration at
    rest, without gravity, while the joints before it do not accelerate and the joints
    after it are free. *)
Definition felt_inertia (c : Chain) (q : list R) (j : nat) (D : R) : Prop :=
  exists x tau, length x = ch_nj c /\ (forall i, (i < j)%nat -> nth i x 0 = 0) /\ nth j x 0 = 1 /\ rest_torques c q x w_zero tau /\
    (forall i, (j < i < ch_nj c)%nat -> nth i tau 0 = 0) /\ D = nth j tau 0.
(** [r]: the torque with which joint j holds itself and the joints before it still, at
    rest and without gravity, against the wrench [w] on the tip, while the joints after
    it are free. *)
Definition holding_torque (c : Chain) (q : list R) (w : Wrench) (j : nat) (r : R) : Prop :=
  exists x tau, length x = ch_nj c /\ (forall i, (i <= j)%nat -> nth i x 0 = 0) /\ rest_torques c q x w tau /\
    (forall i, (j < i < ch_nj c)%nat -> nth i tau 0 = 0) /\ r = nth j tau 0.
