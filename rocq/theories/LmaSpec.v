(** Specification vocabulary for the Levenberg-Marquardt solver (C48). *)
From Coq Require Import Reals List ZArith.
From Verif Require Import FramesModel FramesSpec Outcome InertiaModel DualModel KinModel KinSpec LinModel LinSpec IkSpec LmaModel.
Import ListNotations.
Local Open Scope R_scope.

(** The pose error of the tip at [q], as the library's own [diff] twist. *)
Definition pose_error (c : Chain) (goal : Frame) (q : list R) : Twist :=
  f_diff (tip_frame c q (length (ch_segs c))) goal 1.
(** Its weighted length: the square root of the sum of (weight times error)^2. *)
Definition weighted_error (L : Twist) (c : Chain) (goal : Frame) (q : list R) : R :=
  let e := pose_error c goal q in
  sqrt ((vx (tvel L) * vx (tvel e)) ^ 2 + (vy (tvel L) * vy (tvel e)) ^ 2 + (vz (tvel L) * vz (tvel e)) ^ 2 +
        (vx (trot L) * vx (trot e)) ^ 2 + (vy (trot L) * vy (trot e)) ^ 2 + (vz (trot L) * vz (trot e)) ^ 2).

(** [d] is a (thin) singular value decomposition of the matrix with the [n]
    columns [J]: J = U diag(S) V^T with orthonormal columns in U and V and no
    negative singular value.  The first equation is tested against every column
    [e] of six numbers. *)
Definition delta (i j : nat) : R := if Nat.eqb i j then 1 else 0.
Definition is_svd (n : nat) (J : list Twist) (d : Svd) : Prop :=
  let k := length (svd_S d) in
  length (svd_U d) = k /\ length (svd_V d) = k /\
  (forall i, (i < k)%nat -> length (nth i (svd_V d) []) = n) /\
  (forall m e, (m < n)%nat -> t_dot6 (nth m J t_zero) e =
     sumn k (fun i => nth i (svd_S d) 0 * nth m (nth i (svd_V d) []) 0 * t_dot6 (nth i (svd_U d) t_zero) e)) /\
  (forall i j, (i < k)%nat -> (j < k)%nat ->
     t_dot6 (nth i (svd_U d) t_zero) (nth j (svd_U d) t_zero) = delta i j /\
     sumn n (fun m => nth m (nth i (svd_V d) []) 0 * nth m (nth j (svd_V d) []) 0) = delta i j) /\
  (forall i, (i < k)%nat -> 0 <= nth i (svd_S d) 0).
Definition svd_correct (n : nat) (svd : list Twist -> Svd) : Prop :=
  forall J, length J = n -> is_svd n J (svd J).

(** The damped least squares cost of a joint step [d] for the linearised error:
    |J d - e|^2 + lambda |d|^2 *)
Definition damped_cost (n : nat) (J : list Twist) (e : Twist) (lambda : R) (d : list R) : R :=
  let r := t_sub (jac_mul J d) e in
  t_dot6 r r + lambda * sumn n (fun m => nth m d 0 * nth m d 0).
(** [d] is the Levenberg-Marquardt step. *)
Definition damped_minimum (n : nat) (J : list Twist) (e : Twist) (lambda : R) (d : list R) : Prop :=
  length d = n /\ forall d', length d' = n -> damped_cost n J e lambda d <= damped_cost n J e lambda d'.

(** The Jacobian of the chain's tip (C22), with weighted rows. *)
Definition weighted_jacobian (L : Twist) (c : Chain) (q : list R) : list Twist := map (weigh L) (jacobian_at c (-1) q).
(** A solver whose buffers fit the chain. *)
Definition lma_sized (c : Chain) (s : lma) : Prop :=
  la_nj s = ch_nj c /\ length (la_jac s) = ch_nj c /\ length (la_roots s) = ch_nj c /\ length (la_tips s) = ch_nj c.
