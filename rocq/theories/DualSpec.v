(** Specification vocabulary for the automatic-differentiation types (C50, C51). *)
From Coq Require Import Reals.
From Verif Require Import FramesModel FramesSpec DualModel InertiaModel KinModel KinSpec.
Local Open Scope R_scope.

(** [P] holds in a neighbourhood of [t]. *)
Definition near (t : R) (P : R -> Prop) : Prop :=
  exists d, 0 < d /\ forall s, Rabs (s - t) < d -> P s.

(** The number carries the value and the derivative of [f] at [t]. *)
Definition carries1 (f : R -> R) (t : R) (a : dVel) : Prop :=
  d1t a = f t /\ derivable_pt_lim f t (d1g a).

(** The number carries the value, first and second derivative of [f] at [t]. *)
Definition carries2 (f : R -> R) (t : R) (a : dAcc) : Prop :=
  d2t a = f t /\
  exists f', near t (fun s => derivable_pt_lim f s (f' s)) /\
             d2d a = f' t /\ derivable_pt_lim f' t (d2dd a).

(** omega x (every column of M): the derivative of a matrix rotating with
    angular velocity omega *)
Definition spin (w : Vector) (M : Rotation) : Rotation :=
  r_cols (v_cross w (r_UnitX M)) (v_cross w (r_UnitY M)) (v_cross w (r_UnitZ M)).
Definition mat_add (A B : Rotation) : Rotation :=
  mkR (r0 A + r0 B) (r1 A + r1 B) (r2 A + r2 B) (r3 A + r3 B) (r4 A + r4 B) (r5 A + r5 B)
      (r6 A + r6 B) (r7 A + r7 B) (r8 A + r8 B).

(** Moving vectors, rotations, frames and twists with their velocities. *)
Definition vv_carries (f : R -> Vector) (t : R) (a : VectorVel) : Prop :=
  vvp a = f t /\ v_derive f t (vvv a).
(** entrywise derivative of the matrix is omega x M *)
Definition mat_derive (f : R -> Rotation) (t : R) (d : Rotation) : Prop :=
  derivable_pt_lim (fun s => r0 (f s)) t (r0 d) /\ derivable_pt_lim (fun s => r1 (f s)) t (r1 d) /\
  derivable_pt_lim (fun s => r2 (f s)) t (r2 d) /\ derivable_pt_lim (fun s => r3 (f s)) t (r3 d) /\
  derivable_pt_lim (fun s => r4 (f s)) t (r4 d) /\ derivable_pt_lim (fun s => r5 (f s)) t (r5 d) /\
  derivable_pt_lim (fun s => r6 (f s)) t (r6 d) /\ derivable_pt_lim (fun s => r7 (f s)) t (r7 d) /\
  derivable_pt_lim (fun s => r8 (f s)) t (r8 d).
Definition rv_carries (M : R -> Rotation) (t : R) (a : RotationVel) : Prop :=
  rvR a = M t /\ mat_derive M t (spin (rvw a) (rvR a)).
Definition tv_carries (f : R -> Twist) (t : R) (a : TwistVel) : Prop :=
  vv_carries (fun s => tvel (f s)) t (tvvel a) /\ vv_carries (fun s => trot (f s)) t (tvrot a).
Definition fv_carries (F : R -> Frame) (t : R) (a : FrameVel) : Prop :=
  rv_carries (fun s => fM (F s)) t (fvM a) /\ vv_carries (fun s => fp (F s)) t (fvp a).

(** The same with accelerations. *)
Definition va_carries (f : R -> Vector) (t : R) (a : VectorAcc) : Prop :=
  carries2 (fun s => vx (f s)) t (mkD2 (vx (vap a)) (vx (vav a)) (vx (vadv a))) /\
  carries2 (fun s => vy (f s)) t (mkD2 (vy (vap a)) (vy (vav a)) (vy (vadv a))) /\
  carries2 (fun s => vz (f s)) t (mkD2 (vz (vap a)) (vz (vav a)) (vz (vadv a))).
(** first derivative omega x M, second derivative alpha x M + omega x (omega x M) *)
Definition ra_carries (M : R -> Rotation) (t : R) (a : RotationAcc) : Prop :=
  let D := spin (raw a) (raR a) in
  let DD := mat_add (spin (radw a) (raR a)) (spin (raw a) D) in
  carries2 (fun s => r0 (M s)) t (mkD2 (r0 (raR a)) (r0 D) (r0 DD)) /\
  carries2 (fun s => r1 (M s)) t (mkD2 (r1 (raR a)) (r1 D) (r1 DD)) /\
  carries2 (fun s => r2 (M s)) t (mkD2 (r2 (raR a)) (r2 D) (r2 DD)) /\
  carries2 (fun s => r3 (M s)) t (mkD2 (r3 (raR a)) (r3 D) (r3 DD)) /\
  carries2 (fun s => r4 (M s)) t (mkD2 (r4 (raR a)) (r4 D) (r4 DD)) /\
  carries2 (fun s => r5 (M s)) t (mkD2 (r5 (raR a)) (r5 D) (r5 DD)) /\
  carries2 (fun s => r6 (M s)) t (mkD2 (r6 (raR a)) (r6 D) (r6 DD)) /\
  carries2 (fun s => r7 (M s)) t (mkD2 (r7 (raR a)) (r7 D) (r7 DD)) /\
  carries2 (fun s => r8 (M s)) t (mkD2 (r8 (raR a)) (r8 D) (r8 DD)).
Definition ta_carries (f : R -> Twist) (t : R) (a : TwistAcc) : Prop :=
  va_carries (fun s => tvel (f s)) t (tavel a) /\ va_carries (fun s => trot (f s)) t (tarot a).
Definition fa_carries (F : R -> Frame) (t : R) (a : FrameAcc) : Prop :=
  ra_carries (fun s => fM (F s)) t (faM a) /\ va_carries (fun s => fp (F s)) t (fap a).
