(** What the comparison operators and the hash functions are expected to do, stated on the list of the scalar
    members of an object. *)
From Coq Require Import Reals ZArith List.
From Verif Require Import FramesModel DualModel EqModel.
Import ListNotations.
Local Open Scope R_scope.

(** The scalar members of an object. *)
Definition co_v (v : Vector) : list R := [vx v; vy v; vz v].
Definition co_r (r : Rotation) : list R := [r0 r; r1 r; r2 r; r3 r; r4 r; r5 r; r6 r; r7 r; r8 r].
Definition co_f (f : Frame) : list R := co_r (fM f) ++ co_v (fp f).
Definition co_t (t : Twist) : list R := co_v (tvel t) ++ co_v (trot t).
Definition co_w (w : Wrench) : list R := co_v (wforce w) ++ co_v (wtorque w).
Definition co_v2 (v : Vector2) : list R := [v2x v; v2y v].
Definition co_rot2 (r : Rotation2) : list R := [rot2_c r; rot2_s r].
Definition co_f2 (f : Frame2) : list R := co_rot2 (f2M f) ++ co_v2 (f2p f).
Definition co_d1 (d : dVel) : list R := [d1t d; d1g d].
Definition co_d2 (d : dAcc) : list R := [d2t d; d2d d; d2dd d].
Definition co_vv (v : VectorVel) : list R := co_v (vvp v) ++ co_v (vvv v).
Definition co_rv (r : RotationVel) : list R := co_r (rvR r) ++ co_v (rvw r).
Definition co_fv (f : FrameVel) : list R := co_rv (fvM f) ++ co_vv (fvp f).
Definition co_tv (t : TwistVel) : list R := co_vv (tvvel t) ++ co_vv (tvrot t).
Definition co_va (v : VectorAcc) : list R := co_v (vap v) ++ co_v (vav v) ++ co_v (vadv v).
Definition co_ra (r : RotationAcc) : list R := co_r (raR r) ++ co_v (raw r) ++ co_v (radw r).
Definition co_fa (f : FrameAcc) : list R := co_ra (faM f) ++ co_va (fap f).
Definition co_ta (t : TwistAcc) : list R := co_va (tavel t) ++ co_va (tarot t).

(** [Eq a b eps] answers whether corresponding scalar members differ by less than [eps], and the scalar members
    determine the object. *)
Definition compares_members {A} (co : A -> list R) (Eq : A -> A -> R -> bool) : Prop :=
  (forall a b eps, Eq a b eps = true <-> Forall2 (fun x y => Rabs (x - y) < eps) (co a) (co b)) /\
  (forall a b, co a = co b -> a = b).

(** The object at rest with a given pose. *)
Definition rest_vv (p : Vector) : VectorVel := mkVV p (mkV 0 0 0).
Definition rest_rv (r : Rotation) : RotationVel := mkRV r (mkV 0 0 0).
Definition rest_fv (f : Frame) : FrameVel := mkFV (rest_rv (fM f)) (rest_vv (fp f)).
Definition rest_tv (t : Twist) : TwistVel := mkTV (rest_vv (tvel t)) (rest_vv (trot t)).
Definition rest_va (p : Vector) : VectorAcc := mkVA p (mkV 0 0 0) (mkV 0 0 0).
Definition rest_ra (r : Rotation) : RotationAcc := mkRA r (mkV 0 0 0) (mkV 0 0 0).
Definition rest_fa (f : Frame) : FrameAcc := mkFA (rest_ra (fM f)) (rest_va (fp f)).
Definition rest_ta (t : Twist) : TwistAcc := mkTA (rest_va (tvel t)) (rest_va (trot t)).

(** What frames.hpp documents for operator==: literal equality. *)
Definition literal {A} (eq : A -> A -> bool) : Prop := forall a b, eq a b = true -> a = b.
Definition transitive {A} (eq : A -> A -> bool) : Prop := forall a b c, eq a b = true -> eq b c = true -> eq a c = true.

(** The contract between std::equal_to and std::hash that the unordered containers need: objects that compare
    equal have the same hash. *)
Definition hash_agrees {A} (eq : A -> A -> bool) (h : A -> Z) : Prop := forall a b, eq a b = true -> h a = h b.
Definition hash_agrees_on {A} (P : A -> Prop) (eq : A -> A -> bool) (h : A -> Z) : Prop :=
  forall a b, P a -> P b -> eq a b = true -> h a = h b.
Definition size_t_valued {A} (h : A -> Z) : Prop := forall a, (0 <= h a < 2 ^ 64)%Z.
Definition constant {A} (h : A -> Z) : Prop := forall a b, h a = h b.

(** Every scalar member counts: changing it alone can change the hash. *)
Definition every_member_counts {A} (co : A -> list R) (h : A -> Z) : Prop :=
  forall i a0, (i < length (co a0))%nat -> exists a b, (forall j, j <> i -> nth j (co a) 0 = nth j (co b) 0) /\ h a <> h b.
(** A possible std::hash<double>. *)
Definition hd01 (x : R) : Z := if Req_EM_T x 0 then 0%Z else 1%Z.

(** == answers whether all scalar members agree to within a millionth, != the opposite. *)
Definition operators_agree {A} (co : A -> list R) (eq ne : A -> A -> bool) : Prop := forall a b,
  (eq a b = true <-> Forall2 (fun x y => Rabs (x - y) < 1 / 10 ^ 6) (co a) (co b)) /\
  (ne a b = true <-> ~ Forall2 (fun x y => Rabs (x - y) < 1 / 10 ^ 6) (co a) (co b)).
