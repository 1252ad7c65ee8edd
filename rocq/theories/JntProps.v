(** Property theorems for joint arrays: C52. *)
From Coq Require Import Reals List.
From Verif Require Import FramesModel Outcome DualModel DualSpec KinModel JntModel JntSpec JntProofs JntProofs2.
Import ListNotations.
Local Open Scope R_scope.

(** Every aliasing pattern: [d] may be [a], [b] or both. *)
Theorem C52_Add : forall st a b d,
  length (st a) = length (st b) ->
  exists st', jnt_Add st a b d = Ret st' /\ entrywise2 Rplus (st a) (st b) (st' d) /\ only_changed st st' [d].
Proof. exact (@jnt_add_ok). Qed.
Print Assumptions C52_Add.

Theorem C52_Subtract : forall st a b d,
  length (st a) = length (st b) ->
  exists st', jnt_Subtract st a b d = Ret st' /\ entrywise2 Rminus (st a) (st b) (st' d) /\ only_changed st st' [d].
Proof. exact (@jnt_sub_ok). Qed.
Print Assumptions C52_Subtract.

Theorem C52_Multiply : forall st a k d,
  exists st', jnt_Multiply st a k d = Ret st' /\ entrywise (fun x => k * x) (st a) (st' d) /\ only_changed st st' [d].
Proof. exact (@jnt_mul_ok). Qed.
Print Assumptions C52_Multiply.

Theorem C52_Divide : forall st a k d,
  k <> 0 ->
  exists st', jnt_Divide st a k d = Ret st' /\ entrywise (fun x => x / k) (st a) (st' d) /\ only_changed st st' [d].
Proof. exact (@jnt_div_ok). Qed.
Print Assumptions C52_Divide.

Theorem C52_assign : forall st a d,
  exists st', jnt_assign st a d = Ret st' /\ entrywise (fun x => x) (st a) (st' d) /\ only_changed st st' [d].
Proof. exact (@jnt_assign_ok). Qed.
Print Assumptions C52_assign.

Theorem C52_SetToZero : forall st a,
  exists st', jnt_SetToZero st a = Ret st' /\ entrywise (fun _ => 0) (st a) (st' a) /\ only_changed st st' [a].
Proof. exact (@jnt_zero_ok). Qed.
Print Assumptions C52_SetToZero.

Theorem C52_different_sizes_undefined : forall st a b d,
  length (st a) <> length (st b) ->
  jnt_Add st a b d = Undef /\ jnt_Subtract st a b d = Undef.
Proof. exact (@jnt_add_sizes). Qed.
Print Assumptions C52_different_sizes_undefined.

Theorem C52_Equal : forall a b eps,
  jnt_Equal a b eps = true <->
  length a = length b /\ forall i, (i < length a)%nat -> Rabs (nth i a 0 - nth i b 0) <= eps.
Proof. exact (@jnt_equal_iff). Qed.
Print Assumptions C52_Equal.

Theorem C52_construct : forall n,
  length (jnt_make n) = n /\ forall i, nth i (jnt_make n) 0 = 0.
Proof. exact (@jnt_make_ok). Qed.
Print Assumptions C52_construct.

Theorem C52_resize : forall l n,
  length (jnt_resize l n) = n /\
  forall i, (i < n)%nat -> nth i (jnt_resize l n) 0 = if Nat.ltb i (length l) then nth i l 0 else 0.
Proof. exact (@jnt_resize_ok). Qed.
Print Assumptions C52_resize.

(** jntarray.hpp:106 documents "all elements in data have 0 value". *)
Theorem C52_resize_zeroes_refuted : ~ forall l n i, (i < n)%nat -> nth i (jnt_resize l n) 0 = 0.
Proof. exact (@jnt_resize_not_zero). Qed.
Print Assumptions C52_resize_zeroes_refuted.


(** JntArrayVel: the results carry the positions and velocities of the combined motion. *)
Theorem C52_vel_Add : forall (n : nat) (t : R) (c : nat -> R -> R) (e : nat -> R -> R) (st : store) a b d,
  jv_layout [a; b; d] -> jv_follows n c t st a -> jv_follows n e t st b ->
  exists st', jv_Add st a b d = Ret st' /\ jv_follows n (fun i s => c i s + e i s) t st' d /\
              only_changed st st' (jv_members d).
Proof. exact (@jv_add_ok). Qed.
Print Assumptions C52_vel_Add.

Theorem C52_vel_Subtract : forall (n : nat) (t : R) (c : nat -> R -> R) (e : nat -> R -> R) (st : store) a b d,
  jv_layout [a; b; d] -> jv_follows n c t st a -> jv_follows n e t st b ->
  exists st', jv_Subtract st a b d = Ret st' /\ jv_follows n (fun i s => c i s - e i s) t st' d /\
              only_changed st st' (jv_members d).
Proof. exact (@jv_sub_ok). Qed.
Print Assumptions C52_vel_Subtract.

Theorem C52_vel_Add_array : forall (n : nat) (t : R) (c : nat -> R -> R) (e : nat -> R -> R) (st : store) a b d,
  jv_layout [a; d] -> b <> jv_qdot d -> sized st n b -> jv_follows n c t st a ->
  exists st', jv_Add_q st a b d = Ret st' /\ jv_follows n (fun i s => c i s + nth i (st b) 0) t st' d /\
              only_changed st st' (jv_members d).
Proof. exact (@jv_addq_ok). Qed.
Print Assumptions C52_vel_Add_array.

Theorem C52_vel_Subtract_array : forall (n : nat) (t : R) (c : nat -> R -> R) (e : nat -> R -> R) (st : store) a b d,
  jv_layout [a; d] -> b <> jv_qdot d -> sized st n b -> jv_follows n c t st a ->
  exists st', jv_Subtract_q st a b d = Ret st' /\ jv_follows n (fun i s => c i s - nth i (st b) 0) t st' d /\
              only_changed st st' (jv_members d).
Proof. exact (@jv_subq_ok). Qed.
Print Assumptions C52_vel_Subtract_array.

Theorem C52_vel_Multiply : forall (n : nat) (t : R) (c : nat -> R -> R) (e : nat -> R -> R) (st : store) a k d,
  jv_layout [a; d] -> jv_follows n c t st a ->
  exists st', jv_Multiply st a k d = Ret st' /\ jv_follows n (fun i s => k * c i s) t st' d /\
              only_changed st st' (jv_members d).
Proof. exact (@jv_mul_ok). Qed.
Print Assumptions C52_vel_Multiply.

Theorem C52_vel_Divide : forall (n : nat) (t : R) (c : nat -> R -> R) (e : nat -> R -> R) (st : store) a k d,
  k <> 0 -> jv_layout [a; d] -> jv_follows n c t st a ->
  exists st', jv_Divide st a k d = Ret st' /\ jv_follows n (fun i s => c i s / k) t st' d /\
              only_changed st st' (jv_members d).
Proof. exact (@jv_div_ok). Qed.
Print Assumptions C52_vel_Divide.

Theorem C52_vel_Multiply_doubleVel : forall (n : nat) (t : R) (c : nat -> R -> R) (e : nat -> R -> R) (st : store) (f : R -> R) (k : dVel) (Hf : carries1 f t k) a d,
  jv_layout [a; d] -> jv_apart a d -> jv_follows n c t st a ->
  exists st', jv_Multiply_vel st a k d = Ret st' /\ jv_follows n (fun i s => f s * c i s) t st' d /\
              only_changed st st' (jv_members d).
Proof. exact (@jv_mulv_ok). Qed.
Print Assumptions C52_vel_Multiply_doubleVel.

Theorem C52_vel_Divide_doubleVel : forall (n : nat) (t : R) (c : nat -> R -> R) (e : nat -> R -> R) (st : store) (f : R -> R) (k : dVel) (Hf : carries1 f t k) a d,
  f t <> 0 -> jv_layout [a; d] -> jv_apart a d -> jv_follows n c t st a ->
  exists st', jv_Divide_vel st a k d = Ret st' /\ jv_follows n (fun i s => c i s / f s) t st' d /\
              only_changed st st' (jv_members d).
Proof. exact (@jv_divv_ok). Qed.
Print Assumptions C52_vel_Divide_doubleVel.

Theorem C52_vel_SetToZero : forall n st a,
  jv_q a <> jv_qdot a -> sized st n (jv_q a) -> sized st n (jv_qdot a) ->
  exists st', jv_SetToZero st a = Ret st' /\ jv_follows n (fun _ _ => 0) 0 st' a /\ only_changed st st' (jv_members a).
Proof. exact (@jv_zero_ok). Qed.
Print Assumptions C52_vel_SetToZero.

Theorem C52_vel_Equal : forall st a b eps,
  jv_Equal st a b eps = true <->
  jnt_Equal (st (jv_q a)) (st (jv_q b)) eps = true /\ jnt_Equal (st (jv_qdot a)) (st (jv_qdot b)) eps = true.
Proof. exact (@jv_equal_iff). Qed.
Print Assumptions C52_vel_Equal.

Theorem C52_vel_Multiply_in_place_refuted : exists st a k c f t n,
  jv_layout [a; a] /\ jv_follows n c t st a /\ carries1 f t k /\
  forall st', jv_Multiply_vel st a k a = Ret st' -> ~ jv_follows n (fun i s => f s * c i s) t st' a.
Proof. exact (@jv_mul_alias_wrong). Qed.
Print Assumptions C52_vel_Multiply_in_place_refuted.

Theorem C52_vel_Divide_in_place_refuted : exists st a k c f t n,
  jv_layout [a; a] /\ jv_follows n c t st a /\ carries1 f t k /\ f t <> 0 /\
  forall st', jv_Divide_vel st a k a = Ret st' -> ~ jv_follows n (fun i s => c i s / f s) t st' a.
Proof. exact (@jv_div_alias_wrong). Qed.
Print Assumptions C52_vel_Divide_in_place_refuted.


(** JntArrayAcc. *)
Theorem C52_acc_Add : forall (n : nat) (t : R) (c : nat -> R -> R) (e : nat -> R -> R) (st : store) a b d,
  ja_layout [a; b; d] -> ja_follows n c t st a -> ja_follows n e t st b ->
  exists st', ja_Add st a b d = Ret st' /\ ja_follows n (fun i s => c i s + e i s) t st' d /\
              only_changed st st' (ja_members d).
Proof. exact (@ja_add_ok). Qed.
Print Assumptions C52_acc_Add.

Theorem C52_acc_Subtract : forall (n : nat) (t : R) (c : nat -> R -> R) (e : nat -> R -> R) (st : store) a b d,
  ja_layout [a; b; d] -> ja_follows n c t st a -> ja_follows n e t st b ->
  exists st', ja_Subtract st a b d = Ret st' /\ ja_follows n (fun i s => c i s - e i s) t st' d /\
              only_changed st st' (ja_members d).
Proof. exact (@ja_sub_ok). Qed.
Print Assumptions C52_acc_Subtract.

Theorem C52_acc_Add_vel : forall (n : nat) (t : R) (c : nat -> R -> R) (e : nat -> R -> R) (st : store) a b d,
  ja_layout [a; d] ->
  jv_q b <> ja_qdot d -> jv_q b <> ja_qdd d -> jv_qdot b <> ja_q d -> jv_qdot b <> ja_qdd d ->
  sized st n (jv_q b) -> sized st n (jv_qdot b) ->
  (forall i, (i < n)%nat -> carries2 (e i) t (mkD2 (nth i (st (jv_q b)) 0) (nth i (st (jv_qdot b)) 0) 0)) ->
  ja_follows n c t st a ->
  exists st', ja_Add_vel st a b d = Ret st' /\ ja_follows n (fun i s => c i s + e i s) t st' d /\
              only_changed st st' (ja_members d).
Proof. exact (@ja_addv_ok). Qed.
Print Assumptions C52_acc_Add_vel.

Theorem C52_acc_Subtract_vel : forall (n : nat) (t : R) (c : nat -> R -> R) (e : nat -> R -> R) (st : store) a b d,
  ja_layout [a; d] ->
  jv_q b <> ja_qdot d -> jv_q b <> ja_qdd d -> jv_qdot b <> ja_q d -> jv_qdot b <> ja_qdd d ->
  sized st n (jv_q b) -> sized st n (jv_qdot b) ->
  (forall i, (i < n)%nat -> carries2 (e i) t (mkD2 (nth i (st (jv_q b)) 0) (nth i (st (jv_qdot b)) 0) 0)) ->
  ja_follows n c t st a ->
  exists st', ja_Subtract_vel st a b d = Ret st' /\ ja_follows n (fun i s => c i s - e i s) t st' d /\
              only_changed st st' (ja_members d).
Proof. exact (@ja_subv_ok). Qed.
Print Assumptions C52_acc_Subtract_vel.

Theorem C52_acc_Add_array : forall (n : nat) (t : R) (c : nat -> R -> R) (e : nat -> R -> R) (st : store) a b d,
  ja_layout [a; d] -> b <> ja_qdot d -> b <> ja_qdd d -> sized st n b -> ja_follows n c t st a ->
  exists st', ja_Add_q st a b d = Ret st' /\ ja_follows n (fun i s => c i s + nth i (st b) 0) t st' d /\
              only_changed st st' (ja_members d).
Proof. exact (@ja_addq_ok). Qed.
Print Assumptions C52_acc_Add_array.

Theorem C52_acc_Subtract_array : forall (n : nat) (t : R) (c : nat -> R -> R) (e : nat -> R -> R) (st : store) a b d,
  ja_layout [a; d] -> b <> ja_qdot d -> b <> ja_qdd d -> sized st n b -> ja_follows n c t st a ->
  exists st', ja_Subtract_q st a b d = Ret st' /\ ja_follows n (fun i s => c i s - nth i (st b) 0) t st' d /\
              only_changed st st' (ja_members d).
Proof. exact (@ja_subq_ok). Qed.
Print Assumptions C52_acc_Subtract_array.

Theorem C52_acc_Multiply : forall (n : nat) (t : R) (c : nat -> R -> R) (e : nat -> R -> R) (st : store) a k d,
  ja_layout [a; d] -> ja_follows n c t st a ->
  exists st', ja_Multiply st a k d = Ret st' /\ ja_follows n (fun i s => k * c i s) t st' d /\
              only_changed st st' (ja_members d).
Proof. exact (@ja_mul_ok). Qed.
Print Assumptions C52_acc_Multiply.

Theorem C52_acc_Divide : forall (n : nat) (t : R) (c : nat -> R -> R) (e : nat -> R -> R) (st : store) a k d,
  k <> 0 -> ja_layout [a; d] -> ja_follows n c t st a ->
  exists st', ja_Divide st a k d = Ret st' /\ ja_follows n (fun i s => c i s / k) t st' d /\
              only_changed st st' (ja_members d).
Proof. exact (@ja_div_ok). Qed.
Print Assumptions C52_acc_Divide.

Theorem C52_acc_Multiply_doubleVel : forall (n : nat) (t : R) (c : nat -> R -> R) (e : nat -> R -> R) (st : store) (f : R -> R) k a d,
  carries2 f t (mkD2 (d1t k) (d1g k) 0) -> ja_layout [a; d] -> ja_apart a d -> ja_follows n c t st a ->
  exists st', ja_Multiply_vel st a k d = Ret st' /\ ja_follows n (fun i s => f s * c i s) t st' d /\
              only_changed st st' (ja_members d).
Proof. exact (@ja_mulv_ok). Qed.
Print Assumptions C52_acc_Multiply_doubleVel.

Theorem C52_acc_Multiply_doubleAcc : forall (n : nat) (t : R) (c : nat -> R -> R) (e : nat -> R -> R) (st : store) (f : R -> R) k a d,
  carries2 f t k -> ja_layout [a; d] -> ja_apart a d -> ja_follows n c t st a ->
  exists st', ja_Multiply_acc st a k d = Ret st' /\ ja_follows n (fun i s => f s * c i s) t st' d /\
              only_changed st st' (ja_members d).
Proof. exact (@ja_mula_ok). Qed.
Print Assumptions C52_acc_Multiply_doubleAcc.

Theorem C52_acc_Divide_doubleVel : forall (n : nat) (t : R) (c : nat -> R -> R) (e : nat -> R -> R) (st : store) (f : R -> R) k a d,
  f t <> 0 -> carries2 f t (mkD2 (d1t k) (d1g k) 0) -> ja_layout [a; d] -> ja_apart a d -> ja_follows n c t st a ->
  exists st', ja_Divide_vel st a k d = Ret st' /\ ja_follows n (fun i s => c i s / f s) t st' d /\
              only_changed st st' (ja_members d).
Proof. exact (@ja_divv_ok). Qed.
Print Assumptions C52_acc_Divide_doubleVel.

Theorem C52_acc_Divide_doubleAcc : forall (n : nat) (t : R) (c : nat -> R -> R) (e : nat -> R -> R) (st : store) (f : R -> R) k a d,
  f t <> 0 -> carries2 f t k -> ja_layout [a; d] -> ja_apart a d -> ja_follows n c t st a ->
  exists st', ja_Divide_acc st a k d = Ret st' /\ ja_follows n (fun i s => c i s / f s) t st' d /\
              only_changed st st' (ja_members d).
Proof. exact (@ja_diva_ok). Qed.
Print Assumptions C52_acc_Divide_doubleAcc.

Theorem C52_acc_Equal : forall st a b eps,
  ja_Equal st a b eps = true <->
  jnt_Equal (st (ja_q a)) (st (ja_q b)) eps = true /\ jnt_Equal (st (ja_qdot a)) (st (ja_qdot b)) eps = true /\
  jnt_Equal (st (ja_qdd a)) (st (ja_qdd b)) eps = true.
Proof. exact (@ja_equal_iff). Qed.
Print Assumptions C52_acc_Equal.

Theorem C52_acc_Multiply_in_place_refuted : exists st a k c f t n,
  ja_layout [a; a] /\ ja_follows n c t st a /\ carries2 f t k /\
  forall st', ja_Multiply_acc st a k a = Ret st' -> ~ ja_follows n (fun i s => f s * c i s) t st' a.
Proof. exact (@ja_mul_alias_wrong). Qed.
Print Assumptions C52_acc_Multiply_in_place_refuted.

