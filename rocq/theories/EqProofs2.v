(** Every scalar member counts in the hash functions. *)
From Coq Require Import Reals ZArith List Bool Lra Lia.
From Verif Require Import FramesModel DualModel EqModel EqSpec.
Import ListNotations.
Local Open Scope R_scope.

Definition e (i j : nat) : R := if Nat.eqb i j then 1 else 0.
Definition ez (i j : nat) : Z := if Nat.eqb i j then 1%Z else 0%Z.
Lemma hd_e : forall i j, hd01 (e i j) = ez i j.
Proof. intros i j. unfold hd01, e, ez. destruct (Nat.eqb i j); destruct (Req_EM_T _ _); try reflexivity; lra. Qed.
Definition uv (i k : nat) : Vector := mkV (e i k) (e i (1 + k)) (e i (2 + k)).
Definition hz (i k : nat) : Z := combine (combine (combine 0 (ez i k)) (ez i (1 + k))) (ez i (2 + k)).
Lemma hz_ok : forall i k, hash_v hd01 (uv i k) = hz i k.
Proof. intros. unfold hash_v, uv, hz. cbn [vx vy vz]. rewrite !hd_e. reflexivity. Qed.

Ltac each i := repeat (destruct i as [|i]; [
  split; [intros j J; do 20 (destruct j as [|j]; [first [reflexivity | congruence]|]); reflexivity |
          vm_compute; discriminate]|]); exfalso; lia.
Ltac run u := intros i a0 L; exists (u 99%nat), (u i); cbn in L;
  unfold u, hash_t, hash_w, hash_v2, hash_d1, hash_d2, hash_tv, hash_vv, hash_ta, hash_va in *;
  cbn [tvel trot wforce wtorque v2x v2y d1t d1g d2t d2d d2dd tvvel tvrot vvp vvv tavel tarot vap vav vadv];
  rewrite ?hz_ok, ?hd_e; each i.

Definition u_t i : Twist := mkT (uv i 0) (uv i 3).
Definition u_w i : Wrench := mkW (uv i 0) (uv i 3).
Definition u_v2 i : Vector2 := mkV2 (e i 0) (e i 1).
Definition u_d1 i : dVel := mkD1 (e i 0) (e i 1).
Definition u_d2 i : dAcc := mkD2 (e i 0) (e i 1) (e i 2).
Definition u_vv i : VectorVel := mkVV (uv i 0) (uv i 3).
Definition u_tv i : TwistVel := mkTV (mkVV (uv i 0) (uv i 3)) (mkVV (uv i 6) (uv i 9)).
Definition u_va i : VectorAcc := mkVA (uv i 0) (uv i 3) (uv i 6).
Definition u_ta i : TwistAcc := mkTA (mkVA (uv i 0) (uv i 3) (uv i 6)) (mkVA (uv i 9) (uv i 12) (uv i 15)).

Lemma counts_v : every_member_counts co_v (hash_v hd01).
Proof.
  intros i a0 L. exists (uv 99 0), (uv i 0). cbn in L. rewrite !hz_ok. each i.
Qed.
Lemma counts_t : every_member_counts co_t (hash_t hd01). Proof. run u_t. Qed.
Lemma counts_w : every_member_counts co_w (hash_w hd01). Proof. run u_w. Qed.
Lemma counts_v2 : every_member_counts co_v2 (hash_v2 hd01). Proof. run u_v2. Qed.
Lemma counts_d1 : every_member_counts co_d1 (hash_d1 hd01). Proof. run u_d1. Qed.
Lemma counts_d2 : every_member_counts co_d2 (hash_d2 hd01). Proof. run u_d2. Qed.
Lemma counts_vv : every_member_counts co_vv (hash_vv hd01). Proof. run u_vv. Qed.
Lemma counts_tv : every_member_counts co_tv (hash_tv hd01). Proof. run u_tv. Qed.
Lemma counts_va : every_member_counts co_va (hash_va hd01). Proof. run u_va. Qed.
Lemma counts_ta : every_member_counts co_ta (hash_ta hd01). Proof. run u_ta. Qed.

(** Frames: the position. *)
Lemma quat_id : r_GetQuaternion r_id = (0, 0, 0, 1).
Proof.
  unfold r_GetQuaternion, r_id. cbn. unfold rpy_epsilon. destruct (Rlt_dec _ (1 + 1 + 1)); [|exfalso; lra].
  replace (1 + 1 + 1 + 1) with (2 * 2) by ring. rewrite sqrt_square by lra. f_equal; [f_equal; [f_equal|]|]; field.
Qed.
Lemma hr_id : hash_r hd01 r_id = combine (combine (combine (combine 0 0) 0) 0) 1.
Proof.
  unfold hash_r. rewrite quat_id. unfold hd01. destruct (Req_EM_T 0 0); [|lra]. destruct (Req_EM_T 1 0); [lra|]. reflexivity.
Qed.
Lemma counts_f : forall i, (i < 3)%nat -> exists a b, (forall j, j <> (9 + i)%nat -> nth j (co_f a) 0 = nth j (co_f b) 0) /\
  hash_f hd01 a <> hash_f hd01 b.
Proof.
  intros i L. exists (mkF r_id (uv 99 0)), (mkF r_id (uv i 0)). unfold hash_f. cbn [fp fM]. rewrite !hz_ok, !hr_id.
  repeat (destruct i as [|i]; [
  split; [intros j J; do 20 (destruct j as [|j]; [first [reflexivity | cbn in J; congruence]|]); reflexivity |
          vm_compute; discriminate]|]); exfalso; lia.
Qed.
Lemma hd01_ok : size_t_valued hd01 /\ ~ constant hd01.
Proof.
  split.
  - intro a. unfold hd01. destruct (Req_EM_T a 0); lia.
  - intro C. specialize (C 0 1). unfold hd01 in C. destruct (Req_EM_T 0 0); [|lra]. destruct (Req_EM_T 1 0); [lra|discriminate].
Qed.

(** A concrete table with lost entries: two equal keys in different buckets. *)
Lemma lost_key : v_eq (mkV 0 0 0) (mkV 0 0 (/ 2000000)) = true /\
  hash_v hd01 (mkV 0 0 0) <> hash_v hd01 (mkV 0 0 (/ 2000000)).
Proof.
  split.
  - unfold v_eq, v_Equal, Equal_d, kdl_epsilon. cbn.
    repeat match goal with |- context [Rlt_dec ?a ?b] => destruct (Rlt_dec a b) as [?|N]; [cbn|exfalso; lra] end. reflexivity.
  - unfold hash_v, hd01. cbn [vx vy vz]. destruct (Req_EM_T 0 0); [|lra]. destruct (Req_EM_T (/ 2000000) 0); [lra|].
    vm_compute. discriminate.
Qed.
Lemma counts_all :
  every_member_counts co_v (hash_v hd01) /\ every_member_counts co_t (hash_t hd01) /\ every_member_counts co_w (hash_w hd01) /\
  every_member_counts co_v2 (hash_v2 hd01) /\ every_member_counts co_d1 (hash_d1 hd01) /\ every_member_counts co_d2 (hash_d2 hd01) /\
  every_member_counts co_vv (hash_vv hd01) /\ every_member_counts co_tv (hash_tv hd01) /\ every_member_counts co_va (hash_va hd01) /\
  every_member_counts co_ta (hash_ta hd01).
Proof.
  exact (conj counts_v (conj counts_t (conj counts_w (conj counts_v2 (conj counts_d1 (conj counts_d2 (conj counts_vv
    (conj counts_tv (conj counts_va counts_ta))))))))).
Qed.
