(** Consequences: round trips, length, doubles, programs. *)
From Coq Require Import Reals Bool Lia Lra Psatz.
From Flocq Require Import Core.
From Verif Require Import FramesModel FramesSpec FramesProofs RotationProofs RotationProofs2 FlModel FlSpec FlProofs FlJoint FlWitness FlRotModel FlRotSpec FlRotProofs FlFrameProofs FlRotFinal SvdRound
  FlQuatModel FlQuatSpec FlQuatProofs FlQuatMain.
Local Open Scope R_scope.

Lemma fl_quat_error eps eta rnd M' M : 0 <= eps -> 0 <= eta -> eps + eta <= / 2000 -> rounds eps rnd -> is_rotation M -> r_near eta M' M ->
  exists q' q, fl_GetQuaternion rnd M' = Some q' /\ stands_for q M /\ q_near (60 * (eps + eta)) q' q.
Proof. intros. apply fl_quat_main; assumption. Qed.
Lemma q_unit_two q M : stands_for q M -> r_GetQuaternion M = q \/ r_GetQuaternion M = q_opp q.
Proof. destruct q as [[[x y] z] w]. intros [U <-]. apply Quaternion_roundtrip. exact U. Qed.
Lemma q_opp_opp q : q_opp (q_opp q) = q. Proof. destruct q as [[[x y] z] w]. cbn. rewrite !Ropp_involutive. reflexivity. Qed.
Lemma q_same p q M : stands_for p M -> stands_for q M -> p = q \/ p = q_opp q.
Proof.
  intros P Q. destruct (q_unit_two p M P) as [A|A], (q_unit_two q M Q) as [B|B]; rewrite A in B; auto.
  - right. rewrite <- B, q_opp_opp. reflexivity.
  - left. rewrite <- (q_opp_opp p), B, q_opp_opp. reflexivity.
Qed.
Lemma rounds_weaken e e' rnd : e <= e' -> rounds e rnd -> rounds e' rnd.
Proof. intros H R x. eapply Rle_trans; [apply R|]. apply Rmult_le_compat_r; [pose proof (Rabs_pos x); lra|exact H]. Qed.
(** matrix -> quaternion -> matrix *)
Lemma matrix_there_and_back eps eta rnd M' M : 0 <= eps -> 0 <= eta -> eps + eta <= / 150000 -> rounds eps rnd -> is_rotation M -> r_near eta M' M ->
  exists x y z w, fl_GetQuaternion rnd M' = Some (x, y, z, w) /\ r_near (1800 * (eps + eta)) (fl_Quaternion rnd x y z w) M.
Proof.
  intros He Ht Hs Hr HM HN. destruct (fl_quat_error eps eta rnd M' M He Ht ltac:(lra) Hr HM HN) as ([[[x' y'] z'] w'] & [[[x y] z] w] & E & [U <-] & N1 & N2 & N3 & N4).
  exists x', y', z', w'. split; [exact E|]. replace (1800 * (eps + eta)) with (30 * (60 * (eps + eta))) by ring.
  apply quat_err; try assumption; try lra. apply (rounds_weaken eps); [lra|exact Hr].
Qed.
(** quaternion -> matrix -> quaternion, up to the sign *)
Lemma quaternion_there_and_back eps rnd x' y' z' w' x y z w : 0 <= eps <= / 100000 -> rounds eps rnd -> x ^ 2 + y ^ 2 + z ^ 2 + w ^ 2 = 1 -> q_near eps (x', y', z', w') (x, y, z, w) ->
  exists q, fl_GetQuaternion rnd (fl_Quaternion rnd x' y' z' w') = Some q /\ (q_near (1860 * eps) q (x, y, z, w) \/ q_near (1860 * eps) q (- x, - y, - z, - w)).
Proof.
  intros He Hr U (N1 & N2 & N3 & N4). assert (H : r_near (30 * eps) (fl_Quaternion rnd x' y' z' w') (r_Quaternion x y z w)) by (apply quat_err; try assumption; lra).
  destruct (fl_quat_error eps (30 * eps) rnd _ _ ltac:(lra) ltac:(lra) ltac:(lra) Hr (is_rotation_Quaternion x y z w U) H) as (q' & q & E & S & N). exists q'. split; [exact E|].
  replace (1860 * eps) with (60 * (eps + 30 * eps)) by ring. destruct (q_same q (x, y, z, w) _ S (conj U eq_refl)) as [-> | ->]; [left|right]; exact N.
Qed.
(** the computed quaternion has length one up to rounding *)
Lemma quaternion_length eps eta rnd M' M q : 0 <= eps -> 0 <= eta -> eps + eta <= / 2000 -> rounds eps rnd -> is_rotation M -> r_near eta M' M ->
  fl_GetQuaternion rnd M' = Some q -> Rabs (q_length2 q - 1) <= 250 * (eps + eta).
Proof.
  intros He Ht Hs Hr HM HN Eq. destruct (fl_quat_error eps eta rnd M' M He Ht Hs Hr HM HN) as ([[[x' y'] z'] w'] & [[[x y] z] w] & E & [U _] & N1 & N2 & N3 & N4).
  rewrite Eq in E. injection E as ->. cbn [q_length2]. set (k := 60 * (eps + eta)) in *. assert (K : 0 <= k <= 3/100) by (unfold k; lra).
  assert (S : forall a' a, Rabs (a' - a) <= k -> Rabs (a' ^ 2 - a ^ 2) <= k * (2 * a ^ 2 + 1/2 + 3/100)).
  { intros a' a H. replace (a' ^ 2 - a ^ 2) with ((a' - a) * (2 * a + (a' - a))) by ring. rewrite Rabs_mult. apply Rmult_le_compat; auto using Rabs_pos.
    eapply Rle_trans; [apply Rabs_triang|]. assert (Rabs (2 * a) <= 2 * a ^ 2 + 1/2) by (apply Rabs_le; split; [pose proof (pow2_ge_0 (a + 1/2))|pose proof (pow2_ge_0 (a - 1/2))]; lra). lra. }
  pose proof (S _ _ N1). pose proof (S _ _ N2). pose proof (S _ _ N3). pose proof (S _ _ N4).
  replace (x' ^ 2 + y' ^ 2 + z' ^ 2 + w' ^ 2 - 1) with ((x' ^ 2 - x ^ 2) + (y' ^ 2 - y ^ 2) + (z' ^ 2 - z ^ 2) + (w' ^ 2 - w ^ 2)) by lra.
  eapply Rle_trans; [apply Rabs_triang|]. eapply Rle_trans; [apply Rplus_le_compat_r, Rabs_triang|]. eapply Rle_trans; [apply Rplus_le_compat_r, Rplus_le_compat_r, Rabs_triang|].
  assert (T : k * (2 * x ^ 2 + 1/2 + 3/100) + k * (2 * y ^ 2 + 1/2 + 3/100) + k * (2 * z ^ 2 + 1/2 + 3/100) + k * (2 * w ^ 2 + 1/2 + 3/100) = k * (2 * (x ^ 2 + y ^ 2 + z ^ 2 + w ^ 2) + 2 + 12/100)) by field.
  rewrite U in T. unfold k in *. lra.
Qed.
Lemma quaternion_double M' M : is_rotation M -> r_near (1 / 10 ^ 15) M' M ->
  exists x y z w q, fl_GetQuaternion double M' = Some (x, y, z, w) /\ stands_for q M /\ q_near (1 / 10 ^ 13) (x, y, z, w) q /\
    Rabs (q_length2 (x, y, z, w) - 1) <= 4 / 10 ^ 13 /\ r_near (3 / 10 ^ 12) (fl_Quaternion double x y z w) M.
Proof.
  intros HM HN. assert (U : 0 <= ulp1 <= 23 / 10 ^ 17) by (rewrite ulp1_eq; lra).
  destruct (fl_quat_error ulp1 (1 / 10 ^ 15) double M' M ltac:(lra) ltac:(lra) ltac:(lra) double_rounds_fl HM HN) as ([[[x' y'] z'] w'] & q & E & S & N).
  exists x', y', z', w', q. split; [exact E|]. split; [exact S|]. split; [|split].
  - destruct q as [[[x y] z] w]. destruct N as (N1 & N2 & N3 & N4). repeat split; lra.
  - eapply Rle_trans; [apply (quaternion_length ulp1 (1 / 10 ^ 15) double M' M _ ltac:(lra) ltac:(lra) ltac:(lra) double_rounds_fl HM HN E)|]. lra.
  - destruct (matrix_there_and_back ulp1 (1 / 10 ^ 15) double M' M ltac:(lra) ltac:(lra) ltac:(lra) double_rounds_fl HM HN) as (x & y & z & w & E2 & B). rewrite E in E2. injection E2 as <- <- <- <-.
    eapply rnear_weaken; [exact B|]. lra.
Qed.
(** the quaternion of the result of any program of at most a million calls *)
Lemma program_quaternion fsin fcos p' p : computes ulp1 fsin sin -> computes ulp1 fcos cos -> prog_stored ulp1 p' p -> INR (calls p) <= 1000000 ->
  exists q' q, fl_GetQuaternion double (fl_run double fsin fcos p') = Some q' /\ stands_for q (run p) /\ q_near (7 / 10 ^ 6) q' q.
Proof.
  intros Hs Hc H Hn. destruct (rot_double fsin fcos p' p Hs Hc H Hn) as (I & N & _). assert (U : 0 <= ulp1 <= 23 / 10 ^ 17) by (rewrite ulp1_eq; lra).
  destruct (fl_quat_error ulp1 (1 / 10 ^ 7) double _ _ ltac:(lra) ltac:(lra) ltac:(lra) double_rounds_fl I N) as (q' & q & E & S & K). exists q', q. split; [exact E|]. split; [exact S|].
  destruct q' as [[[x' y'] z'] w'], q as [[[x y] z] w]. destruct K as (N1 & N2 & N3 & N4). repeat split; lra.
Qed.
(** a turn about the first axis by any angle, half a turn among them *)
Lemma turn_stands a : stands_for (sin (a / 2), 0, 0, cos (a / 2)) (r_RotX a).
Proof.
  pose proof (sin2_cos2 (a / 2)) as S. unfold Rsqr in S. split; [lra|]. assert (E : a = 2 * (a / 2)) by field. unfold r_RotX, r_Quaternion. rewrite E at 5 6 7 8 || idtac.
  set (b := a / 2) in *. rewrite E, cos_2a, sin_2a. f_equal; lra || ring.
Qed.
Lemma turn_example a : exists q, fl_GetQuaternion double (fl_RotX (fun x => double (sin x)) (fun x => double (cos x)) a) = Some q /\
  (q_near (1 / 10 ^ 13) q (sin (a / 2), 0, 0, cos (a / 2)) \/ q_near (1 / 10 ^ 13) q (- sin (a / 2), 0, 0, - cos (a / 2))).
Proof.
  assert (U : 0 <= ulp1 <= 23 / 10 ^ 17) by (rewrite ulp1_eq; lra).
  assert (N : r_near (1 / 10 ^ 15) (fl_RotX (fun x => double (sin x)) (fun x => double (cos x)) a) (r_RotX a)).
  { pose proof (libm_sin a) as A. pose proof (libm_cos a) as B. cbv beta in A, B. unfold fl_RotX, r_RotX. unfold r_near; cbn [r0 r1 r2 r3 r4 r5 r6 r7 r8].
    replace (- double (sin a) - - sin a) with (- (double (sin a) - sin a)) by ring. rewrite Rabs_Ropp. repeat split; try lra; rewrite Rminus_diag_eq, Rabs_R0; lra || reflexivity. }
  destruct (quaternion_double _ _ (is_rotation_RotX a) N) as (x & y & z & w & q & E & S & K & _). exists (x, y, z, w). split; [exact E|].
  destruct (q_same q _ _ S (turn_stands a)) as [-> | ->]; [left; exact K|right]. cbn [q_opp] in K. rewrite Ropp_0 in K. exact K.
Qed.
