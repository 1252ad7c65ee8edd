(** C80: the singular configurations of the Puma. *)
From Coq Require Import String Reals List Arith Lia Lra Psatz ZArith Bool.
From Verif Require Import FramesModel FramesSpec FramesProofs FrameOpsProofs KinModel KinSpec RobotModel RobotSpec RobotProofs RobotJac.
Import ListNotations.
Local Open Scope R_scope.

Definition ee q3 : R := 4318/10000 * cos q3 + 203/10000 * sin q3.
Lemma sc1 x : sin x * sin x = 1 - cos x * cos x.
Proof. pose proof (sin2_cos2 x) as H. unfold Rsqr in H. lra. Qed.
Lemma elbow_det q2 q3 : h3 q2 q3 * rr q2 q3 - hh q2 q3 * r3 q2 q3 = 4318/10000 * ee q3.
Proof.
  unfold rr, hh, ee. transitivity (4318/10000 * (cos q2 * h3 q2 q3 - sin q2 * r3 q2 q3)); [ring|]. f_equal. unfold h3, r3. rewrite cos_plus, sin_plus.
  pose proof (sc1 q2) as E. replace (sin q2 * sin q2) with (1 - cos q2 * cos q2) in E by lra.
  transitivity (4318/10000 * cos q3 * (cos q2 * cos q2 + sin q2 * sin q2) + 203/10000 * sin q3 * (cos q2 * cos q2 + sin q2 * sin q2)); [ring|]. rewrite sc1. ring.
Qed.
Lemma elbow_long q2 q3 : 0 < h3 q2 q3 * h3 q2 q3 + r3 q2 q3 * r3 q2 q3.
Proof.
  replace (h3 q2 q3 * h3 q2 q3 + r3 q2 q3 * r3 q2 q3) with ((203/10000 * (203/10000) + 4318/10000 * (4318/10000)) * (cos (q2 + q3) * cos (q2 + q3) + sin (q2 + q3) * sin (q2 + q3)))
    by (unfold h3, r3; ring). rewrite sc1. lra.
Qed.
Definition det3 (a b c : Vector) : R := v_dot a (v_cross b c).
Lemma wrist_det q1 q2 q3 q4 q5 : det3 (z4 q1 q2 q3) (z5 q1 q2 q3 q4) (z6 q1 q2 q3 q4 q5) = - sin q5.
Proof.
  unfold det3, z4, z5, z6. generalize (q2 + q3). intros q. pose proof (sc1 q1) as E1. pose proof (sc1 q) as E. pose proof (sc1 q4) as E4.
  geo_unfold. generalize dependent (sin q1). generalize (cos q1). generalize dependent (sin q). generalize (cos q). generalize dependent (sin q4). generalize (cos q4).
  generalize (sin q5) (cos q5). intros s5 c5 c4 s4 E4 C S E c1 s1 E1. ring [E1 E E4].
Qed.
Lemma combo (a b c : Vector) x y z : v_add (v_scale a x) (v_add (v_scale b y) (v_scale c z)) = v_zero -> det3 a b c <> 0 -> x = 0 /\ y = 0 /\ z = 0.
Proof.
  intros E D. assert (K : forall d, v_dot (v_add (v_scale a x) (v_add (v_scale b y) (v_scale c z))) d = 0) by (intros d; rewrite E; destruct d; unfold v_dot, v_zero; cbn; ring).
  assert (X : x * det3 a b c = 0) by (rewrite <- (K (v_cross b c)); unfold det3; clear; geo).
  assert (Y : y * det3 a b c = 0) by (rewrite <- (K (v_cross c a)); unfold det3; clear; geo).
  assert (Z : z * det3 a b c = 0) by (rewrite <- (K (v_cross a b)); unfold det3; clear; geo).
  split; [|split]; [destruct (Rmult_integral _ _ X)|destruct (Rmult_integral _ _ Y)|destruct (Rmult_integral _ _ Z)]; auto; contradiction.
Qed.
Lemma cramer (a b c w : Vector) : det3 a b c <> 0 -> exists x y z, v_add (v_scale a x) (v_add (v_scale b y) (v_scale c z)) = w.
Proof.
  intros D. exists (det3 w b c / det3 a b c), (det3 a w c / det3 a b c), (det3 a b w / det3 a b c).
  revert D. destruct a, b, c, w. unfold det3. geo_unfold. intros D. f_equal; field; exact D.
Qed.

(** the motion of the tip *)
Definition lin q1 q2 q3 x1 x2 x3 : Vector :=
  mkV (- (sin q1 * rr q2 q3 - cos q1 * pd) * x1 - cos q1 * (hh q2 q3 * x2 + h3 q2 q3 * x3))
      ((cos q1 * rr q2 q3 + sin q1 * pd) * x1 - sin q1 * (hh q2 q3 * x2 + h3 q2 q3 * x3)) (rr q2 q3 * x2 + r3 q2 q3 * x3).
Definition rot3 q1 x1 x2 x3 : Vector := mkV (sin q1 * (x2 + x3)) (- (cos q1 * (x2 + x3))) x1.
Lemma puma_motion q1 q2 q3 q4 q5 x1 x2 x3 x4 x5 x6 : jac_mul (puma_cols q1 q2 q3 q4 q5) [x1; x2; x3; x4; x5; x6] =
  mkT (lin q1 q2 q3 x1 x2 x3)
      (v_add (rot3 q1 x1 x2 x3) (v_add (v_scale (z4 q1 q2 q3) x4) (v_add (v_scale (z5 q1 q2 q3 q4) x5) (v_scale (z6 q1 q2 q3 q4 q5) x6)))).
Proof.
  unfold puma_cols, lin, rot3. generalize (z4 q1 q2 q3) (z5 q1 q2 q3 q4) (z6 q1 q2 q3 q4 q5) (rr q2 q3) (hh q2 q3) (h3 q2 q3) (r3 q2 q3) pd. intros.
  cbn [jac_mul]. unfold ez. geo.
Qed.
Lemma lin_zero q1 q2 q3 x1 x2 x3 : lin q1 q2 q3 x1 x2 x3 = v_zero <->
  rr q2 q3 * x1 = 0 /\ pd * x1 - (hh q2 q3 * x2 + h3 q2 q3 * x3) = 0 /\ rr q2 q3 * x2 + r3 q2 q3 * x3 = 0.
Proof.
  unfold lin, v_zero. pose proof (sc1 q1) as E. set (H := hh q2 q3 * x2 + h3 q2 q3 * x3). split.
  - intros K. injection K as K1 K2 K3. split; [|split; [|exact K3]].
    + transitivity (- sin q1 * (- (sin q1 * rr q2 q3 - cos q1 * pd) * x1 - cos q1 * H) + cos q1 * ((cos q1 * rr q2 q3 + sin q1 * pd) * x1 - sin q1 * H)); [ring [E]|].
      rewrite K1, K2. ring.
    + transitivity (cos q1 * (- (sin q1 * rr q2 q3 - cos q1 * pd) * x1 - cos q1 * H) + sin q1 * ((cos q1 * rr q2 q3 + sin q1 * pd) * x1 - sin q1 * H)); [ring [E]|].
      rewrite K1, K2. ring.
  - intros (K1 & K2 & K3). f_equal; [| |exact K3].
    + transitivity (- sin q1 * (rr q2 q3 * x1) + cos q1 * (pd * x1 - H)); [ring|]. rewrite K1, K2. ring.
    + transitivity (cos q1 * (rr q2 q3 * x1) + sin q1 * (pd * x1 - H)); [ring|]. rewrite K1, K2. ring.
Qed.
Lemma sing_spec q2 q3 q5 : puma_singular q2 q3 q5 <-> sin q5 = 0 \/ rr q2 q3 = 0 \/ ee q3 = 0.
Proof.
  unfold puma_singular, ee. replace (puma_reach q2 q3) with (rr q2 q3) by (unfold puma_reach, rr, r3; lra).
  replace (0.4318 * cos q3 + 0.0203 * sin q3) with (4318/10000 * cos q3 + 203/10000 * sin q3) by lra. tauto.
Qed.
Lemma v_zero_split a b : v_add a b = v_zero -> b = v_neg a.
Proof. destruct a, b. geo_unfold. intros H. injection H as H1 H2 H3. f_equal; lra. Qed.
Lemma puma_singularities q1 q2 q3 q4 q5 q6 : singular_at puma [q1; q2; q3; q4; q5; q6] <-> puma_singular q2 q3 q5.
Proof.
  rewrite sing_spec. unfold singular_at. rewrite puma_jac. split.
  - intros (qd & L & (j & Nj) & E). destruct (len6 qd L) as (x1 & x2 & x3 & x4 & x5 & x6 & ->). rewrite puma_motion in E.
    pose proof (f_equal tvel E) as El. pose proof (f_equal trot E) as Er. cbn [tvel trot t_zero] in El, Er. apply lin_zero in El as (K1 & K2 & K3).
    destruct (Req_dec (sin q5) 0) as [|N5]; [auto|]. destruct (Req_dec (rr q2 q3) 0) as [|Nr]; [auto|]. destruct (Req_dec (ee q3) 0) as [|Ne]; [auto|]. exfalso.
    assert (X1 : x1 = 0) by (destruct (Rmult_integral _ _ K1); auto; contradiction). subst x1.
    pose proof (elbow_det q2 q3) as D. assert (D0 : h3 q2 q3 * rr q2 q3 - hh q2 q3 * r3 q2 q3 <> 0) by (rewrite D; intros Z; apply Ne; lra).
    assert (X2 : (h3 q2 q3 * rr q2 q3 - hh q2 q3 * r3 q2 q3) * x2 = 0).
    { transitivity (h3 q2 q3 * (rr q2 q3 * x2 + r3 q2 q3 * x3) + r3 q2 q3 * (pd * 0 - (hh q2 q3 * x2 + h3 q2 q3 * x3))); [ring|]. rewrite K2, K3. ring. }
    assert (X3 : (h3 q2 q3 * rr q2 q3 - hh q2 q3 * r3 q2 q3) * x3 = 0).
    { transitivity (- hh q2 q3 * (rr q2 q3 * x2 + r3 q2 q3 * x3) - rr q2 q3 * (pd * 0 - (hh q2 q3 * x2 + h3 q2 q3 * x3))); [ring|]. rewrite K2, K3. ring. }
    destruct (Rmult_integral _ _ X2) as [|Y2]; [contradiction|]. destruct (Rmult_integral _ _ X3) as [|Y3]; [contradiction|]. subst x2 x3.
    assert (R0 : rot3 q1 0 0 0 = v_zero) by (unfold rot3, v_zero; f_equal; ring). rewrite R0 in Er.
    assert (Er' : v_add (v_scale (z4 q1 q2 q3) x4) (v_add (v_scale (z5 q1 q2 q3 q4) x5) (v_scale (z6 q1 q2 q3 q4 q5) x6)) = v_zero).
    { rewrite <- Er. clear. generalize (z4 q1 q2 q3) (z5 q1 q2 q3 q4) (z6 q1 q2 q3 q4 q5). geo. }
    apply combo in Er' as (Y4 & Y5 & Y6); [|rewrite wrist_det; lra]. subst.
    apply Nj. do 6 (destruct j as [|j]; [reflexivity|]). destruct j; reflexivity.
  - intros H. destruct (Req_dec (sin q5) 0) as [Z5|N5].
    + (* the hand is in line with the forearm *)
      exists [0; 0; 0; cos q5; 0; -1]. split; [reflexivity|]. split.
      { exists 5%nat. cbn. lra. }
      rewrite puma_motion. assert (L0 : lin q1 q2 q3 0 0 0 = v_zero) by (unfold lin, v_zero; f_equal; ring). rewrite L0. unfold t_zero. f_equal.
      pose proof (sc1 q5) as E5. rewrite Z5 in E5. unfold rot3, z4, z5, z6. rewrite Z5. geo_unfold. f_equal; ring.
    + assert (X : exists x1 x2 x3, lin q1 q2 q3 x1 x2 x3 = v_zero /\ (x1 <> 0 \/ x2 <> 0 \/ x3 <> 0)).
      { destruct H as [H|[H|H]]; [contradiction| |].
        - exists (hh q2 q3), pd, 0. split; [|right; left; unfold pd; lra]. apply lin_zero. rewrite H. split; [|split]; ring.
        - exists 0, (h3 q2 q3 * h3 q2 q3 + r3 q2 q3 * r3 q2 q3), (- (hh q2 q3 * h3 q2 q3 + rr q2 q3 * r3 q2 q3)).
          split; [|right; left; pose proof (elbow_long q2 q3); lra]. apply lin_zero. pose proof (elbow_det q2 q3) as D. rewrite H in D.
          split; [ring|]. split.
          + transitivity (r3 q2 q3 * (h3 q2 q3 * rr q2 q3 - hh q2 q3 * r3 q2 q3)); [ring|]. rewrite D. ring.
          + transitivity (h3 q2 q3 * (h3 q2 q3 * rr q2 q3 - hh q2 q3 * r3 q2 q3)); [ring|]. rewrite D. ring. }
      destruct X as (x1 & x2 & x3 & L & N).
      destruct (cramer (z4 q1 q2 q3) (z5 q1 q2 q3 q4) (z6 q1 q2 q3 q4 q5) (v_neg (rot3 q1 x1 x2 x3)) ltac:(rewrite wrist_det; lra)) as (x4 & x5 & x6 & C).
      exists [x1; x2; x3; x4; x5; x6]. split; [reflexivity|]. split.
      { destruct N as [N|[N|N]]; [exists 0%nat|exists 1%nat|exists 2%nat]; exact N. }
      rewrite puma_motion, L, C. unfold t_zero. f_equal. clear. generalize (rot3 q1 x1 x2 x3). geo.
Qed.
