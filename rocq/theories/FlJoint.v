(** Errors of joint and segment poses in rounded arithmetic. *)
From Coq Require Import Reals String List ZArith Bool Arith Lia Lra Psatz.
From Verif Require Import FramesModel FramesSpec FramesProofs FrameOpsProofs Outcome InertiaModel DualModel KinModel KinSpec DerivProofs KinProofs
  RotNear LipProofs FlModel FlSpec FlProofs.
Import ListNotations.
Local Open Scope R_scope.

Section Joint.
Variables (eps A D : R) (rnd fsin fcos : R -> R).
Hypothesis HA : 1 <= A.
Hypothesis HD : 1 <= D.
Hypothesis He : 0 <= eps.
Let k := eps * A.
Hypothesis Hk : k <= / 2500.
Hypothesis Hrnd : rounds eps rnd.
Hypothesis Hsin : computes eps fsin sin.
Hypothesis Hcos : computes eps fcos cos.

Lemma eps_k : eps <= k. Proof. unfold k. nra. Qed.
Lemma k_nn : 0 <= k. Proof. pose proof eps_k. lra. Qed.
Lemma eps_small : 0 <= eps <= / 100. Proof. pose proof eps_k. lra. Qed.

(** [x'] is computed for [x]: the error is at most c k w, and x at most X w. *)
Definition ap (c w X x' x : R) : Prop := 0 <= c /\ 0 <= X /\ Rabs (x' - x) <= c * (k * w) /\ Rabs x <= X * w.
Lemma ap_weaken c w X x' x c' X' : ap c w X x' x -> c <= c' -> X <= X' -> 0 <= w -> ap c' w X' x' x.
Proof.
  intros (C & X0 & E & B) Hc HX Hw. pose proof k_nn. assert (0 <= k * w) by nra.
  split; [lra|]. split; [lra|]. split; [eapply Rle_trans; [exact E|]; apply Rmult_le_compat_r; assumption|].
  eapply Rle_trans; [exact B|]. apply Rmult_le_compat_r; assumption.
Qed.
Lemma ap_const w x X : 0 <= X -> Rabs x <= X * w -> ap 0 w X x x.
Proof. intros HX H. split; [lra|]. split; [exact HX|]. split; [|exact H]. replace (x - x) with 0 by ring. rewrite Rabs_R0. lra. Qed.
Lemma ap_neg c w X x' x : ap c w X x' x -> ap c w X (- x') (- x).
Proof.
  intros (C & X0 & E & B). split; [exact C|]. split; [exact X0|]. split; [|rewrite Rabs_Ropp; exact B].
  replace (- x' - - x) with (- (x' - x)) by ring. rewrite Rabs_Ropp. exact E.
Qed.
Lemma ap_add c d w X Y x' x y' y : 1 <= w -> ap c w X x' x -> ap d w Y y' y ->
  ap (c + d + (X + Y) + (c + d) / 2500 + 1) w (X + Y) (rnd (x' + y')) (x + y).
Proof.
  intros Hw (C & X0 & Ex & Bx) (D0 & Y0 & Ey & By). pose proof k_nn. pose proof eps_k. assert (Hkw : 0 <= k * w <= / 2500 * w) by nra.
  split; [lra|]. split; [lra|]. apply abs_split in Ex, Bx, Ey, By. split; [|apply abs_join; lra].
  assert (B : Rabs (x' + y') <= (X + Y + (c + d) / 2500) * w).
  { apply abs_join. assert (0 <= c * (k * w) <= c * (/ 2500 * w)) by (split; [nra|apply Rmult_le_compat_l; lra]).
    assert (0 <= d * (k * w) <= d * (/ 2500 * w)) by (split; [nra|apply Rmult_le_compat_l; lra]). lra. }
  pose proof (rnd_bound eps rnd eps_small Hrnd _ _ B) as E. apply abs_split in E.
  assert (F : eps * ((X + Y + (c + d) / 2500) * w + 1) <= k * ((X + Y + (c + d) / 2500 + 1) * w)) by (apply Rmult_le_compat; nra).
  apply abs_join. lra.
Qed.
Lemma ap_mul c d w X Y x' x y' y : 1 <= w -> ap c w X x' x -> ap d 1 Y y' y ->
  ap (c * Y + d * X + c * d / 2500 + X * Y + (c * Y + d * X + c * d / 2500) / 2500 + 1) w (X * Y) (rnd (x' * y')) (x * y).
Proof.
  intros Hw (C & X0 & Ex & Bx) (D0 & Y0 & Ey & By). pose proof k_nn. pose proof eps_k. assert (Hkw : 0 <= k * w <= / 2500 * w) by nra.
  set (e0 := c * Y + d * X + c * d / 2500).
  assert (P1 : 0 <= c * Y) by nra. assert (P2 : 0 <= d * X) by nra. assert (P3 : 0 <= c * d) by nra. assert (P4 : 0 <= X * Y) by nra.
  assert (E0 : 0 <= e0) by (unfold e0; lra).
  split; [unfold e0 in *; lra|]. split; [lra|]. rewrite Rmult_1_r in Ey, By.
  assert (Bxy : Rabs (x * y) <= X * Y * w) by (replace (X * Y * w) with (X * w * Y) by ring; apply abs_mul; assumption).
  split; [|exact Bxy].
  assert (E : Rabs (x' * y' - x * y) <= e0 * (k * w)).
  { replace (x' * y' - x * y) with ((x' - x) * (y' - y) + ((x' - x) * y + x * (y' - y))) by ring.
    eapply Rle_trans; [apply Rabs_triang|]. pose proof (Rabs_triang ((x' - x) * y) (x * (y' - y))) as T.
    pose proof (abs_mul _ _ _ _ Ex Ey) as M1. pose proof (abs_mul _ _ _ _ Ex By) as M2. pose proof (abs_mul _ _ _ _ Bx Ey) as M3.
    assert (c * (k * w) * (d * k) <= c * d / 2500 * (k * w)) by (replace (c * (k * w) * (d * k)) with (c * d * (k * w) * k) by ring;
      replace (c * d / 2500 * (k * w)) with (c * d * (k * w) * / 2500) by field; apply Rmult_le_compat_l; [apply Rmult_le_pos; lra|exact Hk]).
    unfold e0. lra. }
  assert (B : Rabs (x' * y') <= (X * Y + e0 / 2500) * w).
  { apply abs_split in E, Bxy. apply abs_join. assert (0 <= e0 * (k * w) <= e0 * (/ 2500 * w)) by (split; [nra|apply Rmult_le_compat_l; lra]). lra. }
  pose proof (rnd_bound eps rnd eps_small Hrnd _ _ B) as F. apply abs_split in E, F.
  assert (G : eps * ((X * Y + e0 / 2500) * w + 1) <= k * ((X * Y + e0 / 2500 + 1) * w)) by (apply Rmult_le_compat; nra).
  fold e0. apply abs_join. lra.
Qed.

(** The joint variable. *)
Lemma travel_err s o q T : 1 <= T -> Rabs (s * q) + Rabs o <= T -> Rabs (rnd (rnd (s * q) + o) - (s * q + o)) <= 5 * (eps * T).
Proof.
  intros HT H. pose proof (Rabs_pos o). pose proof (Rabs_pos (s * q)). pose proof eps_small.
  assert (B1 : Rabs (s * q) <= T) by lra. pose proof (rnd_bound eps rnd eps_small Hrnd _ _ B1) as E1.
  assert (Q1 : 0 <= eps * (T + 1) <= / 100 * (2 * T)) by nra.
  assert (B2 : Rabs (rnd (s * q) + o) <= 11 / 10 * T).
  { replace (rnd (s * q) + o) with ((rnd (s * q) - s * q) + (s * q + o)) by ring. eapply Rle_trans; [apply Rabs_triang|].
    pose proof (Rabs_triang (s * q) o). lra. }
  pose proof (rnd_bound eps rnd eps_small Hrnd _ _ B2) as E2. apply abs_split in E1, E2. apply abs_join. assert (0 <= eps * T) by nra. assert (eps <= eps * T) by nra. lra.
Qed.
Lemma ap_sin a' a : Rabs (a' - a) <= 5 * k -> ap 6 1 1 (fsin a') (sin a).
Proof.
  intros H. split; [lra|]. split; [lra|]. pose proof eps_k. split.
  - replace (fsin a' - sin a) with ((fsin a' - sin a') + (sin a' - sin a)) by ring. eapply Rle_trans; [apply Rabs_triang|].
    pose proof (Hsin a'). pose proof (sin_lip a' a). lra.
  - pose proof (SIN_bound a). apply abs_join. lra.
Qed.
Lemma ap_cos a' a : Rabs (a' - a) <= 5 * k -> ap 6 1 1 (fcos a') (cos a).
Proof.
  intros H. split; [lra|]. split; [lra|]. pose proof eps_k. split.
  - replace (fcos a' - cos a) with ((fcos a' - cos a') + (cos a' - cos a)) by ring. eapply Rle_trans; [apply Rabs_triang|].
    pose proof (Hcos a'). pose proof (cos_lip a' a). lra.
  - pose proof (COS_bound a). apply abs_join. lra.
Qed.
Lemma ap_entry c w X x' x C : ap c w X x' x -> c <= C -> 0 <= w -> Rabs (x' - x) <= C * (k * w).
Proof. intros (C0 & _ & E & _) H Hw. pose proof k_nn. eapply Rle_trans; [exact E|]. apply Rmult_le_compat_r; nra. Qed.

Lemma Rot2_err v' v a' a : v_near eps v' v -> v_near 1 v v_zero -> Rabs (a' - a) <= 5 * k -> r_near (34 * k) (fl_Rot2 rnd fsin fcos v' a') (r_Rot2 v a).
Proof.
  intros (X & Y & Z) (BX & BY & BZ) Ha. cbn [v_zero vx vy vz] in BX, BY, BZ. rewrite Rminus_0_r in BX, BY, BZ. pose proof eps_k.
  assert (Ax : ap 1 1 1 (vx v') (vx v)) by (split; [lra|split; [lra|split; lra]]).
  assert (Ay : ap 1 1 1 (vy v') (vy v)) by (split; [lra|split; [lra|split; lra]]).
  assert (Az : ap 1 1 1 (vz v') (vz v)) by (split; [lra|split; [lra|split; lra]]).
  pose proof (ap_sin a' a Ha) as St. pose proof (ap_cos a' a Ha) as Ct.
  assert (One : ap 0 1 1 1 1) by (apply ap_const; [lra|rewrite Rabs_R1; lra]).
  assert (Vt : ap 10 1 2 (rnd (1 - fcos a')) (1 - cos a)).
  { eapply ap_weaken; [unfold Rminus; apply ap_add; [lra|exact One|apply ap_neg; exact Ct]|lra|lra|lra]. }
  assert (V : forall u' u, ap 1 1 1 u' u -> ap (151 / 10) 1 2 (rnd (rnd (1 - fcos a') * u')) ((1 - cos a) * u)).
  { intros u' u Hu. eapply ap_weaken; [apply ap_mul; [lra|exact Vt|exact Hu]|lra|lra|lra]. }
  assert (VV : forall u' u t' t, ap 1 1 1 u' u -> ap 1 1 1 t' t -> ap (203 / 10) 1 2 (rnd (rnd (rnd (1 - fcos a') * u') * t')) ((1 - cos a) * u * t)).
  { intros u' u t' t Hu Ht. eapply ap_weaken; [apply ap_mul; [lra|exact (V u' u Hu)|exact Ht]|lra|lra|lra]. }
  assert (SS : forall u' u, ap 1 1 1 u' u -> ap (91 / 10) 1 1 (rnd (u' * fsin a')) (u * sin a)).
  { intros u' u Hu. eapply ap_weaken; [apply ap_mul; [lra|exact Hu|exact St]|lra|lra|lra]. }
  assert (Fin : forall c X Y' p' p d q' q, ap c 1 X p' p -> ap d 1 Y' q' q -> c + d + (X + Y') + (c + d) / 2500 + 1 <= 34 -> Rabs (rnd (p' + q') - (p + q)) <= 34 * k).
  { intros c X' Y' p' p d q' q Hp Hq Hc. pose proof (ap_entry _ _ _ _ _ (34) (ap_add _ _ 1 _ _ _ _ _ _ ltac:(lra) Hp Hq) Hc ltac:(lra)) as Q. rewrite Rmult_1_r in Q. exact Q. }
  assert (G : r_near (34 * k) (fl_Rot2 rnd fsin fcos v' a') (r_Rot2 v a)).
  { unfold r_near, fl_Rot2, r_Rot2; cbn [r0 r1 r2 r3 r4 r5 r6 r7 r8]. repeat split.
    - eapply Fin; [exact Ct|exact (VV _ _ _ _ Ax Ax)|lra].
    - eapply Fin; [apply ap_neg; exact (SS _ _ Az)|exact (VV _ _ _ _ Ax Ay)|lra].
    - eapply Fin; [exact (SS _ _ Ay)|exact (VV _ _ _ _ Ax Az)|lra].
    - eapply Fin; [exact (SS _ _ Az)|exact (VV _ _ _ _ Ax Ay)|lra].
    - eapply Fin; [exact Ct|exact (VV _ _ _ _ Ay Ay)|lra].
    - eapply Fin; [apply ap_neg; exact (SS _ _ Ax)|exact (VV _ _ _ _ Ay Az)|lra].
    - eapply Fin; [apply ap_neg; exact (SS _ _ Ay)|exact (VV _ _ _ _ Ax Az)|lra].
    - eapply Fin; [exact (SS _ _ Ax)|exact (VV _ _ _ _ Ay Az)|lra].
    - eapply Fin; [exact Ct|exact (VV _ _ _ _ Az Az)|lra]. }
  exact G.
Qed.

Lemma near_self e M : 0 <= e -> r_near e M M.
Proof. intros H. unfold r_near. repeat split; (rewrite Rminus_diag_eq by reflexivity; rewrite Rabs_R0; exact H). Qed.
Lemma vnear_self e v : 0 <= e -> v_near e v v.
Proof. intros H. unfold v_near. repeat split; (rewrite Rminus_diag_eq by reflexivity; rewrite Rabs_R0; exact H). Qed.
Lemma vnear_weaken e e' a b : v_near e a b -> e <= e' -> v_near e' a b.
Proof. intros (X & Y & Z) H. repeat split; lra. Qed.
Lemma rnear_weaken e e' a b : r_near e a b -> e <= e' -> r_near e' a b.
Proof. intros ((X0 & Y0 & Z0) & (X1 & Y1 & Z1) & (X2 & Y2 & Z2)) H. repeat split; lra. Qed.

Ltac zeros := cbn; rewrite ?Rminus_0_r, ?Rminus_diag_eq by reflexivity; rewrite ?Rabs_R0.
(** Joint poses: the rotation, the offset, and the size of the offset. *)
Lemma joint_err s' s q : stored eps s' s -> moves_within A D (s, q) ->
  let f' := fl_joint_pose rnd fsin fcos (sjoint s') q in let f := joint_pose (sjoint s) q in
  r_near (34 * k) (fM f') (fM f) /\ v_near (13 * (k * D)) (fp f') (fp f) /\ v_near (2 * D) (fp f) v_zero.
Proof.
  intros (Et & Es & Eo & Nax & Nor & _) (Tr & Bax & Bor & _). cbn [fst snd] in *. cbv zeta.
  pose proof k_nn as K0. pose proof eps_k as Ek. assert (KD : 0 <= k * D) by nra. assert (ekD : eps <= k * D) by nra.
  unfold fl_joint_pose, joint_pose. rewrite Et, Es, Eo. unfold rotational in Tr.
  set (a := jscale (sjoint s) * q + joffset (sjoint s)). set (a' := rnd (rnd (jscale (sjoint s) * q) + joffset (sjoint s))).
  assert (Rot : Rabs (jscale (sjoint s) * q) + Rabs (joffset (sjoint s)) <= A -> Rabs (a' - a) <= 5 * k) by (intros H; apply (travel_err _ _ _ A HA H)).
  assert (Sl : Rabs (jscale (sjoint s) * q) + Rabs (joffset (sjoint s)) <= D -> ap 5 D 1 a' a).
  { intros H. pose proof (travel_err _ _ _ D HD H) as T. fold a a' in T. split; [lra|]. split; [lra|]. split.
    - eapply Rle_trans; [exact T|]. assert (eps * D <= k * D) by (apply Rmult_le_compat_r; lra). lra.
    - unfold a. pose proof (Rabs_triang (jscale (sjoint s) * q) (joffset (sjoint s))). lra. }
  assert (V0 : v_near (2 * D) v_zero v_zero) by (apply vnear_self; lra).
  destruct (jtype (sjoint s)); cbn [fM fp f_of_rot f_of_vec f_id].
  - (* RotAxis *) specialize (Rot Tr). split; [apply Rot2_err; assumption|]. split; [eapply vnear_weaken; [exact Nor|lra]|eapply vnear_weaken; [exact Bor|lra]].
  - pose proof (ap_entry _ _ _ _ _ 34 (ap_sin a' a (Rot Tr)) ltac:(lra) ltac:(lra)) as E1. pose proof (ap_entry _ _ _ _ _ 34 (ap_cos a' a (Rot Tr)) ltac:(lra) ltac:(lra)) as E2.
    rewrite Rmult_1_r in E1, E2. split; [|split; [apply vnear_self; lra|exact V0]].
    unfold r_near, fl_RotX, r_RotX; cbn [r0 r1 r2 r3 r4 r5 r6 r7 r8]. replace (- fsin a' - - sin a) with (- (fsin a' - sin a)) by ring. rewrite Rabs_Ropp.
    repeat split; try assumption; (rewrite Rminus_diag_eq by reflexivity; rewrite Rabs_R0; lra).
  - pose proof (ap_entry _ _ _ _ _ 34 (ap_sin a' a (Rot Tr)) ltac:(lra) ltac:(lra)) as E1. pose proof (ap_entry _ _ _ _ _ 34 (ap_cos a' a (Rot Tr)) ltac:(lra) ltac:(lra)) as E2.
    rewrite Rmult_1_r in E1, E2. split; [|split; [apply vnear_self; lra|exact V0]].
    unfold r_near, fl_RotY, r_RotY; cbn [r0 r1 r2 r3 r4 r5 r6 r7 r8]. replace (- fsin a' - - sin a) with (- (fsin a' - sin a)) by ring. rewrite Rabs_Ropp.
    repeat split; try assumption; (rewrite Rminus_diag_eq by reflexivity; rewrite Rabs_R0; lra).
  - pose proof (ap_entry _ _ _ _ _ 34 (ap_sin a' a (Rot Tr)) ltac:(lra) ltac:(lra)) as E1. pose proof (ap_entry _ _ _ _ _ 34 (ap_cos a' a (Rot Tr)) ltac:(lra) ltac:(lra)) as E2.
    rewrite Rmult_1_r in E1, E2. split; [|split; [apply vnear_self; lra|exact V0]].
    unfold r_near, fl_RotZ, r_RotZ; cbn [r0 r1 r2 r3 r4 r5 r6 r7 r8]. replace (- fsin a' - - sin a) with (- (fsin a' - sin a)) by ring. rewrite Rabs_Ropp.
    repeat split; try assumption; (rewrite Rminus_diag_eq by reflexivity; rewrite Rabs_R0; lra).
  - (* TransAxis *) specialize (Sl Tr). split; [apply near_self; lra|].
    destruct Nax as (X1 & Y1 & Z1), Nor as (X2 & Y2 & Z2), Bax as (BX & BY & BZ), Bor as (OX & OY & OZ). cbn [v_zero vx vy vz] in BX, BY, BZ, OX, OY, OZ.
    rewrite Rminus_0_r in BX, BY, BZ, OX, OY, OZ.
    assert (Go : forall u' u o' o, Rabs (u' - u) <= eps -> Rabs u <= 1 -> Rabs (o' - o) <= eps -> Rabs o <= D ->
      Rabs (rnd (o' + rnd (u' * a')) - (o + u * a)) <= 13 * (k * D) /\ Rabs (o + u * a) <= 2 * D).
    { intros u' u o' o Hu Bu Ho Bo.
      assert (Au : ap 1 1 1 u' u) by (split; [lra|split; [lra|split; lra]]).
      assert (Ao : ap 1 D 1 o' o) by (split; [lra|split; [lra|split; lra]]).
      pose proof (ap_mul _ _ D _ _ _ _ _ _ HD Sl Au) as M. rewrite (Rmult_comm a' u'), (Rmult_comm a u) in M.
      pose proof (ap_add _ _ D _ _ _ _ _ _ HD Ao M) as S0. split.
      - eapply ap_entry; [exact S0|lra|lra].
      - destruct S0 as (_ & _ & _ & B). eapply Rle_trans; [exact B|]. apply Rmult_le_compat_r; lra. }
    unfold v_near, fl_v_add, fl_v_scale, v_add, v_scale; cbn [v_zero vx vy vz]. rewrite !Rminus_0_r.
    destruct (Go _ _ _ _ X1 BX X2 OX). destruct (Go _ _ _ _ Y1 BY Y2 OY). destruct (Go _ _ _ _ Z1 BZ Z2 OZ). repeat split; assumption.
  - specialize (Sl Tr). pose proof (ap_entry _ _ _ _ _ 13 Sl ltac:(lra) ltac:(lra)) as E1. destruct Sl as (_ & _ & _ & B).
    split; [apply near_self; lra|]. unfold v_near; cbn [v_zero vx vy vz]. rewrite !Rminus_0_r, !Rabs_R0. repeat split; first [assumption|lra|rewrite Rminus_0_r, Rabs_R0; lra].
  - specialize (Sl Tr). pose proof (ap_entry _ _ _ _ _ 13 Sl ltac:(lra) ltac:(lra)) as E1. destruct Sl as (_ & _ & _ & B).
    split; [apply near_self; lra|]. unfold v_near; cbn [v_zero vx vy vz]. rewrite !Rminus_0_r, !Rabs_R0. repeat split; first [assumption|lra|rewrite Rminus_0_r, Rabs_R0; lra].
  - specialize (Sl Tr). pose proof (ap_entry _ _ _ _ _ 13 Sl ltac:(lra) ltac:(lra)) as E1. destruct Sl as (_ & _ & _ & B).
    split; [apply near_self; lra|]. unfold v_near; cbn [v_zero vx vy vz]. rewrite !Rminus_0_r, !Rabs_R0. repeat split; first [assumption|lra|rewrite Rminus_0_r, Rabs_R0; lra].
  - split; [apply near_self; lra|]. split; [apply vnear_self; lra|exact V0].
Qed.

(** Segments. *)
Lemma opb_ext M N e : opb M e -> M = N -> opb N e. Proof. intros H <-. exact H. Qed.
Lemma opb_shift M' M a e : opb M a -> opb (r_minus M' M) e -> opb M' (a + e).
Proof. intros H1 H2. eapply opb_ext; [apply (opb_plus _ _ _ _ H1 H2)|]. destruct M, M'. unfold r_plus, r_minus; cbn; f_equal; ring. Qed.
(** Rounded product of perturbed matrices. *)
Lemma mul_pert P' P Q' Q a b : is_rotation P -> is_rotation Q -> opb (r_minus P' P) a -> opb (r_minus Q' Q) b ->
  opb (r_minus (fl_r_mul rnd P' Q') (r_mul P Q)) (3 * (eps * (9 * ((1 + a) * (1 + b)) + 6)) + (a * (1 + b) + b)).
Proof.
  intros HP HQ Ha Hb. pose proof (opb_shift _ _ _ _ (opb_rot _ HP) Ha) as P1. pose proof (opb_shift _ _ _ _ (opb_rot _ HQ) Hb) as Q1.
  pose proof (fl_mul_err eps rnd eps_small Hrnd _ _ _ _ P1 Q1) as E1.
  pose proof (opb_mul _ _ _ _ Ha Q1) as E2. pose proof (opb_mul _ _ _ _ (opb_rot _ HP) Hb) as E3.
  eapply opb_ext; [eapply opb_weaken; [exact (opb_plus _ _ _ _ E1 (opb_plus _ _ _ _ E2 E3))|right; ring]|].
  destruct P, P', Q, Q'. unfold r_plus, r_minus, r_mul; cbn; f_equal; ring.
Qed.
(** Rounded image of a perturbed vector, plus a perturbed offset. *)
Lemma app_pert P' P v' v x' x a b c : is_rotation P -> opb (r_minus P' P) a -> en (v_sub v' v) <= b -> en (v_sub x' x) <= c ->
  let m := (1 + a) * (en v + b) in let rho := 2 * (eps * (9 * m + 6)) in
  en (v_sub (fl_v_add rnd (fl_r_app rnd P' v') x') (v_add (r_app P v) x)) <= 2 * (eps * (m + rho + (en x + c) + 1)) + rho + a * (en v + b) + b + c.
Proof.
  intros HP Ha Hv Hx m rho. pose proof (opb_nn _ _ Ha) as A0. pose proof (opb_shift _ _ _ _ (opb_rot _ HP) Ha) as P1.
  assert (V1 : en v' <= en v + b). { replace v' with (v_add v (v_sub v' v)) by (destruct v', v; unfold v_add, v_sub; cbn; f_equal; ring). eapply Rle_trans; [apply en_add|lra]. }
  assert (X1 : en x' <= en x + c). { replace x' with (v_add x (v_sub x' x)) by (destruct x', x; unfold v_add, v_sub; cbn; f_equal; ring). eapply Rle_trans; [apply en_add|lra]. }
  pose proof (fl_app_err eps rnd eps_small Hrnd _ _ _ _ P1 V1) as E1. fold m in E1. fold rho in E1.
  set (y := fl_r_app rnd P' v') in *.
  assert (Y1 : en y <= m + rho).
  { replace y with (v_add (v_sub y (r_app P' v')) (r_app P' v')) by (destruct y, (r_app P' v'); unfold v_add, v_sub; cbn; f_equal; ring).
    eapply Rle_trans; [apply en_add|]. pose proof (P1 v') as Q. assert ((1 + a) * en v' <= m) by (unfold m; apply Rmult_le_compat_l; lra). lra. }
  assert (YX : en (v_add y x') <= m + rho + (en x + c)) by (eapply Rle_trans; [apply en_add|lra]).
  pose proof (fl_add_err eps rnd eps_small Hrnd _ _ _ YX) as E2.
  pose proof (Ha v') as E3. assert (E3' : en (r_app (r_minus P' P) v') <= a * (en v + b)) by (eapply Rle_trans; [exact E3|apply Rmult_le_compat_l; assumption]).
  pose proof (opb_rot _ HP (v_sub v' v)) as E4.
  replace (v_sub (fl_v_add rnd y x') (v_add (r_app P v) x)) with
    (v_add (v_sub (fl_v_add rnd y x') (v_add y x')) (v_add (v_sub y (r_app P' v')) (v_add (r_app (r_minus P' P) v') (v_add (r_app P (v_sub v' v)) (v_sub x' x))))).
  2:{ destruct (fl_v_add rnd y x'), y, x', x, v', v, P', P. unfold v_add, v_sub, r_app, r_minus; cbn. f_equal; ring. }
  eapply Rle_trans; [apply en_add|]. eapply Rle_trans; [apply Rplus_le_compat_l, en_add|]. eapply Rle_trans; [apply Rplus_le_compat_l, Rplus_le_compat_l, en_add|].
  eapply Rle_trans; [apply Rplus_le_compat_l, Rplus_le_compat_l, Rplus_le_compat_l, en_add|]. lra.
Qed.
End Joint.
