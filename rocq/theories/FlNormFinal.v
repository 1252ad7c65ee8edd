(** Final forms: rotations about any axis, doubles, examples. *)
From Coq Require Import Reals ZArith Bool Lia Lra Psatz.
From Flocq Require Import Core Relative.
From Verif Require Import FramesModel FramesSpec FramesProofs RotationProofs RotationProofs3 PathProofs5 SvdRound FlModel FlSpec FlProofs FlJoint FlWitness FlRotSpec FlRotProofs FlRotFinal
  FlQuatModel FlQuatProofs FlQuatFinal FlNormModel FlNormSpec FlNormProofs.
Local Open Scope R_scope.

Lemma unit_length eps rnd v u n : 0 <= eps <= / 50000 -> precise eps rnd -> 2 * kdl_epsilon <= euclid_norm v -> fl_normalize rnd v = Some (u, n) ->
  Rabs (vx u ^ 2 + vy u ^ 2 + vz u ^ 2 - 1) <= 90 * eps.
Proof.
  intros He Hp H E. destruct (normalize_ok eps rnd He Hp v H) as (u' & n' & E' & (X & Y & Z) & _). rewrite E in E'. injection E' as <- <-.
  assert (P : 0 < euclid_norm v) by (rewrite ke in H; lra). pose proof (unit_div v P) as U. unfold unit_vector in U. set (w := v_div v (euclid_norm v)) in *.
  assert (S : forall a' a, Rabs (a' - a) <= 25 * eps -> Rabs (a' ^ 2 - a ^ 2) <= 25 * eps * (7/4 * a ^ 2 + 4/7 + / 1000)).
  { intros a' a K. replace (a' ^ 2 - a ^ 2) with ((a' - a) * (2 * a + (a' - a))) by ring. rewrite Rabs_mult. apply Rmult_le_compat; auto using Rabs_pos.
    eapply Rle_trans; [apply Rabs_triang|]. assert (Rabs (2 * a) <= 7/4 * a ^ 2 + 4/7) by (apply Rabs_le; split; [pose proof (pow2_ge_0 (a + 4/7))|pose proof (pow2_ge_0 (a - 4/7))]; lra). lra. }
  pose proof (S _ _ X). pose proof (S _ _ Y). pose proof (S _ _ Z).
  replace (vx u ^ 2 + vy u ^ 2 + vz u ^ 2 - 1) with ((vx u ^ 2 - vx w ^ 2) + (vy u ^ 2 - vy w ^ 2) + (vz u ^ 2 - vz w ^ 2)) by lra.
  eapply Rle_trans; [apply Rabs_triang|]. eapply Rle_trans; [apply Rplus_le_compat_r, Rabs_triang|].
  assert (T : 25 * eps * (7/4 * vx w ^ 2 + 4/7 + / 1000) + 25 * eps * (7/4 * vy w ^ 2 + 4/7 + / 1000) + 25 * eps * (7/4 * vz w ^ 2 + 4/7 + / 1000) = 25 * eps * (7/4 * (vx w ^ 2 + vy w ^ 2 + vz w ^ 2) + 12/7 + 3/1000)) by field.
  rewrite U in T. lra.
Qed.
Lemma normalize_unit v : unit_vector (fst (v_normalize v)).
Proof. unfold v_normalize, v_normalize_eps. destruct (Rlt_dec _ _) as [L|L]; cbn [fst]; [unfold unit_vector; cbn; ring|]. destruct (v_norm_0_or v) as [E|E]; rewrite E in *; [exfalso; apply L; rewrite ke; lra|]. apply unit_div. rewrite ke in L. lra. Qed.
Lemma rot_ok eps rnd fsin fcos v a : 0 <= eps <= / 100000 -> precise eps rnd -> computes eps fsin sin -> computes eps fcos cos -> clear_axis v ->
  exists M, fl_Rot rnd fsin fcos v a = Some M /\ is_rotation (r_Rot v a) /\ r_near (850 * eps) M (r_Rot v a).
Proof.
  intros He Hp Hs Hc Hv. destruct (normalize_stored eps rnd ltac:(lra) Hp v a Hv) as (u & n & E & S). unfold fl_Rot. rewrite E. cbn [bind fst]. eexists; split; [reflexivity|].
  inversion S as [| | | | | | |v' w b U N| | | | | |]; subst. split; [unfold r_Rot; apply is_rotation_Rot2; exact U|].
  assert (Ks : computes (25 * eps) fsin sin) by (intros x; eapply Rle_trans; [apply Hs|lra]). assert (Kc : computes (25 * eps) fcos cos) by (intros x; eapply Rle_trans; [apply Hc|lra]).
  assert (Kr : rounds (25 * eps) rnd) by (apply (rounds_weaken eps); [lra|apply (precise_rounds eps rnd); [lra|exact Hp]]).
  replace (850 * eps) with (34 * (25 * eps * 1)) by ring. unfold r_Rot.
  apply (Rot2_err (25 * eps) 1); auto; try lra.
  - unfold unit_vector in U. unfold v_near, v_zero; cbn [vx vy vz]. rewrite !Rminus_0_r. set (w := fst (v_normalize v)) in *. repeat split; apply sq_abs; try lra; nra.
  - rewrite Rminus_diag_eq, Rabs_R0; [lra|reflexivity].
Qed.
(** calls of Rot may occur in the programs of C86, as calls of Rot2 with the computed unit vector *)
Lemma rot_program eps rnd fsin fcos v a : 0 <= eps <= / 50000 -> precise eps rnd -> clear_axis v ->
  exists u w, fl_Rot rnd fsin fcos v a = Some (fl_run rnd fsin fcos (PRot2 u a)) /\ r_Rot v a = run (PRot2 w a) /\ prog_stored (25 * eps) (PRot2 u a) (PRot2 w a).
Proof.
  intros He Hp Hv. destruct (normalize_stored eps rnd He Hp v a Hv) as (u & n & E & S). exists u, (fst (v_normalize v)). split; [unfold fl_Rot; rewrite E; reflexivity|]. split; [reflexivity|exact S].
Qed.

Lemma double_precise : precise ulp1 double.
Proof.
  intros x. destruct (error_N_FLT radix2 (-1074) 53 ltac:(lia) (fun n => negb (Z.even n)) x) as (e & t & He & Ht & _ & E).
  unfold double. change (round radix2 (FLT_exp (-1074) 53) ZnearestE x) with (round radix2 (FLT_exp (-1074) 53) (Znearest (fun n => negb (Z.even n))) x). rewrite E.
  replace (x * (1 + e) + t - x) with (x * e + t) by ring. eapply Rle_trans; [apply Rabs_triang|]. rewrite Rabs_mult.
  assert (P : / 2 * bpow radix2 (-53 + 1) = bpow radix2 (-53)) by (change (/ 2) with (bpow radix2 (-1)); rewrite <- bpow_plus; reflexivity).
  assert (He'' : Rabs e <= bpow radix2 (-53)) by (rewrite <- P; exact He). assert (He' : Rabs e <= ulp1) by (rewrite half_ulp in He''; rewrite ulp1_eq; lra).
  assert (Q : / 2 * bpow radix2 (-1074) <= bpow radix2 (-80)) by (change (/ 2) with (bpow radix2 (-1)); rewrite <- bpow_plus; apply bpow_le; lia).
  assert (B : bpow radix2 (-80) = / 1208925819614629174706176) by (unfold bpow; cbn; reflexivity).
  assert (Rabs x * Rabs e <= Rabs x * ulp1) by (apply Rmult_le_compat_l; [apply Rabs_pos|exact He']).
  assert (bpow radix2 (-80) <= ulp1 * kdl_epsilon) by (rewrite B, ulp1_eq, ke; lra). lra.
Qed.
Lemma double_normalize v : 2 * kdl_epsilon <= euclid_norm v ->
  exists u n, fl_normalize double v = Some (u, n) /\ fl_norm double v = Some n /\ v_near (1 / 10 ^ 14) u (v_div v (euclid_norm v)) /\
    Rabs (vx u ^ 2 + vy u ^ 2 + vz u ^ 2 - 1) <= 3 / 10 ^ 14 /\ Rabs (n - euclid_norm v) <= 1 / 10 ^ 14 * euclid_norm v.
Proof.
  intros H. assert (U : 0 <= ulp1 <= 23 / 10 ^ 17) by (rewrite ulp1_eq; lra). assert (U' : 0 <= ulp1 <= / 50000) by lra.
  destruct (normalize_ok ulp1 double U' double_precise v H) as (u & n & E & (X & Y & Z) & K). exists u, n. split; [exact E|].
  split. { unfold fl_normalize in E. destruct (norm_ok ulp1 double U' double_precise v H) as (m & Em & Km). rewrite Em in *. cbn [bind] in E. destruct (Rlt_dec _ _) as [L|L].
    - injection E as <- <-. exfalso. rewrite Rminus_0_l, Rabs_Ropp, Rabs_right in K by (pose proof ke; lra). pose proof ke. assert (21 * ulp1 * euclid_norm v <= / 2 * euclid_norm v) by (apply Rmult_le_compat_r; lra). lra.
    - destruct (fl_v_div double v m); cbn [bind] in E; [|discriminate]. injection E as _ <-. reflexivity. }
  split; [repeat split; lra|]. split; [eapply Rle_trans; [apply (unit_length ulp1 double v u n U' double_precise H E)|lra]|].
  assert (21 * ulp1 * euclid_norm v <= 1 / 10 ^ 14 * euclid_norm v) by (apply Rmult_le_compat_r; pose proof ke; lra). lra.
Qed.
Lemma double_rot fsin fcos v a : computes ulp1 fsin sin -> computes ulp1 fcos cos -> clear_axis v ->
  exists M, fl_Rot double fsin fcos v a = Some M /\ is_rotation (r_Rot v a) /\ r_near (2 / 10 ^ 13) M (r_Rot v a).
Proof.
  intros Hs Hc Hv. assert (U : 0 <= ulp1 <= 23 / 10 ^ 17) by (rewrite ulp1_eq; lra). destruct (rot_ok ulp1 double fsin fcos v a ltac:(lra) double_precise Hs Hc Hv) as (M & E & I & N). exists M. split; [exact E|]. split; [exact I|]. eapply rnear_weaken; [exact N|lra].
Qed.
Lemma scale_example s : 1 <= s -> exists u n, fl_normalize double (mkV s (2 * s) (- (2 * s))) = Some (u, n) /\ v_near (1 / 10 ^ 14) u (mkV (1/3) (2/3) (-2/3)) /\ Rabs (n - 3 * s) <= 3 / 10 ^ 14 * s.
Proof.
  intros Hs. assert (E : euclid_norm (mkV s (2 * s) (- (2 * s))) = 3 * s).
  { unfold euclid_norm; cbn [vx vy vz]. replace (s ^ 2 + (2 * s) ^ 2 + (- (2 * s)) ^ 2) with ((3 * s) * (3 * s)) by ring. apply sqrt_square. lra. }
  destruct (double_normalize (mkV s (2 * s) (- (2 * s)))) as (u & n & E1 & _ & K & _ & N); [rewrite E; pose proof ke; lra|]. exists u, n. split; [exact E1|]. rewrite E in *. split; [|lra].
  replace (mkV (1/3) (2/3) (-2/3)) with (v_div (mkV s (2 * s) (- (2 * s))) (3 * s)); [exact K|]. unfold v_div; cbn [vx vy vz]. f_equal; field; lra.
Qed.
