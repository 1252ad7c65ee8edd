(** Reading a quaternion in rounded arithmetic is accurate at every rotation. *)
From Coq Require Import Reals Bool Lia Lra Psatz.
From Verif Require Import FramesModel FramesSpec FramesProofs RotationProofs FlModel FlSpec FlProofs FlJoint FlWitness FlRotModel FlRotSpec FlRotProofs FlQuatModel.
Local Open Scope R_scope.

Section E.
Variables (eps eta d : R) (rnd : R -> R).
Hypothesis (He : 0 <= eps) (Ht : 0 <= eta) (Hd : eps + eta <= d) (Hs : d <= / 2000) (Hrnd : rounds eps rnd).

(** value within k d of the exact one *)
Lemma rnd_up k B y x : Rabs (y - x) <= k * d -> Rabs x <= B -> k <= 100 -> Rabs (rnd y - x) <= (k + B + 1 + / 20) * d.
Proof.
  intros H HB Hk. pose proof (Hrnd y) as R. assert (Rabs y <= B + k * d) by (replace y with (x + (y - x)) by ring; eapply Rle_trans; [apply Rabs_triang|lra]).
  assert (k * d <= / 20) by nra. assert (D0 : 0 <= d) by lra. assert (HB0 := Rabs_pos x).
  assert (eps * (Rabs y + 1) <= d * (B + / 20 + 1)) by (apply Rmult_le_compat; pose proof (Rabs_pos y); lra).
  replace (rnd y - x) with ((rnd y - y) + (y - x)) by ring. eapply Rle_trans; [apply Rabs_triang|]. lra.
Qed.
Lemma ab x k : Rabs x <= k -> - k <= x <= k. Proof. intros H. apply Rabs_def2' || (unfold Rabs in H; destruct (Rcase_abs x); lra). Qed.

(** the square root of the radicand 4 a^2 *)
Lemma root a A' : 0 <= a <= 1 -> 9/10 <= 4 * a ^ 2 -> Rabs (A' - 4 * a ^ 2) <= 16 * d ->
  exists u, fl_sqrt rnd A' = Some u /\ Rabs (u - 2 * a) <= 12 * d.
Proof.
  intros Ha A HA. pose proof (ab _ _ HA) as B. unfold fl_sqrt. destruct (Rlt_dec A' 0) as [L|_]; [lra|]. eexists; split; [reflexivity|].
  assert (S : 47/50 <= 2 * a) by nra. assert (S0 := sqrt_sqrt A' ltac:(lra)). assert (S1 := sqrt_pos A'). set (v := sqrt A') in *.
  assert (V : 9/10 <= v) by (apply Rnot_lt_le; intros V; assert (v * v < 81/100) by nra; lra).
  assert (K : Rabs (v - 2 * a) <= (88/10) * d).
  { assert (E : (v - 2 * a) * (v + 2 * a) = A' - 4 * a ^ 2) by nra. rewrite <- E, Rabs_mult, (Rabs_right (v + 2 * a)) in HA by lra.
    assert (Rabs (v - 2 * a) * (184/100) <= Rabs (v - 2 * a) * (v + 2 * a)) by (apply Rmult_le_compat_l; [apply Rabs_pos|lra]). lra. }
  eapply Rle_trans; [apply (rnd_up (88/10) 2 v (2 * a) K); [rewrite Rabs_right; lra|lra]|]. nra.
Qed.
Lemma double_root a u : 0 <= a <= 1 -> Rabs (u - 2 * a) <= 12 * d -> Rabs (rnd (2 * u) - 4 * a) <= 30 * d.
Proof.
  intros Ha H. eapply Rle_trans; [apply (rnd_up 24 4 (2 * u) (4 * a))|nra]; [|rewrite Rabs_right; lra|lra].
  replace (2 * u - 4 * a) with (2 * (u - 2 * a)) by ring. rewrite Rabs_mult, (Rabs_right 2) by lra. lra.
Qed.
Lemma quarter a s : 0 <= a <= 1 -> Rabs (s - 4 * a) <= 30 * d -> Rabs (rnd ((1/4) * s) - a) <= 60 * d.
Proof.
  intros Ha H. eapply Rle_trans; [apply (rnd_up 8 1 ((1/4) * s) a)|nra]; [|rewrite Rabs_right; lra|lra].
  replace (1/4 * s - a) with (1/4 * (s - 4 * a)) by field. rewrite Rabs_mult, (Rabs_right (1/4)) by lra. lra.
Qed.
Lemma ratio a b n s : 47/100 <= a <= 1 -> Rabs b <= 1 -> Rabs (n - 4 * a * b) <= 6 * d -> Rabs (s - 4 * a) <= 30 * d ->
  exists q, fl_div rnd n s = Some q /\ Rabs (q - b) <= 60 * d.
Proof.
  intros Ha Hb Hn Hss. pose proof (ab _ _ Hss) as S. unfold fl_div. assert (S1 : 18/10 <= s) by lra. destruct (Req_EM_T s 0) as [Z|_]; [lra|]. eexists; split; [reflexivity|].
  eapply Rle_trans; [apply (rnd_up 20 1 (n / s) b)|nra]; [|exact Hb|lra].
  replace (n / s - b) with ((n - 4 * a * b - b * (s - 4 * a)) / s) by (field; lra).
  unfold Rdiv. rewrite Rabs_mult, (Rabs_right (/ s)) by (apply Rle_ge, Rlt_le, Rinv_0_lt_compat; lra).
  assert (N : Rabs (n - 4 * a * b - b * (s - 4 * a)) <= 36 * d).
  { eapply Rle_trans; [apply Rabs_triang|]. rewrite Rabs_Ropp, Rabs_mult. assert (Rabs b * Rabs (s - 4 * a) <= 1 * (30 * d)) by (apply Rmult_le_compat; auto using Rabs_pos). lra. }
  assert (I : / s <= 10/18) by (replace (10/18) with (/ (18/10)) by field; apply Rinv_le_contravar; lra).
  eapply Rle_trans; [apply Rmult_le_compat; [apply Rabs_pos|apply Rlt_le, Rinv_0_lt_compat; lra|exact N|exact I]|]. lra.
Qed.
Lemma num m' m k k' : Rabs (m' - m) <= eta -> Rabs (k' - k) <= eta -> Rabs (m + k) <= 2 -> Rabs (rnd (m' + k') - (m + k)) <= 6 * d.
Proof.
  intros H1 H2 B. eapply Rle_trans; [apply (rnd_up 2 2 (m' + k') (m + k))|nra]; [|exact B|lra].
  replace (m' + k' - (m + k)) with ((m' - m) + (k' - k)) by ring. eapply Rle_trans; [apply Rabs_triang|]. lra.
Qed.
Lemma step k B y x m' m : Rabs (y - x) <= k * d -> Rabs (m' - m) <= eta -> Rabs (x + m) <= B -> k <= 99 -> Rabs (rnd (y + m') - (x + m)) <= (k + B + 2 + / 20) * d.
Proof.
  intros H Hm HB Hk. eapply Rle_trans; [apply (rnd_up (k + 1) B (y + m') (x + m)); [|exact HB|lra]|lra].
  replace (y + m' - (x + m)) with ((y - x) + (m' - m)) by ring. eapply Rle_trans; [apply Rabs_triang|]. lra.
Qed.
Lemma opp m' m : Rabs (m' - m) <= eta -> Rabs (- m' - - m) <= eta.
Proof. intros H. replace (- m' - - m) with (- (m' - m)) by ring. rewrite Rabs_Ropp. exact H. Qed.
Lemma b2 x k : - k <= x <= k -> Rabs x <= k. Proof. intros H. apply Rabs_le. exact H. Qed.
Lemma radicand m' m k' k l' l : Rabs (m' - m) <= eta -> Rabs (k' - k) <= eta -> Rabs (l' - l) <= eta -> Rabs m <= 1 -> Rabs k <= 1 -> Rabs l <= 1 ->
  Rabs (rnd (rnd (rnd (1 + m') - k') - l') - (1 + m - k - l)) <= 16 * d.
Proof.
  intros H1 H2 H3 B1 B2 B3. apply ab in B1, B2, B3.
  assert (S1 : Rabs (rnd (1 + m') - (1 + m)) <= (405/100) * d).
  { eapply Rle_trans; [apply (step 0 2 1 1 m' m); [|exact H1|apply b2; lra|lra]|lra]. rewrite Rminus_diag_eq, Rabs_R0; [lra|reflexivity]. }
  pose proof (step _ 3 _ _ _ _ S1 (opp _ _ H2) ltac:(apply b2; lra) ltac:(lra)) as S2.
  pose proof (step _ 4 _ _ _ _ S2 (opp _ _ H3) ltac:(apply b2; lra) ltac:(lra)) as S3.
  unfold Rminus in *. eapply Rle_trans; [exact S3|]. lra.
Qed.
Lemma traced m' m k' k l' l : Rabs (m' - m) <= eta -> Rabs (k' - k) <= eta -> Rabs (l' - l) <= eta -> Rabs m <= 1 -> Rabs k <= 1 -> Rabs l <= 1 ->
  let t := rnd (rnd (m' + k') + l') in Rabs (t - (m + k + l)) <= 11 * d /\ Rabs (rnd (t + 1) - (m + k + l + 1)) <= 16 * d.
Proof.
  intros H1 H2 H3 B1 B2 B3 t. apply ab in B1, B2, B3.
  assert (S0 : Rabs (m' - m) <= 1 * d) by lra.
  pose proof (step _ 2 _ _ _ _ S0 H2 ltac:(apply b2; lra) ltac:(lra)) as S1.
  pose proof (step _ 3 _ _ _ _ S1 H3 ltac:(apply b2; lra) ltac:(lra)) as S2. fold t in S2.
  split; [eapply Rle_trans; [exact S2|lra]|]. eapply Rle_trans; [apply (rnd_up (1 + 2 + 2 + / 20 + 3 + 2 + / 20) 4 (t + 1)); [|apply b2; lra|lra]|lra].
  replace (t + 1 - (m + k + l + 1)) with (t - (m + k + l)) by ring. exact S2.
Qed.

(** the branch that starts with w *)
Lemma inverse_root a u : 47/100 <= a <= 1 -> Rabs (u - 2 * a) <= 12 * d -> exists s, fl_div rnd (1/2) u = Some s /\ Rabs (s - / (4 * a)) <= 9 * d.
Proof.
  intros Ha H. pose proof (ab _ _ H) as U. assert (U1 : 93/100 <= u) by lra. unfold fl_div. destruct (Req_EM_T u 0) as [Z|_]; [lra|]. eexists; split; [reflexivity|].
  assert (I4 : / (4 * a) <= 54/100) by (replace (54/100) with (/ (100/54)) by field; apply Rinv_le_contravar; lra).
  assert (P4 : 0 < / (4 * a)) by (apply Rinv_0_lt_compat; lra).
  eapply Rle_trans; [apply (rnd_up 7 (54/100) (1/2/u) (/ (4 * a)))|lra]; [|rewrite Rabs_right; lra|lra].
  replace (1/2/u - / (4 * a)) with ((u - 2 * a) * (- / 2 * (/ u * / (2 * a)))) by (field; lra). rewrite Rabs_mult.
  assert (P : 0 <= / u * / (2 * a) <= 115/100).
  { assert (0 < / u <= 100/93) by (split; [apply Rinv_0_lt_compat; lra|replace (100/93) with (/ (93/100)) by field; apply Rinv_le_contravar; lra]).
    assert (0 < / (2 * a) <= 100/94) by (split; [apply Rinv_0_lt_compat; lra|replace (100/94) with (/ (94/100)) by field; apply Rinv_le_contravar; lra]). nra. }
  rewrite (Rabs_left1 (- / 2 * (/ u * / (2 * a)))) by lra. assert (Rabs (u - 2 * a) * - (- / 2 * (/ u * / (2 * a))) <= 12 * d * (575/1000)) by (apply Rmult_le_compat; try lra; apply Rabs_pos). lra.
Qed.
Lemma back_root a s : 47/100 <= a <= 1 -> Rabs (s - / (4 * a)) <= 9 * d -> exists w, fl_div rnd (1/4) s = Some w /\ Rabs (w - a) <= 60 * d.
Proof.
  intros Ha H. pose proof (ab _ _ H) as U. assert (P4 : 1/4 <= / (4 * a)) by (replace (1/4) with (/ 4) by field; apply Rinv_le_contravar; lra).
  assert (S1 : 24/100 <= s) by lra. unfold fl_div. destruct (Req_EM_T s 0) as [Z|_]; [lra|]. eexists; split; [reflexivity|].
  eapply Rle_trans; [apply (rnd_up 40 1 (1/4/s) a)|lra]; [|rewrite Rabs_right; lra|lra].
  replace (1/4/s - a) with ((s - / (4 * a)) * (- a * / s)) by (field; lra). rewrite Rabs_mult.
  assert (I : 0 < / s <= 100/24) by (split; [apply Rinv_0_lt_compat; lra|replace (100/24) with (/ (24/100)) by field; apply Rinv_le_contravar; lra]).
  assert (Q : 0 <= a * / s <= 100/24) by nra. rewrite (Rabs_left1 (- a * / s)) by lra.
  assert (Rabs (s - / (4 * a)) * - (- a * / s) <= 9 * d * (100/24)) by (apply Rmult_le_compat; try lra; apply Rabs_pos). lra.
Qed.
Lemma scaled a b n s : 47/100 <= a <= 1 -> Rabs b <= 1 -> Rabs (4 * a * b) <= 2 -> Rabs (n - 4 * a * b) <= 6 * d -> Rabs (s - / (4 * a)) <= 9 * d -> Rabs (rnd (n * s) - b) <= 60 * d.
Proof.
  intros Ha Hb Hab Hn H. pose proof (ab _ _ H) as U. assert (I4 : / (4 * a) <= 54/100) by (replace (54/100) with (/ (100/54)) by field; apply Rinv_le_contravar; lra).
  assert (P4 : 0 < / (4 * a)) by (apply Rinv_0_lt_compat; lra).
  eapply Rle_trans; [apply (rnd_up 22 1 (n * s) b)|lra]; [|exact Hb|lra].
  replace (n * s - b) with ((n - 4 * a * b) * s + 4 * a * b * (s - / (4 * a))) by (field; lra). eapply Rle_trans; [apply Rabs_triang|]. rewrite !Rabs_mult with (y := s).
  rewrite (Rabs_mult (4 * a * b) (s - / (4 * a))).
  assert (S6 : Rabs s <= 6/10) by (apply b2; lra).
  assert (Rabs (n - 4 * a * b) * Rabs s <= 6 * d * (6/10)) by (apply Rmult_le_compat; auto using Rabs_pos).
  assert (Rabs (4 * a * b) * Rabs (s - / (4 * a)) <= 2 * (9 * d)) by (apply Rmult_le_compat; auto using Rabs_pos). lra.
Qed.
End E.
