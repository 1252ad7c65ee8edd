(** Double precision meets the hypotheses; what it does not give. *)
From Coq Require Import Reals String List ZArith Bool Arith Lia Lra Psatz.
From Flocq Require Import Core Relative.
From Verif Require Import FramesModel FramesSpec FramesProofs FrameOpsProofs Outcome LoopProofs InertiaModel DualModel KinModel KinSpec DerivProofs KinProofs
  SvdModel SvdSpec SvdRound LipProofs FlModel FlSpec FlProofs FlJoint FlChain.
Import ListNotations.
Local Open Scope list_scope.
Local Open Scope R_scope.

Lemma double_err x : Rabs (double x - x) <= bpow radix2 (-53) * (Rabs x + 1).
Proof.
  destruct (error_N_FLT radix2 (-1074) 53 ltac:(lia) (fun n => negb (Z.even n)) x) as (e & t & He & Ht & _ & E).
  unfold double. change (round radix2 (FLT_exp (-1074) 53) ZnearestE x) with (round radix2 (FLT_exp (-1074) 53) (Znearest (fun n => negb (Z.even n))) x). rewrite E.
  replace (x * (1 + e) + t - x) with (x * e + t) by ring. eapply Rle_trans; [apply Rabs_triang|]. rewrite Rabs_mult.
  assert (P : / 2 * bpow radix2 (-53 + 1) = bpow radix2 (-53)) by (change (/ 2) with (bpow radix2 (-1)); rewrite <- bpow_plus; reflexivity).
  assert (He' : Rabs e <= bpow radix2 (-53)) by (rewrite <- P; exact He). assert (Q : / 2 * bpow radix2 (-1074) <= bpow radix2 (-53)) by (change (/ 2) with (bpow radix2 (-1)); rewrite <- bpow_plus; apply bpow_le; lia).
  pose proof (Rabs_pos x). assert (Rabs x * Rabs e <= Rabs x * bpow radix2 (-53)) by (apply Rmult_le_compat_l; lra). lra.
Qed.
Definition ulp1 : R := bpow radix2 (-52).
Lemma ulp1_eq : ulp1 = / 4503599627370496. Proof. unfold ulp1, bpow. cbn. reflexivity. Qed.
Lemma half_ulp : bpow radix2 (-53) = / 9007199254740992. Proof. unfold bpow. cbn. reflexivity. Qed.
Lemma double_rounds_fl : rounds ulp1 double.
Proof. intros x. eapply Rle_trans; [apply double_err|]. apply Rmult_le_compat_r; [pose proof (Rabs_pos x); lra|]. rewrite ulp1_eq, half_ulp. lra. Qed.
(** A C library that rounds sin and cos correctly. *)
Lemma double_computes g : (forall x, Rabs (g x) <= 1) -> computes ulp1 (fun x => double (g x)) g.
Proof. intros H x. eapply Rle_trans; [apply double_err|]. specialize (H x). rewrite ulp1_eq, half_ulp. lra. Qed.
Lemma libm_sin : computes ulp1 (fun x => double (sin x)) sin.
Proof. apply double_computes. intros x. apply Rabs_le. apply SIN_bound. Qed.
Lemma libm_cos : computes ulp1 (fun x => double (cos x)) cos.
Proof. apply double_computes. intros x. apply Rabs_le. apply COS_bound. Qed.

(** Doubles, at most 20 segments, angles up to 10 rad, lengths up to 2 m. *)
Lemma fl_fk_double fsin fcos c' c q z n : computes ulp1 fsin sin -> computes ulp1 fcos cos ->
  chain_ok c -> chain_stored ulp1 c' c -> length q = ch_nj c -> denotes c z n -> (n <= length (ch_segs c))%nat -> (n <= 20)%nat ->
  Forall (moves_within 10 2) (assign (ch_segs c) q) ->
  exists p, fl_fk_JntToCart double fsin fcos c' q z = Ret (E_NOERROR, p) /\
    r_near (1 / 10 ^ 11) (fM p) (fM (tip_frame c q n)) /\ v_near (1 / 10 ^ 8) (fp p) (fp (tip_frame c q n)).
Proof.
  intros Hs Hc Hok Hst Hq Hd Hn H20 Hmv. assert (U : 0 <= ulp1) by (rewrite ulp1_eq; lra).
  assert (N20 : INR n <= 20) by (apply le_INR in H20; cbn in H20; lra). pose proof (pos_INR n) as N0.
  destruct (fl_fk_error ulp1 10 2 double fsin fcos ltac:(lra) ltac:(lra) U double_rounds_fl Hs Hc c' c q z n Hok Hst Hq Hd Hn Hmv) as (p & E & R1 & P1).
  - rewrite ulp1_eq. lra.
  - exists p. split; [exact E|]. split.
    + eapply rnear_weaken; [exact R1|]. rewrite ulp1_eq. lra.
    + eapply vnear_weaken; [exact P1|]. rewrite ulp1_eq. assert (INR n * INR n <= 400) by nra. lra.
Qed.

(** The solver never fails because of rounding: the return code is that of the exact solver. *)
Lemma fl_fk_code rnd fsin fcos c q z : chain_wf c -> exists code p p', fl_fk_JntToCart rnd fsin fcos c q z = Ret (code, p') /\ fk_JntToCart c q z = Ret (code, p).
Proof.
  intros Hw. set (n := segment_nr c z). assert (Hd : denotes c z n) by (apply denotes_segment_nr; [exact Hw|reflexivity]).
  rewrite (fk_result c q z n Hw Hd). unfold fl_fk_JntToCart. fold n. cbv zeta.
  destruct (Nat.eqb_spec (length q) (ch_nj c)) as [Eq|Nq]; cbn [negb]; [|do 3 eexists; split; reflexivity].
  rewrite (proj1 Hw). destruct (Nat.leb_spec n (length (ch_segs c))) as [L|L].
  - assert (Hlt : Nat.ltb (length (ch_segs c)) n = false) by (apply Nat.ltb_ge; lia). rewrite Hlt.
    destruct (for_loop_inv (fun i st => fst st = count_moving (firstn i (ch_segs c))) (fl_fk_body rnd fsin fcos c q) n 0 (0%nat, f_id)) as (st & E & H).
    + intros i [j p] Hi J. cbn [fst] in J. unfold fl_fk_body. destruct (chain_lookup c q i Hw Eq ltac:(rewrite (proj1 Hw); lia)) as (s & x & En & Eg & Hle & Hx & Ha & Hc).
      rewrite Eg. cbn [obind]. destruct (moving s).
      * rewrite J, (Ha eq_refl). cbn [obind]. eexists; split; [reflexivity|]. cbn [fst]. lia.
      * eexists; split; [reflexivity|]. cbn [fst]. lia.
    + reflexivity.
    + rewrite E. cbn [obind]. do 3 eexists. split; reflexivity.
  - assert (Hlt : Nat.ltb (length (ch_segs c)) n = true) by (apply Nat.ltb_lt; lia). rewrite Hlt. do 3 eexists; split; reflexivity.
Qed.

(** A chain whose axis and link have no exact representation: the data are rounded to doubles. *)
Definition tilted (r : R -> R) : Segment :=
  mkS "link" (mkJ "axis" RotAxis 1 0 0 0 0 (mkV (r (3/5)) (r (4/5)) 0) (mkV (r (1/3)) 0 0)) rb_zero
    (mkF (mkR (r (3/5)) (r (-4/5)) 0 (r (4/5)) (r (3/5)) 0 0 0 1) (mkV (r (1/10)) 0 0)).
Definition arm (r : R -> R) : Chain := mkCh 3 3 [tilted r; tilted r; tilted r].
Lemma arm_ok : chain_ok (arm (fun x => x)).
Proof.
  split; [split; reflexivity|].
  assert (H : segment_ok (tilted (fun x => x))).
  { split.
    - intros _. cbn [tilted sjoint jaxis]. unfold unit_vector; cbn [vx vy vz]. field.
    - unfold rigid; cbn [tilted sf_tip fM]. split; unfold det3; cbn; field. }
  cbn [arm ch_segs]. auto.
Qed.
Lemma small_err x : Rabs x <= 1 -> Rabs (double x - x) <= ulp1.
Proof. intros H. eapply Rle_trans; [apply double_err|]. rewrite half_ulp, ulp1_eq. lra. Qed.
Lemma same_err x : Rabs (x - x) <= ulp1. Proof. rewrite Rminus_diag_eq by reflexivity. rewrite Rabs_R0, ulp1_eq. lra. Qed.
Lemma arm_stored : chain_stored ulp1 (arm double) (arm (fun x => x)).
Proof.
  split; [reflexivity|]. split; [reflexivity|].
  assert (H : stored ulp1 (tilted double) (tilted (fun x => x))).
  { unfold stored, tilted, v_near, r_near; cbn [sjoint sf_tip jtype jscale joffset jaxis jorigin fM fp vx vy vz r0 r1 r2 r3 r4 r5 r6 r7 r8].
    repeat split; first [apply same_err | apply small_err; apply Rabs_le; lra]. }
  cbn [arm ch_segs]. auto.
Qed.
Lemma arm_moves a b c : Rabs a <= 10 -> Rabs b <= 10 -> Rabs c <= 10 -> Forall (moves_within 10 2) (assign (ch_segs (arm (fun x => x))) [a; b; c]).
Proof.
  intros Ha Hb Hc. cbn [arm ch_segs assign]. change (moving (tilted (fun x => x))) with true. cbv iota.
  assert (H : forall x, Rabs x <= 10 -> moves_within 10 2 (tilted (fun x => x), x)).
  { intros x Hx. unfold moves_within, v_near; cbn [fst snd tilted sjoint sf_tip fp jtype jscale joffset jaxis jorigin rotational vx vy vz v_zero].
    rewrite Rmult_1_l, Rabs_R0. split; [cbn; lra|]. repeat split; (apply Rabs_le; lra). }
  auto.
Qed.
(** The theorem applies to the arm with doubles and a correctly rounding C library. *)
Lemma arm_example a b c : Rabs a <= 10 -> Rabs b <= 10 -> Rabs c <= 10 ->
  exists p, fl_fk_JntToCart double (fun x => double (sin x)) (fun x => double (cos x)) (arm double) [a; b; c] (-1)%Z = Ret (E_NOERROR, p) /\
    r_near (1 / 10 ^ 11) (fM p) (fM (tip_frame (arm (fun x => x)) [a; b; c] 3)) /\ v_near (1 / 10 ^ 8) (fp p) (fp (tip_frame (arm (fun x => x)) [a; b; c] 3)).
Proof.
  intros Ha Hb Hc. apply fl_fk_double; [exact libm_sin|exact libm_cos|exact arm_ok|exact arm_stored|reflexivity|left; split; [lia|reflexivity]|cbn; lia|lia|].
  apply arm_moves; assumption.
Qed.

(** Binary fractions on the unit circle. *)
Lemma circle_int n : forall a b : Z, (a * a + b * b = 4 ^ Z.of_nat n)%Z -> (a = 0 \/ b = 0)%Z.
Proof.
  induction n as [|n IH]; intros a b H.
  - cbn in H. assert ((a * a = 0 \/ b * b = 0)%Z) by nia. nia.
  - rewrite Nat2Z.inj_succ, Z.pow_succ_r in H by lia.
    assert (Ea : exists a', (a = 2 * a' \/ a = 2 * a' + 1)%Z) by (exists (a / 2)%Z; pose proof (Z_div_mod_eq_full a 2); pose proof (Z.mod_pos_bound a 2 ltac:(lia)); lia).
    assert (Eb : exists b', (b = 2 * b' \/ b = 2 * b' + 1)%Z) by (exists (b / 2)%Z; pose proof (Z_div_mod_eq_full b 2); pose proof (Z.mod_pos_bound b 2 ltac:(lia)); lia).
    destruct Ea as (a' & [Ea|Ea]), Eb as (b' & [Eb|Eb]); subst a b.
    + destruct (IH a' b') as [->| ->]; [nia|left; lia|right; lia].
    + exfalso. ring_simplify in H. nia.
    + exfalso. ring_simplify in H. nia.
    + exfalso. ring_simplify in H. nia.
Qed.
Lemma circle_double c s : generic_format radix2 (FLT_exp (-1074) 53) c -> generic_format radix2 (FLT_exp (-1074) 53) s -> c * c + s * s = 1 -> c = 0 \/ s = 0.
Proof.
  intros Fc Fs H.
  assert (K : forall x, generic_format radix2 (FLT_exp (-1074) 53) x -> exists m : Z, x = IZR m * bpow radix2 (-1074)).
  { intros x Fx. apply FLT_format_generic in Fx; [|reflexivity]. destruct Fx as [[m e] -> _ He]. cbn [Fexp] in He. exists (m * 2 ^ (e + 1074))%Z.
    unfold F2R; cbn [Fnum Fexp]. rewrite mult_IZR. change (2 ^ (e + 1074))%Z with (Zpower radix2 (e + 1074)). rewrite IZR_Zpower by lia. rewrite Rmult_assoc, <- bpow_plus. do 2 f_equal. lia. }
  destruct (K c Fc) as (m & Ec). destruct (K s Fs) as (n & Es). rewrite Ec, Es in H.
  assert (E : IZR (m * m + n * n) = IZR (4 ^ Z.of_nat 1074)).
  { change 4%Z with (Zpower radix2 2). replace (Zpower radix2 2 ^ Z.of_nat 1074)%Z with (Zpower radix2 2148) by (change 2148%Z with (2 * 1074)%Z; change (Z.of_nat 1074) with 1074%Z; apply Z.pow_mul_r; lia).
    rewrite IZR_Zpower by lia. rewrite plus_IZR, !mult_IZR. change (2148)%Z with (1074 + 1074)%Z. rewrite bpow_plus.
    set (u := bpow radix2 (-1074)) in *. set (v := bpow radix2 1074) in *. assert (UV : u * v = 1) by (unfold u, v; rewrite <- bpow_plus; reflexivity).
    transitivity ((IZR m * u * (IZR m * u) + IZR n * u * (IZR n * u)) * (v * v)); [|rewrite H; ring].
    transitivity ((IZR m * IZR m + IZR n * IZR n) * (u * v) * (u * v)); [rewrite UV; ring|ring]. }
  apply eq_IZR in E. destruct (circle_int 1074 m n E) as [-> | ->]; [left; rewrite Ec; ring|right; rewrite Es; ring].
Qed.
(** With doubles, a rotation by an angle is a rotation matrix only when the angle is computed to be a multiple of a right angle. *)
Lemma no_exact_rotation fsin fcos a : (forall x, generic_format radix2 (FLT_exp (-1074) 53) (fsin x)) -> (forall x, generic_format radix2 (FLT_exp (-1074) 53) (fcos x)) ->
  (is_rotation (fl_RotX fsin fcos a) \/ is_rotation (fl_RotY fsin fcos a) \/ is_rotation (fl_RotZ fsin fcos a)) -> fcos a = 0 \/ fsin a = 0.
Proof.
  intros Gs Gc H. apply circle_double; [apply Gc|apply Gs|].
  destruct H as [H|[H|H]].
  - pose proof (col11 _ H) as E. unfold fl_RotX in E; cbn [r0 r1 r2 r3 r4 r5 r6 r7 r8] in E. lra.
  - pose proof (col00 _ H) as E. unfold fl_RotY in E; cbn [r0 r1 r2 r3 r4 r5 r6 r7 r8] in E. lra.
  - pose proof (col00 _ H) as E. unfold fl_RotZ in E; cbn [r0 r1 r2 r3 r4 r5 r6 r7 r8] in E. lra.
Qed.
(** So with doubles and a correctly rounding C library a rotation by one radian is not a rotation matrix. *)
Lemma one_radian_not_rigid :
  let f := fun x => double (sin x) in let g := fun x => double (cos x) in
  ~ is_rotation (fl_RotX f g 1) /\ ~ is_rotation (fl_RotY f g 1) /\ ~ is_rotation (fl_RotZ f g 1).
Proof.
  intros f g.
  assert (Gf : forall x, generic_format radix2 (FLT_exp (-1074) 53) (f x)) by (intros x; apply generic_format_round; [apply FLT_exp_valid; reflexivity|apply valid_rnd_N]).
  assert (Gg : forall x, generic_format radix2 (FLT_exp (-1074) 53) (g x)) by (intros x; apply generic_format_round; [apply FLT_exp_valid; reflexivity|apply valid_rnd_N]).
  pose proof PI2_3_2. pose proof PI_4.
  assert (C : / 2 <= cos 1). { replace (/ 2) with (cos (PI / 3)) by (rewrite cos_PI3; lra). apply cos_decr_1; lra. }
  assert (S1 : / 2 <= sin 1). { replace (/ 2) with (sin (PI / 6)) by (rewrite sin_PI6; lra). apply sin_incr_1; lra. }
  pose proof (libm_cos 1) as L1. pose proof (libm_sin 1) as L2. rewrite ulp1_eq in L1, L2. apply abs_split in L1, L2.
  assert (N : ~ (g 1 = 0 \/ f 1 = 0)) by (unfold f, g; intros [E|E]; rewrite E in *; lra).
  split; [|split]; intros H1; apply N; apply (no_exact_rotation f g 1 Gf Gg); auto.
Qed.
(** The error bound with all its hypotheses. *)
Lemma fk_error eps A D rnd fsin fcos c' c q z n : 1 <= A -> 1 <= D -> 0 <= eps -> rounds eps rnd -> computes eps fsin sin -> computes eps fcos cos ->
  chain_ok c -> chain_stored eps c' c -> length q = ch_nj c -> denotes c z n -> (n <= length (ch_segs c))%nat ->
  Forall (moves_within A D) (assign (ch_segs c) q) -> 2500 * INR n * (eps * A) <= 1 ->
  exists p, fl_fk_JntToCart rnd fsin fcos c' q z = Ret (E_NOERROR, p) /\
    r_near (220 * INR n * (eps * A)) (fM p) (fM (tip_frame c q n)) /\
    v_near (1850 * INR n * INR n * (eps * A * D)) (fp p) (fp (tip_frame c q n)).
Proof. intros. apply fl_fk_error; assumption. Qed.
