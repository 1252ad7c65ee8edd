(** Lines between frames inside the tolerance bands, and counterexamples for
    lines and circles. *)
From Coq Require Import Reals Lra Lia List Bool Psatz.
From Verif Require Import FramesModel FramesSpec FramesProofs RotationProofs RotationProofs2 RotationProofs3
  FrameOpsProofs RotationBands FramesWitness Outcome InertiaModel DualModel KinModel KinSpec DerivProofs ProfModel ProfSpec
  PathModel PathSpec PathProofs PathProofs2.
Import ListNotations.
Local Open Scope R_scope.

Lemma sa_set_near o M N : is_rotation M -> is_rotation N -> r_close (r_mul (r_inv M) N) r_id kdl_epsilon ->
  let o' := sa_SetStartEnd o M N in
  sa_start o' = M /\ unit_vector (sa_axis o') /\ 0 <= sa_angle o' <= PI /\
  r_close (r_mul M (r_Rot2 (sa_axis o') (sa_angle o'))) N (3 * kdl_epsilon).
Proof.
  intros HM HN HC. pose proof kdl_epsilon_pos as Pe.
  destruct (Rlt_dec (Rabs (r1 (r_mul (r_inv M) N) - r3 (r_mul (r_inv M) N))) kdl_epsilon) as [A|A];
  [destruct (Rlt_dec (Rabs (r2 (r_mul (r_inv M) N) - r6 (r_mul (r_inv M) N))) kdl_epsilon) as [B|B];
   [destruct (Rlt_dec (Rabs (r5 (r_mul (r_inv M) N) - r7 (r_mul (r_inv M) N))) kdl_epsilon) as [C|C]|]|].
  2,3,4: (destruct (sa_set_spec o M N HM HN) as (S1 & S2 & S3 & S4);
    [left; unfold axis_angle_regular; lra|]; cbv zeta; do 3 (split; [assumption|]); rewrite S4;
    apply r_Equal_close, r_equal_laws; lra).
  set (r := r_mul (r_inv M) N) in *.
  assert (E : sa_SetStartEnd o M N = mkSA M N (mkV 0 0 1) 0).
  { unfold sa_SetStartEnd. fold r. unfold r_GetRotAngle.
    destruct HC as (c0 & c1 & c2 & c3 & c4 & c5 & c6 & c7 & c8). unfold close, r_id in *. psimp.
    destruct (Rlt_dec (Rabs (r1 r - r3 r)) kdl_epsilon) as [A'|A']; [clear A'|contradiction].
    destruct (Rlt_dec (Rabs (r2 r - r6 r)) kdl_epsilon) as [A'|A']; [clear A'|contradiction].
    destruct (Rlt_dec (Rabs (r5 r - r7 r)) kdl_epsilon) as [A'|A']; [clear A'|contradiction]. cbn [andb].
    apply Rabs_def2 in c0, c1, c2, c3, c4, c5, c6, c7, c8.
    destruct (Rlt_dec (Rabs (r1 r + r3 r)) (kdl_epsilon * 10)) as [A'|A']; [clear A'|exfalso; apply A', Rabs_def1; lra].
    destruct (Rlt_dec (Rabs (r2 r + r6 r)) (kdl_epsilon * 10)) as [A'|A']; [clear A'|exfalso; apply A', Rabs_def1; lra].
    destruct (Rlt_dec (Rabs (r5 r + r7 r)) (kdl_epsilon * 10)) as [A'|A']; [clear A'|exfalso; apply A', Rabs_def1; lra].
    destruct (Rlt_dec (Rabs (r0 r + r4 r + r8 r - 3)) (kdl_epsilon * 10)) as [A'|A']; [clear A'|exfalso; apply A', Rabs_def1; lra].
    reflexivity. }
  rewrite E. cbn [sa_start sa_axis sa_angle]. cbv zeta. pose proof PI_RGT_0.
  do 3 (split; [first [reflexivity | unfold unit_vector; cbn; ring | lra]|]).
  rewrite Rot2_0, r_mul_id_r.
  assert (EN : N = r_mul M r) by (unfold r; rewrite <- r_mul_assoc, r_inv_r by exact HM; symmetry; apply r_mul_id_l).
  clearbody r. rewrite EN.
  assert (bnd : forall a b c, a ^ 2 + b ^ 2 + c ^ 2 = 1 -> Rabs a <= 1 /\ Rabs b <= 1 /\ Rabs c <= 1).
  { intros a b c Q. pose proof (pow2_ge_0 a). pose proof (pow2_ge_0 b). pose proof (pow2_ge_0 c).
    repeat split; apply Rabs_le; nra. }
  destruct (bnd _ _ _ (col00 _ HM)) as (m0 & m3 & m6).
  destruct (bnd _ _ _ (col11 _ HM)) as (m1 & m4 & m7).
  destruct (bnd _ _ _ (col22 _ HM)) as (m2 & m5 & m8).
  destruct HC as (c0 & c1 & c2 & c3 & c4 & c5 & c6 & c7 & c8). unfold close, r_id in *.
  assert (K : forall a b c x y z, Rabs a <= 1 -> Rabs b <= 1 -> Rabs c <= 1 ->
     Rabs x < kdl_epsilon -> Rabs y < kdl_epsilon -> Rabs z < kdl_epsilon ->
     Rabs (a * x + b * y + c * z) < 3 * kdl_epsilon).
  { assert (K1 : forall a x, Rabs a <= 1 -> Rabs x < kdl_epsilon -> Rabs (a * x) < kdl_epsilon).
    { intros a x Ha Hx. rewrite Rabs_mult. apply Rle_lt_trans with (1 * Rabs x); [|lra].
      apply Rmult_le_compat_r; [apply Rabs_pos|exact Ha]. }
    intros a b c x y z Ha Hb Hc Hx Hy Hz.
    pose proof (K1 a x Ha Hx) as A1. pose proof (K1 b y Hb Hy) as A2. pose proof (K1 c z Hc Hz) as A3.
    apply Rabs_def2 in A1, A2, A3. apply Rabs_def1; lra. }
  clear - K m0 m1 m2 m3 m4 m5 m6 m7 m8 c0 c1 c2 c3 c4 c5 c6 c7 c8. psimp.
  rewrite !Rminus_0_r in *.
  unfold r_close, close, r_mul. psimp.
  repeat split; rewrite <- Rabs_Ropp;
  match goal with |- Rabs (- (?m - (?a * ?x + ?b * ?y + ?c * ?z))) < _ =>
    first [ replace (- (m - (a * x + b * y + c * z))) with (a * (x - 1) + b * y + c * z) by ring; apply K; assumption
          | replace (- (m - (a * x + b * y + c * z))) with (a * x + b * (y - 1) + c * z) by ring; apply K; assumption
          | replace (- (m - (a * x + b * y + c * z))) with (a * x + b * y + c * (z - 1)) by ring; apply K; assumption ] end.
Qed.

Lemma normalize_any v : let '(dir, dist) := v_normalize v in
  unit_vector dir /\ 0 <= dist /\ v_close (v_scale dir dist) v (2 * kdl_epsilon).
Proof.
  pose proof kdl_epsilon_pos as Pe.
  pose proof (v_normalize_unit v) as U.
  destruct (v_normalize v) as [dir dist] eqn:E. cbn [fst] in U. split; [exact U|].
  destruct (Rlt_dec dist kdl_epsilon) as [L|L].
  - pose proof (normalize_report _ _ _ E L) as N.
    assert (dist = 0) as ->.
    { unfold v_normalize, v_normalize_eps in E. destruct (Rlt_dec (v_norm v) kdl_epsilon); injection E as _ E; [auto|lra]. }
    split; [lra|]. rewrite v_scale_0. pose proof (max_abs_le_norm v) as M. unfold max_abs in M.
    assert (forall x, Rabs x <= euclid_norm v -> close 0 x (2 * kdl_epsilon)).
    { intros x Hx. unfold close. rewrite Rminus_0_l, Rabs_Ropp. lra. }
    repeat split; cbn; apply H; eapply Rle_trans; try exact M.
    + apply Rmax_l. + eapply Rle_trans; [apply Rmax_l|apply Rmax_r]. + eapply Rle_trans; [apply Rmax_r|apply Rmax_r].
  - destruct (normalize_big _ _ _ E L) as (_ & P & _ & ->). split; [lra|].
    apply v_Equal_close, v_equal_laws. lra.
Qed.

Lemma line_scales o vs ve Ms Me eq : 0 < eq -> 0 <= sa_angle (sa_SetStartEnd o Ms Me) ->
  let l := line_body o vs ve Ms Me eq in
  ln_orient l = sa_SetStartEnd o Ms Me /\ ln_start l = vs /\ ln_dir l = fst (v_normalize (v_sub ve vs)) /\
  ln_len l * ln_scalelin l = snd (v_normalize (v_sub ve vs)) /\ ln_len l * ln_scalerot l = sa_angle (ln_orient l).
Proof.
  intros He Ha. unfold line_body. pose proof (normalize_any (v_sub ve vs)) as N.
  destruct (v_normalize (v_sub ve vs)) as [dir d]. destruct N as (_ & Pd & _). cbn [fst snd].
  unfold sa_Angle. set (o' := sa_SetStartEnd o Ms Me) in *. set (a := sa_angle o') in *.
  destruct (Req_EM_T a 0) as [Za|Za]; cbn [andb].
  - destruct (Req_EM_T d 0) as [Zd|Zd]; cbn; fold a; rewrite ?Zd, ?Za; repeat split; try ring; field; auto.
  - assert (0 < a * eq) by (apply Rmult_lt_0_compat; lra).
    destruct (Rlt_dec d (a * eq)) as [L|L]; cbn [andb].
    + cbn; fold a. repeat split; try reflexivity; field; lra.
    + destruct (Req_EM_T d 0) as [Zd|Zd]; [exfalso; lra|].
      cbn; fold a. repeat split; try ring; field; auto.
Qed.

Lemma close_add_l a b x e : close b x e -> close (a + b) (a + x) e.
Proof. unfold close. intros H. replace (a + b - (a + x)) with (b - x) by ring. exact H. Qed.

(** Every pair of frames, also within the bands, except close to (but not
    exactly at) a half turn. *)
Lemma line_near o F G eq : rigid F -> rigid G -> 0 < eq ->
  resolved_rotation (fM F) (fM G) \/ r_close (r_mul (r_inv (fM F)) (fM G)) r_id kdl_epsilon ->
  let l := line_make F G o eq in
  line_Pos l 0 = F /\ f_close (line_Pos l (ln_len l)) G (3 * kdl_epsilon) /\
  curve_derivatives (line_Pos l) (line_Vel l) (line_Acc l).
Proof.
  intros HF HG He HR l. pose proof kdl_epsilon_pos as Pe.
  assert (S : let o' := sa_SetStartEnd o (fM F) (fM G) in
     sa_start o' = fM F /\ unit_vector (sa_axis o') /\ 0 <= sa_angle o' <= PI /\
     r_close (r_mul (fM F) (r_Rot2 (sa_axis o') (sa_angle o'))) (fM G) (3 * kdl_epsilon)).
  { destruct HR as [HR|HR]; [|apply sa_set_near; assumption].
    destruct (sa_set_spec o _ _ HF HG HR) as (S1 & S2 & S3 & S4). cbv zeta. do 3 (split; [assumption|]).
    rewrite S4. apply r_Equal_close, r_equal_laws. lra. }
  cbv zeta in S. destruct S as (S1 & S2 & S3 & S4).
  destruct (line_scales o (fp F) (fp G) (fM F) (fM G) eq He (proj1 S3)) as (L1 & L2 & L3 & L4 & L5).
  change (line_body o (fp F) (fp G) (fM F) (fM G) eq) with l in *.
  pose proof (normalize_any (v_sub (fp G) (fp F))) as N.
  destruct (v_normalize (v_sub (fp G) (fp F))) as [dir d]. destruct N as (_ & _ & N). cbn [fst snd] in *.
  rewrite <- L1 in *.
  split; [|split].
  - unfold line_Pos, sa_Pos. rewrite Rmult_0_l, Rot2_0, r_mul_id_r, S1, L2. destruct F as [M p]. cbn [fM fp]. f_equal. geo.
  - unfold line_Pos, sa_Pos. rewrite L5, S1, L2, L3. split; cbn [fp fM]; [|exact S4].
    replace (v_scale (v_scale dir (ln_len l)) (ln_scalelin l)) with (v_scale dir d) by (rewrite <- L4; geo).
    destruct N as (N1 & N2 & N3). destruct (fp F) as [a b c], (fp G) as [x y z]. cbn in N1, N2, N3.
    assert (forall p q w, close w (q - p) (2 * kdl_epsilon) -> close (p + w) q (3 * kdl_epsilon)).
    { intros p q w H. apply (close_add_l p) in H. replace (p + (q - p)) with q in H by ring.
      eapply close_mono; [|exact H]. lra. }
    repeat split; cbn; apply H; assumption.
  - apply line_derivatives; [exact S2|rewrite S1; exact HF].
Qed.

(** * Counterexamples *)

(** With a zero equivalent radius a pure rotation is dropped. *)
Lemma line_zero_eqradius o F G : resolved F G -> fp F = fp G -> fM F <> fM G ->
  let l := line_make F G o 0 in ln_len l = 0 /\ line_Pos l (ln_len l) = F /\ F <> G.
Proof.
  intros (HF & HG & HR & HD) Ep NM. unfold line_make, line_body.
  pose proof (normalize_resolved _ _ HD) as N. rewrite <- Ep in *. rewrite v_sub_diag in *.
  destruct (v_normalize v_zero) as [dir d]. destruct N as (_ & _ & _ & Ed & _).
  assert (d = 0) as ->.
  { rewrite Ed. unfold euclid_norm, v_zero; cbn. replace (0 * (0 * 1) + 0 * (0 * 1) + 0 * (0 * 1)) with 0 by ring. apply sqrt_0. }
  pose proof (sa_set_spec o _ _ HF HG HR) as (S1 & S2 & S3 & S4).
  set (o' := sa_SetStartEnd o (fM F) (fM G)) in *. unfold sa_Angle.
  assert (X : (if Rlt_dec 0 (sa_angle o' * 0) then true else false) = false).
  { destruct (Rlt_dec 0 (sa_angle o' * 0)) as [L|L]; [lra|reflexivity]. }
  rewrite X, andb_false_r. destruct (Req_EM_T 0 0) as [_|Q]; [|exfalso; apply Q; reflexivity].
  cbn [ln_len]. split; [reflexivity|]. split.
  - unfold line_Pos, sa_Pos. cbn. rewrite Rmult_0_l, Rot2_0, r_mul_id_r, S1. destruct F as [M p]. cbn. f_equal. geo.
  - intros ->. apply NM; reflexivity.
Qed.

Lemma angle_id : r_GetRotAngle r_id kdl_epsilon = (mkV 0 0 1, 0).
Proof.
  unfold r_GetRotAngle, r_id; psimp.
  replace (0 - 0) with 0 by ring. replace (0 + 0) with 0 by ring. replace (1 + 1 + 1 - 3) with 0 by ring.
  rewrite Rabs_R0. pose proof kdl_epsilon_pos.
  destruct (Rlt_dec 0 kdl_epsilon); [|contradiction]. destruct (Rlt_dec 0 (kdl_epsilon * 10)); [|lra]. reflexivity.
Qed.
Lemma sa_same o M : is_rotation M -> sa_SetStartEnd o M M = mkSA M M (mkV 0 0 1) 0.
Proof. intros H. unfold sa_SetStartEnd. rewrite r_inv_l by exact H. rewrite angle_id. reflexivity. Qed.

(** A circular path over angle zero without reorientation is not usable. *)
Lemma circle_zero_angle F center p o eq : rigid F ->
  match circle_make F center p (fM F) 0 o eq with Val _ => False | _ => True end.
Proof.
  intros HF. unfold circle_make. rewrite sa_same by exact HF. cbn [sa_Angle sa_angle].
  destruct (v_normalize (v_sub (fp F) center)) as [x r]. destruct (Rlt_dec r kdl_epsilon); [exact I|].
  destruct (v_normalize (v_sub p center)) as [y dy]. destruct (v_normalize (v_cross x y)) as [z n0].
  destruct (Rlt_dec n0 kdl_epsilon); [exact I|].
  replace (0 * r) with 0 by ring. replace (0 * eq) with 0 by ring.
  destruct (Rlt_dec 0 0); [lra|]. destruct (Req_EM_T 0 0); [exact I|congruence].
Qed.

(** What Clone of a circular path builds. *)
Lemma circle_clone_eq F center p Rend alpha eq c : circle_facts F center p Rend alpha eq c ->
  circle_Clone c = circle_make F center (r_UnitY (fM (ci_center c))) Rend (alpha * 180 / PI) sa_make eq.
Proof.
  intros H. unfold circle_Clone, sa_Clone.
  rewrite (proj1 (circle_circular _ _ _ _ _ _ _ H)), (cf_center _ _ _ _ _ _ _ H), (cf_eq _ _ _ _ _ _ _ H).
  replace (sa_Pos (ci_orient c) (ci_len c * ci_scalerot c)) with Rend.
  - f_equal. rewrite (cf_lin _ _ _ _ _ _ _ H). unfold deg2rad. pose proof (cf_rpos _ _ _ _ _ _ _ H). pose proof PI_RGT_0.
    field. lra.
  - unfold sa_Pos. rewrite (cf_ang _ _ _ _ _ _ _ H), (cf_M _ _ _ _ _ _ _ H). symmetry. apply (cf_rot _ _ _ _ _ _ _ H).
Qed.

(** The unit circle through (1,0,0) and (0,1,0), over one radian. *)
Definition unit_arc_start : Frame := mkF r_id (mkV 1 0 0).
Lemma max_abs_1 v : 1 <= Rabs (vx v) \/ 1 <= Rabs (vy v) \/ 1 <= Rabs (vz v) -> kdl_epsilon <= max_abs v.
Proof.
  intros H. unfold max_abs, kdl_epsilon.
  pose proof (Rmax_l (Rabs (vx v)) (Rmax (Rabs (vy v)) (Rabs (vz v)))).
  pose proof (Rmax_r (Rabs (vx v)) (Rmax (Rabs (vy v)) (Rabs (vz v)))).
  pose proof (Rmax_l (Rabs (vy v)) (Rabs (vz v))). pose proof (Rmax_r (Rabs (vy v)) (Rabs (vz v))). lra.
Qed.
Lemma euclid_1 v : vx v ^ 2 + vy v ^ 2 + vz v ^ 2 = 1 -> euclid_norm v = 1.
Proof. apply unit_norm. Qed.

Lemma resolved_id M : is_rotation M -> resolved_rotation M M.
Proof. intros H. right. rewrite r_inv_l by exact H. repeat split. Qed.

Lemma unit_arc alpha : 0 < alpha ->
  exists c, circle_make unit_arc_start v_zero (mkV 0 1 0) r_id alpha sa_make 1 = Val c /\
    circle_facts unit_arc_start v_zero (mkV 0 1 0) r_id alpha 1 c /\
    ci_len c = alpha /\ r_UnitY (fM (ci_center c)) = mkV 0 1 0.
Proof.
  intros Ha.
  assert (HF : rigid unit_arc_start) by apply is_rotation_id.
  assert (HD : resolved_displacement v_zero (mkV 0 1 0)).
  { right. apply max_abs_1. right; left. cbn. replace (1 - 0) with 1 by ring. rewrite Rabs_R1. lra. }
  pose proof (circle_make_cases unit_arc_start v_zero (mkV 0 1 0) r_id alpha sa_make 1 HF is_rotation_id
                (resolved_id _ is_rotation_id) HD Ha ltac:(lra)) as H.
  assert (E1 : euclid_norm (v_sub (fp unit_arc_start) v_zero) = 1) by (apply euclid_1; cbn; ring).
  assert (E2 : euclid_norm (v_sub (mkV 0 1 0) v_zero) = 1) by (apply euclid_1; cbn; ring).
  assert (E3 : euclid_norm (v_cross (v_sub (fp unit_arc_start) v_zero) (v_sub (mkV 0 1 0) v_zero)) = 1) by (apply euclid_1; cbn; ring).
  rewrite ?E1, ?E2, ?E3 in H.
  pose proof kdl_epsilon_pos.
  assert (2 * kdl_epsilon < 1) by (unfold kdl_epsilon; lra).
  destruct (circle_make unit_arc_start v_zero (mkV 0 1 0) r_id alpha sa_make 1) as [c|[]|] eqn:E; try contradiction.
  - exists c. split; [reflexivity|]. split; [exact H|].
    assert (N : v_zero <> mkV 0 1 0) by (intros Q; injection Q; lra).
    pose proof (cf_plane _ _ _ _ _ _ _ H N) as (Uz & k & Pk & Ek).
    assert (Ez : r_UnitZ (fM (ci_center c)) = mkV 0 0 1).
    { destruct (r_UnitZ (fM (ci_center c))) as [z0 z1 z2] eqn:EZ. unfold unit_vector in Uz. cbn in Ek, Uz.
      injection Ek as K0 K1 K2.
      assert (z0 = 0) by nra. assert (z1 = 0) by nra. subst z0 z1.
      assert (z2 = 1) by nra. subst. reflexivity. }
    pose proof (cf_radius _ _ _ _ _ _ _ H) as Er. rewrite E1 in Er.
    pose proof (cf_x _ _ _ _ _ _ _ H) as Ex. rewrite Er, v_scale_1 in Ex.
    split.
    + rewrite (cf_len _ _ _ _ _ _ _ H), Er.
      assert (EA : sa_angle (ci_orient c) = 0).
      { unfold circle_make in E. unfold unit_arc_start in E at 1. cbn [fM] in E. rewrite sa_same in E by apply is_rotation_id.
        destruct (v_normalize (v_sub (fp (mkF r_id (mkV 1 0 0))) v_zero)) as [x r]. destruct (Rlt_dec r kdl_epsilon); [discriminate|].
        destruct (v_normalize (v_sub (mkV 0 1 0) v_zero)) as [y dy]. destruct (v_normalize (v_cross x y)) as [z n1].
        destruct (Rlt_dec n1 kdl_epsilon); [discriminate|].
        cbn [sa_Angle sa_angle] in E.
        destruct (Rlt_dec (alpha * r) (0 * 1)).
        - destruct (Req_EM_T 1 0); [discriminate|]. destruct (Req_EM_T (0 * 1) 0); [discriminate|]. injection E as <-. reflexivity.
        - destruct (Req_EM_T (alpha * r) 0); [discriminate|]. injection E as <-. reflexivity. }
      rewrite EA, Rmax_left; lra.
    + rewrite (cf_y _ _ _ _ _ _ _ H), Ez, Ex. unfold v_cross, v_sub, unit_arc_start, v_zero; cbn. f_equal; ring.
  - exfalso. lra.
  - exfalso. destruct H as [H|H]; [injection H; lra|lra].
Qed.

Lemma circle_clone_wrong :
  exists c c', circle_make unit_arc_start v_zero (mkV 0 1 0) r_id 1 sa_make 1 = Val c /\
    circle_Clone c = Val c' /\ ci_len c = 1 /\ ci_len c' = 180 / PI /\ ci_len c <> ci_len c'.
Proof.
  destruct (unit_arc 1 ltac:(lra)) as (c & E & H & L & Y).
  pose proof PI_RGT_0 as P. pose proof PI_4 as P4.
  assert (P1 : 0 < 1 * 180 / PI) by (apply Rdiv_lt_0_compat; lra).
  destruct (unit_arc (1 * 180 / PI) P1) as (c' & E' & H' & L' & Y').
  exists c, c'. split; [exact E|]. rewrite (circle_clone_eq _ _ _ _ _ _ _ H), Y. split; [exact E'|].
  split; [exact L|]. split; [rewrite L'; f_equal; ring|]. rewrite L, L'.
  intros Q. assert (PI = 180); [|lra]. rewrite <- (Rmult_1_l PI). rewrite Q. field. lra.
Qed.

(** A twist given in the base frame is applied in the moving frame. *)
Lemma line_twist_end o F w eq :
  resolved F (mkF (r_mul (fM F) (r_Rot (trot w) (v_norm (trot w)))) (v_add (fp F) (tvel w))) -> 0 < eq ->
  let l := line_make_twist F w o eq in
  straight F (mkF (r_mul (fM F) (r_Rot (trot w) (v_norm (trot w)))) (v_add (fp F) (tvel w))) (ln_len l) (line_Pos l).
Proof. intros H He. rewrite line_twist. apply (line_correct o _ _ _ H He). Qed.

Lemma v_norm_x a : kdl_epsilon <= a -> v_norm (mkV a 0 0) = a.
Proof.
  intros H. pose proof kdl_epsilon_pos.
  unfold v_norm. rewrite v_norm_eps_exact; [|assumption|].
  - unfold euclid_norm; cbn [vx vy vz]. replace (a ^ 2 + 0 ^ 2 + 0 ^ 2) with (a * a) by ring. apply sqrt_square. lra.
  - unfold max_abs; cbn [vx vy vz]. eapply Rle_trans; [exact H|]. eapply Rle_trans; [apply Rle_abs|apply Rmax_l].
Qed.

Lemma line_twist_not_base : exists F w, let e := mkF (r_mul (fM F) (r_Rot (trot w) (v_norm (trot w)))) (v_add (fp F) (tvel w)) in
  resolved F e /\ forall o eq, 0 < eq ->
  let l := line_make_twist F w o eq in
  fM (line_Pos l (ln_len l)) <> r_mul (r_Rot (trot w) (v_norm (trot w))) (fM F).
Proof.
  exists (mkF (r_RotZ (PI / 2)) v_zero), (mkT v_zero (mkV (PI / 2) 0 0)).
  cbn [fM fp tvel trot]. pose proof PI_RGT_0 as P. pose proof PI2_3_2 as P2.
  assert (Pe : kdl_epsilon <= PI / 2) by (unfold kdl_epsilon; lra).
  rewrite (v_norm_x _ Pe).
  assert (ER : r_Rot (mkV (PI / 2) 0 0) (PI / 2) = r_RotX (PI / 2)).
  { unfold r_Rot, v_normalize, v_normalize_eps. rewrite (v_norm_x _ Pe).
    destruct (Rlt_dec (PI / 2) kdl_epsilon); [lra|]. cbn [fst]. rewrite RotX_Rot2. f_equal. apply v_ext; cbn; field; lra. }
  rewrite ER.
  assert (H : resolved (mkF (r_RotZ (PI / 2)) v_zero) (mkF (r_mul (r_RotZ (PI / 2)) (r_RotX (PI / 2))) (v_add v_zero v_zero))).
  { split; [apply is_rotation_RotZ|]. split; [apply is_rotation_mul; [apply is_rotation_RotZ|apply is_rotation_RotX]|]. split.
    - left. cbn [fM]. rewrite <- r_mul_assoc, r_inv_l, r_mul_id_l by apply is_rotation_RotZ.
      right; right. unfold r_RotX. cbn. rewrite sin_PI2. rewrite Rabs_left; unfold kdl_epsilon; lra.
    - left. geo. }
  split; [exact H|]. intros o eq He.
  pose proof (line_twist_end o (mkF (r_RotZ (PI / 2)) v_zero) (mkT v_zero (mkV (PI / 2) 0 0)) eq) as K.
  cbn [fM fp tvel trot] in K. rewrite (v_norm_x _ Pe), ER in K.
  destruct (K H He) as (_ & K2 & _). cbv zeta. rewrite K2. cbn [fM].
  unfold r_mul, r_RotZ, r_RotX. cbn. rewrite sin_PI2, cos_PI2. intros Q. injection Q. intros. lra.
Qed.
