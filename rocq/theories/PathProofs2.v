(** Proofs about Path_Circle and about frames inside the tolerance bands. *)
From Coq Require Import Reals Lra Lia List Bool Psatz.
From Verif Require Import FramesModel FramesSpec FramesProofs RotationProofs RotationProofs2 RotationProofs3
  FrameOpsProofs RotationBands FramesWitness Outcome InertiaModel DualModel KinModel KinSpec DerivProofs ProfModel ProfSpec
  PathModel PathSpec PathProofs.
Import ListNotations.
Local Open Scope R_scope.

Lemma circle_derivatives c : ci_radius c <> 0 -> unit_vector (sa_axis (ci_orient c)) -> is_rotation (sa_start (ci_orient c)) ->
  curve_derivatives (circle_Pos c) (circle_Vel c) (circle_Acc c).
Proof.
  intros Hr U HM.
  set (k := ci_scalelin c / ci_radius c).
  assert (Ek : forall x, x * ci_scalelin c / ci_radius c = x * k) by (intros x; unfold k; field; exact Hr).
  split.
  - intros s t sd Hs. apply frame_velocity_entries. unfold circle_Pos, circle_Vel. cbn [fp fM tvel trot]. split.
    + pose proof (dl_scale _ _ _ k Hs) as Hk.
      assert (D : v_derive (fun u => mkV (ci_radius c * cos (s u * ci_scalelin c / ci_radius c))
                 (ci_radius c * sin (s u * ci_scalelin c / ci_radius c)) 0) t
          (mkV (- ci_radius c * sin (s t * ci_scalelin c / ci_radius c) * (sd * ci_scalelin c / ci_radius c))
               (ci_radius c * cos (s t * ci_scalelin c / ci_radius c) * (sd * ci_scalelin c / ci_radius c)) 0)).
      { rewrite !Ek. repeat split; cbn [vx vy vz].
        - apply (dl_ext (fun u => ci_radius c * cos (s u * k))); [intros u; rewrite Ek; reflexivity|].
          eapply dl_eq; [apply derivable_pt_lim_scal, (derivable_pt_lim_comp (fun u => s u * k) cos); [exact Hk|apply derivable_pt_lim_cos]|].
          ring.
        - apply (dl_ext (fun u => ci_radius c * sin (s u * k))); [intros u; rewrite Ek; reflexivity|].
          eapply dl_eq; [apply derivable_pt_lim_scal, (derivable_pt_lim_comp (fun u => s u * k) sin); [exact Hk|apply derivable_pt_lim_sin]|].
          ring.
        - apply derivable_pt_lim_const. }
      pose proof (v_derive_add _ _ _ _ _ (r_app_derive _ _ _ _ _ (r_derive_const (fM (ci_center c)) t) D)
                    (v_derive_const (fp (ci_center c)) t)) as L.
      eapply v_derive_eq; [exact L|]. cbv beta. unfold m3_zero. generalize (mkV (- ci_radius c * sin (s t * ci_scalelin c / ci_radius c) * (sd * ci_scalelin c / ci_radius c))
               (ci_radius c * cos (s t * ci_scalelin c / ci_radius c) * (sd * ci_scalelin c / ci_radius c)) 0)
         (mkV (ci_radius c * cos (s t * ci_scalelin c / ci_radius c)) (ci_radius c * sin (s t * ci_scalelin c / ci_radius c)) 0).
      generalize (fM (ci_center c)). clear. geo.
    + apply (sa_pos_derive (ci_orient c) (fun u => s u * ci_scalerot c)); auto. apply dl_scale, Hs.
  - intros s s' t sdd Hs Hs'. unfold circle_Vel, circle_Acc. split; cbn [tvel trot].
    + pose proof (dl_scale _ _ _ k Hs) as Hk. pose proof (dl_scale _ _ _ k Hs') as Hk'.
      set (r := ci_radius c) in *.
      assert (Hc : derivable_pt_lim (fun u => cos (s u * k)) t (- sin (s t * k) * (s' t * k))).
      { apply (derivable_pt_lim_comp (fun u => s u * k) cos); [exact Hk|apply derivable_pt_lim_cos]. }
      assert (Hn : derivable_pt_lim (fun u => sin (s u * k)) t (cos (s t * k) * (s' t * k))).
      { apply (derivable_pt_lim_comp (fun u => s u * k) sin); [exact Hk|apply derivable_pt_lim_sin]. }
      assert (D : v_derive (fun u => mkV (- r * sin (s u * ci_scalelin c / r) * (s' u * ci_scalelin c / r))
                 (r * cos (s u * ci_scalelin c / r) * (s' u * ci_scalelin c / r)) 0) t
          (mkV (- r * cos (s t * ci_scalelin c / r) * (s' t * ci_scalelin c / r) * (s' t * ci_scalelin c / r)
                - r * sin (s t * ci_scalelin c / r) * (sdd * ci_scalelin c / r))
               (- r * sin (s t * ci_scalelin c / r) * (s' t * ci_scalelin c / r) * (s' t * ci_scalelin c / r)
                + r * cos (s t * ci_scalelin c / r) * (sdd * ci_scalelin c / r)) 0)).
      { rewrite !Ek. repeat split; cbn [vx vy vz].
        - apply (dl_ext (fun u => - r * sin (s u * k) * (s' u * k))); [intros u; rewrite !Ek; reflexivity|].
          eapply dl_eq; [apply (derivable_pt_lim_mult (fun u => - r * sin (s u * k)) (fun u => s' u * k)); [apply derivable_pt_lim_scal, Hn|exact Hk']|].
          ring.
        - apply (dl_ext (fun u => r * cos (s u * k) * (s' u * k))); [intros u; rewrite !Ek; reflexivity|].
          eapply dl_eq; [apply (derivable_pt_lim_mult (fun u => r * cos (s u * k)) (fun u => s' u * k)); [apply derivable_pt_lim_scal, Hc|exact Hk']|].
          ring.
        - apply derivable_pt_lim_const. }
      pose proof (r_app_derive _ _ _ _ _ (r_derive_const (fM (ci_center c)) t) D) as L.
      eapply v_derive_eq; [exact L|]. cbv beta. unfold m3_zero.
      match goal with |- v_add (r_app _ ?a) (r_app _ ?b) = _ => generalize a b end.
      generalize (fM (ci_center c)). clear. geo.
    + apply (sa_vel_derive (ci_orient c) (fun u => s u * ci_scalerot c) (fun u => s' u * ci_scalerot c)).
      apply dl_scale, Hs'.
Qed.

(** A vector whose Normalize did not report (almost) zero. *)
Lemma normalize_big v x r : v_normalize v = (x, r) -> ~ r < kdl_epsilon ->
  r = euclid_norm v /\ 0 < r /\ unit_vector x /\ v_scale x r = v.
Proof.
  pose proof kdl_epsilon_pos as He. unfold v_normalize, v_normalize_eps.
  destruct (Rlt_dec (v_norm v) kdl_epsilon) as [L|L]; intros E N.
  - injection E as <- <-. lra.
  - injection E as <- <-. destruct (v_norm_0_or v) as [Z|Z]; [lra|].
    rewrite Z in *. split; [reflexivity|]. split; [lra|]. split.
    + pose proof (v_normalize_unit v) as U. unfold v_normalize, v_normalize_eps in U. rewrite Z in U.
      destruct (Rlt_dec (euclid_norm v) kdl_epsilon); [lra|exact U].
    + apply v_ext; cbn; field; lra.
Qed.
Lemma normalize_report v x r : v_normalize v = (x, r) -> r < kdl_epsilon -> euclid_norm v < 2 * kdl_epsilon.
Proof.
  intros E L. destruct (Rlt_dec (euclid_norm v) (2 * kdl_epsilon)) as [H|H]; [exact H|].
  exfalso. pose proof (v_norm_large v ltac:(lra)) as N. pose proof kdl_epsilon_pos.
  unfold v_normalize, v_normalize_eps in E. rewrite N in E.
  destruct (Rlt_dec (euclid_norm v) kdl_epsilon); [lra|]. injection E as _ E. lra.
Qed.

Lemma cross_perp a b : v_dot a (v_cross a b) = 0.
Proof. destruct a, b. unfold v_dot, v_cross. cbn. ring. Qed.

Lemma perp_cols x z : unit_vector x -> unit_vector z -> v_dot x z = 0 -> is_rotation (r_cols x (v_cross z x) z).
Proof.
  destruct x as [x0 x1 x2], z as [z0 z1 z2]. unfold unit_vector, v_dot, v_cross, r_cols. psimp. intros X Z D.
  assert (K : (z1 * x2 - z2 * x1) ^ 2 + (z2 * x0 - z0 * x2) ^ 2 + (z0 * x1 - z1 * x0) ^ 2 = 1).
  { transitivity ((x0^2+x1^2+x2^2) * (z0^2+z1^2+z2^2) - (z0 * x0 + z1 * x1 + z2 * x2) ^ 2); [ring|].
    rewrite X, Z, D. ring. }
  constructor; psimp; auto; try ring; try lra.
  unfold det3; psimp.
  transitivity ((x0^2+x1^2+x2^2) * (z0^2+z1^2+z2^2) - (z0 * x0 + z1 * x1 + z2 * x2) ^ 2); [ring|].
  rewrite X, Z, D. ring.
Qed.

Lemma cols_app x y z a b : r_app (r_cols x y z) (mkV a b 0) = v_add (v_scale x a) (v_scale y b).
Proof. geo. Qed.

(** What a successful construction establishes. *)
Record circle_facts (F : Frame) (center p : Vector) (Rend : Rotation) (alpha eq : R) (c : Circle) : Prop := {
  cf_radius : ci_radius c = euclid_norm (v_sub (fp F) center);
  cf_rpos : 0 < ci_radius c;
  cf_center : fp (ci_center c) = center;
  cf_x : v_scale (r_UnitX (fM (ci_center c))) (ci_radius c) = v_sub (fp F) center;
  cf_y : r_UnitY (fM (ci_center c)) = v_cross (r_UnitZ (fM (ci_center c))) (r_UnitX (fM (ci_center c)));
  cf_ux : unit_vector (r_UnitX (fM (ci_center c)));
  cf_uz : unit_vector (r_UnitZ (fM (ci_center c)));
  cf_xz : v_dot (r_UnitX (fM (ci_center c))) (r_UnitZ (fM (ci_center c))) = 0;
  cf_plane : center <> p -> plane_normal (v_sub (fp F) center) (v_sub p center) (r_UnitZ (fM (ci_center c)));
  cf_M : sa_start (ci_orient c) = fM F;
  cf_axis : unit_vector (sa_axis (ci_orient c));
  cf_angle : 0 <= sa_angle (ci_orient c) <= PI;
  cf_rot : r_mul (fM F) (r_Rot2 (sa_axis (ci_orient c)) (sa_angle (ci_orient c))) = Rend;
  cf_lin : ci_len c * ci_scalelin c = alpha * ci_radius c;
  cf_ang : ci_len c * ci_scalerot c = sa_angle (ci_orient c);
  cf_len : ci_len c = Rmax (alpha * ci_radius c) (eq * sa_angle (ci_orient c));
  cf_lenpos : 0 < ci_len c;
  cf_eq : ci_eqradius c = eq;
  cf_speed : 0 < ci_scalelin c <= 1 /\ 0 <= eq * ci_scalerot c <= 1 /\ 0 <= ci_scalerot c /\
             (ci_scalelin c = 1 \/ eq * ci_scalerot c = 1) }.

Lemma euclid_cross_unit a b : euclid_norm (v_cross a b) <= euclid_norm a * euclid_norm b.
Proof.
  unfold euclid_norm. rewrite <- sqrt_mult_alt by (pose proof (sum3_sq_nonneg (vx a) (vy a) (vz a)); lra).
  apply sqrt_le_1_alt. destruct a as [a0 a1 a2], b as [b0 b1 b2]. cbn [v_cross vx vy vz].
  pose proof (pow2_ge_0 (a0 * b0 + a1 * b1 + a2 * b2)). nra.
Qed.

Lemma euclid_zero v : euclid_norm v = 0 -> v = v_zero.
Proof.
  intros H. pose proof (euclid_norm_sq v) as Q. rewrite H, Rmult_0_l in Q.
  pose proof (pow2_ge_0 (vx v)). pose proof (pow2_ge_0 (vy v)). pose proof (pow2_ge_0 (vz v)).
  apply v_ext; cbn; nra.
Qed.

Lemma circle_make_cases F center p Rend alpha o eq :
  rigid F -> is_rotation Rend -> resolved_rotation (fM F) Rend -> resolved_displacement center p ->
  0 < alpha -> 0 < eq ->
  match circle_make F center p Rend alpha o eq with
  | Val c => circle_facts F center p Rend alpha eq c
  | Throw CircleToSmall => euclid_norm (v_sub (fp F) center) < 2 * kdl_epsilon
  | Throw CircleNoPlane =>
      center = p \/
      euclid_norm (v_cross (v_sub (fp F) center) (v_sub p center))
        < 2 * kdl_epsilon * (euclid_norm (v_sub (fp F) center) * euclid_norm (v_sub p center))
  | _ => False
  end.
Proof.
  intros HF HE HR HD Ha He. unfold circle_make.
  pose proof (sa_set_spec o _ _ HF HE HR) as (S1 & S2 & S3 & S4).
  set (o' := sa_SetStartEnd o (fM F) Rend) in *. unfold sa_Angle. set (oa := sa_angle o') in *.
  destruct (v_normalize (v_sub (fp F) center)) as [x r] eqn:Ex.
  destruct (Rlt_dec r kdl_epsilon) as [L|L]; [apply (normalize_report _ _ _ Ex L)|].
  destruct (normalize_big _ _ _ Ex L) as (Er & Pr & Ux & Sx). clear Ex L.
  pose proof (normalize_resolved _ _ HD) as N.
  destruct (v_normalize (v_sub p center)) as [y dy]. destruct N as (Uy & Py & Sy & Ey & _).
  destruct (v_normalize (v_cross x y)) as [z n] eqn:Ez.
  destruct (Rlt_dec n kdl_epsilon) as [L|L].
  { pose proof (normalize_report _ _ _ Ez L) as K. rewrite <- Er, <- Ey.
    destruct Py as [Py|Py].
    - right. rewrite <- Sx, <- Sy, v_cross_scale_l, v_cross_scale_r, !euclid_norm_scale.
      rewrite !Rabs_pos_eq by lra.
      assert (Prd : 0 < dy * r) by (apply Rmult_lt_0_compat; lra).
      pose proof (Rmult_lt_compat_l _ _ _ Prd K). lra.
    - left. rewrite <- Py in Ey. symmetry in Ey. apply euclid_zero in Ey.
      destruct p as [p0 p1 p2], center as [c0 c1 c2]. unfold v_sub, v_zero in Ey. psimp. injection Ey as E1 E2 E3. f_equal; lra. }
  destruct (normalize_big _ _ _ Ez L) as (En & Pn & Uz & Sz). clear Ez L.
  assert (Dxz : v_dot x z = 0).
  { assert (n * v_dot x z = 0).
    { transitivity (v_dot x (v_scale z n)); [unfold v_dot; destruct x, z; cbn; ring|]. rewrite Sz. apply cross_perp. }
    assert (n <> 0) by lra. nra. }
  assert (Plane : center <> p -> plane_normal (v_sub (fp F) center) (v_sub p center) z).
  { intros NE. split; [exact Uz|]. exists (r * dy * n).
    assert (0 < dy).
    { destruct Py as [Py|Py]; [exact Py|]. exfalso. apply NE. rewrite <- Py in Ey. symmetry in Ey. apply euclid_zero in Ey.
      destruct p as [p0 p1 p2], center as [c0 c1 c2]. unfold v_sub, v_zero in Ey. psimp. injection Ey as E1 E2 E3. f_equal; lra. }
    split; [apply Rmult_lt_0_compat; [apply Rmult_lt_0_compat; lra|lra]|].
    rewrite <- Sx, <- Sy, v_cross_scale_l, v_cross_scale_r, <- Sz. geo. }
  assert (Pd : 0 < alpha * r) by (apply Rmult_lt_0_compat; lra).
  destruct (Rlt_dec (alpha * r) (oa * eq)) as [L|L].
  - assert (0 < oa * eq) by lra.
    assert (oa <> 0) by (intros Z; rewrite Z, Rmult_0_l in *; lra).
    destruct (Req_EM_T eq 0); [lra|]. destruct (Req_EM_T (oa * eq) 0); [lra|].
    constructor; cbn [ci_radius ci_center ci_orient ci_len ci_scalelin ci_scalerot ci_eqradius fM fp]; fold oa; auto;
      change (r_UnitX (r_cols x (v_cross z x) z)) with (mkV (vx x) (vy x) (vz x));
      change (r_UnitZ (r_cols x (v_cross z x) z)) with (mkV (vx z) (vy z) (vz z)).
    all: try (destruct x, z; assumption). all: try (destruct x, z; reflexivity).
    + field; auto. + field; lra. + rewrite Rmax_right; lra.
    + assert (0 < alpha * r / (oa * eq) < 1).
      { split; [apply Rdiv_lt_0_compat; lra|apply Rmult_lt_reg_r with (oa * eq); [lra|]].
        unfold Rdiv; rewrite Rmult_assoc, Rinv_l by lra. lra. }
      replace (eq * (1 / eq)) with 1 by (field; lra).
      assert (0 < 1 / eq) by (apply Rdiv_lt_0_compat; lra). lra.
  - destruct (Req_EM_T (alpha * r) 0); [lra|].
    constructor; cbn [ci_radius ci_center ci_orient ci_len ci_scalelin ci_scalerot ci_eqradius fM fp]; fold oa; auto;
      change (r_UnitX (r_cols x (v_cross z x) z)) with (mkV (vx x) (vy x) (vz x));
      change (r_UnitZ (r_cols x (v_cross z x) z)) with (mkV (vx z) (vy z) (vz z)).
    all: try (destruct x, z; assumption). all: try (destruct x, z; reflexivity).
    + ring. + field; lra. + rewrite Rmax_left; lra.
    + assert (0 <= oa / (alpha * r)) by (apply Rle_mult_inv_pos; lra).
      assert (eq * (oa / (alpha * r)) <= 1).
      { apply Rmult_le_reg_r with (alpha * r); [lra|]. replace (eq * (oa / (alpha * r)) * (alpha * r)) with (oa * eq) by (field; lra). lra. }
      assert (0 <= eq * (oa / (alpha * r))) by (apply Rmult_le_pos; lra). lra.
Qed.

Lemma cols_of M : M = r_cols (r_UnitX M) (r_UnitY M) (r_UnitZ M).
Proof. destruct M; reflexivity. Qed.

Lemma circle_point F center p Rend alpha eq c s : circle_facts F center p Rend alpha eq c ->
  fp (circle_Pos c s) =
  v_add center (r_app (r_Rot2 (r_UnitZ (fM (ci_center c))) (s * ci_scalelin c / ci_radius c)) (v_sub (fp F) center)).
Proof.
  intros H. unfold circle_Pos. cbn [fp]. set (a := s * ci_scalelin c / ci_radius c).
  unfold f_app. rewrite (cf_center _ _ _ _ _ _ _ H), v_add_comm. f_equal.
  rewrite (cols_of (fM (ci_center c))) at 1. rewrite cols_app, (cf_y _ _ _ _ _ _ _ H).
  rewrite <- (cf_x _ _ _ _ _ _ _ H).
  rewrite Rot2_perp.
  - rewrite v_cross_scale_r, !v_scale_scale. reflexivity.
  - pose proof (cf_xz _ _ _ _ _ _ _ H) as D.
    transitivity (ci_radius c * v_dot (r_UnitX (fM (ci_center c))) (r_UnitZ (fM (ci_center c)))).
    + generalize (r_UnitZ (fM (ci_center c))) (r_UnitX (fM (ci_center c))). geo.
    + rewrite D. ring.
Qed.

Lemma circle_circular F center p Rend alpha eq c : circle_facts F center p Rend alpha eq c ->
  circular F center (r_UnitZ (fM (ci_center c))) alpha (ci_len c) (circle_Pos c).
Proof.
  intros H. split.
  - apply f_ext.
    + unfold circle_Pos, sa_Pos. cbn [fM]. rewrite Rmult_0_l, Rot2_0, r_mul_id_r. apply (cf_M _ _ _ _ _ _ _ H).
    + rewrite (circle_point _ _ _ _ _ _ _ _ H). unfold Rdiv; rewrite !Rmult_0_l, Rot2_0, r_app_id. geo.
  - intros u. rewrite (circle_point _ _ _ _ _ _ _ _ H). do 3 f_equal.
    pose proof (cf_lin _ _ _ _ _ _ _ H). pose proof (cf_rpos _ _ _ _ _ _ _ H).
    replace (u * ci_len c * ci_scalelin c) with (u * (ci_len c * ci_scalelin c)) by ring. rewrite H0. field. lra.
Qed.

Lemma circle_speed F center p Rend alpha eq c : rigid F -> 0 < eq -> circle_facts F center p Rend alpha eq c ->
  normalised_speed eq (circle_Vel c).
Proof.
  intros HF He H s. destruct (cf_speed _ _ _ _ _ _ _ H) as (A & B & C & D).
  unfold circle_Vel, sa_Vel. cbn [tvel trot].
  rewrite (cf_M _ _ _ _ _ _ _ H), (euclid_app (fM F)) by exact HF.
  assert (HM : is_rotation (fM (ci_center c))).
  { rewrite (cols_of (fM (ci_center c))), (cf_y _ _ _ _ _ _ _ H). apply perp_cols;
    [apply (cf_ux _ _ _ _ _ _ _ H)|apply (cf_uz _ _ _ _ _ _ _ H)|apply (cf_xz _ _ _ _ _ _ _ H)]. }
  rewrite euclid_app by exact HM.
  rewrite euclid_norm_scale, (unit_norm _ (cf_axis _ _ _ _ _ _ _ H)).
  pose proof (cf_rpos _ _ _ _ _ _ _ H) as Pr.
  set (a := s * ci_scalelin c / ci_radius c).
  assert (E : euclid_norm (mkV (- ci_radius c * sin a * (1 * ci_scalelin c / ci_radius c))
                               (ci_radius c * cos a * (1 * ci_scalelin c / ci_radius c)) 0) = ci_scalelin c).
  { unfold euclid_norm. cbn [vx vy vz].
    replace (_ + _ + _) with (ci_scalelin c * ci_scalelin c * (sin a * sin a + cos a * cos a)) by (field; lra).
    pose proof (sin2_cos2 a) as Q. unfold Rsqr in Q. rewrite Q, Rmult_1_r. apply sqrt_square. lra. }
  rewrite E, Rmult_1_r, Rmult_1_l, Rabs_pos_eq by lra. lra.
Qed.

Lemma circle_correct F center p Rend alpha o eq :
  rigid F -> is_rotation Rend -> resolved_rotation (fM F) Rend -> resolved_displacement center p -> center <> p ->
  0 < alpha -> 0 < eq ->
  match circle_make F center p Rend alpha o eq with
  | Val c =>
      (exists z, plane_normal (v_sub (fp F) center) (v_sub p center) z /\
                 circular F center z alpha (ci_len c) (circle_Pos c)) /\
      fM (circle_Pos c (ci_len c)) = Rend /\
      (forall s, euclid_norm (v_sub (fp (circle_Pos c s)) center) = euclid_norm (v_sub (fp F) center)) /\
      curve_derivatives (circle_Pos c) (circle_Vel c) (circle_Acc c) /\
      normalised_speed eq (circle_Vel c) /\
      alpha * euclid_norm (v_sub (fp F) center) <= ci_len c /\
      (forall u, circle_LengthToS c (u * (alpha * euclid_norm (v_sub (fp F) center))) = Val (u * ci_len c))
  | Throw CircleToSmall => euclid_norm (v_sub (fp F) center) < 2 * kdl_epsilon
  | Throw CircleNoPlane =>
      euclid_norm (v_cross (v_sub (fp F) center) (v_sub p center))
        < 2 * kdl_epsilon * (euclid_norm (v_sub (fp F) center) * euclid_norm (v_sub p center))
  | _ => False
  end.
Proof.
  intros HF HE HR HD NE Ha He.
  pose proof (circle_make_cases F center p Rend alpha o eq HF HE HR HD Ha He) as H.
  destruct (circle_make F center p Rend alpha o eq) as [c|[]|]; auto; [|destruct H; [contradiction|exact H]].
  split. { exists (r_UnitZ (fM (ci_center c))). split; [apply (cf_plane _ _ _ _ _ _ _ H NE)|apply (circle_circular _ _ _ _ _ _ _ H)]. }
  split. { unfold circle_Pos, sa_Pos. cbn [fM]. rewrite (cf_ang _ _ _ _ _ _ _ H), (cf_M _ _ _ _ _ _ _ H). apply (cf_rot _ _ _ _ _ _ _ H). }
  split. { intros s. rewrite (circle_point _ _ _ _ _ _ _ _ H).
    rewrite v_add_comm, v_sub_add.
    apply euclid_app, is_rotation_Rot2, (cf_uz _ _ _ _ _ _ _ H). }
  pose proof (cf_rpos _ _ _ _ _ _ _ H) as Pr.
  split. { apply circle_derivatives; [lra|apply (cf_axis _ _ _ _ _ _ _ H)|rewrite (cf_M _ _ _ _ _ _ _ H); exact HF]. }
  split; [apply (circle_speed F center p Rend alpha); auto|].
  rewrite <- (cf_radius _ _ _ _ _ _ _ H).
  split. { rewrite (cf_len _ _ _ _ _ _ _ H). apply Rmax_l. }
  intros u. pose proof (cf_lin _ _ _ _ _ _ _ H) as L. destruct (cf_speed _ _ _ _ _ _ _ H) as (A & _).
  unfold circle_LengthToS.
  destruct (Req_EM_T (ci_scalelin c) 0); [lra|]. f_equal. rewrite <- L. field. lra.
Qed.
