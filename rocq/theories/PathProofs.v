(** Proofs about Path_Line and Path_Circle. *)
From Coq Require Import Reals Lra Lia List Bool Psatz.
From Verif Require Import FramesModel FramesSpec FramesProofs RotationProofs RotationProofs2 RotationProofs3
  FrameOpsProofs RotationBands FramesWitness Outcome InertiaModel DualModel KinModel KinSpec DerivProofs ProfModel ProfSpec PathModel PathSpec.
Import ListNotations.
Local Open Scope R_scope.

Lemma tw_derive_eq f t a b : tw_derive f t a -> a = b -> tw_derive f t b.
Proof. intros H <-; exact H. Qed.

(** ** The interpolation object *)
Lemma sa_set_spec o M N : is_rotation M -> is_rotation N -> resolved_rotation M N ->
  let o' := sa_SetStartEnd o M N in
  sa_start o' = M /\ unit_vector (sa_axis o') /\ 0 <= sa_angle o' <= PI /\
  r_mul M (r_Rot2 (sa_axis o') (sa_angle o')) = N.
Proof.
  intros HM HN HR. unfold resolved_rotation in HR.
  assert (Hr : is_rotation (r_mul (r_inv M) N)) by (apply is_rotation_mul; [apply r_inv_rotation|]; assumption).
  assert (He : kdl_epsilon <= kdl_epsilon <= / 10) by (unfold kdl_epsilon; lra).
  pose proof (GetRotAngle_exact _ _ Hr He HR) as H.
  unfold sa_SetStartEnd.
  destruct (r_GetRotAngle (r_mul (r_inv M) N) kdl_epsilon) as [n a].
  destruct H as (U & A & E). cbn [sa_start sa_axis sa_angle].
  do 3 (split; [auto|]). rewrite <- r_Rot_unit by exact U. rewrite E, <- r_mul_assoc, r_inv_r by exact HM.
  apply r_mul_id_l.
Qed.

Lemma sa_pos_derive o th t thd : unit_vector (sa_axis o) -> is_rotation (sa_start o) ->
  derivable_pt_lim th t thd ->
  r_derive (fun u => sa_Pos o (th u)) t (r_spin (sa_Vel o (th t) thd) (sa_Pos o (th t))).
Proof.
  intros U HM Hd. unfold sa_Pos, sa_Vel.
  pose proof (Rot2_derive _ _ _ _ U Hd) as HR.
  set (F := fun u => f_mul (f_of_rot (sa_start o)) (f_of_rot (r_Rot2 (sa_axis o) (th u)))).
  assert (G : frame_velocity (fun u => f_of_rot (r_Rot2 (sa_axis o) (th u))) t
                 (mkT v_zero (v_scale (sa_axis o) thd))).
  { apply frame_velocity_entries. cbn [f_of_rot fp fM tvel trot]. split; [apply v_derive_const|exact HR]. }
  pose proof (frame_velocity_mul (fun _ => f_of_rot (sa_start o)) _ t _ _ HM
                (frame_velocity_const _ t) G) as K.
  apply frame_velocity_entries in K. destruct K as [_ K].
  cbn [f_of_rot f_mul fM fp] in K. eapply r_derive_eq; [exact K|].
  f_equal. cbn [t_add t_RefPoint r_app_t tvel trot t_zero].
  rewrite v_add_0_l. reflexivity.
Qed.

Lemma sa_vel_derive o th thd t thdd : derivable_pt_lim thd t thdd ->
  v_derive (fun u => sa_Vel o (th u) (thd u)) t (sa_Acc o (th t) (thd t) thdd).
Proof.
  intros H. unfold sa_Vel, sa_Acc.
  pose proof (v_derive_scale _ _ _ _ _ (v_derive_const (sa_axis o) t) H) as K.
  pose proof (r_app_derive _ _ _ _ _ (r_derive_const (sa_start o) t) K) as L.
  eapply v_derive_eq; [exact L|]. clear. generalize (sa_axis o) (sa_start o). cbv beta. unfold m3_zero. geo.
Qed.

Lemma dl_scale f t l k : derivable_pt_lim f t l -> derivable_pt_lim (fun u => f u * k) t (l * k).
Proof.
  intros H. pose proof (derivable_pt_lim_mult f (fun _ => k) t l 0 H (derivable_pt_lim_const k t)) as K.
  unfold mult_fct in K. eapply dl_eq; [exact K|]. ring.
Qed.

(** ** Lines *)
Lemma line_derivatives l : unit_vector (sa_axis (ln_orient l)) -> is_rotation (sa_start (ln_orient l)) ->
  curve_derivatives (line_Pos l) (line_Vel l) (line_Acc l).
Proof.
  intros U HM. split.
  - intros s t sd Hs. apply frame_velocity_entries. unfold line_Pos, line_Vel. cbn [fp fM tvel trot]. split.
    + pose proof (v_derive_scale _ _ _ _ _ (v_derive_const (v_scale (ln_dir l) (ln_scalelin l)) t) Hs) as K.
      pose proof (v_derive_add _ _ _ _ _ (v_derive_const (ln_start l) t) K) as L.
      eapply v_derive_eq; [eapply v_derive_ext; [|exact L]|]; [intros u; cbv beta; clear; geo|clear; geo].
    + apply (sa_pos_derive (ln_orient l) (fun u => s u * ln_scalerot l)); auto. apply dl_scale, Hs.
  - intros s s' t sdd Hs Hs'. unfold line_Vel, line_Acc. split; cbn [tvel trot].
    + pose proof (v_derive_scale _ _ _ _ _ (v_derive_const (v_scale (ln_dir l) (ln_scalelin l)) t) Hs') as K.
      eapply v_derive_eq; [eapply v_derive_ext; [|exact K]|]; [intros u; cbv beta; clear; geo|clear; geo].
    + apply (sa_vel_derive (ln_orient l) (fun u => s u * ln_scalerot l) (fun u => s' u * ln_scalerot l)).
      apply dl_scale, Hs'.
Qed.

Lemma normalize_resolved a b : resolved_displacement a b ->
  let '(dir, dist) := v_normalize (v_sub b a) in
  unit_vector dir /\ 0 <= dist /\ v_scale dir dist = v_sub b a /\ dist = euclid_norm (v_sub b a) /\
  (dist = 0 \/ kdl_epsilon <= dist).
Proof.
  intros H. pose proof kdl_epsilon_pos as He.
  destruct H as [->|H].
  - rewrite v_sub_diag. unfold v_normalize. rewrite (v_normalize_small kdl_epsilon v_zero He).
    + do 2 (split; [try (unfold unit_vector; cbn); lra|]).
      assert (E : euclid_norm v_zero = 0).
      { unfold euclid_norm, v_zero; cbn. replace (0 * (0 * 1) + 0 * (0 * 1) + 0 * (0 * 1)) with 0 by ring. apply sqrt_0. }
      rewrite E. split; [geo|auto].
    + unfold euclid_norm, v_zero; cbn. replace (0 * (0 * 1) + 0 * (0 * 1) + 0 * (0 * 1)) with 0 by ring. rewrite sqrt_0. exact He.
  - pose proof (max_abs_le_norm (v_sub b a)) as L.
    destruct (v_normalize_spec kdl_epsilon (v_sub b a) He H ltac:(lra)) as [E U].
    unfold v_normalize. rewrite E. set (n := euclid_norm (v_sub b a)) in *.
    split; [exact U|]. split; [lra|]. split; [|split; [reflexivity|right; lra]].
    generalize (v_sub b a); intros w. apply v_ext; cbn; field; lra.
Qed.

(** What the constructor establishes, whichever branch it takes. *)
Record line_facts (F G : Frame) (eq : R) (l : Line) : Prop := {
  lf_start : ln_start l = fp F;
  lf_end : ln_end l = fp G;
  lf_M : sa_start (ln_orient l) = fM F;
  lf_axis : unit_vector (sa_axis (ln_orient l));
  lf_angle : 0 <= sa_angle (ln_orient l) <= PI;
  lf_rot : r_mul (fM F) (r_Rot2 (sa_axis (ln_orient l)) (sa_angle (ln_orient l))) = fM G;
  lf_dir : unit_vector (ln_dir l);
  lf_disp : v_scale (ln_dir l) (euclid_norm (v_sub (fp G) (fp F))) = v_sub (fp G) (fp F);
  lf_lin : ln_len l * ln_scalelin l = euclid_norm (v_sub (fp G) (fp F));
  lf_ang : ln_len l * ln_scalerot l = sa_angle (ln_orient l);
  lf_len : ln_len l = Rmax (euclid_norm (v_sub (fp G) (fp F))) (eq * sa_angle (ln_orient l));
  lf_eq : ln_eqradius l = eq;
  lf_speed : 0 < ln_len l -> 0 <= ln_scalelin l <= 1 /\ 0 <= eq * ln_scalerot l <= 1 /\ 0 <= ln_scalerot l /\
             (ln_scalelin l = 1 \/ eq * ln_scalerot l = 1) }.

Lemma line_make_facts o F G eq : resolved F G -> 0 < eq -> line_facts F G eq (line_make F G o eq).
Proof.
  intros (HF & HG & HR & HD) He. unfold line_make, line_body.
  pose proof (normalize_resolved _ _ HD) as N.
  destruct (v_normalize (v_sub (fp G) (fp F))) as [dir dist].
  destruct N as (Ud & Pd & Sd & Ed & _). rewrite Ed in *. set (d := euclid_norm (v_sub (fp G) (fp F))) in *. clear dist Ed.
  pose proof (sa_set_spec o _ _ HF HG HR) as (S1 & S2 & S3 & S4).
  set (o' := sa_SetStartEnd o (fM F) (fM G)) in *. unfold sa_Angle.
  set (a := sa_angle o') in *.
  destruct (Req_EM_T a 0) as [Za|Za]; cbn [andb].
  - destruct (Req_EM_T d 0) as [Zd|Zd].
    + constructor; cbn; fold d a; auto; rewrite ?Zd, ?Za, ?Rmult_0_l, ?Rmult_0_r; auto; try lra.
      all: try (rewrite <- Zd; exact Sd). symmetry. apply Rmax_left; lra.
    + assert (0 < d) by lra.
      constructor; cbn; fold d a; auto; rewrite ?Za.
      * ring. * field; lra. * rewrite Rmult_0_r, Rmax_left; lra.
      * intros _. unfold Rdiv; rewrite Rmult_0_l, Rmult_0_r. lra.
  - destruct (Rlt_dec d (a * eq)) as [L|L]; cbn [andb].
    + assert (0 < a * eq) by lra.
      constructor; cbn; fold d a; auto.
      * field; lra. * field; lra. * rewrite Rmax_right; lra.
      * intros _. assert (0 <= d / (a * eq) < 1).
        { split; [apply Rle_mult_inv_pos; lra|apply Rmult_lt_reg_r with (a * eq); [lra|]].
          unfold Rdiv; rewrite Rmult_assoc, Rinv_l by lra. lra. }
        replace (eq * (1 / eq)) with 1 by (field; lra).
        assert (0 < 1 / eq) by (apply Rdiv_lt_0_compat; lra). lra.
    + destruct (Req_EM_T d 0) as [Zd|Zd].
      * exfalso. assert (0 < a * eq) by (apply Rmult_lt_0_compat; lra). lra.
      * assert (0 < d) by lra.
        constructor; cbn; fold d a; auto.
        -- ring. -- field; lra. -- rewrite Rmax_left; lra.
        -- intros _. assert (0 <= a / d) by (apply Rle_mult_inv_pos; lra).
           assert (eq * (a / d) <= 1).
           { apply Rmult_le_reg_r with d; [lra|]. replace (eq * (a / d) * d) with (a * eq) by (field; lra). lra. }
           assert (0 <= eq * (a / d)) by (apply Rmult_le_pos; lra). lra.
Qed.

Lemma line_at F G eq l u : line_facts F G eq l ->
  line_Pos l (u * ln_len l) = mkF (r_mul (fM F) (r_Rot2 (sa_axis (ln_orient l)) (u * sa_angle (ln_orient l))))
                                  (v_add (fp F) (v_scale (v_sub (fp G) (fp F)) u)).
Proof.
  intros H. unfold line_Pos, sa_Pos. rewrite (lf_M _ _ _ _ H), (lf_start _ _ _ _ H). f_equal.
  - do 2 f_equal. rewrite <- (lf_ang _ _ _ _ H). ring.
  - f_equal. rewrite <- (lf_disp _ _ _ _ H), <- (lf_lin _ _ _ _ H). geo.
Qed.

Lemma line_straight F G eq l : line_facts F G eq l -> straight F G (ln_len l) (line_Pos l).
Proof.
  intros H. split; [|split].
  - replace 0 with (0 * ln_len l) by ring. rewrite (line_at _ _ _ _ _ H), Rmult_0_l, Rot2_0, r_mul_id_r, v_scale_0, v_add_0_r.
    destruct F; reflexivity.
  - rewrite <- (Rmult_1_l (ln_len l)). rewrite (line_at _ _ _ _ _ H), Rmult_1_l, (lf_rot _ _ _ _ H), v_scale_1.
    destruct G as [MG pG]. cbn [fM fp]. f_equal. geo.
  - exists (sa_axis (ln_orient l)), (sa_angle (ln_orient l)). split; [apply (lf_axis _ _ _ _ H)|].
    split; [apply (lf_angle _ _ _ _ H)|]. intros u. apply (line_at _ _ _ _ _ H).
Qed.

Lemma euclid_app M v : is_rotation M -> euclid_norm (r_app M v) = euclid_norm v.
Proof.
  intros H. unfold euclid_norm. f_equal. pose proof (r_app_dot _ H v v) as D. unfold v_dot in D. lra.
Qed.

Lemma line_speed F G eq l : rigid F -> 0 < eq -> line_facts F G eq l -> 0 < ln_len l -> normalised_speed eq (line_Vel l).
Proof.
  intros HF He H HL s. destruct (lf_speed _ _ _ _ H HL) as (A & B & C & D).
  unfold line_Vel, sa_Vel. cbn [tvel trot].
  rewrite (lf_M _ _ _ _ H), euclid_app by exact HF.
  rewrite !euclid_norm_scale, (unit_norm _ (lf_dir _ _ _ _ H)), (unit_norm _ (lf_axis _ _ _ _ H)).
  rewrite Rabs_R1, !Rmult_1_r, !Rmult_1_l, !Rabs_pos_eq by lra. lra.
Qed.

Lemma line_correct o F G eq : resolved F G -> 0 < eq ->
  let l := line_make F G o eq in
  straight F G (ln_len l) (line_Pos l) /\
  curve_derivatives (line_Pos l) (line_Vel l) (line_Acc l) /\
  (0 < ln_len l -> normalised_speed eq (line_Vel l)) /\
  euclid_norm (v_sub (fp G) (fp F)) <= ln_len l /\
  (forall d, F <> G -> fp F <> fp G -> 0 <= d ->
     exists s, line_LengthToS l d = Val s /\
       euclid_norm (v_sub (fp (line_Pos l s)) (fp F)) = d).
Proof.
  intros HR He l. pose proof (line_make_facts o F G eq HR He) as H. fold l in H.
  destruct HR as (HF & HG & HRR & HD).
  split; [apply (line_straight _ _ _ _ H)|].
  split. { apply line_derivatives; [apply (lf_axis _ _ _ _ H)|rewrite (lf_M _ _ _ _ H); exact HF]. }
  split; [apply (line_speed F G); auto|].
  split. { rewrite (lf_len _ _ _ _ H). apply Rmax_l. }
  intros d NE NP Pd.
  assert (Dp : 0 < euclid_norm (v_sub (fp G) (fp F))).
  { destruct HD as [E|E]; [contradiction|]. pose proof (max_abs_le_norm (v_sub (fp G) (fp F))).
    pose proof kdl_epsilon_pos. lra. }
  pose proof (lf_lin _ _ _ _ H) as L.
  assert (Nz : ln_scalelin l <> 0) by (intros Z; rewrite Z, Rmult_0_r in L; lra).
  exists (d / ln_scalelin l). unfold line_LengthToS. destruct (Req_EM_T (ln_scalelin l) 0); [contradiction|].
  split; [reflexivity|]. unfold line_Pos. cbn [fp]. rewrite (lf_start _ _ _ _ H).
  replace (v_sub _ (fp F)) with (v_scale (ln_dir l) d).
  - rewrite euclid_norm_scale, (unit_norm _ (lf_dir _ _ _ _ H)), Rabs_pos_eq; lra.
  - apply v_ext; cbn; field; exact Nz.
Qed.

(** The path of a line built from a twist. *)
Lemma line_twist o F w eq :
  line_make_twist F w o eq =
  line_make F (mkF (r_mul (fM F) (r_Rot (trot w) (v_norm (trot w)))) (v_add (fp F) (tvel w))) o eq.
Proof. reflexivity. Qed.

Lemma sa_set_eq o o' M N : sa_SetStartEnd o M N = sa_SetStartEnd o' M N.
Proof. reflexivity. Qed.

Lemma line_clone o F G eq : resolved F G -> 0 < eq ->
  line_Clone (line_make F G o eq) = line_make F G o eq.
Proof.
  intros HR He. pose proof (line_make_facts o F G eq HR He) as H.
  set (l := line_make F G o eq) in *.
  unfold line_Clone. rewrite (lf_start _ _ _ _ H), (lf_end _ _ _ _ H), (lf_eq _ _ _ _ H), (lf_ang _ _ _ _ H).
  unfold sa_Pos. rewrite Rot2_0, r_mul_id_r, (lf_M _ _ _ _ H), (lf_rot _ _ _ _ H).
  destruct F, G. reflexivity.
Qed.
