(** Reading and writing paths, profiles and trajectories: the statements of MioProps. *)
From Coq Require Import Reals ZArith Ascii String List Bool Lia Lra.
From Flocq Require Import Core.
From Verif Require Import FramesModel FramesSpec FramesProofs RotationProofs FrameOpsProofs Outcome ProfModel PathModel PathSpec PathProofs PathProofs2 PathProofs3 PathProofs4 IoModel IoSpec IoNum IoEat IoObjects IoComplete IoFinal IoRound MioModel MioSpec MioComplete MioSound MioEnds MioWritten.
Import ListNotations.
Local Open Scope char_scope.
Local Open Scope list_scope.
Local Open Scope Z_scope.

(** ** Every text of the plain form *)
Lemma gives_ends {A : Type} (rdr : istr -> mio A) t v :
  (forall W tr r s, at_pos W tr (t ++ r) s -> gives (rdr s) v W tr r) -> ends_as rdr t v.
Proof.
  intros H. destruct v as [x|e|]; intros past rest tr; pose proof (H _ _ _ _ (at_start past t rest tr)) as G; cbn [gives] in G.
  - destruct G as (s' & E & P). rewrite E. f_equal. apply at_end. exact P.
  - exact G.
  - exact G.
Qed.
Lemma before_takes {A : Type} (rdr : istr -> mio A) t x : gives_before rdr t x -> takes_before rdr t x.
Proof.
  intros H past c rest tr Hc. destruct (H _ tr c rest _ Hc (at_start past t (c :: rest) tr)) as (s' & E & P). rewrite E. f_equal. apply at_end. exact P.
Qed.
Lemma path_complete rd jd ji t d : plain_path rd t d -> ends_as (Path_Read rd jd ji) t (build d).
Proof.
  intros H. apply gives_ends. intros W tr r s P. exact (path_read_at rd jd ji t d H W tr r s P).
Qed.
Lemma prof_complete rd jd jb t m : plain_prof rd t m -> takes_before (VelocityProfile_Read rd jd jb) t m.
Proof.
  intros H. apply before_takes. apply prof_at. exact H.
Qed.
Lemma traj_complete rd jd ji jb t d m : plain_traj rd t d m ->
  ends_as (Trajectory_Read rd jd ji jb) t (match build d with Val P => Val (TSegment P m) | Throw e => Throw e | Undefd => Undefd end).
Proof.
  intros H. apply gives_ends. intros W tr r s P. exact (traj_at rd jd ji jb t d m H W tr r s P).
Qed.

(** ** Nothing else is taken *)
Lemma paths_only rd jd ji : only_takes (Path_Read rd jd ji) (path_means rd) /\ (forall s P s', Path_Read rd jd ji s = MGot P s' -> good s' = true).
Proof.
  split; [exact (path_only rd jd ji)|exact (path_good rd jd ji)].
Qed.
Lemma profs_only rd jd jb : only_takes (VelocityProfile_Read rd jd jb) (any_prof rd).
Proof.
  exact (prof_sound rd jd jb).
Qed.
Lemma trajs_only rd jd ji jb : only_takes (Trajectory_Read rd jd ji jb) (traj_means rd) /\ (forall s T s', Trajectory_Read rd jd ji jb s = MGot T s' -> good s' = true).
Proof.
  split; [exact (traj_only rd jd ji jb)|exact (traj_good rd jd ji jb)].
Qed.
Lemma readers_end rd jd ji jb s : Path_Read rd jd ji s <> MHang /\ VelocityProfile_Read rd jd jb s <> MHang /\ Trajectory_Read rd jd ji jb s <> MHang.
Proof.
  split; [apply Path_halts|]. split; [apply Prof_halts|apply Traj_halts].
Qed.

(** ** Written and read back *)
Lemma path_back rd jd ji p P : 1 <= p -> counts_ok P ->
  exists t, write_Path p P = t ++ ["010"] /\ ends_as (Path_Read rd jd ji) t (build (described (fun x => rd (round10 p x)) P)).
Proof.
  intros Hp C. destruct (w_path rd p Hp P C) as (t & E & H). exists t. split; [exact E|]. apply path_complete. exact H.
Qed.
Lemma prof_back rd jd jb p m m' : 1 <= p -> limits (fun x => rd (round10 p x)) m = Some m' ->
  takes_before (VelocityProfile_Read rd jd jb) (write_Prof p m) m'.
Proof.
  intros Hp L. apply prof_complete. exact (w_prof rd p Hp [] m m' plain_nil L).
Qed.
Lemma traj_back rd jd ji jb p g m m' : 1 <= p -> counts_ok g -> limits (fun x => rd (round10 p x)) m = Some m' ->
  ends_as (Trajectory_Read rd jd ji jb) (write_Traj p (TSegment g m))
    (match build (described (fun x => rd (round10 p x)) g) with Val P => Val (TSegment P m') | Throw e => Throw e | Undefd => Undefd end).
Proof.
  intros Hp C L. apply traj_complete. exact (w_traj rd p Hp g m m' C L).
Qed.

(** ** Paths made of points and lines *)
Section Dind.
  Variable P : desc -> Prop.
  Hypothesis Hp : forall F, P (DPoint F).
  Hypothesis Hl : forall F G e, P (DLine F G e).
  Hypothesis Hc : forall F c q M a e, P (DCircle F c q M a e).
  Hypothesis Hr : forall r e Fs, P (DRounded r e Fs).
  Hypothesis Hd : forall ds, Forall P ds -> P (DComposite ds).
  Hypothesis Hy : forall d n, P d -> P (DCyclic d n).
  Fixpoint desc_ind' (d : desc) : P d :=
    match d with
    | DPoint F => Hp F
    | DLine F G e => Hl F G e
    | DCircle F c q M a e => Hc F c q M a e
    | DRounded r e Fs => Hr r e Fs
    | DComposite ds => Hd ds ((fix go (ds : list desc) : Forall P ds :=
        match ds with [] => Forall_nil P | d :: r => Forall_cons d (desc_ind' d) (go r) end) ds)
    | DCyclic d n => Hy d n (desc_ind' d)
    end.
End Dind.
Lemma of_lines_all ds : (fix all (ds : list desc) : Prop := match ds with [] => True | d :: r => of_lines d /\ all r end) ds -> Forall of_lines ds.
Proof. induction ds as [|d ds IH]; intros H; constructor; [apply H|apply IH; apply H]. Qed.
(** what building a list of parts gives *)
Lemma build_all_spec ds : forall gv dv len ca,
  Forall (fun d => exists P, build d = Val P) ds ->
  exists Ps dv' len', build_all ds (PComposite gv dv len ca) = Val (PComposite (gv ++ Ps) (dv ++ dv') len' ca) /\
    Forall2 (fun d P => build d = Val P) ds Ps /\ length dv' = length Ps.
Proof.
  induction ds as [|d ds IH]; intros gv dv len ca H.
  - exists [], [], len. rewrite !app_nil_r. split; [reflexivity|]. split; [constructor|reflexivity].
  - inversion H as [|x y (P & E) Hds]; subst. cbn [build_all]. rewrite E. cbn [comp_Add].
    destruct (IH (gv ++ [P]) (dv ++ [(len + path_len P)%R]) (len + path_len P)%R ca Hds) as (Ps & dv' & len' & E2 & F2 & L2).
    exists (P :: Ps), ((len + path_len P)%R :: dv'), len'. rewrite E2, <- !app_assoc. split; [reflexivity|]. split; [constructor; assumption|cbn; lia].
Qed.
Lemma build_composite ds : build (DComposite ds) = build_all ds comp_make. Proof. reflexivity. Qed.
Lemma of_lines_built f d : of_lines d -> exists P, build d = Val P /\ described f P = dmap f d /\ counts_ok P.
Proof.
  induction d as [F|F G e|F c q M a e|r e Fs|ds IH|d n IH] using desc_ind'; intros H; cbn [of_lines] in H; try contradiction.
  - eexists. split; [reflexivity|]. split; [reflexivity|exact I].
  - destruct H as [HR He]. eexists. split; [reflexivity|]. split; [|exact I].
    pose proof (line_make_facts sa_make F G e HR He) as L. set (l := line_make F G sa_make e) in *. cbn [described dmap].
    rewrite (lf_start _ _ _ _ L), (lf_end _ _ _ _ L), (lf_eq _ _ _ _ L), (lf_ang _ _ _ _ L).
    unfold sa_Pos. rewrite Rot2_0, r_mul_id_r, (lf_M _ _ _ _ L), (lf_rot _ _ _ _ L). destruct F, G. reflexivity.
  - destruct H as [HL H]. apply of_lines_all in H.
    assert (K : Forall (fun d => exists P, build d = Val P /\ described f P = dmap f d /\ counts_ok P) ds)
      by (rewrite Forall_forall in *; intros d I; apply IH; auto).
    assert (K1 : Forall (fun d => exists P, build d = Val P) ds) by (eapply Forall_impl; [|exact K]; intros d (P & E & _); eauto).
    destruct (build_all_spec ds [] [] 0%R (mkCache 0 0 0) K1) as (Ps & dv & len & E & F2 & L2). cbn [app] in E.
    exists (PComposite Ps dv len (mkCache 0 0 0)). split; [rewrite build_composite; exact E|].
    assert (L3 : length Ps = length ds) by (clear - F2; induction F2; cbn; lia).
    cbn [described dmap counts_ok]. rewrite L2, L3. clear E L2 L3 K1 H IH dv len.
    split; [f_equal|split; [reflexivity|split; [exact HL|]]].
    + clear HL. induction F2 as [|d P ds Ps E F2 IHF]; [reflexivity|]. inversion K as [|x y (P' & E' & D' & _) K']; subst. cbn [map].
      rewrite E in E'. injection E' as <-. rewrite D', IHF by exact K'. reflexivity.
    + clear HL. induction F2 as [|d P ds Ps E F2 IHF]; [exact I|]. inversion K as [|x y (P' & E' & _ & C') K']; subst.
      rewrite E in E'. injection E' as <-. split; [exact C'|apply IHF; exact K'].
  - destruct H as [Hi H]. destruct (IH H) as (P & E & D & C). exists (PCyclic P n). cbn [build]. rewrite E. split; [reflexivity|].
    cbn [described dmap counts_ok]. rewrite D. auto.
Qed.
Lemma lines_back rd jd ji p d : 1 <= p -> of_lines d ->
  exists P t, build d = Val P /\ write_Path p P = t ++ ["010"] /\
    ends_as (Path_Read rd jd ji) t (build (dmap (fun x => rd (round10 p x)) d)).
Proof.
  intros Hp H. destruct (of_lines_built (fun x => rd (round10 p x)) d H) as (P & E & D & C).
  destruct (path_back rd jd ji p P Hp C) as (t & W & R). exists P, t. rewrite D in R. auto.
Qed.
(** rounding never makes the construction fail *)
Lemma dmap_builds f d : of_lines d -> exists Q, build (dmap f d) = Val Q.
Proof.
  induction d as [F|F G e|F c q M a e|r e Fs|ds IH|d n IH] using desc_ind'; intros H; cbn [of_lines] in H; try contradiction; try (eexists; reflexivity).
  - destruct H as [_ H]. apply of_lines_all in H. cbn [dmap]. rewrite build_composite.
    assert (K : Forall (fun d => exists P, build d = Val P) (map (dmap f) ds)).
    { rewrite Forall_forall in *. intros d I. apply in_map_iff in I. destruct I as (d' & <- & I). apply IH; auto. }
    destruct (build_all_spec _ [] [] 0%R (mkCache 0 0 0) K) as (Ps & dv & len & E & _). unfold comp_make. rewrite E. eauto.
  - destruct H as [_ H]. destruct (IH H) as (Q & E). cbn [dmap build]. rewrite E. eauto.
Qed.
Lemma lines_rounded rd jd ji p d : 1 <= p -> of_lines d ->
  exists P Q t, build d = Val P /\ build (dmap (fun x => rd (round10 p x)) d) = Val Q /\
    write_Path p P = t ++ ["010"] /\ takes (Path_Read rd jd ji) t Q.
Proof.
  intros Hp H. destruct (lines_back rd jd ji p d Hp H) as (P & t & E & W & R). destruct (dmap_builds (fun x => rd (round10 p x)) d H) as (Q & EQ).
  exists P, Q, t. rewrite EQ in R. auto.
Qed.
Lemma fmap_id f F : (forall x, In x (numbers_Frame F) -> f x = x) -> fmap f F = F.
Proof.
  intros H. destruct F as [[a b c d e g h i j] [x y z]]. unfold fmap, rmap, vmap. cbn [fM fp r0 r1 r2 r3 r4 r5 r6 r7 r8 vx vy vz].
  rewrite !H by (cbn; tauto). reflexivity.
Qed.
Lemma dmap_id f d : of_lines d -> (forall x, In x (numbers_desc d) -> f x = x) -> dmap f d = d.
Proof.
  induction d as [F|F G e|F c q M a e|r e Fs|ds IH|d n IH] using desc_ind'; intros O H; cbn [of_lines] in O; try contradiction; cbn [dmap numbers_desc] in *.
  - rewrite fmap_id by exact H. reflexivity.
  - rewrite !fmap_id by (intros x I; apply H; rewrite !in_app_iff; tauto). rewrite H; [reflexivity|]. rewrite !in_app_iff. cbn. tauto.
  - f_equal. destruct O as [_ O]. apply of_lines_all in O. induction ds as [|d ds IHds]; [reflexivity|]. inversion IH; inversion O; subst. cbn [map flat_map] in *.
    f_equal; [apply H2; [assumption|intros x I; apply H; rewrite in_app_iff; tauto]|apply IHds; try assumption].
    intros x I. apply H. rewrite in_app_iff. tauto.
  - rewrite IH by (tauto || exact H). reflexivity.
Qed.
Lemma lines_same jd ji p d : 17 <= p -> of_lines d -> (forall x, In x (numbers_desc d) -> is_double x) ->
  exists P t, build d = Val P /\ write_Path p P = t ++ ["010"] /\ takes (Path_Read to_double jd ji) t P.
Proof.
  intros Hp H D. destruct (lines_back to_double jd ji p d ltac:(lia) H) as (P & t & E & W & R). exists P, t. split; [exact E|]. split; [exact W|].
  rewrite dmap_id in R; [rewrite E in R; exact R|exact H|]. intros x I. apply seventeen; [exact Hp|apply D; exact I].
Qed.

(** ** Circles: the text has a direction where the reader expects a point *)
Lemma circle_described f F center q Rend alpha eq c : circle_facts F center q Rend alpha eq c ->
  described f (PLeaf (LCircle c)) =
  DCircle (fmap f F) (vmap f center) (vmap f (r_UnitY (fM (ci_center c)))) (rmap f Rend) (f (alpha / (PI / 180))%R) (f eq).
Proof.
  intros H. cbn [described]. rewrite (proj1 (circle_circular _ _ _ _ _ _ _ H)), (cf_center _ _ _ _ _ _ _ H), (cf_eq _ _ _ _ _ _ _ H).
  replace (sa_Pos (ci_orient c) (ci_len c * ci_scalerot c)) with Rend
    by (unfold sa_Pos; rewrite (cf_ang _ _ _ _ _ _ _ H), (cf_M _ _ _ _ _ _ _ H); symmetry; apply (cf_rot _ _ _ _ _ _ _ H)).
  do 2 f_equal. rewrite (cf_lin _ _ _ _ _ _ _ H). pose proof (cf_rpos _ _ _ _ _ _ _ H). pose proof PI_RGT_0. field. lra.
Qed.
Local Open Scope R_scope.
(** a quarter of a circle of radius 1 that starts in the direction of x *)
Definition shifted (center : Vector) (x : R) : Frame := mkF r_id (mkV (vx center + x) (vy center) (vz center)).
Lemma quarter center q a b : let F := shifted center 1 in
  v_cross (mkV 1 0 0) (v_sub q center) = mkV 0 a b -> 1 <= a ^ 2 + b ^ 2 -> euclid_norm (v_sub q center) <= 2 ->
  (1 <= Rabs (vx (v_sub q center)) \/ 1 <= Rabs (vy (v_sub q center)) \/ 1 <= Rabs (vz (v_sub q center))) ->
  exists c k, circle_make F center q r_id (degrees 90) sa_make 1 = Val c /\ circle_facts F center q r_id (degrees 90) 1 c /\
    0 < k /\ r_UnitZ (fM (ci_center c)) = mkV 0 (a / k) (b / k) /\ r_UnitX (fM (ci_center c)) = mkV 1 0 0 /\ k ^ 2 = a ^ 2 + b ^ 2.
Proof.
  intros F X AB N2 Big. pose proof PI_RGT_0 as PI0. pose proof kdl_epsilon_pos.
  assert (HF : rigid F) by apply is_rotation_id.
  assert (HD : resolved_displacement center q) by (right; apply max_abs_1; exact Big).
  assert (Ha : 0 < degrees 90) by (unfold degrees; lra).
  pose proof (circle_make_cases F center q r_id (degrees 90) sa_make 1 HF is_rotation_id (resolved_id _ is_rotation_id) HD Ha ltac:(lra)) as H0.
  assert (D : v_sub (fp F) center = mkV 1 0 0) by (unfold F, shifted, v_sub; cbn; f_equal; ring).
  assert (E1 : euclid_norm (v_sub (fp F) center) = 1) by (rewrite D; apply euclid_1; cbn; ring).
  assert (E3 : 1 <= euclid_norm (v_cross (v_sub (fp F) center) (v_sub q center))).
  { rewrite D, X. unfold euclid_norm. cbn [vx vy vz]. rewrite <- sqrt_1 at 1. apply sqrt_le_1_alt. lra. }
  assert (NE : center <> q).
  { intros ->. unfold v_sub in Big. cbn in Big. rewrite !Rminus_eq_0, Rabs_R0 in Big. lra. }
  assert (2 * kdl_epsilon < 1 / 4) by (unfold kdl_epsilon; lra).
  destruct (circle_make F center q r_id (degrees 90) sa_make 1) as [c|[]|] eqn:E; try contradiction.
  - pose proof (cf_plane _ _ _ _ _ _ _ H0 NE) as (Uz & k & Pk & Ek). exists c, k. split; [reflexivity|]. split; [exact H0|]. split; [exact Pk|].
    rewrite D, X in Ek. destruct (r_UnitZ (fM (ci_center c))) as [z0 z1 z2]. unfold v_scale in Ek. cbn in Ek. injection Ek as K0 K1 K2.
    assert (z0 = 0) as -> by nra. split; [f_equal; [rewrite K1|rewrite K2]; field; lra|]. split.
    + pose proof (cf_x _ _ _ _ _ _ _ H0) as Ex. rewrite (cf_radius _ _ _ _ _ _ _ H0), E1, v_scale_1, D in Ex. exact Ex.
    + unfold unit_vector in Uz. cbn in Uz. rewrite K1, K2. nra.
  - exfalso. lra.
  - exfalso. destruct H0 as [H0|H0]; [exact (NE H0)|]. rewrite E1 in H0.
    assert (euclid_norm (v_sub q center) >= 0) by (unfold euclid_norm; apply Rle_ge, sqrt_pos). nra.
Qed.
Lemma whole_double z : (Z.abs z < 2 ^ 53)%Z -> is_double (IZR z).
Proof.
  intros H. apply generic_format_FLT. exists (Float radix2 z 0); [unfold F2R; cbn; ring|exact H|cbn; lia].
Qed.
Lemma quarter_end F center q c k a b : circle_facts F center q r_id (degrees 90) 1 c -> F = shifted center 1 ->
  r_UnitZ (fM (ci_center c)) = mkV 0 (a / k) (b / k) -> r_UnitX (fM (ci_center c)) = mkV 1 0 0 -> 0 < k -> k ^ 2 = a ^ 2 + b ^ 2 ->
  fp (circle_Pos c (ci_len c)) = v_add center (mkV 0 (b / k) (- (a / k))).
Proof.
  intros H EF EZ EX Pk K. pose proof (cf_rpos _ _ _ _ _ _ _ H) as Rp. pose proof (cf_lin _ _ _ _ _ _ _ H) as L.
  unfold circle_Pos. cbn [fp]. rewrite L. replace (degrees 90 * ci_radius c / ci_radius c) with (PI / 2) by (unfold degrees; field; lra).
  rewrite cos_PI2, sin_PI2. pose proof (cf_y _ _ _ _ _ _ _ H) as EY. rewrite EZ, EX in EY.
  assert (R1 : ci_radius c = 1).
  { rewrite (cf_radius _ _ _ _ _ _ _ H), EF. apply euclid_1. unfold shifted, v_sub. cbn. ring. }
  rewrite R1. pose proof (cf_center _ _ _ _ _ _ _ H) as EC. destruct (ci_center c) as [M o] eqn:EM. cbn [fM fp] in *. subst o.
  destruct M as [m0 m1 m2 m3 m4 m5 m6 m7 m8]. unfold r_UnitY, v_cross in EY. cbn in EY. injection EY as -> -> ->.
  unfold f_app, r_app, v_add. cbn. f_equal; field; lra.
Qed.
Lemma fz z : (Z.abs z < 2 ^ 53)%Z -> to_double (round10 17 (IZR z)) = IZR z.
Proof. intros H. apply seventeen; [lia|apply whole_double; exact H]. Qed.
Ltac fzs := rewrite ?(fz 0), ?(fz 1), ?(fz 2), ?(fz 90) by reflexivity.
Lemma circle_text F center q Rend alpha eq c rd jd ji p : (1 <= p)%Z ->
  rigid F -> is_rotation Rend -> resolved_rotation (fM F) Rend -> resolved_displacement center q -> 0 < alpha -> 0 < eq ->
  circle_make F center q Rend alpha sa_make eq = Val c ->
  exists y t, unit_vector y /\ v_dot y (v_sub (fp F) center) = 0 /\ write_Path p (PLeaf (LCircle c)) = (t ++ ["010"%char])%list /\
    ends_as (Path_Read rd jd ji) t (build (dmap (fun x => rd (round10 p x)) (DCircle F center y Rend (alpha / (PI / 180)) eq))).
Proof.
  intros Hp HF HE HR HD Ha He E. pose proof (circle_make_cases F center q Rend alpha sa_make eq HF HE HR HD Ha He) as H. rewrite E in H.
  destruct (path_back rd jd ji p (PLeaf (LCircle c)) Hp I) as (t & W & R). rewrite (circle_described _ _ _ _ _ _ _ _ H) in R.
  exists (r_UnitY (fM (ci_center c))), t. split; [|split; [|split; [exact W|exact R]]].
  - rewrite (cf_y _ _ _ _ _ _ _ H). pose proof (cf_ux _ _ _ _ _ _ _ H) as UX. pose proof (cf_uz _ _ _ _ _ _ _ H) as UZ. pose proof (cf_xz _ _ _ _ _ _ _ H) as XZ.
    destruct (r_UnitX (fM (ci_center c))) as [x0 x1 x2], (r_UnitZ (fM (ci_center c))) as [z0 z1 z2]. unfold unit_vector, v_dot, v_cross in *. cbn [vx vy vz] in *.
    replace ((z1 * x2 - z2 * x1) ^ 2 + (z2 * x0 - z0 * x2) ^ 2 + (z0 * x1 - z1 * x0) ^ 2)
      with ((x0 ^ 2 + x1 ^ 2 + x2 ^ 2) * (z0 ^ 2 + z1 ^ 2 + z2 ^ 2) - (z0 * x0 + z1 * x1 + z2 * x2) ^ 2) by ring.
    rewrite UX, UZ, XZ. ring.
  - rewrite (cf_y _ _ _ _ _ _ _ H), <- (cf_x _ _ _ _ _ _ _ H). destruct (r_UnitX (fM (ci_center c))) as [x0 x1 x2], (r_UnitZ (fM (ci_center c))) as [z0 z1 z2].
    unfold v_dot, v_cross, v_scale. cbn [vx vy vz]. ring.
Qed.
Lemma ninety : degrees 90 / (PI / 180) = 90. Proof. unfold degrees. pose proof PI_RGT_0. field. lra. Qed.
(** the circle about (1,0,1) through (2,0,1), a quarter turn towards (1,1,1), comes back in another plane *)
Lemma circle_moved jd ji : exists c c' t,
  circle_make (mkF r_id (mkV 2 0 1)) (mkV 1 0 1) (mkV 1 1 1) r_id (degrees 90) sa_make 1 = Val c /\
  write_Path 17 (PLeaf (LCircle c)) = (t ++ ["010"%char])%list /\
  takes (Path_Read to_double jd ji) t (PLeaf (LCircle c')) /\
  fp (circle_Pos c (ci_len c)) = mkV 1 1 1 /\ vz (fp (circle_Pos c' (ci_len c'))) < 1.
Proof.
  assert (SH : shifted (mkV 1 0 1) 1 = mkF r_id (mkV 2 0 1)) by (unfold shifted; cbn; do 2 f_equal; ring).
  destruct (quarter (mkV 1 0 1) (mkV 1 1 1) 0 1) as (c & k & E & H & Pk & EZ & EX & K).
  { unfold v_cross, v_sub. cbn. f_equal; ring. } { lra. }
  { unfold euclid_norm, v_sub. cbn [vx vy vz]. replace ((1 - 1) ^ 2 + (1 - 0) ^ 2 + (1 - 1) ^ 2) with 1 by ring. rewrite sqrt_1. lra. }
  { right; left. unfold v_sub. cbn. rewrite Rminus_0_r, Rabs_R1. lra. }
  destruct (quarter (mkV 1 0 1) (mkV 0 1 0) 1 1) as (c' & k' & E' & H' & Pk' & EZ' & EX' & K').
  { unfold v_cross, v_sub. cbn. f_equal; ring. } { lra. }
  { unfold euclid_norm, v_sub. cbn [vx vy vz]. replace ((0 - 1) ^ 2 + (1 - 0) ^ 2 + (0 - 1) ^ 2) with 3 by ring. rewrite <- (sqrt_Rsqr 2) by lra. apply sqrt_le_1_alt. unfold Rsqr. lra. }
  { right; left. unfold v_sub. cbn. rewrite Rminus_0_r, Rabs_R1. lra. }
  assert (k = 1) as -> by nra.
  destruct (path_back to_double jd ji 17 (PLeaf (LCircle c)) ltac:(lia) I) as (t & W & R). rewrite (circle_described _ _ _ _ _ _ _ _ H) in R.
  rewrite SH in *. exists c, c', t. split; [exact E|]. split; [exact W|].
  assert (EY : r_UnitY (fM (ci_center c)) = mkV 0 1 0).
  { rewrite (cf_y _ _ _ _ _ _ _ H), EZ, EX. unfold v_cross. cbn. f_equal; field. }
  split; [|split].
  - rewrite EY, ninety in R. unfold fmap, rmap, vmap, r_id in R. cbn [fM fp r0 r1 r2 r3 r4 r5 r6 r7 r8 vx vy vz] in R.
    revert R. fzs. fold r_id. cbn [build]. rewrite E'. intros R. exact R.
  - rewrite (quarter_end _ _ _ _ _ _ _ H (eq_sym SH) EZ EX Pk K). unfold v_add. cbn. f_equal; field.
  - rewrite (quarter_end _ _ _ _ _ _ _ H' (eq_sym SH) EZ' EX' Pk' K'). unfold v_add. cbn. assert (0 < 1 / k') by (apply Rdiv_lt_0_compat; lra). lra.
Qed.
(** the circle about (0,1,0) through (1,1,0), a quarter turn towards (0,2,0), does not come back at all *)
Lemma circle_fails jd ji : exists c t,
  circle_make (mkF r_id (mkV 1 1 0)) (mkV 0 1 0) (mkV 0 2 0) r_id (degrees 90) sa_make 1 = Val c /\
  write_Path 17 (PLeaf (LCircle c)) = (t ++ ["010"%char])%list /\
  throws (Path_Read to_double jd ji) t (MPlan CircleNoPlane).
Proof.
  assert (SH : shifted (mkV 0 1 0) 1 = mkF r_id (mkV 1 1 0)) by (unfold shifted; cbn; do 2 f_equal; ring).
  destruct (quarter (mkV 0 1 0) (mkV 0 2 0) 0 1) as (c & k & E & H & Pk & EZ & EX & K).
  { unfold v_cross, v_sub. cbn. f_equal; ring. } { lra. }
  { unfold euclid_norm, v_sub. cbn [vx vy vz]. replace ((0 - 0) ^ 2 + (2 - 1) ^ 2 + (0 - 0) ^ 2) with 1 by ring. rewrite sqrt_1. lra. }
  { right; left. unfold v_sub. cbn. replace (2 - 1) with 1 by ring. rewrite Rabs_R1. lra. }
  assert (k = 1) as -> by nra.
  destruct (path_back to_double jd ji 17 (PLeaf (LCircle c)) ltac:(lia) I) as (t & W & R). rewrite (circle_described _ _ _ _ _ _ _ _ H) in R.
  rewrite SH in *. exists c, t. split; [exact E|]. split; [exact W|].
  assert (EY : r_UnitY (fM (ci_center c)) = mkV 0 1 0).
  { rewrite (cf_y _ _ _ _ _ _ _ H), EZ, EX. unfold v_cross. cbn. f_equal; field. }
  rewrite EY, ninety in R. unfold fmap, rmap, vmap, r_id in R. cbn [fM fp r0 r1 r2 r3 r4 r5 r6 r7 r8 vx vy vz] in R.
  revert R. fzs. fold r_id. cbn [build]. intros R.
  assert (T : circle_make (mkF r_id (mkV 1 1 0)) (mkV 0 1 0) (mkV 0 1 0) r_id (degrees 90) sa_make 1 = Throw CircleNoPlane).
  { pose proof kdl_epsilon_pos. assert (kdl_epsilon < 1) by (unfold kdl_epsilon; lra).
    assert (N0 : v_normalize v_zero = (mkV 1 0 0, 0)).
    { unfold v_normalize, v_normalize_eps. rewrite v_norm_zero.
      destruct (Rlt_dec 0 kdl_epsilon); [reflexivity|lra]. }
    assert (N1 : v_normalize (mkV 1 0 0) = (mkV 1 0 0, 1)).
    { unfold v_normalize, v_normalize_eps. rewrite v_norm_x by lra. destruct (Rlt_dec 1 kdl_epsilon); [lra|]. unfold v_div. cbn. do 2 f_equal; field. }
    unfold circle_make. cbn [fp fM]. replace (v_sub (mkV 1 1 0) (mkV 0 1 0)) with (mkV 1 0 0) by (unfold v_sub; cbn; f_equal; ring).
    rewrite N1. destruct (Rlt_dec 1 kdl_epsilon); [lra|]. replace (v_sub (mkV 0 1 0) (mkV 0 1 0)) with v_zero by (unfold v_sub, v_zero; cbn; f_equal; ring).
    rewrite N0. replace (v_cross (mkV 1 0 0) (mkV 1 0 0)) with v_zero by (unfold v_cross, v_zero; cbn; f_equal; ring). rewrite N0.
    destruct (Rlt_dec 0 kdl_epsilon); [reflexivity|lra]. }
  rewrite T in R. exact R.
Qed.

(** ** The motion of a profile is not in its text *)
Lemma motion_lost f m m' : limits f m = Some m' ->
  match m with
  | PTrap _ => prof_duration m' = VVal 0 /\ forall time, prof_pos m' time = VVal 0
  | PSpline _ => False
  | _ => prof_duration m' = VUndef /\ forall time, prof_pos m' time = VUndef
  end.
Proof.
  destruct m as [t|h|r|d|s]; cbn [limits]; intros Q; try discriminate; injection Q as <-; cbn.
  - split; [reflexivity|]. intros time. unfold trap_pos, plan_pos. cbn. repeat match goal with |- context [if ?b then _ else _] => destruct b end; f_equal; ring.
  - split; reflexivity.
  - split; reflexivity.
  - split; reflexivity.
Qed.
Local Open Scope Z_scope.
Local Open Scope list_scope.
Local Open Scope char_scope.

(** ** Texts that are refused *)
Lemma traj_keyword rd jd ji jb k t t' : Forall kchar (lit k) -> lit k <> [] -> (length (lit k) < 64)%nat -> opening plain k t ->
  text_eqb (lit k) (lit "SEGMENT") = false -> (exists c u, starts t' c u) -> throws (Trajectory_Read rd jd ji jb) (t ++ t') (MIo Error_MotionIO_Unexpected_Traj).
Proof.
  intros L NE Len O K (c & u & St) past rest tr. pose proof (at_start past (t ++ t') rest tr) as P. set (s := stream past ((t ++ t') ++ rest) tr) in *.
  apply (at_trace _ _ _ _ "Trajectory::Read"%string) in P. rewrite <- !app_assoc in P. unfold Trajectory_Read.
  destruct (m_opening _ _ 64 k t c u rest t' _ L NE Len O St P) as (s1 & E & _). rewrite E. cbn [mbind]. rewrite K. eauto.
Qed.
Lemma stationary_refused rd jd ji jb p d F : 1 <= p ->
  throws (Trajectory_Read rd jd ji jb) (write_Traj p (TStationary d F)) (MIo Error_MotionIO_Unexpected_Traj).
Proof.
  intros Hp. destruct (numeral_first _ _ (fmt_numeral p Hp d)) as (c & u & E & T).
  replace (write_Traj p (TStationary d F)) with (([] ++ lit "STATIONARY" ++ ["["] ++ [" "]) ++ (fmt_double p d ++ endl ++ write_Frame p F ++ endl ++ lit "]"))
    by (cbn [write_Traj]; repeat (rewrite <- ?app_assoc; cbn [app lit list_ascii_of_string]); reflexivity).
  apply (traj_keyword _ _ _ _ "STATIONARY"); [exact (kchars_of "STATIONARY" eq_refl)|discriminate|cbn; lia|apply w_opening; [exact plain_nil|reflexivity|isplain]|reflexivity|].
  rewrite E. exists c, (u ++ endl ++ write_Frame p F ++ endl ++ lit "]"). exists []. split; [reflexivity|]. split; [exact plain_nil|exact T].
Qed.
Lemma composite_refused rd jd ji jb p vt vd dur :
  throws (Trajectory_Read rd jd ji jb) (write_Traj p (TComposite vt vd dur)) (MIo Error_MotionIO_Unexpected_Traj).
Proof.
  destruct (integer_first _ _ (integer_fmt (Z.of_nat (length vt)))) as (c & u & E & T & _). cbn [write_Traj].
  match goal with |- throws _ (lit "COMPOSITE[ " ++ ?n ++ ?r) _ => replace (lit "COMPOSITE[ " ++ n ++ r) with (([] ++ lit "COMPOSITE" ++ ["["] ++ [" "]) ++ n ++ r)
    by (repeat (rewrite <- ?app_assoc; cbn [app lit list_ascii_of_string]); reflexivity); set (x := r) end.
  apply (traj_keyword _ _ _ _ "COMPOSITE"); [exact (kchars_of "COMPOSITE" eq_refl)|discriminate|cbn; lia|apply w_opening; [exact plain_nil|reflexivity|isplain]|reflexivity|].
  rewrite E. exists c, (u ++ x). exists []. split; [reflexivity|]. split; [exact plain_nil|exact T].
Qed.
