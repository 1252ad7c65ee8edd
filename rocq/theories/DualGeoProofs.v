(** Proofs about the automatic-differentiation vectors, rotations, frames and twists. *)
From Coq Require Import Reals Lra.
From Verif Require Import FramesModel FramesSpec FramesProofs RotationProofs FrameOpsProofs
  DualModel InertiaModel KinModel KinSpec DerivProofs DualSpec DualProofs.
Local Open Scope R_scope.

(** * First order *)
Section VV.
  Variables (f g : R -> Vector) (t : R) (a b : VectorVel).
  Hypotheses (Ha : vv_carries f t a) (Hb : vv_carries g t b).
  Lemma vvc_add : vv_carries (fun s => v_add (f s) (g s)) t (vv_add a b).
  Proof. destruct Ha as [E H], Hb as [E' H']. split; cbn [vv_add vvp vvv]; [congruence|]. apply v_derive_add; auto. Qed.
  Lemma vvc_sub : vv_carries (fun s => v_sub (f s) (g s)) t (vv_sub a b).
  Proof. destruct Ha as [E H], Hb as [E' H']. split; cbn [vv_sub vvp vvv]; [congruence|]. apply v_derive_sub; auto. Qed.
  Lemma vvc_neg : vv_carries (fun s => v_neg (f s)) t (vv_neg a).
  Proof. destruct Ha as [E H]. split; cbn [vv_neg vvp vvv]; [congruence|]. apply v_derive_neg; auto. Qed.
  Lemma vvc_cross : vv_carries (fun s => v_cross (f s) (g s)) t (vv_cross a b).
  Proof.
    destruct Ha as [E H], Hb as [E' H']. split; cbn [vv_cross vvp vvv]; [congruence|]. rewrite E, E'.
    eapply v_derive_eq; [apply (v_derive_cross _ _ _ _ _ H H')|]. apply v_add_comm.
  Qed.
  Lemma vvc_dot : carries1 (fun s => v_dot (f s) (g s)) t (vv_dot a b).
  Proof.
    destruct Ha as [E H], Hb as [E' H']. split; cbn [vv_dot d1t d1g]; [congruence|]. rewrite E, E'.
    eapply dl_eq; [apply (dot_derive _ _ _ _ _ H H')|]. ring.
  Qed.
  Lemma vvc_scale r : vv_carries (fun s => v_scale (f s) r) t (vv_scale a r).
  Proof.
    destruct Ha as [E H]. split; cbn [vv_scale vvp vvv]; [congruence|].
    eapply v_derive_eq; [apply (v_derive_scale _ (fun _ => r) _ _ 0 H (derivable_pt_lim_const r t))|]. geo.
  Qed.
  Lemma vvc_div r : vv_carries (fun s => v_div (f s) r) t (vv_div a r).
  Proof. 
    pose proof (vvc_scale (/ r)) as [E H]. split; cbn [vv_div vvp vvv].
    - destruct Ha as [E1 _]. rewrite E1. reflexivity.
    - eapply v_derive_eq; [eapply v_derive_ext; [|exact H]|]; intros; unfold v_div, v_scale, vv_scale; cbn [vvv]; reflexivity.
  Qed.
  Lemma vvc_dmul h c : carries1 h t c -> vv_carries (fun s => v_scale_l (h s) (f s)) t (vv_dmul c a).
  Proof.
    intros [E1 H1]. destruct Ha as [E H]. split; cbn [vv_dmul vvp vvv]; [congruence|]. rewrite E, E1.
    eapply v_derive_eq; [eapply v_derive_ext; [|apply (v_derive_scale _ h _ _ _ H H1)]|].
    - intros s. geo.
    - generalize (f t) (vvv a) (h t) (d1g c). geo.
  Qed.
  Lemma vvc_ddiv h c : carries1 h t c -> h t <> 0 -> vv_carries (fun s => v_div (f s) (h s)) t (vv_ddiv a c).
  Proof.
    intros Hc Hn. pose proof (c1_sdiv h t c 1 Hc Hn) as [E1 H1]. destruct Hc as [E2 _].
    destruct Ha as [E H]. split; cbn [vv_ddiv vvp vvv]; [congruence|]. rewrite E, E2.
    eapply v_derive_eq; [eapply v_derive_ext; [|apply (v_derive_scale _ _ _ _ _ H H1)]|].
    - intros s. unfold v_scale, v_div, Rdiv. rewrite !Rmult_1_l. reflexivity.
    - cbn [d1_sdiv d1g]. rewrite E2. revert Hn. generalize (f t) (vvv a) (h t) (d1g c). intros v v' x y Hn.
      geo_destruct. geo_unfold. f_equal; field; auto.
  Qed.
  Lemma vvc_rot M : vv_carries (fun s => r_app M (f s)) t (vv_rot M a).
  Proof.
    destruct Ha as [E H]. split; cbn [vv_rot vvp vvv]; [congruence|].
    eapply v_derive_eq; [apply (r_app_derive _ _ _ _ _ (r_derive_const M t) H)|]. unfold m3_zero. geo.
  Qed.
End VV.
Lemma vvc_const p t : vv_carries (fun _ => p) t (vv_const p).
Proof. split; [reflexivity|apply v_derive_const]. Qed.
Lemma vvc_eq f t a b : vv_carries f t a -> a = b -> vv_carries f t b. Proof. intros H <-; exact H. Qed.
Lemma vvc_ext f g t a : (forall s, f s = g s) -> vv_carries f t a -> vv_carries g t a.
Proof. intros E [H H']. split; [rewrite <- E; exact H|]. eapply v_derive_ext; eauto. Qed.
Lemma vv_ext a b : vvp a = vvp b -> vvv a = vvv b -> a = b.
Proof. destruct a, b; simpl; intros -> ->; reflexivity. Qed.

Lemma c1_ext f g t a : (forall s, f s = g s) -> carries1 f t a -> carries1 g t a.
Proof. intros H. apply c1_near, near_all, H. Qed.
Lemma euclid_dot v : euclid_norm v = sqrt (v_dot v v).
Proof. unfold euclid_norm, v_dot. f_equal. ring. Qed.
Lemma dot_pos eps v : 0 < eps -> eps <= max_abs v -> 0 < v_dot v v.
Proof.
  intros He Hm. pose proof (max_abs_le_norm v) as L. pose proof (euclid_norm_sq v) as Q.
  unfold v_dot. assert (0 < euclid_norm v * euclid_norm v) by (apply Rmult_lt_0_compat; lra). lra.
Qed.
Lemma vvc_norm eps f t a : vv_carries f t a -> 0 < eps -> eps <= max_abs (f t) ->
  carries1 (fun s => euclid_norm (f s)) t (vv_norm eps a).
Proof.
  intros Ha He Hm. pose proof (dot_pos eps _ He Hm) as P.
  pose proof (c1_sqrt _ t _ (vvc_dot f f t a a Ha Ha) P) as H.
  eapply c1_eq; [eapply c1_ext; [|exact H]; intros s; symmetry; apply euclid_dot|].
  destruct Ha as [E _]. unfold vv_norm. rewrite E, (v_norm_eps_exact eps) by auto.
  pose proof (max_abs_le_norm (f t)). destruct (Rlt_dec (euclid_norm (f t)) eps); [lra|].
  apply d1_ext; cbn [d1_sqrt vv_dot d1t d1g]; rewrite E, <- euclid_dot; [reflexivity|].
  rewrite (v_dot_comm (vvv a)). field. lra.
Qed.

(** Rotations *)
Lemma spin_eq w M : spin w M = r_spin w M. Proof. reflexivity. Qed.
Lemma mat_eq f t d : mat_derive f t d = r_derive f t d. Proof. reflexivity. Qed.
Lemma r_mul_derive A B t dA dB : mat_derive A t dA -> mat_derive B t dB ->
  mat_derive (fun s => r_mul (A s) (B s)) t (mat_add (r_mul dA (B t)) (r_mul (A t) dB)).
Proof.
  intros (H0 & H1 & H2 & H3 & H4 & H5 & H6 & H7 & H8) (G0 & G1 & G2 & G3 & G4 & G5 & G6 & G7 & G8).
  unfold mat_derive, mat_add, r_mul; psimp. repeat split; dl.
Qed.
Lemma spin_mul_l w A B : r_mul (spin w A) B = spin w (r_mul A B).
Proof. unfold spin. geo. Qed.
Lemma spin_columns w M : spin w M = r_cols (v_cross w (r_UnitX M)) (v_cross w (r_UnitY M)) (v_cross w (r_UnitZ M)).
Proof. reflexivity. Qed.
Lemma cols_ext A B : r_UnitX A = r_UnitX B -> r_UnitY A = r_UnitY B -> r_UnitZ A = r_UnitZ B -> A = B.
Proof. destruct A, B. unfold r_UnitX, r_UnitY, r_UnitZ. psimp. intros E1 E2 E3. injection E1; injection E2; injection E3; intros; subst; reflexivity. Qed.
Lemma mul_UnitX A B : r_UnitX (r_mul A B) = r_app A (r_UnitX B). Proof. geo. Qed.
Lemma mul_UnitY A B : r_UnitY (r_mul A B) = r_app A (r_UnitY B). Proof. geo. Qed.
Lemma mul_UnitZ A B : r_UnitZ (r_mul A B) = r_app A (r_UnitZ B). Proof. geo. Qed.
Lemma spin_UnitX w B : r_UnitX (spin w B) = v_cross w (r_UnitX B). Proof. unfold spin. geo. Qed.
Lemma spin_UnitY w B : r_UnitY (spin w B) = v_cross w (r_UnitY B). Proof. unfold spin. geo. Qed.
Lemma spin_UnitZ w B : r_UnitZ (spin w B) = v_cross w (r_UnitZ B). Proof. unfold spin. geo. Qed.
Lemma spin_mul_r w A B : is_rotation A -> r_mul A (spin w B) = spin (r_app A w) (r_mul A B).
Proof.
  intros H. apply cols_ext;
    [rewrite mul_UnitX, !spin_UnitX, mul_UnitX|rewrite mul_UnitY, !spin_UnitY, mul_UnitY|rewrite mul_UnitZ, !spin_UnitZ, mul_UnitZ];
    apply r_app_cross; auto.
Qed.
Lemma spin_add u v A : mat_add (spin u A) (spin v A) = spin (v_add u v) A.
Proof. unfold spin, mat_add. geo. Qed.
Lemma spin_zero A : spin v_zero A = m3_zero. Proof. unfold spin, m3_zero. geo. Qed.
Lemma mat_add_comm A B : mat_add A B = mat_add B A. Proof. unfold mat_add. f_equal; ring. Qed.
Lemma spin_inv w M : is_rotation M -> r_inv (spin w M) = spin (v_neg (r_invapp M w)) (r_inv M).
Proof.
  intros H. pose proof (r_inv_rotation _ H) as H'.
  transitivity (r_mul (r_inv M) (spin (v_neg w) r_id)); [unfold spin; geo|].
  rewrite spin_mul_r by exact H'. f_equal; [|geo]. rewrite r_invapp_inv. geo.
Qed.
Lemma spin_inv_app w M x : r_app (r_inv (spin w M)) x = r_app (r_inv M) (v_neg (v_cross w x)).
Proof. unfold spin. geo. Qed.
Lemma spin_app w M x : r_app (spin w M) x = v_cross w (r_app M x).
Proof. unfold spin. geo. Qed.

Lemma app_UnitX M : r_app M (mkV 1 0 0) = r_UnitX M. Proof. geo. Qed.
Lemma app_UnitY M : r_app M (mkV 0 1 0) = r_UnitY M. Proof. geo. Qed.
Lemma app_UnitZ M : r_app M (mkV 0 0 1) = r_UnitZ M. Proof. geo. Qed.
Lemma rvc_const M t : rv_carries (fun _ => M) t (mkRV M v_zero).
Proof. split; [reflexivity|]. cbn [rvw rvR]. rewrite spin_zero. apply r_derive_const. Qed.
Lemma rvc_id t : rv_carries (fun _ => r_id) t rv_id. Proof. apply rvc_const. Qed.
Section RV.
  Variables (A B : R -> Rotation) (t : R) (a b : RotationVel).
  Hypotheses (Ha : rv_carries A t a) (Hb : rv_carries B t b).
  Lemma rvc_mul : is_rotation (A t) -> rv_carries (fun s => r_mul (A s) (B s)) t (rv_mul a b).
  Proof.
    intros HR. destruct Ha as [E H], Hb as [E' H']. split; cbn [rv_mul rvR rvw]; [congruence|].
    eapply r_derive_eq; [apply (r_mul_derive _ _ _ _ _ H H')|]. rewrite E, E'.
    rewrite spin_mul_l, spin_mul_r by exact HR. apply spin_add.
  Qed.
  Lemma rvc_mul_r M : rv_carries (fun s => r_mul (A s) M) t (rv_mul_r a M).
  Proof.
    destruct Ha as [E H]. split; cbn [rv_mul_r rvR rvw]; [congruence|].
    eapply r_derive_eq; [apply (r_mul_derive _ (fun _ => M) _ _ _ H (r_derive_const M t))|]. rewrite E.
    rewrite spin_mul_l. unfold m3_zero, mat_add. generalize (spin (rvw a) (r_mul (A t) M)) (A t). geo.
  Qed.
  Lemma rvc_mul_l M : is_rotation M -> rv_carries (fun s => r_mul M (A s)) t (rv_mul_l M a).
  Proof.
    intros HR. destruct Ha as [E H]. split; cbn [rv_mul_l rvR rvw]; [congruence|].
    eapply r_derive_eq; [apply (r_mul_derive (fun _ => M) _ _ _ _ (r_derive_const M t) H)|]. rewrite E.
    rewrite spin_mul_r by exact HR. unfold m3_zero, mat_add. generalize (spin (r_app M (rvw a)) (r_mul M (A t))) (A t). geo.
  Qed.
  Lemma rvc_inv : is_rotation (A t) -> rv_carries (fun s => r_inv (A s)) t (rv_inv a).
  Proof.
    intros HR. destruct Ha as [E H]. split; cbn [rv_inv rvR rvw]; [congruence|].
    eapply r_derive_eq; [apply r_inv_derive, H|]. rewrite E. apply spin_inv, HR.
  Qed.
  Lemma rvc_app f x : vv_carries f t x -> vv_carries (fun s => r_app (A s) (f s)) t (rv_app a x).
  Proof.
    intros [E1 H1]. destruct Ha as [E H]. split; cbn [rv_app vvp vvv]; [congruence|].
    eapply v_derive_eq; [apply (r_app_derive _ _ _ _ _ H H1)|]. rewrite E, E1, spin_app. reflexivity.
  Qed.
  Lemma rvc_app_c p : vv_carries (fun s => r_app (A s) p) t (rv_app_c a p).
  Proof.
    eapply vvc_eq; [apply (rvc_app _ _ (vvc_const p t))|]. apply vv_ext; cbn [rv_app rv_app_c vv_const vvp vvv]; [reflexivity|].
    rewrite r_app_0, v_add_0_r. reflexivity.
  Qed.
  Lemma rvc_invapp f x : vv_carries f t x -> vv_carries (fun s => r_invapp (A s) (f s)) t (rv_invapp a x).
  Proof.
    intros [E1 H1]. destruct Ha as [E H]. split; cbn [rv_invapp vvp vvv]; [congruence|].
    eapply v_derive_eq; [eapply v_derive_ext; [|apply (r_app_derive _ _ _ _ _ (r_inv_derive _ _ _ H) H1)]|].
    - intros s. symmetry. apply r_invapp_inv.
    - cbv beta. rewrite E, E1, spin_inv_app, r_invapp_inv. generalize (A t) (f t). geo.
  Qed.
  Lemma rvc_invapp_c p : vv_carries (fun s => r_invapp (A s) p) t (rv_invapp_c a p).
  Proof.
    eapply vvc_eq; [apply (rvc_invapp _ _ (vvc_const p t))|]. apply vv_ext; cbn [rv_invapp rv_invapp_c vv_const vvp vvv]; [reflexivity|].
    f_equal. geo.
  Qed.
  Lemma rvc_Unit : vv_carries (fun s => r_UnitX (A s)) t (rv_UnitX a) /\ vv_carries (fun s => r_UnitY (A s)) t (rv_UnitY a) /\
     vv_carries (fun s => r_UnitZ (A s)) t (rv_UnitZ a).
  Proof.
    pose proof (rvc_app_c (mkV 1 0 0)) as X. pose proof (rvc_app_c (mkV 0 1 0)) as Y. pose proof (rvc_app_c (mkV 0 0 1)) as Z.
    split; [|split].
    - eapply vvc_ext; [|eapply vvc_eq; [exact X|]]; [intros s; apply app_UnitX|].
      apply vv_ext; unfold rv_app_c, rv_UnitX; cbn [vvp vvv]; rewrite app_UnitX; reflexivity.
    - eapply vvc_ext; [|eapply vvc_eq; [exact Y|]]; [intros s; apply app_UnitY|].
      apply vv_ext; unfold rv_app_c, rv_UnitY; cbn [vvp vvv]; rewrite app_UnitY; reflexivity.
    - eapply vvc_ext; [|eapply vvc_eq; [exact Z|]]; [intros s; apply app_UnitZ|].
      apply vv_ext; unfold rv_app_c, rv_UnitZ; cbn [vvp vvv]; rewrite app_UnitZ; reflexivity.
  Qed.
End RV.
Section RVRot.
  Variables (q : R -> R) (t : R) (c : dVel).
  Hypothesis Hc : carries1 q t c.
  Lemma rvc_Rot2 n : unit_vector n -> rv_carries (fun s => r_Rot2 n (q s)) t (rv_Rot2 n c).
  Proof.
    intros Hn. destruct Hc as [E H]. split; cbn [rv_Rot2 rvR rvw]; [congruence|].
    eapply r_derive_eq; [apply (Rot2_derive n q t _ Hn H)|]. rewrite E. reflexivity.
  Qed.
  Lemma rvc_Rot n : rv_carries (fun s => r_Rot n (q s)) t (rv_Rot n c).
  Proof. apply rvc_Rot2, v_normalize_unit. Qed.
  Lemma rvc_ext A B a : (forall s, A s = B s) -> rv_carries A t a -> rv_carries B t a.
  Proof. intros H [E G]. split; [rewrite <- H; auto|]. eapply r_derive_ext; eauto. Qed.
  Lemma rvc_eq A a b : rv_carries A t a -> a = b -> rv_carries A t b. Proof. intros H <-; exact H. Qed.
  Lemma rvc_RotX : rv_carries (fun s => r_RotX (q s)) t (rv_RotX c).
  Proof.
    eapply rvc_ext; [|eapply rvc_eq; [apply (rvc_Rot2 (mkV 1 0 0)); unfold unit_vector; simpl; ring|]].
    - intros s. symmetry. apply RotX_Rot2.
    - unfold rv_Rot2, rv_RotX. rewrite RotX_Rot2. f_equal. geo.
  Qed.
  Lemma rvc_RotY' : rv_carries (fun s => r_RotY (q s)) t (mkRV (r_RotY (d1t c)) (mkV 0 (d1g c) 0)).
  Proof.
    eapply rvc_ext; [|eapply rvc_eq; [apply (rvc_Rot2 (mkV 0 1 0)); unfold unit_vector; simpl; ring|]].
    - intros s. symmetry. apply RotY_Rot2.
    - unfold rv_Rot2. rewrite RotY_Rot2. f_equal. geo.
  Qed.
  Lemma rvc_RotZ : rv_carries (fun s => r_RotZ (q s)) t (rv_RotZ c).
  Proof.
    eapply rvc_ext; [|eapply rvc_eq; [apply (rvc_Rot2 (mkV 0 0 1)); unfold unit_vector; simpl; ring|]].
    - intros s. symmetry. apply RotZ_Rot2.
    - unfold rv_Rot2, rv_RotZ. rewrite RotZ_Rot2. f_equal. geo.
  Qed.
  Lemma rvc_DoRot A a : rv_carries A t a -> is_rotation (A t) ->
    rv_carries (fun s => r_DoRotX (A s) (q s)) t (rv_DoRotX a c) /\
    rv_carries (fun s => r_DoRotY (A s) (q s)) t (rv_DoRotY a c) /\
    rv_carries (fun s => r_DoRotZ (A s) (q s)) t (rv_DoRotZ a c).
  Proof.
    intros Ha HR. split; [|split].
    - eapply rvc_ext; [|eapply rvc_eq; [apply (rvc_mul _ _ _ _ _ Ha rvc_RotX HR)|]].
      + intros s. symmetry. apply DoRotX_mul.
      + unfold rv_mul, rv_DoRotX, rv_RotX. cbn [rvR rvw]. rewrite DoRotX_mul. reflexivity.
    - eapply rvc_ext; [|eapply rvc_eq; [apply (rvc_mul _ _ _ _ _ Ha rvc_RotY' HR)|]].
      + intros s. symmetry. apply DoRotY_mul.
      + unfold rv_mul, rv_DoRotY. cbn [rvR rvw]. rewrite DoRotY_mul. reflexivity.
    - eapply rvc_ext; [|eapply rvc_eq; [apply (rvc_mul _ _ _ _ _ Ha rvc_RotZ HR)|]].
      + intros s. symmetry. apply DoRotZ_mul.
      + unfold rv_mul, rv_DoRotZ, rv_RotZ. cbn [rvR rvw]. rewrite DoRotZ_mul. reflexivity.
  Qed.
End RVRot.

Lemma rv_RotY_wrong : exists q t c, carries1 q t c /\ ~ rv_carries (fun s => r_RotY (q s)) t (rv_RotY c).
Proof.
  exists (fun _ => PI), 0, (d1_const PI). split; [apply c1_const|]. intros [E _].
  assert (H : r0 (rvR (rv_RotY (d1_const PI))) = r0 (r_RotY PI)) by (rewrite E; reflexivity).
  unfold rv_RotY, r_RotX, r_RotY, d1_const in H. psimp. cbn [rvR d1t] in H. psimp. rewrite cos_PI in H. lra.
Qed.

(** Frames and twists *)
Section FV.
  Variables (F G : R -> Frame) (t : R) (a b : FrameVel).
  Hypotheses (Ha : fv_carries F t a) (Hb : fv_carries G t b).
  Lemma fvc_velocity : frame_velocity F t (fv_GetTwist a) /\ fv_GetFrame a = F t.
  Proof.
    destruct Ha as [[E H] [E' H']]. split.
    - apply frame_velocity_entries. split; [exact H'|]. cbn [fv_GetTwist trot]. rewrite <- E. exact H.
    - unfold fv_GetFrame. rewrite E, E'. apply f_ext; reflexivity.
  Qed.
  Lemma fvc_mul : rigid (F t) -> fv_carries (fun s => f_mul (F s) (G s)) t (fv_mul a b).
  Proof.
    intros HR. destruct Ha as [H1 H2], Hb as [G1 G2]. split; cbn [fv_mul fvM fvp f_mul fM fp].
    - apply (rvc_mul _ _ _ _ _ H1 G1 HR).
    - apply (vvc_add _ _ _ _ _ (rvc_app _ _ _ H1 _ _ G2) H2).
  Qed.
  Lemma fvc_mul_r K : fv_carries (fun s => f_mul (F s) K) t (fv_mul_r a K).
  Proof.
    destruct Ha as [H1 H2]. split; cbn [fv_mul_r fvM fvp f_mul fM fp].
    - apply (rvc_mul_r _ _ _ H1).
    - apply (vvc_add _ _ _ _ _ (rvc_app_c _ _ _ H1 _) H2).
  Qed.
  Lemma fvc_mul_l K : rigid K -> fv_carries (fun s => f_mul K (F s)) t (fv_mul_l K a).
  Proof.
    intros HR. destruct Ha as [H1 H2]. split; cbn [fv_mul_l fvM fvp f_mul fM fp].
    - apply (rvc_mul_l _ _ _ H1 _ HR).
    - eapply vvc_eq; [apply (vvc_add _ _ _ _ _ (vvc_rot _ _ _ H2 _) (vvc_const (fp K) t))|].
      apply vv_ext; cbn [vv_add vv_const vvp vvv]; [reflexivity|]. apply v_add_0_r.
  Qed.
  Lemma fvc_app f x : vv_carries f t x -> vv_carries (fun s => f_app (F s) (f s)) t (fv_app a x).
  Proof. intros Hx. destruct Ha as [H1 H2]. apply (vvc_add _ _ _ _ _ (rvc_app _ _ _ H1 _ _ Hx) H2). Qed.
  Lemma fvc_app_c p : vv_carries (fun s => f_app (F s) p) t (fv_app_c a p).
  Proof. destruct Ha as [H1 H2]. apply (vvc_add _ _ _ _ _ (rvc_app_c _ _ _ H1 p) H2). Qed.
  Lemma fvc_invapp f x : vv_carries f t x -> vv_carries (fun s => f_invapp (F s) (f s)) t (fv_invapp a x).
  Proof. intros Hx. destruct Ha as [H1 H2]. apply (rvc_invapp _ _ _ H1 _ _ (vvc_sub _ _ _ _ _ Hx H2)). Qed.
  Lemma fvc_invapp_c p : vv_carries (fun s => f_invapp (F s) p) t (fv_invapp_c a p).
  Proof.
    eapply vvc_eq; [apply (fvc_invapp _ _ (vvc_const p t))|]. unfold fv_invapp, fv_invapp_c. f_equal.
    apply vv_ext; cbn [vv_sub vv_const vvp vvv]; [reflexivity|]. geo.
  Qed.
  Lemma fvc_inv : rigid (F t) -> fv_carries (fun s => f_inv (F s)) t (fv_inv a).
  Proof.
    intros HR. destruct Ha as [H1 H2]. split; cbn [fv_inv fvM fvp f_inv fM fp].
    - apply (rvc_inv _ _ _ H1 HR).
    - apply vvc_neg, (rvc_invapp _ _ _ H1 _ _ H2).
  Qed.
  Lemma fvc_app_tv f x : tv_carries f t x -> tv_carries (fun s => f_app_t (F s) (f s)) t (fv_app_tv a x).
  Proof.
    intros [X1 X2]. destruct Ha as [H1 H2]. split; cbn [fv_app_tv tvvel tvrot f_app_t tvel trot].
    - apply vvc_add; [apply (rvc_app _ _ _ H1 _ _ X1)|apply (vvc_cross _ _ _ _ _ H2 (rvc_app _ _ _ H1 _ _ X2))].
    - apply (rvc_app _ _ _ H1 _ _ X2).
  Qed.
  Lemma fvc_invapp_tv f x : tv_carries f t x -> tv_carries (fun s => f_invapp_t (F s) (f s)) t (fv_invapp_tv a x).
  Proof.
    intros [X1 X2]. destruct Ha as [H1 H2]. split; cbn [fv_invapp_tv tvvel tvrot f_invapp_t tvel trot].
    - apply (rvc_invapp _ _ _ H1 _ _ (vvc_sub _ _ _ _ _ X1 (vvc_cross _ _ _ _ _ H2 X2))).
    - apply (rvc_invapp _ _ _ H1 _ _ X2).
  Qed.
End FV.
Lemma fvc_make F t tw : frame_velocity F t tw -> fv_carries F t (fv_make (F t) tw).
Proof.
  intros H. apply frame_velocity_entries in H. destruct H as [H1 H2].
  split; (split; [reflexivity|]); [exact H2|exact H1].
Qed.

Section TV.
  Variables (f g : R -> Twist) (t : R) (a b : TwistVel).
  Hypotheses (Ha : tv_carries f t a) (Hb : tv_carries g t b).
  Lemma tvc_add : tv_carries (fun s => t_add (f s) (g s)) t (tv_add a b).
  Proof. destruct Ha, Hb. split; apply vvc_add; auto. Qed.
  Lemma tvc_sub : tv_carries (fun s => t_sub (f s) (g s)) t (tv_sub a b).
  Proof. destruct Ha, Hb. split; apply vvc_sub; auto. Qed.
  Lemma tvc_neg : tv_carries (fun s => t_neg (f s)) t (tv_neg a).
  Proof. destruct Ha. split; apply vvc_neg; auto. Qed.
  Lemma tvc_scale r : tv_carries (fun s => t_scale (f s) r) t (tv_scale a r).
  Proof. destruct Ha. split; apply vvc_scale; auto. Qed.
  Lemma tvc_div r : tv_carries (fun s => t_div (f s) r) t (tv_div a r).
  Proof. destruct Ha. split; apply vvc_div; auto. Qed.
  Lemma tvc_dmul h c : carries1 h t c -> tv_carries (fun s => t_scale_l (h s) (f s)) t (tv_dmul c a).
  Proof. intros. destruct Ha. split; apply vvc_dmul; auto. Qed.
  Lemma tvc_ddiv h c : carries1 h t c -> h t <> 0 -> tv_carries (fun s => t_div (f s) (h s)) t (tv_ddiv a c).
  Proof. intros. destruct Ha. split; apply vvc_ddiv; auto. Qed.
  Lemma tvc_RefPoint h x : vv_carries h t x -> tv_carries (fun s => t_RefPoint (f s) (h s)) t (tv_RefPoint a x).
  Proof. intros. destruct Ha as [A1 A2]. split; [apply (vvc_add _ _ _ _ _ A1 (vvc_cross _ _ _ _ _ A2 H))|auto]. Qed.
  Lemma tvc_app M m : rv_carries M t m -> tv_carries (fun s => r_app_t (M s) (f s)) t (rv_app_tv m a).
  Proof. intros H. destruct Ha as [A1 A2]. split; [apply (rvc_app _ _ _ H _ _ A1)|apply (rvc_app _ _ _ H _ _ A2)]. Qed.
  Lemma tvc_invapp M m : rv_carries M t m -> tv_carries (fun s => r_invapp_t (M s) (f s)) t (rv_invapp_tv m a).
  Proof. intros H. destruct Ha as [A1 A2]. split; [apply (rvc_invapp _ _ _ H _ _ A1)|apply (rvc_invapp _ _ _ H _ _ A2)]. Qed.
End TV.

(** diff and addDelta *)
Lemma d1_addDelta_diff a b dt : dt <> 0 -> d1_addDelta a (d1_diff a b dt) dt = b.
Proof. intros H. destruct a, b. unfold d1_addDelta, d1_diff; simpl. f_equal; field; auto. Qed.
Lemma vv_addDelta_diff a b dt : dt <> 0 -> vv_addDelta a (vv_diff a b dt) dt = b.
Proof. intros H. destruct a as [p v], b as [p' v']. unfold vv_addDelta, vv_diff; cbn [vvp vvv]. rewrite !v_addDelta_diff; auto. Qed.
Lemma rv_addDelta_diff a b dt : is_rotation (rvR a) -> is_rotation (rvR b) -> dt <> 0 ->
  same_or_far (r_mul (r_inv (rvR a)) (rvR b)) -> rv_addDelta a (rv_diff a b dt) dt = b.
Proof.
  intros. destruct a as [M w], b as [M' w']. unfold rv_addDelta, rv_diff; cbn [vvp vvv rvR rvw] in *.
  rewrite r_addDelta_diff, v_addDelta_diff; auto.
Qed.
Lemma fv_diff_swapped : exists a b, rigid (fv_GetFrame a) /\ rigid (fv_GetFrame b) /\
  fvM a = fvM b /\ fv_addDelta a (fv_diff a b 1) 1 <> b /\
  fv_addDelta a (mkTV (tvrot (fv_diff a b 1)) (tvvel (fv_diff a b 1))) 1 = b.
Proof.
  exists fv_id, (mkFV rv_id (vv_const (mkV 1 0 0))).
  assert (S : same_or_far (r_mul (r_inv r_id) r_id)).
  { left. rewrite r_inv_id, r_mul_id_l. repeat split. }
  assert (I : is_rotation r_id) by apply is_rotation_id.
  assert (RT : rv_addDelta rv_id (rv_diff rv_id rv_id 1) 1 = rv_id) by (apply rv_addDelta_diff; auto; lra).
  assert (Z : r_diff r_id r_id 1 = v_zero).
  { unfold r_diff, r_GetRot. rewrite r_inv_id, r_mul_id_l.
    assert (NR : r_GetRotAngle r_id kdl_epsilon = (mkV 0 0 1, 0)).
    { unfold r_GetRotAngle, r_id; psimp.
      repeat match goal with |- context [Rlt_dec (Rabs ?x) ?y] =>
        destruct (Rlt_dec (Rabs x) y) as [_|N]; [|exfalso; apply N; unfold kdl_epsilon; apply Rabs_def1; lra] end.
      reflexivity. }
    rewrite NR. geo. }
  split; [exact I|]. split; [exact I|]. split; [reflexivity|]. split.
  - intros C. assert (E : vx (vvp (fvp (fv_addDelta fv_id (fv_diff fv_id (mkFV rv_id (vv_const (mkV 1 0 0))) 1) 1))) = 1) by (rewrite C; reflexivity).
    cbn [fv_addDelta fv_diff fvM fvp fv_id rv_id vv_const vv_addDelta rv_diff tvvel tvrot vvp vvv rvR] in E. rewrite Z in E.
    unfold v_addDelta, vv_zero in E. cbn [vvp] in E. geo_unfold. lra.
  - unfold fv_addDelta, fv_diff; cbn [tvrot tvvel fvM fvp fv_id]. rewrite RT.
    rewrite vv_addDelta_diff by lra. reflexivity.
Qed.

(** * Second order *)
Definition vec2 (f : R -> Vector) (t : R) (p v dv : Vector) : Prop :=
  carries2 (fun s => vx (f s)) t (mkD2 (vx p) (vx v) (vx dv)) /\
  carries2 (fun s => vy (f s)) t (mkD2 (vy p) (vy v) (vy dv)) /\
  carries2 (fun s => vz (f s)) t (mkD2 (vz p) (vz v) (vz dv)).
Definition mat2 (M : R -> Rotation) (t : R) (A D DD : Rotation) : Prop :=
  carries2 (fun s => r0 (M s)) t (mkD2 (r0 A) (r0 D) (r0 DD)) /\
  carries2 (fun s => r1 (M s)) t (mkD2 (r1 A) (r1 D) (r1 DD)) /\
  carries2 (fun s => r2 (M s)) t (mkD2 (r2 A) (r2 D) (r2 DD)) /\
  carries2 (fun s => r3 (M s)) t (mkD2 (r3 A) (r3 D) (r3 DD)) /\
  carries2 (fun s => r4 (M s)) t (mkD2 (r4 A) (r4 D) (r4 DD)) /\
  carries2 (fun s => r5 (M s)) t (mkD2 (r5 A) (r5 D) (r5 DD)) /\
  carries2 (fun s => r6 (M s)) t (mkD2 (r6 A) (r6 D) (r6 DD)) /\
  carries2 (fun s => r7 (M s)) t (mkD2 (r7 A) (r7 D) (r7 DD)) /\
  carries2 (fun s => r8 (M s)) t (mkD2 (r8 A) (r8 D) (r8 DD)).
Definition acc (w dw : Vector) (M : Rotation) : Rotation := mat_add (spin dw M) (spin w (spin w M)).

Ltac c2step :=
  match goal with
  | H : carries2 ?f ?t ?l |- carries2 ?g ?t _ => unify f g; exact H
  | |- carries2 (fun s => @?a s + @?b s) ?t _ => eapply (c2_add a b t)
  | |- carries2 (fun s => @?a s - @?b s) ?t _ => eapply (c2_sub a b t)
  | |- carries2 (fun s => - @?a s) ?t _ => eapply (c2_neg a t)
  | |- carries2 (fun s => @?a s * @?b s) ?t _ => eapply (c2_mul a b t)
  | |- carries2 (fun _ => ?c) ?t _ => apply (c2_const c t)
  end.
Ltac c2 := eapply c2_eq; [cbv beta; repeat (c2step; cbv beta) | apply d2_ext; cbn [d2_add d2_sub d2_neg d2_mul d2_const d2t d2d d2dd]; ring].

Lemma va_vec2 f t a : va_carries f t a = vec2 f t (vap a) (vav a) (vadv a). Proof. reflexivity. Qed.
Lemma ra_mat2 M t a : ra_carries M t a = mat2 M t (raR a) (spin (raw a) (raR a)) (acc (raw a) (radw a) (raR a)).
Proof. reflexivity. Qed.
Definition va_in f t a (H : va_carries f t a) : vec2 f t (vap a) (vav a) (vadv a) := H.
Lemma vec2_eq f t p v dv p' v' dv' : vec2 f t p v dv -> p = p' -> v = v' -> dv = dv' -> vec2 f t p' v' dv'.
Proof. intros H <- <- <-; exact H. Qed.
Lemma mat2_eq f t p v dv p' v' dv' : mat2 f t p v dv -> p = p' -> v = v' -> dv = dv' -> mat2 f t p' v' dv'.
Proof. intros H <- <- <-; exact H. Qed.
Lemma vec2_ext f g t p v dv : (forall s, f s = g s) -> vec2 f t p v dv -> vec2 g t p v dv.
Proof.
  intros E (X & Y & Z).
  split; [eapply c2_ext; [|exact X]|split; [eapply c2_ext; [|exact Y]|eapply c2_ext; [|exact Z]]]; intros s; cbv beta; rewrite E; reflexivity.
Qed.

Ltac vsplit := match goal with |- vec2 _ _ _ _ _ => split; [|split] end.
Ltac msplit := match goal with |- mat2 _ _ _ _ _ =>
  split; [|split; [|split; [|split; [|split; [|split; [|split; [|split]]]]]]] end.

Section Vec2.
  Variables (f g : R -> Vector) (t : R) (p v dv p' v' dv' : Vector).
  Hypotheses (H : vec2 f t p v dv) (H' : vec2 g t p' v' dv').
  Lemma vec2_add : vec2 (fun s => v_add (f s) (g s)) t (v_add p p') (v_add v v') (v_add dv dv').
  Proof. destruct H as (X & Y & Z), H' as (X' & Y' & Z'). vsplit; cbn [v_add vx vy vz]; c2. Qed.
  Lemma vec2_sub : vec2 (fun s => v_sub (f s) (g s)) t (v_sub p p') (v_sub v v') (v_sub dv dv').
  Proof. destruct H as (X & Y & Z), H' as (X' & Y' & Z'). vsplit; cbn [v_sub vx vy vz]; c2. Qed.
  Lemma vec2_neg : vec2 (fun s => v_neg (f s)) t (v_neg p) (v_neg v) (v_neg dv).
  Proof. destruct H as (X & Y & Z). vsplit; cbn [v_neg vx vy vz]; c2. Qed.
  Lemma vec2_cross : vec2 (fun s => v_cross (f s) (g s)) t (v_cross p p') (v_add (v_cross p v') (v_cross v p'))
     (v_add (v_add (v_cross dv p') (v_cross (v_scale_l 2 v) v')) (v_cross p dv')).
  Proof. destruct H as (X & Y & Z), H' as (X' & Y' & Z'). vsplit; cbn [v_cross v_add v_scale_l vx vy vz]; c2. Qed.
  Lemma vec2_dot : carries2 (fun s => v_dot (f s) (g s)) t
     (mkD2 (v_dot p p') (v_dot p v' + v_dot v p') (v_dot p dv' + 2 * v_dot v v' + v_dot dv p')).
  Proof. destruct H as (X & Y & Z), H' as (X' & Y' & Z'). unfold v_dot. c2. Qed.
  Lemma vec2_dmul h c : carries2 h t c -> vec2 (fun s => v_scale_l (h s) (f s)) t (v_scale_l (d2t c) p)
     (v_add (v_scale_l (d2t c) v) (v_scale_l (d2d c) p))
     (v_add (v_add (v_scale_l (d2t c) dv) (v_scale_l (2 * d2d c) v)) (v_scale_l (d2dd c) p)).
  Proof. intros Hc. destruct H as (X & Y & Z). vsplit; cbn [v_scale_l v_add vx vy vz]; c2. Qed.
End Vec2.
Lemma vec2_const p t : vec2 (fun _ => p) t p v_zero v_zero.
Proof. vsplit; apply c2_const. Qed.

Lemma mat2_app M f t A D DD p v dv : mat2 M t A D DD -> vec2 f t p v dv ->
  vec2 (fun s => r_app (M s) (f s)) t (r_app A p) (v_add (r_app D p) (r_app A v))
    (v_add (v_add (r_app DD p) (v_scale_l 2 (r_app D v))) (r_app A dv)).
Proof.
  intros (H0 & H1 & H2 & H3 & H4 & H5 & H6 & H7 & H8) (X & Y & Z).
  vsplit; cbn [r_app v_add v_scale_l vx vy vz]; c2.
Qed.
Lemma mat2_mul M N t A D DD A' D' DD' : mat2 M t A D DD -> mat2 N t A' D' DD' ->
  mat2 (fun s => r_mul (M s) (N s)) t (r_mul A A') (mat_add (r_mul D A') (r_mul A D'))
    (mat_add (mat_add (r_mul DD A') (mat_add (r_mul D D') (r_mul D D'))) (r_mul A DD')).
Proof.
  intros (H0 & H1 & H2 & H3 & H4 & H5 & H6 & H7 & H8) (G0 & G1 & G2 & G3 & G4 & G5 & G6 & G7 & G8).
  msplit; unfold r_mul, mat_add; psimp; c2.
Qed.
Lemma mat2_inv M t A D DD : mat2 M t A D DD -> mat2 (fun s => r_inv (M s)) t (r_inv A) (r_inv D) (r_inv DD).
Proof.
  intros (H0 & H1 & H2 & H3 & H4 & H5 & H6 & H7 & H8). msplit; unfold r_inv; psimp; assumption.
Qed.
Lemma mat2_const M t : mat2 (fun _ => M) t M m3_zero m3_zero.
Proof. msplit; unfold m3_zero; psimp; apply c2_const. Qed.

Section VA.
  Variables (f g : R -> Vector) (t : R) (a b : VectorAcc).
  Hypotheses (Ha : va_carries f t a) (Hb : va_carries g t b).
  Lemma vac_add : va_carries (fun s => v_add (f s) (g s)) t (va_add a b). Proof. apply (vec2_add _ _ _ _ _ _ _ _ _ Ha Hb). Qed.
  Lemma vac_sub : va_carries (fun s => v_sub (f s) (g s)) t (va_sub a b). Proof. apply (vec2_sub _ _ _ _ _ _ _ _ _ Ha Hb). Qed.
  Lemma vac_neg : va_carries (fun s => v_neg (f s)) t (va_neg a). Proof. apply (vec2_neg _ _ _ _ _ Ha). Qed.
  Lemma vac_cross : va_carries (fun s => v_cross (f s) (g s)) t (va_cross a b). Proof. apply (vec2_cross _ _ _ _ _ _ _ _ _ Ha Hb). Qed.
  Lemma vac_dot : carries2 (fun s => v_dot (f s) (g s)) t (va_dot a b). Proof. apply (vec2_dot _ _ _ _ _ _ _ _ _ Ha Hb). Qed.
  Lemma vac_dmul h c : carries2 h t c -> va_carries (fun s => v_scale_l (h s) (f s)) t (va_dmul c a).
  Proof. apply (vec2_dmul _ _ _ _ _ Ha). Qed.
  Lemma vac_ddiv h c : carries2 h t c -> h t <> 0 -> va_carries (fun s => v_div (f s) (h s)) t (va_ddiv a c).
  Proof.
    intros Hc Hn. eapply vec2_ext; [|apply (vac_dmul _ _ (c2_sdiv _ _ _ 1 Hc Hn))].
    intros s. cbv beta. unfold v_scale_l, v_div, Rdiv. apply v_ext; psimp; ring.
  Qed.
  Lemma vac_scale r : va_carries (fun s => v_scale (f s) r) t (va_scale a r).
  Proof. destruct Ha as (X & Y & Z). split; [|split]; cbn [v_scale va_scale vap vav vadv vx vy vz]; c2. Qed.
  Lemma vac_div r : va_carries (fun s => v_div (f s) r) t (va_div a r).
  Proof.
    eapply vec2_ext; [|apply (vac_scale (1 / r))]. intros s. cbv beta. unfold v_scale, v_div, Rdiv. apply v_ext; psimp; ring.
  Qed.
End VA.
Lemma vac_const p t : va_carries (fun _ => p) t (va_const p). Proof. apply vec2_const. Qed.
Section VAc.
  Variables (f : R -> Vector) (t : R) (a : VectorAcc).
  Hypothesis Ha : va_carries f t a.
  Ltac cst lem := rewrite va_vec2; eapply vec2_eq; [apply lem| | |]; cbn [va_const va_cadd va_csub va_addc va_subc va_crossc va_ccross vap vav vadv]; clear Ha; geo.
  Lemma vac_cadd p : va_carries (fun s => v_add p (f s)) t (va_cadd p a).
  Proof. cst (vec2_add _ _ _ _ _ _ _ _ _ (vec2_const p t) (va_in _ _ _ Ha)). Qed.
  Lemma vac_csub p : va_carries (fun s => v_sub p (f s)) t (va_csub p a).
  Proof. cst (vec2_sub _ _ _ _ _ _ _ _ _ (vec2_const p t) (va_in _ _ _ Ha)). Qed.
  Lemma vac_addc p : va_carries (fun s => v_add (f s) p) t (va_addc a p).
  Proof. cst (vec2_add _ _ _ _ _ _ _ _ _ (va_in _ _ _ Ha) (vec2_const p t)). Qed.
  Lemma vac_subc p : va_carries (fun s => v_sub (f s) p) t (va_subc a p).
  Proof. cst (vec2_sub _ _ _ _ _ _ _ _ _ (va_in _ _ _ Ha) (vec2_const p t)). Qed.
  Lemma vac_crossc p : va_carries (fun s => v_cross (f s) p) t (va_crossc a p).
  Proof. cst (vec2_cross _ _ _ _ _ _ _ _ _ (va_in _ _ _ Ha) (vec2_const p t)). Qed.
  Lemma vac_ccross p : va_carries (fun s => v_cross p (f s)) t (va_ccross p a).
  Proof. cst (vec2_cross _ _ _ _ _ _ _ _ _ (vec2_const p t) (va_in _ _ _ Ha)). Qed.
  Lemma vac_dotc p : carries2 (fun s => v_dot (f s) p) t (va_dotc a p).
  Proof. eapply c2_eq; [apply (vec2_dot _ _ _ _ _ _ _ _ _ (va_in _ _ _ Ha) (vec2_const p t))|]. apply d2_ext; cbn [va_dotc d2t d2d d2dd]; clear Ha; geo. Qed.
  Lemma vac_cdot p : carries2 (fun s => v_dot p (f s)) t (va_cdot p a).
  Proof. eapply c2_eq; [apply (vec2_dot _ _ _ _ _ _ _ _ _ (vec2_const p t) (va_in _ _ _ Ha))|]. apply d2_ext; cbn [va_cdot d2t d2d d2dd]; clear Ha; geo. Qed.
  Lemma vac_rot M : va_carries (fun s => r_app M (f s)) t (va_rot M a).
  Proof. rewrite va_vec2; eapply vec2_eq; [apply (mat2_app _ _ _ _ _ _ _ _ _ (mat2_const M t) (va_in _ _ _ Ha))| | |]; cbn [va_rot vap vav vadv]; clear Ha; unfold m3_zero; geo. Qed.
End VAc.
Lemma vac_norm eps f t a : va_carries f t a -> 0 < eps -> eps <= max_abs (f t) ->
  carries2 (fun s => euclid_norm (f s)) t (va_norm eps a).
Proof.
  intros Ha He Hm. pose proof (dot_pos eps _ He Hm) as P.
  pose proof (c2_sqrt _ t _ (vac_dot f f t a a Ha Ha) P) as H.
  eapply c2_eq; [eapply c2_ext; [|exact H]; intros s; symmetry; apply euclid_dot|].
  assert (E : vap a = f t). { destruct Ha as ((X & _) & (Y & _) & (Z & _)). apply v_ext; assumption. }
  pose proof (max_abs_le_norm (f t)) as L. rewrite <- E in *.
  unfold va_norm. rewrite (v_norm_eps_exact eps) by auto. unfold d2_sqrt, va_dot; cbn [d2t d2d d2dd]. rewrite <- euclid_dot.
  rewrite (v_dot_comm (vav a) (vap a)), (v_dot_comm (vadv a) (vap a)).
  apply d2_ext; cbn [d2t d2d d2dd]; auto; unfold sqr; field; lra.
Qed.

Lemma acc_app w dw M x : r_app (acc w dw M) x = v_add (v_cross dw (r_app M x)) (v_cross w (v_cross w (r_app M x))).
Proof. unfold acc, mat_add, spin. geo. Qed.
Lemma acc_inv_app w dw M x : r_app (r_inv (acc w dw M)) x = r_app (r_inv M) (v_sub (v_cross w (v_cross w x)) (v_cross dw x)).
Proof. unfold acc, mat_add, spin. geo. Qed.
Lemma acc_mul_l w dw A B : r_mul (acc w dw A) B = acc w dw (r_mul A B).
Proof. unfold acc, mat_add, spin. geo. Qed.
Lemma mat_add_mul_r A B C : r_mul A (mat_add B C) = mat_add (r_mul A B) (r_mul A C).
Proof. unfold mat_add. geo. Qed.
Lemma acc_mul_r w dw A B : is_rotation A -> r_mul A (acc w dw B) = acc (r_app A w) (r_app A dw) (r_mul A B).
Proof.
  intros H. unfold acc. rewrite mat_add_mul_r, !spin_mul_r by exact H. reflexivity.
Qed.
Lemma acc_inv w dw M : is_rotation M -> r_inv (acc w dw M) = acc (v_neg (r_invapp M w)) (v_neg (r_invapp M dw)) (r_inv M).
Proof.
  intros H. pose proof (r_inv_rotation _ H) as H'.
  transitivity (r_mul (r_inv M) (acc (v_neg w) (v_neg dw) r_id)); [unfold acc, mat_add, spin; geo|].
  rewrite acc_mul_r by exact H'. rewrite !r_invapp_inv. f_equal; geo.
Qed.
Lemma add_UnitX A B : r_UnitX (mat_add A B) = v_add (r_UnitX A) (r_UnitX B). Proof. reflexivity. Qed.
Lemma add_UnitY A B : r_UnitY (mat_add A B) = v_add (r_UnitY A) (r_UnitY B). Proof. reflexivity. Qed.
Lemma add_UnitZ A B : r_UnitZ (mat_add A B) = v_add (r_UnitZ A) (r_UnitZ B). Proof. reflexivity. Qed.
Lemma acc_compose wa wb da db C : 
  mat_add (mat_add (acc wa da C) (mat_add (spin wa (spin wb C)) (spin wa (spin wb C)))) (acc wb db C) =
  acc (v_add wa wb) (v_add (v_add da (v_cross wa wb)) db) C.
Proof.
  unfold acc. apply cols_ext;
    [rewrite !add_UnitX, !spin_UnitX; generalize (r_UnitX C)
    |rewrite !add_UnitY, !spin_UnitY; generalize (r_UnitY C)
    |rewrite !add_UnitZ, !spin_UnitZ; generalize (r_UnitZ C)]; clear C; geo.
Qed.

Lemma mat2_0 M t A D DD : mat2 M t A D DD -> M t = A.
Proof. intros ((H0&_) & (H1&_) & (H2&_) & (H3&_) & (H4&_) & (H5&_) & (H6&_) & (H7&_) & (H8&_)). cbn [d2t] in *. apply r_ext; symmetry; [exact H0|exact H1|exact H2|exact H3|exact H4|exact H5|exact H6|exact H7|exact H8]. Qed.

Lemma m3_mul_r A : r_mul A m3_zero = m3_zero. Proof. unfold m3_zero. geo. Qed.
Lemma m3_mul_l A : r_mul m3_zero A = m3_zero. Proof. unfold m3_zero. geo. Qed.
Lemma m3_add_r A : mat_add A m3_zero = A. Proof. unfold m3_zero, mat_add. geo. Qed.
Lemma m3_add_l A : mat_add m3_zero A = A. Proof. unfold m3_zero, mat_add. geo. Qed.
Section RA.
  Variables (A B : R -> Rotation) (t : R) (a b : RotationAcc).
  Hypotheses (Ha : ra_carries A t a) (Hb : ra_carries B t b).
  Lemma rac_mul : is_rotation (A t) -> ra_carries (fun s => r_mul (A s) (B s)) t (ra_mul a b).
  Proof.
    intros HR. rewrite (mat2_0 _ _ _ _ _ Ha) in HR.
    rewrite ra_mat2; eapply mat2_eq; [apply (mat2_mul _ _ _ _ _ _ _ _ _ Ha Hb)| | |]; cbn [ra_mul raR raw radw].
    - reflexivity.
    - rewrite spin_mul_l, spin_mul_r by exact HR. apply spin_add.
    - change (mat_add (spin (radw a) (raR a)) (spin (raw a) (spin (raw a) (raR a)))) with (acc (raw a) (radw a) (raR a)).
      change (mat_add (spin (radw b) (raR b)) (spin (raw b) (spin (raw b) (raR b)))) with (acc (raw b) (radw b) (raR b)).
      rewrite acc_mul_l, acc_mul_r, spin_mul_l, spin_mul_r by exact HR. apply acc_compose.
  Qed.
  Lemma rac_mul_r M : ra_carries (fun s => r_mul (A s) M) t (ra_mul_r a M).
  Proof.
    rewrite ra_mat2; eapply mat2_eq; [apply (mat2_mul _ _ _ _ _ _ _ _ _ Ha (mat2_const M t))| | |]; cbn [ra_mul_r raR raw radw].
    - reflexivity.
    - rewrite spin_mul_l. unfold mat_add, m3_zero. generalize (spin (raw a) (r_mul (raR a) M)) (raR a). clear; geo.
    - change (mat_add (spin (radw a) (raR a)) (spin (raw a) (spin (raw a) (raR a)))) with (acc (raw a) (radw a) (raR a)).
      rewrite acc_mul_l, !m3_mul_r, !m3_add_r. reflexivity.
  Qed.
  Lemma rac_mul_l M : is_rotation M -> ra_carries (fun s => r_mul M (A s)) t (ra_mul_l M a).
  Proof.
    intros HR. rewrite ra_mat2; eapply mat2_eq; [apply (mat2_mul _ _ _ _ _ _ _ _ _ (mat2_const M t) Ha)| | |]; cbn [ra_mul_l raR raw radw].
    - reflexivity.
    - rewrite spin_mul_r by exact HR. unfold mat_add, m3_zero. generalize (spin (r_app M (raw a)) (r_mul M (raR a))) (raR a). clear; geo.
    - change (mat_add (spin (radw a) (raR a)) (spin (raw a) (spin (raw a) (raR a)))) with (acc (raw a) (radw a) (raR a)).
      rewrite acc_mul_r by exact HR.
      transitivity (acc (r_app M (raw a)) (r_app M (radw a)) (r_mul M (raR a))); [|reflexivity].
      rewrite !m3_mul_l, !m3_add_l. reflexivity.
  Qed.
  Lemma rac_inv : is_rotation (A t) -> ra_carries (fun s => r_inv (A s)) t (ra_inv a).
  Proof.
    intros HR. rewrite (mat2_0 _ _ _ _ _ Ha) in HR.
    rewrite ra_mat2; eapply mat2_eq; [apply (mat2_inv _ _ _ _ _ Ha)| | |]; cbn [ra_inv raR raw radw].
    - reflexivity.
    - apply spin_inv, HR.
    - apply (acc_inv (raw a) (radw a) (raR a) HR).
  Qed.
  Lemma rac_app f x : va_carries f t x -> va_carries (fun s => r_app (A s) (f s)) t (ra_app a x).
  Proof.
    intros Hx. rewrite va_vec2; eapply vec2_eq; [apply (mat2_app _ _ _ _ _ _ _ _ _ Ha Hx)| | |]; cbn [ra_app vap vav vadv].
    - reflexivity.
    - rewrite spin_app. reflexivity.
    - change (mat_add (spin (radw a) (raR a)) (spin (raw a) (spin (raw a) (raR a)))) with (acc (raw a) (radw a) (raR a)).
      rewrite acc_app, spin_app. generalize (r_app (raR a) (vap x)) (r_app (raR a) (vav x)) (r_app (raR a) (vadv x)). clear; geo.
  Qed.
  Lemma rac_app_c p : va_carries (fun s => r_app (A s) p) t (ra_app_c a p).
  Proof.
    rewrite va_vec2; eapply vec2_eq; [apply (rac_app _ _ (vac_const p t))| | |]; cbn [ra_app ra_app_c va_const vap vav vadv]; [reflexivity| |];
    rewrite r_app_0; generalize (r_app (raR a) p); clear; geo.
  Qed.
  Lemma rac_invapp f x : is_rotation (A t) -> va_carries f t x -> va_carries (fun s => r_invapp (A s) (f s)) t (ra_invapp a x).
  Proof.
    intros HR Hx. rewrite (mat2_0 _ _ _ _ _ Ha) in HR.
    rewrite va_vec2. eapply vec2_ext; [intros s; symmetry; apply r_invapp_inv|].
    eapply vec2_eq; [apply (mat2_app _ _ _ _ _ _ _ _ _ (mat2_inv _ _ _ _ _ Ha) Hx)| | |]; cbn [ra_invapp vap vav vadv].
    - symmetry. apply r_invapp_inv.
    - rewrite spin_inv_app, r_invapp_inv. generalize (raR a) (raw a) (vap x) (vav x). clear; geo.
    - change (mat_add (spin (radw a) (raR a)) (spin (raw a) (spin (raw a) (raR a)))) with (acc (raw a) (radw a) (raR a)).
      rewrite acc_inv_app, spin_inv_app, r_app_invapp by exact HR. rewrite r_invapp_inv.
      generalize (raR a) (raw a) (radw a) (vap x) (vav x) (vadv x). clear; geo.
  Qed.
  Lemma rac_invapp_c p : is_rotation (A t) -> va_carries (fun s => r_invapp (A s) p) t (ra_invapp_c a p).
  Proof.
    intros HR. rewrite va_vec2; eapply vec2_eq; [apply (rac_invapp _ _ HR (vac_const p t))| | |]; cbn [ra_invapp ra_invapp_c va_const vap vav vadv]; [reflexivity| |].
    - f_equal. clear; geo.
    - replace (v_sub v_zero (v_cross (raw a) p)) with (v_cross (v_neg (raw a)) p) by (clear; geo). f_equal.
      generalize (r_app (raR a) (r_invapp (raR a) (v_cross (v_neg (raw a)) p))). clear; geo.
  Qed.
End RA.

Section FA.
  Variables (F G : R -> Frame) (t : R) (a b : FrameAcc).
  Hypotheses (Ha : fa_carries F t a) (Hb : fa_carries G t b).
  Lemma fac_mul : rigid (F t) -> fa_carries (fun s => f_mul (F s) (G s)) t (fa_mul a b).
  Proof.
    intros HR. destruct Ha as [H1 H2], Hb as [G1 G2]. split; cbn [fa_mul faM fap f_mul fM fp].
    - apply (rac_mul _ _ _ _ _ H1 G1 HR).
    - apply (vac_add _ _ _ _ _ (rac_app _ _ _ H1 _ _ G2) H2).
  Qed.
  Lemma fac_mul_r K : fa_carries (fun s => f_mul (F s) K) t (fa_mul_r a K).
  Proof.
    destruct Ha as [H1 H2]. split; cbn [fa_mul_r faM fap f_mul fM fp].
    - apply (rac_mul_r _ _ _ H1).
    - apply (vac_add _ _ _ _ _ (rac_app_c _ _ _ H1 _) H2).
  Qed.
  Lemma fac_mul_l K : rigid K -> fa_carries (fun s => f_mul K (F s)) t (fa_mul_l K a).
  Proof.
    intros HR. destruct Ha as [H1 H2]. split; cbn [fa_mul_l faM fap f_mul fM fp].
    - apply (rac_mul_l _ _ _ H1 _ HR).
    - apply (vac_addc _ _ _ (vac_rot _ _ _ H2 _)).
  Qed.
  Lemma fac_app f x : va_carries f t x -> va_carries (fun s => f_app (F s) (f s)) t (fa_app a x).
  Proof. intros Hx. destruct Ha as [H1 H2]. apply (vac_add _ _ _ _ _ (rac_app _ _ _ H1 _ _ Hx) H2). Qed.
  Lemma fac_app_c p : va_carries (fun s => f_app (F s) p) t (fa_app_c a p).
  Proof. destruct Ha as [H1 H2]. apply (vac_add _ _ _ _ _ (rac_app_c _ _ _ H1 p) H2). Qed.
  Lemma fac_invapp f x : rigid (F t) -> va_carries f t x -> va_carries (fun s => f_invapp (F s) (f s)) t (fa_invapp a x).
  Proof. intros HR Hx. destruct Ha as [H1 H2]. apply (rac_invapp _ _ _ H1 _ _ HR (vac_sub _ _ _ _ _ Hx H2)). Qed.
  Lemma fac_invapp_c p : rigid (F t) -> va_carries (fun s => f_invapp (F s) p) t (fa_invapp_c a p).
  Proof. intros HR. destruct Ha as [H1 H2]. apply (rac_invapp _ _ _ H1 _ _ HR (vac_csub _ _ _ H2 p)). Qed.
  Lemma fac_inv : rigid (F t) -> fa_carries (fun s => f_inv (F s)) t (fa_inv a).
  Proof.
    intros HR. destruct Ha as [H1 H2]. split; cbn [fa_inv faM fap f_inv fM fp].
    - apply (rac_inv _ _ _ H1 HR).
    - apply vac_neg, (rac_invapp _ _ _ H1 _ _ HR H2).
  Qed.
  Lemma fac_app_ta f x : ta_carries f t x -> ta_carries (fun s => f_app_t (F s) (f s)) t (fa_app_ta a x).
  Proof.
    intros [X1 X2]. destruct Ha as [H1 H2]. split; cbn [fa_app_ta tavel tarot f_app_t tvel trot].
    - apply vac_add; [apply (rac_app _ _ _ H1 _ _ X1)|apply (vac_cross _ _ _ _ _ H2 (rac_app _ _ _ H1 _ _ X2))].
    - apply (rac_app _ _ _ H1 _ _ X2).
  Qed.
  Lemma fac_invapp_ta f x : rigid (F t) -> ta_carries f t x -> ta_carries (fun s => f_invapp_t (F s) (f s)) t (fa_invapp_ta a x).
  Proof.
    intros HR [X1 X2]. destruct Ha as [H1 H2]. split; cbn [fa_invapp_ta tavel tarot f_invapp_t tvel trot].
    - apply (rac_invapp _ _ _ H1 _ _ HR (vac_sub _ _ _ _ _ X1 (vac_cross _ _ _ _ _ H2 X2))).
    - apply (rac_invapp _ _ _ H1 _ _ HR X2).
  Qed.
End FA.

(** What FrameAcc's accessors mean: pose, velocity twist and the velocity and
    acceleration of the origin. *)
Lemma fac_velocity F t a : fa_carries F t a -> fa_GetFrame a = F t /\ frame_velocity F t (fa_GetTwist a).
Proof.
  intros [H1 H2]. assert (EM := mat2_0 _ _ _ _ _ H1).
  assert (Ep : fp (F t) = vap (fap a)) by (destruct H2 as ((X & _) & (Y & _) & (Z & _)); apply v_ext; symmetry; assumption).
  split.
  - unfold fa_GetFrame. rewrite <- EM, <- Ep. apply f_ext; reflexivity.
  - apply frame_velocity_entries. cbn [fa_GetTwist tvel trot]. split.
    + destruct H2 as (X & Y & Z). split; [|split]; [apply (c2_first _ _ _ X)|apply (c2_first _ _ _ Y)|apply (c2_first _ _ _ Z)].
    + rewrite EM. destruct H1 as (K0 & K1 & K2 & K3 & K4 & K5 & K6 & K7 & K8).
      split; [|split; [|split; [|split; [|split; [|split; [|split; [|split]]]]]]];
      [apply (c2_first _ _ _ K0)|apply (c2_first _ _ _ K1)|apply (c2_first _ _ _ K2)|apply (c2_first _ _ _ K3)
      |apply (c2_first _ _ _ K4)|apply (c2_first _ _ _ K5)|apply (c2_first _ _ _ K6)|apply (c2_first _ _ _ K7)|apply (c2_first _ _ _ K8)].
Qed.

Section TA.
  Variables (f g : R -> Twist) (t : R) (a b : TwistAcc).
  Hypotheses (Ha : ta_carries f t a) (Hb : ta_carries g t b).
  Lemma tac_add : ta_carries (fun s => t_add (f s) (g s)) t (ta_add a b).
  Proof. destruct Ha, Hb. split; apply vac_add; auto. Qed.
  Lemma tac_sub : ta_carries (fun s => t_sub (f s) (g s)) t (ta_sub a b).
  Proof. destruct Ha, Hb. split; apply vac_sub; auto. Qed.
  Lemma tac_neg : ta_carries (fun s => t_neg (f s)) t (ta_neg a).
  Proof. destruct Ha. split; apply vac_neg; auto. Qed.
  Lemma tac_scale r : ta_carries (fun s => t_scale (f s) r) t (ta_scale a r).
  Proof. destruct Ha. split; apply vac_scale; auto. Qed.
  Lemma tac_div r : ta_carries (fun s => t_div (f s) r) t (ta_div a r).
  Proof. destruct Ha. split; apply vac_div; auto. Qed.
  Lemma tac_dmul h c : carries2 h t c -> ta_carries (fun s => t_scale_l (h s) (f s)) t (ta_dmul c a).
  Proof. intros. destruct Ha. split; apply vac_dmul; auto. Qed.
  Lemma tac_ddiv h c : carries2 h t c -> h t <> 0 -> ta_carries (fun s => t_div (f s) (h s)) t (ta_ddiv a c).
  Proof. intros. destruct Ha. split; apply vac_ddiv; auto. Qed.
  Lemma tac_RefPoint h x : va_carries h t x -> ta_carries (fun s => t_RefPoint (f s) (h s)) t (ta_RefPoint a x).
  Proof. intros. destruct Ha as [A1 A2]. split; [apply (vac_add _ _ _ _ _ A1 (vac_cross _ _ _ _ _ A2 H))|auto]. Qed.
  Lemma tac_app M m : ra_carries M t m -> ta_carries (fun s => r_app_t (M s) (f s)) t (ra_app_ta m a).
  Proof. intros H. destruct Ha as [A1 A2]. split; [apply (rac_app _ _ _ H _ _ A1)|apply (rac_app _ _ _ H _ _ A2)]. Qed.
  Lemma tac_invapp M m : ra_carries M t m -> is_rotation (M t) -> ta_carries (fun s => r_invapp_t (M s) (f s)) t (ra_invapp_ta m a).
  Proof. intros H HR. destruct Ha as [A1 A2]. split; [apply (rac_invapp _ _ _ H _ _ HR A1)|apply (rac_invapp _ _ _ H _ _ HR A2)]. Qed.
End TA.
Lemma tac_app_t t M m (w : Twist) : ra_carries M t m -> is_rotation (M t) ->
  ta_carries (fun s => r_app_t (M s) w) t (ra_app_t m w) /\ ta_carries (fun s => r_invapp_t (M s) w) t (ra_invapp_t m w).
Proof.
  intros H HR. split; split; first [apply (rac_app_c _ _ _ H)|apply (rac_invapp_c _ _ _ H _ HR)].
Qed.

Lemma rv_RotY_value q : rvR (rv_RotY q) = r_RotX (d1t q) /\ rvw (rv_RotY q) = mkV 0 (d1g q) 0.
Proof. split; reflexivity. Qed.
Lemma vv_norm_zero eps a : 0 < eps -> euclid_norm (vvp a) < eps -> vv_norm eps a = mkD1 0 0.
Proof.
  intros P H. unfold vv_norm. destruct (Rlt_dec _ eps) as [L|N]; [reflexivity|]. exfalso. apply N.
  destruct (v_norm_eps_cases eps (vvp a) P) as [(_ & _ & _ & C)|C]; rewrite C; assumption.
Qed.
