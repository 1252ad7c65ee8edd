(** Rounded composite paths: whole polylines, and counterexamples. *)
From Coq Require Import Reals List ZArith Lia Lra Bool Psatz.
From Verif Require Import FramesModel FramesSpec FramesProofs RotationProofs RotationProofs2 RotationProofs3 FrameOpsProofs
  Outcome InertiaModel DualModel KinModel KinSpec DerivProofs ProfModel ProfSpec ProfProofs PathModel PathSpec
  PathProofs PathProofs2 PathProofs3 PathProofs4 PathProofs5 PathProofs6.
Import ListNotations.
Local Open Scope R_scope.

(** * Sequences of elementary paths *)
Definition comp_of (ls : list Leaf) (p : Path) : Prop :=
  exists dv len ca, p = PComposite (map PLeaf ls) dv len ca.

Lemma leads_snoc A ls l B : leads A ls (leaf_start l) -> leaf_end l = B -> leads A (ls ++ [l]) B.
Proof.
  revert A. induction ls as [|x r IH]; intros A; cbn.
  - intros -> <-. split; reflexivity.
  - intros (H & H2) E. split; [exact H|]. apply IH; assumption.
Qed.

Lemma leads_joined A ls B dv len ca : leads A ls B -> joined (PComposite (map PLeaf ls) dv len ca).
Proof.
  rewrite joined_comp. revert A. induction ls as [|l r IH]; intros A; cbn; [auto|]. intros (H & H2).
  split; [exact I|]. split; [|apply (IH _ H2)].
  destruct r as [|m r]; cbn; [exact I|]. intros F G -> ->. destruct H2 as (H2 & _). symmetry. exact H2.
Qed.
Lemma leads_covers A ls B : ls <> [] -> inv_all (map PLeaf ls) -> leads A ls B ->
  covers_on leaf_Pos A (map PLeaf ls) 0 /\ covers_on leaf_Pos B (map PLeaf ls) (total_length (map PLeaf ls)).
Proof.
  intros N HI HL. split.
  - destruct ls as [|l r]; [congruence|]. destruct HI as (I1 & _). destruct HL as (HL & _). cbn in I1. left. cbn. split; [lra|]. symmetry; exact HL.
  - revert A HL. induction ls as [|l r IH]; intros A HL; [congruence|]. destruct HI as (I1 & I2). destruct HL as (HL & HR).
    cbn [map total_length covers_on]. cbn in I1. destruct r as [|m r].
    + left. cbn in HR |- *. split; [lra|]. rewrite Rplus_0_r. symmetry; exact HR.
    + right. pose proof (total_nonneg _ I2) as P. split; [lra|].
      replace (path_len (PLeaf l) + total_length (map PLeaf (m :: r)) - path_len (PLeaf l)) with (total_length (map PLeaf (m :: r))) by ring.
      apply (IH ltac:(discriminate) I2 _ HR).
Qed.

(** * Polylines with one orientation *)
Section Poly.
  Variables (M : Rotation) (r eq : R).
  Hypothesis HM : is_rotation M.
  Hypothesis Hr : 2 * kdl_epsilon <= r.
  Hypothesis He : 0 < eq.
  Let at_ (p : Vector) := mkF M p.

  Lemma at_resolved a b : resolved_displacement a b -> resolved (at_ a) (at_ b).
  Proof. intros H. split; [exact HM|]. split; [exact HM|]. split; [apply resolved_id; exact HM|exact H]. Qed.

  Lemma at_straight a b u A : on_straight (at_ a) (at_ b) u A -> fM A = M.
  Proof.
    intros (L & pos & (_ & E & n & al & Un & Bal & H) & ->). rewrite H. cbn [fM at_].
    assert (K : al = 0).
    { rewrite <- (Rmult_1_l L), H in E. apply (f_equal fM) in E. cbn in E. rewrite Rmult_1_l in E.
      assert (Q : r_Rot2 n al = r_id).
      { rewrite <- (r_mul_id_l (r_Rot2 n al)), <- (r_inv_l M HM), r_mul_assoc, E. reflexivity. }
      assert (T : r0 (r_Rot2 n al) + r4 (r_Rot2 n al) + r8 (r_Rot2 n al) = 3) by (rewrite Q; cbn; ring).
      unfold r_Rot2, unit_vector in *. cbn in T. destruct n as [n0 n1 n2]. cbn in *.
      assert (C : cos al = 1) by nra.
      rewrite <- (acos_cos al Bal), C. apply acos_1. }
    rewrite K, Rmult_0_r, Rot2_0, r_mul_id_r. reflexivity.
  Qed.

  Lemma line_leads a b : resolved_displacement a b ->
    let l := line_make (at_ a) (at_ b) sa_make eq in
    leaf_start (LLine l) = at_ a /\ leaf_end (LLine l) = at_ b /\ 0 <= leaf_len (LLine l) /\ smooth_leaf (LLine l).
  Proof.
    intros H l. destruct (line_correct sa_make _ _ eq (at_resolved a b H) He) as ((S0 & S1 & _) & S2 & _ & S4 & _).
    fold l in S0, S1, S2, S4. split; [exact S0|]. split; [exact S1|]. split; [|exact S2].
    cbn [leaf_len]. eapply Rle_trans; [|exact S4]. apply sqrt_pos.
  Qed.

  Lemma comp_snoc ls comp l : comp_of ls comp -> made comp -> 0 <= leaf_len l ->
    comp_of (ls ++ [l]) (comp_Add comp (PLeaf l)) /\ made (comp_Add comp (PLeaf l)).
  Proof.
    intros (dv & len & ca & ->) Hm Hl. split.
    - unfold comp_Add. rewrite <- (map_app PLeaf ls [l] : _ = map PLeaf ls ++ [PLeaf l]). eexists _, _, _. reflexivity.
    - eapply made_add; [reflexivity|exact Hm|constructor; exact Hl].
  Qed.

  Lemma poly_run rest : forall n ls comp cur via p A0, (2 <= n)%nat -> comp_of ls comp -> made comp -> Forall smooth_leaf ls ->
    leads A0 ls (at_ cur) -> clean_corners r cur via rest ->
    adds (PRounded comp r eq n (at_ cur) (at_ via)) (map at_ rest) = Some p ->
    exists ls' comp' n' Fs Fv, rounded_Finish p = PRounded comp' r eq n' Fs Fv /\ comp_of ls' comp' /\ made comp' /\ ls' <> [] /\
      Forall smooth_leaf ls' /\ leads A0 ls' (at_ (last rest via)).
  Proof.
    induction rest as [|q rest IH]; intros n ls comp cur via p A0 Hn HC Hm HS HL HK HA.
    - cbn in HA. injection HA as <-. cbn [rounded_Finish]. destruct n as [|n]; [lia|].
      cbn in HK. destruct (line_leads cur via HK) as (L0 & L1 & L2 & L3).
      destruct (comp_snoc ls comp _ HC Hm L2) as (C1 & C2).
      eexists _, _, _, _, _. split; [reflexivity|]. split; [exact C1|]. split; [exact C2|]. split; [intros Q; destruct ls; discriminate|].
      split; [apply Forall_app; split; [exact HS|constructor; [exact L3|constructor]]|].
      apply leads_snoc; [rewrite L0; exact HL|exact L1].
    - cbn [map adds] in HA. destruct (rounded_Add (PRounded comp r eq n (at_ cur) (at_ via)) (at_ q)) as [p1 [[]|e|]] eqn:EA; try discriminate.
      replace (last (q :: rest) via) with (last rest q) by (destruct rest as [|x rest]; [reflexivity|cbn; clear; revert x; induction rest; intros; cbn; auto]).
      destruct HK as (K1 & K2 & K3).
      destruct (rounded_corner comp r eq n (at_ cur) (at_ via) (at_ q) p1 Hn (at_resolved _ _ K1) (at_resolved _ _ K2) Hr He EA)
        as (al & Hal & _ & P1 & P2 & Q1 & Q2). cbn [fp at_] in *.
      destruct (K3 al Hal) as (K4 & K5).
      destruct (Rlt_dec al corner_eps) as [L|L].
      + rewrite (Q1 L) in HA. specialize (K4 L).
        destruct (line_leads cur via K1) as (L0 & L1 & L2 & L3).
        destruct (comp_snoc ls comp _ HC Hm L2) as (C1 & C2).
        refine (IH (S n) _ _ via q p A0 _ C1 C2 _ _ K4 HA); [lia|apply Forall_app; split; [exact HS|constructor; [exact L3|constructor]]|].
        apply leads_snoc; [rewrite L0; exact HL|exact L1].
      + assert (L' : corner_eps <= al) by lra. destruct (Q2 L') as (A & B & c & E & _ & _ & OA & PA & OB & PB & X).
        destruct (K5 L') as (K6 & K7 & K8).
        pose proof (at_straight _ _ _ _ OA) as MA. pose proof (at_straight _ _ _ _ OB) as MB.
        assert (EA' : A = at_ (towards via cur (r * tan (al / 2)))) by (apply f_ext; [exact MA|exact PA]).
        assert (EB' : B = at_ (towards via q (r * tan (al / 2)))) by (apply f_ext; [exact MB|exact PB]).
        assert (RR : resolved_rotation (fM A) (fM B)) by (rewrite MA, MB; apply resolved_id; exact HM).
        destruct (X K7 RR) as (X1 & X2 & X3 & _ & X5 & _). clear X.
        rewrite E in HA. rewrite EA', EB' in *.
        destruct (line_leads _ _ K6) as (L0 & L1 & L2 & L3).
        destruct (comp_snoc ls comp _ HC Hm L2) as (C1 & C2).
        assert (X3' : 0 <= leaf_len (LCircle c)) by (cbn; lra).
        destruct (comp_snoc _ _ (LCircle c) C1 C2 X3') as (C3 & C4).
        refine (IH (S n) _ _ _ q p A0 _ C3 C4 _ _ K8 HA); [lia|..].
        * apply Forall_app; split; [apply Forall_app; split; [exact HS|constructor; [exact L3|constructor]]|constructor; [exact X5|constructor]].
        * apply leads_snoc; [|exact X2]. apply leads_snoc; [rewrite L0; exact HL|]. rewrite L1. symmetry. exact X1.
  Qed.

  Lemma poly_path a b rest p0 p : rounded_make r eq = Val p0 ->
    adds p0 (map at_ (a :: b :: rest)) = Some p -> clean_corners r a b rest ->
    exists ls comp n Fs Fv, rounded_Finish p = PRounded comp r eq n Fs Fv /\ comp_of ls comp /\ made comp /\ ls <> [] /\
      Forall smooth_leaf ls /\ leads (at_ a) ls (at_ (last rest b)).
  Proof.
    unfold rounded_make. destruct (Rle_dec eq 0); [discriminate|]. intros E HA HK. injection E as <-.
    cbn [map adds rounded_Add] in HA. 
    refine (poly_run rest 2 [] comp_make a b p (at_ a) _ _ made_comp _ _ HK HA); [lia|eexists _, _, _; reflexivity|constructor|reflexivity].
  Qed.
End Poly.

Lemma leaves_smooth ls dv len ca : Forall smooth_leaf ls -> all_leaves smooth_leaf (PComposite (map PLeaf ls) dv len ca).
Proof. intros H. change (leaves_on smooth_leaf (map PLeaf ls)). induction H; cbn; auto. Qed.
Lemma leaves_inhabited ls : inhabited_all (map PLeaf ls).
Proof. induction ls; cbn; auto. Qed.

(** the finished object, seen through its interface *)
Lemma rounded_path M r eq a b rest p0 p : is_rotation M -> 2 * kdl_epsilon <= r -> 0 < eq ->
  rounded_make r eq = Val p0 -> adds p0 (map (mkF M) (a :: b :: rest)) = Some p -> clean_corners r a b rest ->
  let f := rounded_Finish p in
  made f /\ inhabited_path f /\ joined f /\ all_leaves smooth_leaf f /\
  (forall F, observed path_Pos f 0 F <-> F = mkF M a) /\
  (forall F, observed path_Pos f (path_len f) F <-> F = mkF M (last rest b)).
Proof.
  intros HM Hr He E HA HK f.
  destruct (poly_path M r eq HM Hr He a b rest p0 p E HA HK) as (ls & comp & n & Fs & Fv & Ef & (dv & len & ca & ->) & Hm & Nl & HS & HL).
  assert (Mf : made f) by (unfold f; rewrite Ef; constructor; exact Hm).
  assert (Nf : inhabited_path f).
  { unfold f; rewrite Ef. cbn. split; [intros Q; apply Nl; destruct ls; [reflexivity|discriminate]|]. apply leaves_inhabited. }
  assert (Jf : joined f) by (unfold f; rewrite Ef; exact (leads_joined _ _ _ dv len ca HL)).
  assert (Sf : all_leaves smooth_leaf f) by (unfold f; rewrite Ef; exact (leaves_smooth ls dv len ca HS)).
  split; [exact Mf|]. split; [exact Nf|]. split; [exact Jf|]. split; [exact Sf|].
  pose proof (made_inv _ Mf) as If. pose proof (inv_len _ If) as Pl.
  assert (IA : inv_all (map PLeaf ls)).
  { pose proof (made_inv _ Hm) as Q. apply Q. }
  assert (EL : path_len f = total_length (map PLeaf ls)).
  { pose proof (made_inv _ Hm) as Q. unfold f; rewrite Ef. cbn [path_len]. apply Q. }
  destruct (leads_covers _ _ _ Nl IA HL) as (C0 & C1).
  assert (K : forall s A, 0 <= s <= path_len f -> covers leaf_Pos f s A -> forall F, observed path_Pos f s F <-> F = A).
  { intros s A Hs HC F. split.
    - intros HO. apply (joined_unique f If Nf Jf s); [apply observed_covers; assumption|exact HC].
    - intros ->. destruct (path_answer leaf_Pos f s Mf Nf Hs) as (a' & p' & Ep & Cp & _).
      rewrite (joined_unique f If Nf Jf s A a' HC Cp). exists f, p'. split; [exact Mf|]. split; [apply same_refl|exact Ep]. }
  split; apply K; try lra.
  - unfold f; rewrite Ef. exact C0.
  - rewrite EL. unfold f; rewrite Ef. exact C1.
Qed.

(** * Counterexamples *)
(** A path finished after one point leads to the base frame. *)
Lemma rounded_one_point r eq F p0 p : rounded_make r eq = Val p0 -> adds p0 [F] = Some p ->
  rounded_Finish p = PRounded (comp_Add comp_make (PLeaf (LLine (line_make F f_id sa_make eq)))) r eq 1 F f_id.
Proof.
  unfold rounded_make. destruct (Rle_dec eq 0); [discriminate|]. intros E. injection E as <-. cbn [adds rounded_Add]. intros E. injection E as <-. reflexivity.
Qed.

(** A right-angled corner with legs of length [h], cut with radius [r]. *)
Section Ell.
  Variables h r : R.
  Hypothesis Hh : / 1000 <= h.
  Hypothesis Hr : 0 < r < h.
  Let F0 := mkF r_id v_zero.
  Let F1 := mkF r_id (mkV h 0 0).
  Let F2 := mkF r_id (mkV h h 0).

  Lemma axis_norm x y : euclid_norm (mkV x 0 0) = Rabs x /\ euclid_norm (mkV 0 y 0) = Rabs y.
  Proof.
    unfold euclid_norm; cbn [vx vy vz]. split.
    - replace (x ^ 2 + 0 ^ 2 + 0 ^ 2) with (Rsqr x) by (unfold Rsqr; ring). apply sqrt_Rsqr_abs.
    - replace (0 ^ 2 + y ^ 2 + 0 ^ 2) with (Rsqr y) by (unfold Rsqr; ring). apply sqrt_Rsqr_abs.
  Qed.
  Lemma ell_ab : v_sub (mkV h 0 0) v_zero = mkV h 0 0. Proof. apply v_ext; cbn; ring. Qed.
  Lemma ell_bc : v_sub (mkV h h 0) (mkV h 0 0) = mkV 0 h 0. Proof. apply v_ext; cbn; ring. Qed.
  Lemma ell_resolved : resolved_displacement v_zero (mkV h 0 0) /\ resolved_displacement (mkV h 0 0) (mkV h h 0).
  Proof.
    split; right; [rewrite ell_ab|rewrite ell_bc]; unfold max_abs, kdl_epsilon; cbn [vx vy vz].
    - eapply Rle_trans; [|apply Rmax_l]. rewrite Rabs_pos_eq; lra.
    - eapply Rle_trans; [|apply Rmax_r]. eapply Rle_trans; [|apply Rmax_l]. rewrite Rabs_pos_eq; lra.
  Qed.
  Lemma ell_angle : angle_between (mkV h 0 0) (mkV 0 h 0) (PI / 2).
  Proof. pose proof PI_RGT_0. split; [lra|]. rewrite cos_PI2. unfold v_dot; cbn. ring. Qed.
  Lemma ell_angle_unique al : angle_between (mkV h 0 0) (mkV 0 h 0) al -> al = PI / 2.
  Proof.
    intros H. destruct (axis_norm h h) as (N1 & N2). rewrite Rabs_pos_eq in N1, N2 by lra.
    apply (angle_unique (mkV h 0 0) (mkV 0 h 0)); [lra|lra|exact H|exact ell_angle].
  Qed.
  Lemma ell_d : r * tan (PI / 2 / 2) = r.
  Proof. replace (PI / 2 / 2) with (PI / 4) by field. rewrite tan_PI4. ring. Qed.
  Lemma ell_towards : towards (mkV h 0 0) v_zero r = mkV (h - r) 0 0 /\ towards (mkV h 0 0) (mkV h h 0) r = mkV h r 0.
  Proof.
    unfold towards. rewrite norm_swap, ell_ab, ell_bc. destruct (axis_norm h h) as (N1 & N2). rewrite Rabs_pos_eq in N1, N2 by lra. rewrite N1, N2.
    split; apply v_ext; cbn; field; lra.
  Qed.

  (** the call succeeds unless the arc cannot be built *)
  Lemma ell_add comp : exists A B ctr, A = mkF r_id (mkV (h - r) 0 0) /\ B = mkF r_id (mkV h r 0) /\
    ctr = v_sub (fp A) (v_scale (fst (v_normalize (mkV 0 (- (h * h * h)) 0))) r) /\
    rounded_Add (PRounded comp r 1 2 F0 F1) F2 =
      match circle_make A ctr (fp B) (fM B) (PI / 2) sa_make 1 with
      | Val c => (PRounded (comp_Add (comp_Add comp (PLeaf (LLine (line_make F0 A sa_make 1)))) (PLeaf (LCircle c))) r 1 3 B F2, Val tt)
      | Throw e => (PRounded (comp_Add comp (PLeaf (LLine (line_make F0 A sa_make 1)))) r 1 2 F0 F1, Throw e)
      | Undefd => (PRounded comp r 1 2 F0 F1, Undefd)
      end.
  Proof.
    pose proof PI_RGT_0 as Pp. pose proof PI2_3_2 as P3. pose proof (axis_norm h h) as (N1 & N2). rewrite Rabs_pos_eq in N1, N2 by lra.
    assert (V1 : v_norm (mkV h 0 0) = h).
    { rewrite v_norm_exact, N1; [reflexivity|]. unfold max_abs, kdl_epsilon; cbn [vx vy vz]. eapply Rle_trans; [|apply Rmax_l]. rewrite Rabs_pos_eq; lra. }
    assert (V2 : v_norm (mkV 0 h 0) = h).
    { rewrite v_norm_exact, N2; [reflexivity|]. unfold max_abs, kdl_epsilon; cbn [vx vy vz]. eapply Rle_trans; [|apply Rmax_r]. eapply Rle_trans; [|apply Rmax_l]. rewrite Rabs_pos_eq; lra. }
    assert (EA : acos (kdl_max (-1) (kdl_min (v_dot (mkV h 0 0) (mkV 0 h 0) / h / h) 1)) = PI / 2).
    { apply ell_angle_unique. pose proof (code_angle (mkV h 0 0) (mkV 0 h 0)) as Q. rewrite N1, N2 in Q. apply Q; lra. }
    assert (I0 : is_rotation r_id) by apply is_rotation_id.
    assert (R1 : resolved F0 F1) by (split; [exact I0|]; split; [exact I0|]; split; [apply resolved_id; exact I0|apply ell_resolved]).
    assert (R2 : resolved F1 F2) by (split; [exact I0|]; split; [exact I0|]; split; [apply resolved_id; exact I0|apply ell_resolved]).
    assert (EN1 : euclid_norm (v_sub (fp F1) (fp F0)) = h) by (cbn [fp F0 F1]; rewrite ell_ab; exact N1).
    assert (EN2 : euclid_norm (v_sub (fp F2) (fp F1)) = h) by (cbn [fp F1 F2]; rewrite ell_bc; exact N2).
    destruct (line_cut sa_make F0 F1 1 (h - r) R1 ltac:(lra) ltac:(lra)) as (s1 & E1 & S1).
    destruct (line_cut sa_make F1 F2 1 r R2 ltac:(lra) ltac:(lra)) as (s2 & E2 & S2).
    rewrite EN1 in S1. rewrite EN2 in S2.
    pose proof (line_make_facts sa_make _ _ 1 R1 ltac:(lra)) as LF1. pose proof (line_make_facts sa_make _ _ 1 R2 ltac:(lra)) as LF2.
    assert (QA : line_Pos (line_make F0 F1 sa_make 1) s1 = mkF r_id (mkV (h - r) 0 0)).
    { assert (OA : on_straight F0 F1 ((h - r) / h) (line_Pos (line_make F0 F1 sa_make 1) s1)).
      { eexists _, _. split; [exact (line_straight _ _ _ _ LF1)|]. rewrite S1. reflexivity. }
      apply f_ext; [exact (at_straight r_id I0 _ _ _ _ OA)|]. rewrite S1, (line_at _ _ _ _ _ LF1). cbn [fp F0 F1]. rewrite ell_ab. apply v_ext; cbn; field; lra. }
    assert (QB : line_Pos (line_make F1 F2 sa_make 1) s2 = mkF r_id (mkV h r 0)).
    { assert (OB : on_straight F1 F2 (r / h) (line_Pos (line_make F1 F2 sa_make 1) s2)).
      { eexists _, _. split; [exact (line_straight _ _ _ _ LF2)|]. rewrite S2. reflexivity. }
      apply f_ext; [exact (at_straight r_id I0 _ _ _ _ OB)|]. rewrite S2, (line_at _ _ _ _ _ LF2). cbn [fp F1 F2]. rewrite ell_bc. apply v_ext; cbn; field; lra. }
    eexists _, _, _. split; [reflexivity|]. split; [reflexivity|]. split; [reflexivity|].
    unfold rounded_Add. cbv zeta. change (fp F1) with (mkV h 0 0). change (fp F0) with v_zero. change (fp F2) with (mkV h h 0).
    rewrite ell_ab, ell_bc, V1, V2, EA.
    destruct (Rlt_dec h (/ 10000000)) as [Q|_]; [exfalso; lra|].
    destruct (Rlt_dec (PI - PI / 2) (/ 10000000)) as [Q|_]; [exfalso; lra|].
    destruct (Rlt_dec (PI / 2) (/ 10000000)) as [Q|_]; [exfalso; lra|].
    replace (r / tan ((PI - PI / 2) / 2)) with r by (rewrite code_d by lra; symmetry; apply ell_d).
    destruct (Rle_dec h r) as [Q|_]; [exfalso; lra|].
    change (mkV h h 0) with (fp F2). rewrite E1, E2, QA, QB. cbn [fp fM].
    replace (v_cross (mkV h 0 0) (v_cross (mkV h 0 0) (mkV 0 h 0))) with (mkV 0 (- (h * h * h)) 0) by (apply v_ext; cbn; ring).
    reflexivity.
  Qed.
End Ell.


Lemma adds3 r eq p0 F0 F1 F2 : rounded_make r eq = Val p0 ->
  adds p0 [F0; F1; F2] =
  match rounded_Add (PRounded comp_make r eq 2 F0 F1) F2 with (p', Val _) => Some p' | _ => None end.
Proof. unfold rounded_make. destruct (Rle_dec eq 0); [discriminate|]. intros E. injection E as <-. reflexivity. Qed.
Lemma adds2 r eq p0 F0 F1 : rounded_make r eq = Val p0 -> adds p0 [F0; F1] = Some (PRounded comp_make r eq 2 F0 F1).
Proof. unfold rounded_make. destruct (Rle_dec eq 0); [discriminate|]. intros E. injection E as <-. reflexivity. Qed.
Lemma rounded_made r : exists p0, rounded_make r 1 = Val p0.
Proof. unfold rounded_make. destruct (Rle_dec 1 0) as [Q|_]; [exfalso; lra|]. eexists; reflexivity. Qed.

(** Legs of 5 mm: the arc does not end where the next line starts. *)
Lemma small_cube : euclid_norm (mkV 0 (- (5 / 1000 * (5 / 1000) * (5 / 1000))) 0) < kdl_epsilon.
Proof. destruct (axis_norm 0 (- (5 / 1000 * (5 / 1000) * (5 / 1000)))) as (_ & ->). rewrite Rabs_left by lra. unfold kdl_epsilon. lra. Qed.

Lemma short_legs_wrong :
  let F0 := mkF r_id v_zero in let F1 := mkF r_id (mkV (5 / 1000) 0 0) in let F2 := mkF r_id (mkV (5 / 1000) (5 / 1000) 0) in
  exists p0 l c B, rounded_make (1 / 1000) 1 = Val p0 /\
  adds p0 [F0; F1; F2] =
    Some (PRounded (comp_Add (comp_Add comp_make (PLeaf l)) (PLeaf (LCircle c))) (1 / 1000) 1 3 B F2) /\
  fp (leaf_end (LCircle c)) = mkV (3 / 1000) (1 / 1000) 0 /\ fp B = mkV (5 / 1000) (1 / 1000) 0.
Proof.
  intros F0 F1 F2.
  destruct (ell_add (5 / 1000) (1 / 1000) ltac:(lra) ltac:(lra) comp_make) as (A & B & ctr & EA & EB & EC & E).
  fold F0 F1 F2 in E.
  assert (I0 : is_rotation r_id) by apply is_rotation_id.
  assert (EC' : ctr = mkV (3 / 1000) 0 0).
  { rewrite EC. unfold v_normalize. rewrite (v_normalize_small kdl_epsilon _ kdl_epsilon_pos small_cube).
    rewrite EA. apply v_ext; cbn; field. }
  clear EC. subst ctr.
  assert (HA : rigid A) by (rewrite EA; exact I0).
  assert (EM : fM A = r_id /\ fM B = r_id) by (rewrite EA, EB; split; reflexivity). destruct EM as (EMA & EMB).
  assert (Ea : v_sub (fp A) (mkV (3 / 1000) 0 0) = mkV (1 / 1000) 0 0) by (rewrite EA; apply v_ext; cbn; field).
  assert (Eb : v_sub (fp B) (mkV (3 / 1000) 0 0) = mkV (2 / 1000) (1 / 1000) 0) by (rewrite EB; apply v_ext; cbn; field).
  assert (NE : mkV (3 / 1000) 0 0 <> fp B) by (rewrite EB; cbn; intros Q; injection Q; lra).
  pose proof PI_RGT_0 as Pp.
  pose proof (circle_make_cases A (mkV (3 / 1000) 0 0) (fp B) (fM B) (PI / 2) sa_make 1 HA ltac:(rewrite EMB; exact I0)
    ltac:(rewrite EMA, EMB; apply resolved_id; exact I0)
    ltac:(right; rewrite Eb; unfold max_abs, kdl_epsilon; cbn [vx vy vz]; eapply Rle_trans; [|apply Rmax_l]; rewrite Rabs_pos_eq; lra)
    ltac:(lra) ltac:(lra)) as H.
  destruct (circle_make A (mkV (3 / 1000) 0 0) (fp B) (fM B) (PI / 2) sa_make 1) as [c|[]|]; try contradiction.
  - destruct (rounded_made (1 / 1000)) as (p0 & E0).
    exists p0, (LLine (line_make F0 A sa_make 1)), c, B. split; [exact E0|].
    split; [rewrite (adds3 _ _ _ F0 F1 F2 E0), E; reflexivity|].
    split; [|rewrite EB; reflexivity].
    pose proof (circle_circular _ _ _ _ _ _ _ H) as (_ & C). specialize (C 1). rewrite !Rmult_1_l in C.
    unfold leaf_end. cbn [leaf_Pos leaf_len]. rewrite C, Ea.
    pose proof (cf_plane _ _ _ _ _ _ _ H NE) as (Uz & k & Pk & Ek). rewrite Ea, Eb in Ek.
    assert (Ez : r_UnitZ (fM (ci_center c)) = mkV 0 0 1).
    { destruct (r_UnitZ (fM (ci_center c))) as [z0 z1 z2]. unfold unit_vector in Uz. cbn in Ek, Uz.
      injection Ek as K0 K1 K2.
      assert (z0 = 0) by nra. assert (z1 = 0) by nra. subst z0 z1.
      assert (0 < z2) by nra. assert (z2 = 1) by nra. subst. reflexivity. }
    rewrite Ez. unfold r_Rot2. rewrite cos_PI2, sin_PI2. apply v_ext; cbn; field.
  - exfalso. rewrite Ea in H. destruct (axis_norm (1 / 1000) 0) as (N & _). rewrite N, Rabs_pos_eq in H by lra. unfold kdl_epsilon in H. lra.
  - exfalso. destruct H as [H|H]; [exact (NE H)|]. rewrite Ea, Eb in H.
    replace (v_cross (mkV (1 / 1000) 0 0) (mkV (2 / 1000) (1 / 1000) 0)) with (mkV 0 0 (/ 1000000)) in H by (apply v_ext; cbn; field).
    destruct (axis_norm (1 / 1000) 0) as (N & _). rewrite Rabs_pos_eq in N by lra. rewrite N in H.
    assert (N1 : euclid_norm (mkV 0 0 (/ 1000000)) = / 1000000).
    { unfold euclid_norm; cbn [vx vy vz]. replace (0 ^ 2 + 0 ^ 2 + (/ 1000000) ^ 2) with (Rsqr (/ 1000000)) by (unfold Rsqr; ring). apply sqrt_Rsqr; lra. }
    assert (N2 : euclid_norm (mkV (2 / 1000) (1 / 1000) 0) <= 1).
    { unfold euclid_norm; cbn [vx vy vz]. apply Rle_trans with (sqrt 1); [apply sqrt_le_1_alt; lra|rewrite sqrt_1; lra]. }
    rewrite N1 in H. unfold kdl_epsilon in H. lra.
Qed.

Lemma neg_y_normal : fst (v_normalize (mkV 0 (- (1 * 1 * 1)) 0)) = mkV 0 (-1) 0.
Proof.
  destruct (v_normalize (mkV 0 (- (1 * 1 * 1)) 0)) as [x n] eqn:EN. cbn [fst].
  destruct (axis_norm 0 (- (1 * 1 * 1))) as (_ & N). rewrite Rabs_left in N by lra.
  assert (Big : ~ n < kdl_epsilon). { intros L. pose proof (normalize_report _ _ _ EN L) as Q. rewrite N in Q. unfold kdl_epsilon in Q. lra. }
  destruct (normalize_big _ _ _ EN Big) as (Q1 & _ & _ & Q2). rewrite N in Q1. rewrite Q1 in Q2.
  destruct x as [x y z]. cbn in Q2. injection Q2 as A0 A1 A2. apply v_ext; cbn; lra.
Qed.

(** A failing Add may already have appended the line: the object changes although
    the call throws. *)
Lemma add_not_atomic :
  let F0 := mkF r_id v_zero in let F1 := mkF r_id (mkV 1 0 0) in let F2 := mkF r_id (mkV 1 1 0) in
  exists p0 p p', rounded_make (/ 10000000) 1 = Val p0 /\ adds p0 [F0; F1] = Some p /\
  rounded_Add p F2 = (p', Throw CircleToSmall) /\ path_len p = 0 /\ / 2 <= path_len p'.
Proof.
  intros F0 F1 F2. destruct (rounded_made (/ 10000000)) as (p0 & E0).
  destruct (ell_add 1 (/ 10000000) ltac:(lra) ltac:(lra) comp_make) as (A & B & ctr & EA & EB & EC & E). fold F0 F1 F2 in E.
  assert (ER : circle_make A ctr (fp B) (fM B) (PI / 2) sa_make 1 = Throw CircleToSmall).
  { unfold circle_make. assert (NN : exists x, v_normalize (v_sub (fp A) ctr) = (x, 0)).
    { eexists. unfold v_normalize. apply v_normalize_small; [apply kdl_epsilon_pos|].
      rewrite neg_y_normal in EC. replace (v_sub (fp A) ctr) with (mkV 0 (- / 10000000) 0) by (rewrite EC; apply v_ext; cbn; ring).
      destruct (axis_norm 0 (- / 10000000)) as (_ & ->). rewrite Rabs_left by lra. unfold kdl_epsilon. lra. }
    destruct NN as (x & ->). destruct (Rlt_dec 0 kdl_epsilon) as [_|Q]; [reflexivity|]. exfalso. apply Q, kdl_epsilon_pos. }
  rewrite ER in E.
  eexists p0, _, _. split; [exact E0|]. split; [exact (adds2 _ _ _ _ _ E0)|]. split; [exact E|].
  split; [reflexivity|]. cbn [path_len comp_Add comp_make leaf_len].
  assert (RA : resolved F0 A).
  { assert (I0 : is_rotation r_id) by apply is_rotation_id. rewrite EA. split; [exact I0|]. split; [exact I0|]. split; [apply resolved_id; exact I0|].
    right. unfold max_abs, kdl_epsilon; cbn [vx vy vz fp F0 v_sub v_zero]. eapply Rle_trans; [|apply Rmax_l]. rewrite Rabs_pos_eq; lra. }
  pose proof (line_make_facts sa_make _ _ 1 RA ltac:(lra)) as LF.
  pose proof (lf_len _ _ _ _ LF) as L.
  replace (v_sub (fp A) (fp F0)) with (mkV (1 - / 10000000) 0 0) in L by (rewrite EA; apply v_ext; cbn; ring).
  destruct (axis_norm (1 - / 10000000) 0) as (N & _). rewrite N, Rabs_pos_eq in L by lra.
  rewrite L. pose proof (Rmax_l (1 - / 10000000) (1 * sa_angle (ln_orient (line_make F0 A sa_make 1)))). lra.
Qed.

(** An L-shaped path with legs of one metre and a 10 cm corner meets the hypotheses. *)
Lemma ell_clean : clean_corners (/ 10) v_zero (mkV 1 0 0) [mkV 1 1 0].
Proof.
  pose proof (ell_resolved 1 ltac:(lra)) as (R1 & R2).
  cbn [clean_corners]. split; [exact R1|]. split; [exact R2|]. intros al Ha.
  replace (v_sub (mkV 1 0 0) v_zero) with (mkV 1 0 0) in * by (apply v_ext; cbn; ring).
  replace (v_sub (mkV 1 1 0) (mkV 1 0 0)) with (mkV 0 1 0) in * by (apply v_ext; cbn; ring).
  apply (ell_angle_unique 1 (/ 10) ltac:(lra) ltac:(lra)) in Ha. subst al. pose proof PI2_3_2. unfold corner_eps. split; [lra|]. intros _.
  rewrite ell_d. destruct (ell_towards 1 (/ 10) ltac:(lra)) as (T1 & T2). rewrite T1, T2.
  split; [right|split; [|right]].
  - unfold max_abs, kdl_epsilon; cbn [vx vy vz v_sub v_zero]. eapply Rle_trans; [|apply Rmax_l]. rewrite Rabs_pos_eq; lra.
  - replace (v_cross (mkV 1 0 0) (v_cross (mkV 1 0 0) (mkV 0 1 0))) with (mkV 0 (-1) 0) by (apply v_ext; cbn; ring).
    apply max_abs_1. right; left. cbn. rewrite Rabs_left; lra.
  - unfold max_abs, kdl_epsilon; cbn [vx vy vz v_sub v_zero]. eapply Rle_trans; [|apply Rmax_r]. eapply Rle_trans; [|apply Rmax_l]. rewrite Rabs_pos_eq; lra.
Qed.

Lemma ell_added : exists p0 p, rounded_make (/ 10) 1 = Val p0 /\
  adds p0 (map (mkF r_id) [v_zero; mkV 1 0 0; mkV 1 1 0]) = Some p.
Proof.
  destruct (rounded_made (/ 10)) as (p0 & E0). exists p0.
  cbn [map]. rewrite (adds3 _ _ _ _ _ _ E0).
  destruct (ell_add 1 (/ 10) ltac:(lra) ltac:(lra) comp_make) as (A & B & ctr & EA & EB & EC & E).
  rewrite E. clear E.
  assert (I0 : is_rotation r_id) by apply is_rotation_id.
  rewrite neg_y_normal in EC.
  assert (Ec : ctr = mkV (9 / 10) (/ 10) 0) by (rewrite EC, EA; apply v_ext; cbn; field).
  assert (Ea : v_sub (fp A) ctr = mkV 0 (- / 10) 0) by (rewrite Ec, EA; apply v_ext; cbn; field).
  assert (Eb : v_sub (fp B) ctr = mkV (/ 10) 0 0) by (rewrite Ec, EB; apply v_ext; cbn; field).
  pose proof PI_RGT_0.
  pose proof (circle_make_cases A ctr (fp B) (fM B) (PI / 2) sa_make 1 ltac:(rewrite EA; exact I0) ltac:(rewrite EB; exact I0)
    ltac:(rewrite EA, EB; apply resolved_id; exact I0)
    ltac:(right; rewrite Eb; unfold max_abs, kdl_epsilon; cbn [vx vy vz]; eapply Rle_trans; [|apply Rmax_l]; rewrite Rabs_pos_eq; lra)
    ltac:(lra) ltac:(lra)) as H2.
  destruct (axis_norm (/ 10) (- / 10)) as (N1 & N2). rewrite Rabs_pos_eq in N1 by lra. rewrite Rabs_left in N2 by lra.
  destruct (circle_make A ctr (fp B) (fM B) (PI / 2) sa_make 1) as [c|[]|]; try contradiction.
  - eexists. split; [exact E0|reflexivity].
  - exfalso. rewrite Ea, N2 in H2. unfold kdl_epsilon in H2. lra.
  - exfalso. destruct H2 as [H2|H2].
    + rewrite Ec, EB in H2. cbn in H2. injection H2. lra.
    + rewrite Ea, Eb, N1, N2 in H2.
      replace (v_cross (mkV 0 (- / 10) 0) (mkV (/ 10) 0 0)) with (mkV 0 0 (/ 100)) in H2 by (apply v_ext; cbn; field).
      assert (N3 : euclid_norm (mkV 0 0 (/ 100)) = / 100).
      { unfold euclid_norm; cbn [vx vy vz]. replace (0 ^ 2 + 0 ^ 2 + (/ 100) ^ 2) with (Rsqr (/ 100)) by (unfold Rsqr; ring). apply sqrt_Rsqr; lra. }
      rewrite N3 in H2. unfold kdl_epsilon in H2. lra.
Qed.
