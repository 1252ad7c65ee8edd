(** Composed paths: derivatives, repetition, copies. *)
From Coq Require Import Reals List ZArith Lia Lra Bool.
From Verif Require Import FramesModel FramesSpec FramesProofs Outcome KinSpec DerivProofs ProfModel ProfSpec ProfProofs PathModel PathSpec
  PathProofs PathProofs2 PathProofs3 PathProofs4 RotationProofs FrameOpsProofs.
Import ListNotations.
Local Open Scope R_scope.

Definition inside_on :=
  fix on_ (gv : list Path) (s : R) {struct gv} : Prop :=
    match gv with
    | [] => False
    | c :: r => (s < path_len c /\ inside c s) \/ (path_len c < s /\ on_ r (s - path_len c))
    end.
Lemma inside_comp gv dv len ca s : inside (PComposite gv dv len ca) s = inside_on gv s.
Proof. reflexivity. Qed.
Definition leaves_on (P : Leaf -> Prop) :=
  fix all (gv : list Path) : Prop := match gv with [] => True | c :: r => all_leaves P c /\ all r end.

Lemma inside_range p : inv p -> forall s, inside p s -> 0 < s < path_len p.
Proof.
  induction p as [l|gv dv len ca IH|g n IH|c r e n Fs Fv IH] using path_ind'; intros HI s H.
  - exact H.
  - destruct HI as (I1 & _ & -> & _). rewrite inside_comp in H. cbn [path_len]. change (inv_all gv) in I1. clear dv ca.
    revert s H. induction IH as [|c r Hc Hr IHr]; intros s H; [destruct H|]. destruct I1 as (I1 & I2). cbn [total_length].
    pose proof (inv_len _ I1). pose proof (total_nonneg _ I2).
    destruct H as [(A & B)|(A & B)]; [specialize (Hc I1 _ B); lra|specialize (IHr I2 _ B); lra].
  - destruct HI as (I1 & I2). destruct H as (k & K & H). specialize (IH I1 _ H). cbn [path_len].
    assert (0 <= IZR k) by (apply IZR_le; lia). assert (IZR k + 1 <= IZR n) by (rewrite <- plus_IZR; apply IZR_le; lia).
    split; nra.
  - exact (IH HI s H).
Qed.

Lemma inside_local (P : Leaf -> Prop) p : inv p -> all_leaves P p -> forall s0, inside p s0 ->
  exists l o d, 0 < d /\ P l /\
    forall (B : Type) (g : Leaf -> R -> B) s b, Rabs (s - s0) < d -> covers g p s b -> b = g l (s - o).
Proof.
  induction p as [l|gv dv len ca IH|g n IH|c r e n Fs Fv IH] using path_ind'; intros HI HL s0 H.
  - exists l, 0, 1. split; [lra|]. split; [exact HL|]. intros B g s b _ C. cbn in C. rewrite Rminus_0_r. exact C.
  - destruct HI as (I1 & _). rewrite inside_comp in H. change (leaves_on P gv) in HL. change (inv_all gv) in I1.
    assert (K : exists l o d, 0 < d /\ P l /\ forall (B : Type) (g : Leaf -> R -> B) s b, Rabs (s - s0) < d -> covers_on g b gv s -> b = g l (s - o)).
    { clear dv len ca. revert s0 H. induction IH as [|c r Hc Hr IHr]; intros s0 H; [destruct H|].
      destruct I1 as (I1 & I2). destruct HL as (L1 & L2). destruct H as [(A & H)|(A & H)].
      - destruct (Hc I1 L1 _ H) as (l & o & d & Pd & Pl & K). pose proof (inside_range _ I1 _ H) as Q.
        exists l, o, (Rmin d (path_len c - s0)). split; [apply Rmin_glb_lt; lra|]. split; [exact Pl|].
        intros B g s b D C. pose proof (Rmin_l d (path_len c - s0)). pose proof (Rmin_r d (path_len c - s0)).
        pose proof (Rle_abs (s - s0)).
        destruct C as [(_ & C)|(C & _)]; [|exfalso; lra]. apply (K B g s b); [lra|exact C].
      - destruct (IHr I2 L2 _ H) as (l & o & d & Pd & Pl & K).
        exists l, (o + path_len c), (Rmin d (s0 - path_len c)). split; [apply Rmin_glb_lt; lra|]. split; [exact Pl|].
        intros B g s b D C. pose proof (Rmin_l d (s0 - path_len c)). pose proof (Rmin_r d (s0 - path_len c)).
        destruct C as [(C & _)|(_ & C)].
        + exfalso. rewrite <- Rabs_Ropp in D. pose proof (Rle_abs (- (s - s0))). lra.
        + replace (s - (o + path_len c)) with (s - path_len c - o) by ring. apply (K B g (s - path_len c) b); [|exact C].
          replace (s - path_len c - (s0 - path_len c)) with (s - s0) by ring. lra. }
    destruct K as (l & o & d & Pd & Pl & K). exists l, o, d. split; [exact Pd|]. split; [exact Pl|].
    intros B g s b D C. rewrite covers_comp in C. exact (K B g s b D C).
  - destruct HI as (I1 & _). destruct H as (k & _ & H).
    destruct (IH I1 HL _ H) as (l & o & d & Pd & Pl & K). pose proof (inside_range _ I1 _ H) as Q.
    set (y := path_len g) in *. set (u0 := s0 - IZR k * y) in *.
    exists l, (o + IZR k * y), (Rmin d (Rmin u0 (y - u0))). split; [repeat apply Rmin_glb_lt; lra|]. split; [exact Pl|].
    intros B h s b D (j & J & C).
    pose proof (Rmin_l d (Rmin u0 (y - u0))). pose proof (Rmin_r d (Rmin u0 (y - u0))).
    pose proof (Rmin_l u0 (y - u0)). pose proof (Rmin_r u0 (y - u0)).
    pose proof (Rle_abs (s - s0)). pose proof (Rle_abs (- (s - s0))) as D2. rewrite Rabs_Ropp in D2.
    fold y in J, C.
    assert (j = k) as -> by (apply (same_turn j k s y); [lra|exact J|unfold u0 in *; lra]).
    replace (s - (o + IZR k * y)) with (s - IZR k * y - o) by ring. apply (K B h _ b); [|exact C].
    unfold u0. replace (s - IZR k * y - (s0 - IZR k * y)) with (s - s0) by ring. lra.
  - exact (IH HI HL s0 H).
Qed.

Lemma dl_near f t l d : 0 < d -> derivable_pt_lim f t l -> exists e, 0 < e /\ forall u, Rabs (u - t) < e -> Rabs (f u - f t) < d.
Proof.
  intros Hd H. assert (C : continuity_pt f t) by (apply derivable_continuous_pt; exists l; exact H).
  destruct (C d Hd) as (e & He & K). exists e. split; [exact He|]. intros u Hu.
  destruct (Req_dec u t) as [->|N]; [replace (f t - f t) with 0 by ring; rewrite Rabs_R0; exact Hd|].
  apply (K u). split; [split; [exact I|intros Q; apply N; symmetry; exact Q]|exact Hu].
Qed.

Lemma dl_loc f g x l d : 0 < d -> (forall y, Rabs (y - x) < d -> f y = g y) -> derivable_pt_lim g x l -> derivable_pt_lim f x l.
Proof.
  intros Hd E H eps He. destruct (H eps He) as (d' & K).
  assert (P : 0 < Rmin d d') by (apply Rmin_glb_lt; [exact Hd|apply cond_pos]).
  exists (mkposreal _ P). intros h Nh Bh. cbn in Bh.
  pose proof (Rmin_l d d'). pose proof (Rmin_r d d').
  rewrite (E (x + h)), (E x).
  - apply K; [exact Nh|lra].
  - replace (x - x) with 0 by ring. rewrite Rabs_R0. exact Hd.
  - replace (x + h - x) with h by ring. lra.
Qed.
Lemma v_derive_loc f g x l d : 0 < d -> (forall y, Rabs (y - x) < d -> f y = g y) -> v_derive g x l -> v_derive f x l.
Proof.
  intros Hd E (A & B & C).
  split; [|split]; [apply (dl_loc _ (fun u => vx (g u)) x _ d)|apply (dl_loc _ (fun u => vy (g u)) x _ d)|apply (dl_loc _ (fun u => vz (g u)) x _ d)];
    try exact Hd; try assumption; intros y Hy; cbv beta; rewrite (E y Hy); reflexivity.
Qed.
Lemma frame_velocity_loc F G t tw d : 0 < d -> (forall y, Rabs (y - t) < d -> F y = G y) -> frame_velocity G t tw -> frame_velocity F t tw.
Proof.
  intros Hd E H x. assert (Et : F t = G t) by (apply E; replace (t - t) with 0 by ring; rewrite Rabs_R0; exact Hd).
  rewrite Et. apply (v_derive_loc _ (fun s => f_app (G s) x) t _ d Hd); [|apply H].
  intros y Hy. rewrite (E y Hy). reflexivity.
Qed.
Lemma tw_derive_loc F G t tw d : 0 < d -> (forall y, Rabs (y - t) < d -> F y = G y) -> tw_derive G t tw -> tw_derive F t tw.
Proof.
  intros Hd E (A & B). split.
  - apply (v_derive_loc _ (fun s => tvel (G s)) t _ d Hd); [|exact A]. intros y Hy. rewrite (E y Hy). reflexivity.
  - apply (v_derive_loc _ (fun s => trot (G s)) t _ d Hd); [|exact B]. intros y Hy. rewrite (E y Hy). reflexivity.
Qed.

Lemma dl_shift f t l o : derivable_pt_lim f t l -> derivable_pt_lim (fun u => f u - o) t l.
Proof.
  intros H. eapply dl_eq; [exact (derivable_pt_lim_minus f (fct_cte o) t l 0 H (derivable_pt_lim_const o t))|]. ring.
Qed.

Lemma path_velocity p pos s t sd V : made p -> inhabited_path p -> all_leaves smooth_leaf p ->
  (forall u, 0 <= u <= path_len p -> observed path_Pos p u (pos u)) ->
  inside p (s t) -> derivable_pt_lim s t sd ->
  observed (fun q u => path_Vel q u sd) p (s t) V ->
  frame_velocity (fun u => pos (s u)) t V.
Proof.
  intros Mp N SM HP HI Hs HV. pose proof (made_inv _ Mp) as I. pose proof (inside_range p I _ HI) as Rg.
  destruct (inside_local smooth_leaf p I SM _ HI) as (l & o & d & Pd & Sl & K).
  assert (EV : V = leaf_Vel l (s t - o) sd).
  { apply (K _ (fun l s => leaf_Vel l s sd) (s t) V).
    - replace (s t - s t) with 0 by ring. rewrite Rabs_R0. exact Pd.
    - apply observed_covers; [exact N|lra|exact HV]. }
  assert (Pm : 0 < Rmin d (Rmin (s t) (path_len p - s t))) by (repeat apply Rmin_glb_lt; lra).
  destruct (dl_near s t sd _ Pm Hs) as (e & He & Q).
  apply (frame_velocity_loc _ (fun u => leaf_Pos l (s u - o)) t V e He).
  - intros y Hy. specialize (Q y Hy).
    pose proof (Rmin_l d (Rmin (s t) (path_len p - s t))). pose proof (Rmin_r d (Rmin (s t) (path_len p - s t))).
    pose proof (Rmin_l (s t) (path_len p - s t)). pose proof (Rmin_r (s t) (path_len p - s t)).
    pose proof (Rle_abs (s y - s t)). pose proof (Rle_abs (- (s y - s t))) as D2. rewrite Rabs_Ropp in D2.
    apply (K _ leaf_Pos (s y)); [lra|]. apply observed_covers; [exact N|lra|apply HP; lra].
  - rewrite EV. apply (proj1 Sl (fun u => s u - o)). apply dl_shift; exact Hs.
Qed.

Lemma path_acceleration p vel s s' t sdd A : made p -> inhabited_path p -> all_leaves smooth_leaf p ->
  (forall u v, 0 <= u <= path_len p -> observed (fun q u => path_Vel q u v) p u (vel u v)) ->
  inside p (s t) -> derivable_pt_lim s t (s' t) -> derivable_pt_lim s' t sdd ->
  observed (fun q u => path_Acc q u (s' t) sdd) p (s t) A ->
  tw_derive (fun u => vel (s u) (s' u)) t A.
Proof.
  intros Mp N SM HP HI Hs Hs' HA. pose proof (made_inv _ Mp) as I. pose proof (inside_range p I _ HI) as Rg.
  destruct (inside_local smooth_leaf p I SM _ HI) as (l & o & d & Pd & Sl & K).
  assert (EA : A = leaf_Acc l (s t - o) (s' t) sdd).
  { apply (K _ (fun l s => leaf_Acc l s (s' t) sdd) (s t) A).
    - replace (s t - s t) with 0 by ring. rewrite Rabs_R0. exact Pd.
    - apply observed_covers; [exact N|lra|exact HA]. }
  assert (Pm : 0 < Rmin d (Rmin (s t) (path_len p - s t))) by (repeat apply Rmin_glb_lt; lra).
  destruct (dl_near s t (s' t) _ Pm Hs) as (e & He & Q).
  apply (tw_derive_loc _ (fun u => leaf_Vel l (s u - o) (s' u)) t A e He).
  - intros y Hy. specialize (Q y Hy).
    pose proof (Rmin_l d (Rmin (s t) (path_len p - s t))). pose proof (Rmin_r d (Rmin (s t) (path_len p - s t))).
    pose proof (Rmin_l (s t) (path_len p - s t)). pose proof (Rmin_r (s t) (path_len p - s t)).
    pose proof (Rle_abs (s y - s t)). pose proof (Rle_abs (- (s y - s t))) as D2. rewrite Rabs_Ropp in D2.
    apply (K _ (fun l w => leaf_Vel l w (s' y)) (s y)); [lra|]. apply (observed_covers (fun l w => leaf_Vel l w (s' y))); [exact N|lra|apply HP; lra].
  - rewrite EA. apply (proj2 Sl (fun u => s u - o) s'); [apply dl_shift; exact Hs|exact Hs'].
Qed.

(** Lines, circles and points are smooth. *)
Lemma smooth_point F : smooth_leaf (LPoint F).
Proof.
  split; intros; cbn.
  - intros x. cbn. replace (v_add v_zero (v_cross v_zero (r_app (fM F) x))) with v_zero by geo.
    repeat split; apply derivable_pt_lim_const.
  - repeat split; apply derivable_pt_lim_const.
Qed.

(** * Repetition *)
Lemma cyclic_periodic {A} (f : Leaf -> R -> A) g n s k : 0 <= s -> (0 <= k)%Z -> 0 < path_len g ->
  path_eval f (PCyclic g n) (s + IZR k * path_len g) = path_eval f (PCyclic g n) s.
Proof.
  intros Hs Hk Hy. cbn [path_eval].
  assert (E : fmod (s + IZR k * path_len g) (path_len g) = fmod s (path_len g)); [|rewrite E; reflexivity].
  assert (P : 0 <= s + IZR k * path_len g) by (apply IZR_le in Hk; cbn in Hk; nra).
  destruct (fmod_nonneg _ _ Hs Hy) as (j & -> & J). destruct (fmod_nonneg _ _ P Hy) as (i & -> & Ji).
  f_equal. assert (j = i - k)%Z as ->; [|rewrite minus_IZR; ring].
  apply (same_turn j (i - k) s (path_len g)); [exact Hy|exact J|]. rewrite minus_IZR. lra.
Qed.

(** * Lengths *)
Lemma comp_length gv dv len ca : made (PComposite gv dv len ca) -> len = total_length gv /\ 0 <= len.
Proof.
  intros H. apply made_inv in H. split; [apply H|]. apply (inv_len _ H).
Qed.
Lemma no_length_to_s gv dv len ca g n x :
  path_LengthToS (PComposite gv dv len ca) x = Throw NotApplicable /\ path_LengthToS (PCyclic g n) x = Throw NotApplicable.
Proof. split; reflexivity. Qed.
Lemma comp_outside {A} (f : Leaf -> R -> A) gv dv len ca s : s < - / 1000000000000 \/ len + / 1000000000000 < s ->
  path_eval f (PComposite gv dv len ca) s = Undefd.
Proof.
  intros H. rewrite eval_comp. unfold lookup. destruct (Rlt_dec s (- / 1000000000000)); [reflexivity|].
  destruct (Rlt_dec (len + / 1000000000000) s); [reflexivity|]. tauto.
Qed.
Lemma comp_empty {A} (f : Leaf -> R -> A) : path_eval f comp_make 0 = Undefd.
Proof.
  unfold comp_make. rewrite eval_comp. unfold lookup. destruct (Rlt_dec 0 (- / 1000000000000)); [reflexivity|].
  destruct (Rlt_dec (0 + / 1000000000000) 0); [reflexivity|]. cbn [ca_starts ca_ends]. destruct (Rle_dec 0 0); reflexivity.
Qed.

(** * Copies *)
Lemma comp_clone_same gv : Forall (fun p => inv p -> copyable p -> exists q, path_Clone p = Val q /\ same_path p q /\ made q) gv ->
  inv_all gv -> copyable_all gv -> forall done gw, same_all done gw -> made (PComposite gw (prefix 0 gw) (total_length gw) (mkCache 0 0 0)) ->
  exists gx, (fix all (gv : list Path) (acc : Path) : result Path :=
         match gv with
         | [] => Val acc
         | c :: r => let? c' := path_Clone c in all r (comp_Add acc c')
         end) gv (PComposite gw (prefix 0 gw) (total_length gw) (mkCache 0 0 0)) =
    Val (PComposite gx (prefix 0 gx) (total_length gx) (mkCache 0 0 0)) /\ same_all (done ++ gv) gx /\
    made (PComposite gx (prefix 0 gx) (total_length gx) (mkCache 0 0 0)).
Proof.
  induction 1 as [|c r Hc Hr IH]; intros I C done gw S MW.
  - exists gw. rewrite app_nil_r. split; [reflexivity|]. split; [exact S|exact MW].
  - destruct I as (I1 & I2). destruct C as (C1 & C2). destruct (Hc I1 C1) as (q & E & Sq & Mq). rewrite E. cbn [rbind comp_Add].
    replace (gw ++ [q]) with (gw ++ [q]) by reflexivity.
    assert (S' : same_all (done ++ [c]) (gw ++ [q])).
    { clear - S Sq. revert gw S. induction done as [|x d IH]; intros [|y w] S; cbn in *; try contradiction; auto.
      destruct S as (S1 & S2). split; auto. }
    pose proof (made_add _ _ _ _ _ q eq_refl MW Mq) as MA. cbn [comp_Add] in MA.
    specialize (IH I2 C2 (done ++ [c]) (gw ++ [q]) S').
    rewrite prefix_app, total_app in IH. cbn [prefix total_length] in IH. rewrite Rplus_0_l, Rplus_0_r in IH.
    destruct (IH MA) as (gx & Ex & Sx & Mx). exists gx.
    split; [exact Ex|]. rewrite <- app_assoc in Sx. split; [exact Sx|exact Mx].
Qed.
Lemma path_clone_same p : inv p -> copyable p -> exists q, path_Clone p = Val q /\ same_path p q /\ made q.
Proof.
  induction p as [l|gv dv len ca IH|g n IH|c r e n Fs Fv IH] using path_ind'; intros I C.
  - cbn in *. rewrite C. cbn. eexists. split; [reflexivity|]. split; [reflexivity|]. constructor; exact I.
  - destruct I as (I1 & -> & -> & _). cbn [path_Clone].
    destruct (comp_clone_same gv IH I1 C [] [] Logic.I made_comp) as (gx & E & S & M). eexists. split; [exact E|]. split; [|exact M].
    cbn in S. split; [exact S|]. split; [apply same_all_prefix; exact S|apply same_all_total; exact S].
  - destruct I as (I1 & I2). cbn [path_Clone]. destruct (IH I1 C) as (q & -> & S & M). cbn. eexists. split; [reflexivity|]. split; [split; [exact S|reflexivity]|]. constructor; assumption.
  - destruct C.
Qed.
Lemma path_clone p : made p -> copyable p -> exists q, path_Clone p = Val q /\ same_path p q /\ made q.
Proof. intros M. apply path_clone_same, made_inv, M. Qed.

Lemma line_copyable o F G eq : resolved F G -> 0 < eq -> copyable (PLeaf (LLine (line_make F G o eq))).
Proof. intros H He. cbn. rewrite line_clone by assumption. reflexivity. Qed.

(** * The velocity at a seam depends on what was asked before *)
Lemma v_norm_exact v : kdl_epsilon <= max_abs v -> v_norm v = euclid_norm v.
Proof. intros H. unfold v_norm. apply v_norm_eps_exact; [apply kdl_epsilon_pos|exact H]. Qed.
Lemma x_norm a : Rabs a = 1 -> v_normalize (mkV a 0 0) = (mkV a 0 0, 1).
Proof.
  intros H. assert (E : v_norm (mkV a 0 0) = 1).
  { rewrite v_norm_exact; [|apply max_abs_1; left; cbn; lra]. apply euclid_1. cbn.
    replace (a * (a * 1)) with (Rabs a * Rabs a); [rewrite H; ring|]. rewrite <- Rabs_mult. rewrite Rabs_right; nra. }
  unfold v_normalize, v_normalize_eps. rewrite E. destruct (Rlt_dec 1 kdl_epsilon) as [L|L]; [unfold kdl_epsilon in L; lra|].
  f_equal. unfold v_div; cbn. f_equal; field.
Qed.
(** along x, from [x] to [x + a] *)
Definition x_line (x a : R) : Line := line_make (mkF r_id (mkV x 0 0)) (mkF r_id (mkV (x + a) 0 0)) sa_make 1.
Lemma x_line_eq x a : Rabs a = 1 ->
  x_line x a = mkLine (mkSA r_id r_id (mkV 0 0 1) 0) (mkV x 0 0) (mkV (x + a) 0 0) (mkV a 0 0) 1 1 1 0.
Proof.
  intros H. unfold x_line, line_make, line_body. cbn [fM fp]. rewrite sa_same by apply is_rotation_id.
  replace (v_sub (mkV (x + a) 0 0) (mkV x 0 0)) with (mkV a 0 0) by geo. rewrite x_norm by exact H. cbn [sa_Angle sa_angle].
  destruct (Req_EM_T 0 0) as [_|Q]; [|congruence]. cbn [andb]. destruct (Req_EM_T 1 0) as [Q|_]; [lra|].
  f_equal. field.
Qed.
Definition there_and_back : Path :=
  comp_Add (comp_Add comp_make (PLeaf (LLine (x_line 0 1)))) (PLeaf (LLine (x_line 1 (-1)))).
Lemma tab_eq : there_and_back =
  PComposite [PLeaf (LLine (x_line 0 1)); PLeaf (LLine (x_line 1 (-1)))] [1; 2] 2 (mkCache 0 0 0).
Proof.
  unfold there_and_back, comp_make, comp_Add. cbn [path_len leaf_len app].
  rewrite !x_line_eq by (rewrite ?Rabs_R1; try reflexivity; rewrite Rabs_left; lra). cbn [ln_len].
  replace (0 + 1 + 1) with 2 by ring. replace (0 + 1) with 1 by ring. reflexivity.
Qed.
Lemma tab_made : made there_and_back.
Proof.
  assert (H : forall x a, Rabs a = 1 -> made (PLeaf (LLine (x_line x a)))).
  { intros x a H. constructor. rewrite x_line_eq by exact H. cbn. lra. }
  unfold there_and_back. eapply made_add; [reflexivity| |].
  - eapply made_add; [reflexivity|constructor|]. apply H. apply Rabs_R1.
  - apply H. rewrite Rabs_left; lra.
Qed.
Lemma tab_inhabited : inhabited_path there_and_back.
Proof. rewrite tab_eq. cbn. repeat split; discriminate. Qed.
Lemma tab_joined : joined there_and_back.
Proof.
  rewrite tab_eq. cbn [joined]. split; [exact I|]. split; [|split; [exact I|split; exact I]].
  intros F G. cbn [covers path_len leaf_len leaf_Pos]. intros -> ->.
  rewrite !x_line_eq by (rewrite ?Rabs_R1; try reflexivity; rewrite Rabs_left; lra).
  unfold line_Pos, sa_Pos. cbn. rewrite !Rmult_0_r, Rot2_0, r_mul_id_r. f_equal. geo.
Qed.
Lemma line_Vel_x x a s sd : Rabs a = 1 -> leaf_Vel (LLine (x_line x a)) s sd = mkT (mkV (a * sd) 0 0) v_zero.
Proof. intros H. rewrite x_line_eq by exact H. unfold leaf_Vel, line_Vel, sa_Vel. cbn. unfold t_zero. f_equal; geo. Qed.

Lemma seam_velocity : exists V W, V <> W /\ made there_and_back /\ inhabited_path there_and_back /\ joined there_and_back /\
  0 <= 1 <= path_len there_and_back /\
  observed (fun q u => path_Vel q u 1) there_and_back 1 V /\ observed (fun q u => path_Vel q u 1) there_and_back 1 W.
Proof.
  exists (mkT (mkV (1 * 1) 0 0) v_zero), (mkT (mkV (-1 * 1) 0 0) v_zero).
  split; [intros Q; injection Q; lra|]. split; [apply tab_made|]. split; [apply tab_inhabited|]. split; [apply tab_joined|].
  split; [rewrite tab_eq; cbn; lra|].
  assert (B1 : Rabs (-1) = 1) by (rewrite Rabs_left; lra).
  split.
  - exists there_and_back. eexists. split; [apply tab_made|]. split; [apply same_refl|].
    rewrite tab_eq. unfold path_Vel. rewrite eval_comp. unfold lookup.
    destruct (Rlt_dec 1 (- / 1000000000000)) as [Q|_]; [exfalso; lra|].
    destruct (Rlt_dec (2 + / 1000000000000) 1) as [Q|_]; [exfalso; lra|]. cbn [ca_starts ca_ends].
    destruct (Rle_dec 0 1) as [_|Q]; [|exfalso; lra]. destruct (Rle_dec 1 0) as [Q|_]; [exfalso; lra|]. cbn [andb lookup_scan].
    destruct (Rle_dec 1 1) as [_|Q]; [|exfalso; lra]. cbn [orb rbind ca_index eval_at path_eval].
    rewrite line_Vel_x by apply Rabs_R1. reflexivity.
  - exists (PComposite [PLeaf (LLine (x_line 0 1)); PLeaf (LLine (x_line 1 (-1)))] [1; 2] 2 (mkCache 1 2 1)). eexists.
    split.
    + refine (made_query leaf_Pos there_and_back 2 _ _ tab_made _).
      rewrite tab_eq, eval_comp. unfold lookup.
      destruct (Rlt_dec 2 (- / 1000000000000)) as [Q|_]; [exfalso; lra|].
      destruct (Rlt_dec (2 + / 1000000000000) 2) as [Q|_]; [exfalso; lra|]. cbn [ca_starts ca_ends].
      destruct (Rle_dec 0 2) as [_|Q]; [|exfalso; lra]. destruct (Rle_dec 2 0) as [Q|_]; [exfalso; lra|]. cbn [andb lookup_scan].
      destruct (Rle_dec 2 1) as [Q|_]; [exfalso; lra|]. destruct (Rle_dec 2 2) as [_|Q]; [|exfalso; lra].
      cbn [orb rbind ca_index eval_at path_eval]. reflexivity.
    + split; [rewrite tab_eq; cbn; repeat split|].
      unfold path_Vel. rewrite eval_comp. unfold lookup.
      destruct (Rlt_dec 1 (- / 1000000000000)) as [Q|_]; [exfalso; lra|].
      destruct (Rlt_dec (2 + / 1000000000000) 1) as [Q|_]; [exfalso; lra|]. cbn [ca_starts ca_ends].
      destruct (Rle_dec 1 1) as [_|Q]; [|exfalso; lra]. destruct (Rle_dec 1 2) as [_|Q]; [|exfalso; lra]. cbn [andb rbind ca_index eval_at path_eval].
      rewrite line_Vel_x by exact B1. reflexivity.
Qed.
