(** Trajectories: moving through via points; counterexamples. *)
From Coq Require Import Reals List Lra Lia.
From Verif Require Import FramesModel FramesSpec FramesProofs Outcome KinSpec DerivProofs ProfModel ProfSpec ProfProofs2 PathModel PathSpec TrajSpec
  FrameOpsProofs RotationProofs PathProofs PathProofs2 PathProofs3 PathProofs4 PathProofs5 TrajProofs TrajProofs2.
Import ListNotations.
Local Open Scope R_scope.

Lemma dl_glue f g h x l : derivable_pt_lim g x l -> derivable_pt_lim h x l -> g x = h x ->
  (forall u, u < x -> f u = g u) -> (forall u, x <= u -> f u = h u) -> derivable_pt_lim f x l.
Proof.
  intros Dg Dh E Fg Fh eps He. destruct (Dg eps He) as (d1 & K1). destruct (Dh eps He) as (d2 & K2).
  assert (P : 0 < Rmin d1 d2) by (apply Rmin_glb_lt; apply cond_pos).
  exists (mkposreal _ P). intros e Ne Be. cbn in Be. pose proof (Rmin_l d1 d2). pose proof (Rmin_r d1 d2).
  rewrite (Fh x) by lra. destruct (Rlt_dec (x + e) x) as [L|L].
  - rewrite (Fg _ L), <- E. apply K1; [exact Ne|lra].
  - rewrite (Fh (x + e)) by lra. apply K2; [exact Ne|lra].
Qed.
Lemma dl_const_right g x l : derivable_pt_lim g x l -> (forall u, x <= u -> g u = g x) -> l = 0.
Proof.
  intros D C. destruct (Req_EM_T l 0) as [Z|N]; [exact Z|exfalso].
  assert (P : 0 < Rabs l) by (apply Rabs_pos_lt; exact N).
  destruct (D (Rabs l) P) as (d & K). pose proof (cond_pos d).
  specialize (K (d / 2) ltac:(lra) ltac:(rewrite Rabs_pos_eq; lra)).
  rewrite (C (x + d / 2)) in K by lra. replace ((g x - g x) / (d / 2) - l) with (- l) in K by (field; lra). rewrite Rabs_Ropp in K. lra.
Qed.
Lemma dl_const_left g x l : derivable_pt_lim g x l -> (forall u, u <= x -> g u = g x) -> l = 0.
Proof.
  intros D C. destruct (Req_EM_T l 0) as [Z|N]; [exact Z|exfalso].
  assert (P : 0 < Rabs l) by (apply Rabs_pos_lt; exact N).
  destruct (D (Rabs l) P) as (d & K). pose proof (cond_pos d).
  specialize (K (- (d / 2)) ltac:(lra) ltac:(rewrite Rabs_Ropp, Rabs_pos_eq; lra)).
  rewrite (C (x + - (d / 2))) in K by lra. replace ((g x - g x) / - (d / 2) - l) with (- l) in K by (field; lra). rewrite Rabs_Ropp in K. lra.
Qed.

Lemma v_glue f g h x l : v_derive g x l -> v_derive h x l -> g x = h x ->
  (forall u, u < x -> f u = g u) -> (forall u, x <= u -> f u = h u) -> v_derive f x l.
Proof.
  intros (A & B & C) (A' & B' & C') E Fg Fh. split; [|split];
  [apply (dl_glue _ (fun u => vx (g u)) (fun u => vx (h u)))|apply (dl_glue _ (fun u => vy (g u)) (fun u => vy (h u)))|apply (dl_glue _ (fun u => vz (g u)) (fun u => vz (h u)))];
  try assumption; try (rewrite E; reflexivity); intros u Hu; cbv beta; rewrite ?(Fg u Hu), ?(Fh u Hu); reflexivity.
Qed.
Lemma v_const_right g x l : v_derive g x l -> (forall u, x <= u -> g u = g x) -> l = v_zero.
Proof.
  intros (A & B & C) K. apply v_ext; cbn; eapply dl_const_right; eauto; intros u Hu; cbv beta; rewrite (K u Hu); reflexivity.
Qed.
Lemma v_const_left g x l : v_derive g x l -> (forall u, u <= x -> g u = g x) -> l = v_zero.
Proof.
  intros (A & B & C) K. apply v_ext; cbn; eapply dl_const_left; eauto; intros u Hu; cbv beta; rewrite (K u Hu); reflexivity.
Qed.

(** a twist that moves no point of a frame *)
Definition still (F : Frame) (V : Twist) : Prop := forall x, v_add (tvel V) (v_cross (trot V) (r_app (fM F) x)) = v_zero.

Lemma still_right pos t V : frame_velocity pos t V -> (forall u, t <= u -> pos u = pos t) -> still (pos t) V.
Proof. intros H C x. apply (v_const_right _ _ _ (H x)). intros u Hu. cbv beta. rewrite (C u Hu). reflexivity. Qed.
Lemma still_left pos t V : frame_velocity pos t V -> (forall u, u <= t -> pos u = pos t) -> still (pos t) V.
Proof. intros H C x. apply (v_const_left _ _ _ (H x)). intros u Hu. cbv beta. rewrite (C u Hu). reflexivity. Qed.
Lemma still_derive pos t V d : 0 < d -> (forall u, Rabs (u - t) < d -> pos u = pos t) -> still (pos t) V -> frame_velocity pos t V.
Proof.
  intros Hd C S. apply (frame_velocity_loc _ (fun _ => pos t) t V d Hd); [exact C|].
  intros x. cbv beta. rewrite S. apply v_derive_const.
Qed.
Lemma still_glue f g h x V W : frame_velocity g x V -> still (g x) V -> frame_velocity h x W -> still (h x) W -> g x = h x ->
  (forall u, u < x -> f u = g u) -> (forall u, x <= u -> f u = h u) -> frame_velocity f x W.
Proof.
  intros Hg Sg Hh Sh E Fg Fh y. rewrite (Fh x) by lra. rewrite Sh.
  apply (v_glue _ (fun u => f_app (g u) y) (fun u => f_app (h u) y)).
  - specialize (Hg y). rewrite Sg in Hg. exact Hg.
  - specialize (Hh y). rewrite Sh in Hh. exact Hh.
  - rewrite E. reflexivity.
  - intros u Hu. cbv beta. rewrite (Fg u Hu). reflexivity.
  - intros u Hu. cbv beta. rewrite (Fh u Hu). reflexivity.
Qed.
Lemma fv_shift pos t V d : frame_velocity pos (t - d) V -> frame_velocity (fun u => pos (u - d)) t V.
Proof.
  intros H x. destruct (H x) as (A & B & C). cbv beta.
  assert (K : forall f l, derivable_pt_lim f (t - d) l -> derivable_pt_lim (fun u => f (u - d)) t l).
  { intros f l D eps He. destruct (D eps He) as (dd & Q). exists dd. intros e Ne Be.
    replace (t + e - d) with (t - d + e) by ring. apply Q; assumption. }
  split; [|split]; [apply (K (fun u => vx (f_app (pos u) x)))|apply (K (fun u => vy (f_app (pos u) x)))|apply (K (fun u => vz (f_app (pos u) x)))]; assumption.
Qed.

(** what plays at a time, seen from outside *)
Definition plays_as (ts : list Traj) (pos : R -> Frame) (vel : R -> Twist) : Prop :=
  forall u c w, playing ts u c w ->
    answers traj_Pos c w (pos u) /\ answers traj_Vel c w (vel u).

Lemma relay_motion ts : forall F G, ts <> [] -> relay ts F G ->
  exists D pos vel, lasts ts D /\ leads_to D F G pos /\ (forall u, frame_velocity pos u (vel u)) /\ plays_as ts pos vel.
Proof.
  induction ts as [|c r IH]; intros F G N HR; [congruence|]. clear N.
  destruct HR as (d & p1 & v1 & H & (_ & A1 & A2 & A4) & (L0 & L1 & L2) & HR).
  assert (S0 : forall u, u <= 0 -> still (p1 u) (v1 0)).
  { intros u Hu. rewrite (L1 u Hu), <- (L1 0) by lra. apply still_left; [apply A4|]. intros w Hw. rewrite (L1 w Hw), (L1 0) by lra. reflexivity. }
  assert (Sd : forall u, d <= u -> still (p1 u) (v1 d)).
  { intros u Hu. rewrite (L2 u Hu), <- (L2 d) by lra. apply still_right; [apply A4|]. intros w Hw. rewrite (L2 w Hw), (L2 d) by lra. reflexivity. }
  assert (B0 : forall u, u < 0 -> frame_velocity p1 u (v1 0)).
  { intros u Hu. apply (still_derive p1 u (v1 0) (- u)); [lra| |apply S0; lra].
    intros w Hw. pose proof (Rle_abs (w - u)). rewrite (L1 w), (L1 u) by lra. reflexivity. }
  destruct r as [|c2 r].
  - cbn in HR. subst H. exists d, p1, (fun u => v1 (Rmax 0 (Rmin d u))).
    split; [exists d; split; [exact A1|cbn; ring]|]. split; [split; [exact L0|auto]|]. split.
    + intros u. destruct (Rlt_dec u 0) as [Q|Q].
      { rewrite Rmin_right, Rmax_left by lra. apply B0, Q. }
      destruct (Rle_dec u d) as [Q'|Q']; [rewrite Rmin_right, Rmax_right by lra; apply A4|].
      rewrite Rmin_left, Rmax_right by lra.
      apply (still_derive p1 u (v1 d) (u - d)); [lra| |apply Sd; lra].
      intros w Hw. pose proof (Rle_abs (- (w - u))) as Z. rewrite Rabs_Ropp in Z. rewrite (L2 w), (L2 u) by lra. reflexivity.
    + intros u c' w HP. cbn [playing] in HP. destruct HP as [(Q & -> & ->)|(Q & d' & Ed & HP)].
      { rewrite Rmin_right, Rmax_left by lra. rewrite (L1 u), <- (L1 0) by lra. apply A2. }
      rewrite A1 in Ed. injection Ed as <-. destruct HP as [(Q' & -> & ->)|(Q' & -> & ->)].
      { rewrite Rmin_right, Rmax_right by lra. apply A2. }
      rewrite Rmin_left, Rmax_right by lra. rewrite (L2 u Q'), <- (L2 d) by lra. apply A2.
  - destruct (IH H G ltac:(discriminate) HR) as (D & p2 & v2 & LD & (M0 & M1 & M2) & FV & PL). clear IH.
    set (pos := fun u => if Rlt_dec u d then p1 u else p2 (u - d)).
    set (vel := fun u => if Rlt_dec u d then v1 (Rmax 0 u) else v2 (u - d)).
    exists (d + D), pos, vel. split; [exists d; split; [exact A1|replace (d + D - d) with D by ring; exact LD]|]. split; [|split].
    + split; [lra|]. split; intros u Hu; unfold pos; destruct (Rlt_dec u d) as [Q|Q]; try lra.
      * apply L1, Hu.
      * assert (d = 0) by lra. subst d. replace (u - 0) with u by ring. rewrite (M1 u Hu). rewrite <- (L2 0), (L1 0) by lra. reflexivity.
      * apply M2. lra.
    + intros u. unfold vel. destruct (Rlt_dec u d) as [Q|Q].
      * apply (frame_velocity_loc _ p1 u _ (d - u)); [lra| |].
        { intros y Hy. pose proof (Rle_abs (y - u)). unfold pos. destruct (Rlt_dec y d); [reflexivity|lra]. }
        destruct (Rlt_dec u 0) as [Q'|Q']; [rewrite Rmax_left by lra; apply B0, Q'|rewrite Rmax_right by lra; apply A4].
      * destruct (Req_EM_T u d) as [->|Nu].
        { apply (still_glue pos p1 (fun w => p2 (w - d)) d (v1 d)).
          - apply A4.
          - apply Sd; lra.
          - apply fv_shift, FV.
          - cbv beta. apply still_left; [apply FV|]. intros w Hw. replace (d - d) with 0 in * by ring. rewrite (M1 w Hw), (M1 0) by lra. reflexivity.
          - replace (d - d) with 0 by ring. rewrite (L2 d), (M1 0) by lra. reflexivity.
          - intros w Hw. unfold pos. destruct (Rlt_dec w d); [reflexivity|lra].
          - intros w Hw. unfold pos. destruct (Rlt_dec w d); [lra|reflexivity]. }
        apply (frame_velocity_loc _ (fun w => p2 (w - d)) u _ (u - d)); [lra| |apply fv_shift, FV].
        intros y Hy. pose proof (Rle_abs (- (y - u))) as Z. rewrite Rabs_Ropp in Z. unfold pos. destruct (Rlt_dec y d); [lra|reflexivity].
    + intros u c' w HP.
      change (playing (c :: c2 :: r) u c' w) with
        ((u < 0 /\ c' = c /\ w = 0) \/
         (0 <= u /\ exists d, traj_Duration c = Val d /\
           ((u < d /\ c' = c /\ w = u) \/ (d <= u /\ playing (c2 :: r) (u - d) c' w)))) in HP.
      unfold pos, vel. destruct HP as [(Q & -> & ->)|(Q & d' & Ed & HP)].
      * destruct (Rlt_dec u d) as [_|Q']; [|lra]. rewrite Rmax_left by lra. rewrite (L1 u), <- (L1 0) by lra. apply A2.
      * rewrite A1 in Ed. injection Ed as <-. destruct HP as [(Q' & -> & ->)|(Q' & HP)].
        { destruct (Rlt_dec u d) as [_|Z]; [|lra]. rewrite Rmax_right by lra. apply A2. }
        destruct (Rlt_dec u d) as [Z|_]; [lra|]. exact (PL _ _ _ HP).
Qed.

Lemma composed_answers_all {A} (seg : Path -> Prof -> R -> result (A * Path)) stat t ts time c u a :
  composed t ts -> ts <> [] -> playing ts time c u -> answers (traj_eval seg stat) c u a -> answers (traj_eval seg stat) t time a.
Proof.
  intros H N HP HA t1 V. destruct (composed_shape _ _ H) as (vt & ds & -> & W & F).
  destruct t1 as [| |vu ud d']; cbn in V; try contradiction. fold variant_all in V. destruct V as (V & <- & <-).
  assert (V' : variant_all ts vu).
  { refine (variant_trans_all ts _ _ _ W V). clear. induction ts; constructor; [apply variant_trans|assumption]. }
  destruct (shape_plays seg stat vu ds ts time V' F N) as (c' & u' & c1 & HP' & Vc & K).
  destruct (playing_unique _ _ _ _ _ _ HP HP') as (<- & <-). destruct (HA _ Vc) as (c2 & Q). rewrite Q in K. exact K.
Qed.
Lemma composed_refl t ts : composed t ts -> variant t t.
Proof.
  intros H. destruct (composed_shape _ _ H) as (vt & ds & -> & W & F). apply (variant_refl_r (TComposite ts (starts 0 ds) (rsum ds))).
  cbn. fold variant_all. auto.
Qed.

(** A sequence of rest-to-rest motions that follow each other is one motion. *)
Lemma composed_motion t ts F G : composed t ts -> ts <> [] -> relay ts F G ->
  exists D pos vel, lasts ts D /\ animates t D pos vel /\ leads_to D F G pos.
Proof.
  intros H N HR. destruct (relay_motion ts F G N HR) as (D & pos & vel & LD & LT & FV & PL).
  destruct (composed_duration _ _ H) as (D' & ED & LD').
  assert (Q : forall ts D D', lasts ts D -> lasts ts D' -> D = D').
  { clear. induction ts as [|x r IH]; cbn; intros D D'; [congruence|]. intros (d & E & A) (d' & E' & B). rewrite E in E'. injection E' as <-.
    pose proof (IH _ _ A B). lra. }
  rewrite <- (Q _ _ _ LD LD') in ED.
  exists D, pos, vel. split; [exact LD|]. split; [|exact LT]. split; [exact (composed_refl _ _ H)|]. split; [exact ED|]. split; [|exact FV].
  intros u. destruct (playing_total t ts u H N) as (c & w & HP). destruct (PL _ _ _ HP) as (A & B).
  split; [exact (composed_answers_all seg_Pos _ t ts u c w _ H N HP A)|exact (composed_answers_all seg_Vel _ t ts u c w _ H N HP B)].
Qed.

(** A stationary trajectory is a motion too. *)
Lemma stationary_motion d F : 0 <= d -> animates (TStationary d F) d (fun _ => F) (fun _ => t_zero) /\ leads_to d F F (fun _ => F).
Proof.
  intros Hd. split; [|split; [exact Hd|auto]]. split; [cbn; auto|]. split; [reflexivity|]. split.
  - intros u. split; intros [| |] V; cbn in V; try contradiction; destruct V as (<- & <-); cbn; eauto.
  - intros u x. replace (v_add (tvel t_zero) (v_cross (trot t_zero) (r_app (fM F) x))) with v_zero by (generalize (r_app (fM F) x); clear; intros; geo).
    apply v_derive_const.
Qed.

Lemma legs_relay o eq mv ma Fs : 0 < eq -> 0 < mv -> 0 < ma -> forall F, stepwise resolved F Fs ->
  exists ts, straight_legs o eq mv ma F Fs = Some ts /\ relay ts F (last Fs F) /\ (Fs <> [] -> ts <> []) /\ Forall (fun c => variant c c /\ exists d, traj_Duration c = Val d) ts.
Proof.
  intros He Hv Ha. induction Fs as [|G r IH]; intros F HS.
  - exists []. repeat split; auto.
  - destruct HS as (HR & HS). destruct (IH G HS) as (ts & E & RL & _ & FA).
    destruct (line_trajectory o F G eq mv ma HR He Hv Ha) as (m & Em & (pos & vel & AN & LT & _) & _).
    cbn [straight_legs]. rewrite Em, E. eexists. split; [reflexivity|]. split; [|split; [discriminate|]].
    + cbn [relay]. eexists _, pos, vel, G. split; [exact AN|]. split; [exact LT|].
      replace (last (G :: r) F) with (last r G); [exact RL|]. clear. revert F G. induction r as [|H r IH]; intros F G; [reflexivity|].
      change (last (H :: r) G = last (H :: r) F). revert G F. induction r; intros; [reflexivity|]. cbn in *. destruct r; [reflexivity|apply IHr].
      intros F0 G0. apply IH with (F := F0).
    + constructor; [|exact FA]. split; [apply AN|]. eexists; apply AN.
Qed.
Lemma add_composed ts : forall t us, composed t us -> Forall (fun c => variant c c /\ exists d, traj_Duration c = Val d) ts ->
  exists t', add_trajs t ts = Val t' /\ composed t' (us ++ ts).
Proof.
  induction ts as [|c r IH]; intros t us H F; inversion F as [|? ? (Vc & d & Ed) F']; subst.
  - exists t. rewrite app_nil_r. auto.
  - destruct (composed_shape _ _ H) as (vt & ds & E & _). cbn [add_trajs].
    assert (EA : exists t', tc_Add t c = Val t') by (rewrite E; cbn; rewrite Ed; cbn; eauto). destruct EA as (t1 & EA). rewrite EA. cbn [rbind].
    destruct (IH t1 (us ++ [c]) (composed_add _ _ _ _ H Vc EA) F') as (t' & E' & C). exists t'. split; [exact E'|].
    rewrite <- app_assoc in C. exact C.
Qed.
(** Stopping at via points. *)
Lemma via_points o eq mv ma F Fs : 0 < eq -> 0 < mv -> 0 < ma -> stepwise resolved F Fs -> Fs <> [] ->
  exists ts t, straight_legs o eq mv ma F Fs = Some ts /\ add_trajs tc_make ts = Val t /\
    exists D pos vel, lasts ts D /\ animates t D pos vel /\ leads_to D F (last Fs F) pos.
Proof.
  intros He Hv Ha HS N. destruct (legs_relay o eq mv ma Fs He Hv Ha F HS) as (ts & E & RL & Nt & FA). specialize (Nt N).
  destruct (add_composed ts tc_make [] composed_make FA) as (t & Et & C). cbn in C.
  exists ts, t. split; [exact E|]. split; [exact Et|]. exact (composed_motion t ts _ _ C Nt RL).
Qed.

(** * Counterexamples *)
Lemma destroy_keeps_duration d1 d2 F :
  exists t1 t2, tc_Add tc_make (TStationary d1 F) = Val t1 /\ tc_Add (tc_Destroy t1) (TStationary d2 F) = Val t2 /\
    traj_Duration t2 = Val (d1 + d2).
Proof. eexists _, _. split; [reflexivity|]. split; [reflexivity|]. cbn. f_equal. ring. Qed.

Lemma empty_traj_undefined u : traj_Pos tc_make u = Undefd /\ traj_Vel tc_make u = Undefd /\ traj_Acc tc_make u = Undefd.
Proof. unfold traj_Pos, traj_Vel, traj_Acc. cbn. destruct (tc_lookup [] u). repeat split. Qed.
