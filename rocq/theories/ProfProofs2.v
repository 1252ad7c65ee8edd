(** Trapezoidal profile: the property-level lemmas, time optimality, Clone;
    half-trapezoidal, rectangular, impulse and spline profiles. *)
From Coq Require Import Reals Lra Lia Psatz Bool.
From Verif Require Import FramesModel Outcome DerivProofs ProfModel ProfSpec ProfProofs.
Local Open Scope R_scope.

(** * Trapezoid *)
Lemma canon_good : forall s A t1 t2 p1 p2, canon_ok s A t1 t2 p1 p2 ->
  good_motion p1 p2 (t1 + t2) (A * t1) A (plan_pos (canon s A t1 t2 p1 p2))
    (plan_vel (canon s A t1 t2 p1 p2)) (plan_acc (canon s A t1 t2 p1 p2)).
Proof.
  intros s A t1 t2 p1 p2 OK. split; [apply canon_moves; exact OK|].
  split; [apply canon_velocity; exact OK|]. split; [apply canon_vmax; exact OK|].
  split; [apply canon_amax; exact OK|apply canon_acceleration; exact OK].
Qed.

Lemma still_moves : forall p T pos, 0 <= T -> (forall t, pos t = p) -> moves p p T pos.
Proof.
  intros p T pos HT H. split; [exact HT|]. split; [intros; apply H|]. split; [intros; apply H|].
  intros t. rewrite H. left. lra.
Qed.
Lemma still_velocity : forall p pos vel, (forall t, pos t = p) -> (forall t, vel t = 0) -> velocity pos vel.
Proof.
  intros p pos vel H H' t. rewrite H'. apply (dl_local _ (fun _ => p) _ _ 1); [lra|intros; apply H|apply const_derive].
Qed.

Lemma canon0_good : forall A p vmax, 0 < A -> 0 <= vmax ->
  good_motion p p 0 vmax A (plan_pos (canon 1 A 0 0 p p)) (plan_vel (canon 1 A 0 0 p p)) (plan_acc (canon 1 A 0 0 p p)).
Proof.
  intros A p vmax HA Hv. split; [apply still_moves; [lra|apply canon0_pos]|].
  split; [apply (still_velocity p); [apply canon0_pos|apply canon0_vel]|].
  split; [intros t; rewrite canon0_vel, Rabs_R0; exact Hv|].
  split; [apply canon0_acc; exact HA|apply canon0_acceleration].
Qed.

Lemma limited_le : forall a b f, a <= b -> limited a f -> limited b f.
Proof. intros a b f H L t. specialize (L t). lra. Qed.

Lemma good_le : forall p1 p2 T v a v' a' pos vel acc, v <= v' -> a <= a' ->
  good_motion p1 p2 T v a pos vel acc -> good_motion p1 p2 T v' a' pos vel acc.
Proof.
  intros p1 p2 T v a v' a' pos vel acc Hv Ha (M & V & L & L' & A).
  split; [exact M|]. split; [exact V|]. split; [exact (limited_le _ _ _ Hv L)|].
  split; [exact (limited_le _ _ _ Ha L')|exact A].
Qed.

Lemma dur_canon : forall v a s A t1 t2 p1 p2, trap_duration (mkTrap v a (canon s A t1 t2 p1 p2)) = t1 + t2.
Proof. reflexivity. Qed.
Lemma pos_canon : forall v a p t, trap_pos (mkTrap v a p) t = plan_pos p t.
Proof. reflexivity. Qed.

Lemma trap_profile : forall t0 p1 p2, 0 < tr_maxvel t0 -> 0 < tr_maxacc t0 ->
  exists t, trap_setProfile t0 p1 p2 = Ret t /\
    tr_maxvel t = tr_maxvel t0 /\ tr_maxacc t = tr_maxacc t0 /\
    good_motion p1 p2 (trap_duration t) (tr_maxvel t0) (tr_maxacc t0) (trap_pos t) (trap_vel t) (trap_acc t) /\
    (trap_duration t = 0 <-> p1 = p2).
Proof.
  intros t0 p1 p2 Hv Ha. destruct (Req_EM_T p1 p2) as [E|N].
  - subst p2. eexists. split; [apply trap_set_same; assumption|]. split; [reflexivity|]. split; [reflexivity|].
    split; [|cbv [trap_duration tr_plan pdur canon]; split; intros; lra].
    rewrite dur_canon. replace (0 + 0) with 0 by ring.
    apply (canon0_good (tr_maxacc t0) p1 (tr_maxvel t0)); lra.
  - destruct (trap_set t0 p1 p2 Hv Ha N) as (t1 & t2 & E & OK & B & _).
    eexists. split; [exact E|]. split; [reflexivity|]. split; [reflexivity|].
    pose proof (canon_good _ _ _ _ _ _ OK) as G. split.
    + apply (good_le _ _ _ (tr_maxacc t0 * t1) (tr_maxacc t0)); [exact B|lra|exact G].
    + pose proof (canon_dur _ _ _ _ _ _ OK). cbv [trap_duration tr_plan pdur canon]. split; intros; lra.
Qed.

(** a plan obtained by slowing down a minimal one *)
Lemma trap_scaled : forall t0 t p1 p2 f, 0 < tr_maxvel t0 -> 0 < tr_maxacc t0 ->
  trap_setProfile t0 p1 p2 = Ret t -> 0 < f ->
  let p := scale_plan (tr_plan t) f (trap_duration t / f) in
  pdur p = trap_duration t / f /\
  (forall time, plan_pos p time = trap_pos t (time * f)) /\
  good_motion p1 p2 (trap_duration t / f) (f * tr_maxvel t0) (f * f * tr_maxacc t0)
    (plan_pos p) (plan_vel p) (plan_acc p).
Proof.
  intros t0 t p1 p2 f Hv Ha E Hf. cbv zeta. split; [reflexivity|].
  destruct (Req_EM_T p1 p2) as [Q|N].
  - subst p2. rewrite trap_set_same in E by assumption. injection E as <-.
    rewrite dur_canon. cbn [tr_plan].
    split; [intros; rewrite pos_canon; apply (scale_pos 1 (tr_maxacc t0) 0 0 p1 p1); exact Hf|].
    rewrite (scale_canon 1 (tr_maxacc t0) 0 0 p1 p1 f Hf).
    replace (0 / f) with 0 by (field; lra). replace ((0 + 0) / f) with 0 by (field; lra).
    replace (f * f * tr_maxacc t0) with (tr_maxacc t0 * (f * f)) by ring.
    apply canon0_good; [apply Rmult_lt_0_compat; [lra|nra]|nra].
  - destruct (trap_set t0 p1 p2 Hv Ha N) as (t1 & t2 & E' & OK & B & _).
    rewrite E' in E. injection E as <-.
    rewrite dur_canon. cbn [tr_plan].
    split; [intros; rewrite pos_canon; apply (scale_pos (sign (p2 - p1)) (tr_maxacc t0) t1 t2 p1 p2); exact Hf|].
    rewrite (scale_canon _ (tr_maxacc t0) t1 t2 p1 p2 f Hf).
    pose proof (canon_good _ _ _ _ _ _ (scale_ok _ _ _ _ _ _ f Hf OK)) as G.
    replace ((t1 + t2) / f) with (t1 / f + t2 / f) by (field; lra).
    refine (good_le _ _ _ _ _ _ _ _ _ _ _ _ G); [|lra].
    replace (tr_maxacc t0 * (f * f) * (t1 / f)) with (f * (tr_maxacc t0 * t1)) by (field; lra).
    apply Rmult_le_compat_l; lra.
Qed.

Lemma trap_still_scaled : forall t0 p T, 0 < tr_maxvel t0 -> 0 < tr_maxacc t0 -> 0 < T ->
  let q := scale_plan (canon 1 (tr_maxacc t0) 0 0 p p) 0 T in
  (forall t, plan_pos q t = p) /\ (forall t, plan_vel q t = 0) /\ (forall t, plan_acc q t = 0).
Proof.
  intros t0 p T Hv Ha HT. cbv zeta.
  unfold scale_plan, canon, divN, plan_pos, plan_vel, plan_acc, ltN; simpl.
  destruct (Req_EM_T 0 0) as [_|Q]; [|exfalso; lra].
  repeat split; intros; rdec; try reflexivity; field.
Qed.

Lemma trap_profile_duration : forall t0 tmin p1 p2 T, 0 < tr_maxvel t0 -> 0 < tr_maxacc t0 ->
  trap_setProfile t0 p1 p2 = Ret tmin -> 0 < T ->
  (T < trap_duration tmin -> trap_setProfileDuration t0 p1 p2 T = Ret tmin) /\
  (trap_duration tmin <= T -> exists t, trap_setProfileDuration t0 p1 p2 T = Ret t /\
     trap_duration t = T /\
     (forall time, trap_pos t time = trap_pos tmin (time * (trap_duration tmin / T))) /\
     good_motion p1 p2 T (tr_maxvel t0) (tr_maxacc t0) (trap_pos t) (trap_vel t) (trap_acc t)).
Proof.
  intros t0 tmin p1 p2 T Hv Ha E HT. unfold trap_setProfileDuration. rewrite E. cbn [obind].
  destruct (Req_EM_T T 0) as [Q|_]; [exfalso; lra|].
  assert (L1 : 1 < trap_duration tmin / T <-> T < trap_duration tmin).
  { pose proof (Rdiv_lt_iff 1 (trap_duration tmin) T HT). rewrite Rmult_1_l in H. exact H. }
  unfold trap_duration in L1 at 1.
  destruct (Rlt_dec 1 (pdur (tr_plan tmin) / T)) as [K|K]; split; intros H.
  - reflexivity.
  - exfalso. apply L1 in K. lra.
  - exfalso. apply K. apply L1. exact H.
  - eexists. split; [reflexivity|]. split; [reflexivity|].
    destruct (trap_profile t0 p1 p2 Hv Ha) as (t & E' & Ev & Ea & G & Z). rewrite E in E'. injection E' as <-.
    destruct (Req_EM_T p1 p2) as [Q|N].
    + subst p2. rewrite trap_set_same in E by assumption. injection E as <-.
      cbv [trap_duration trap_pos trap_vel trap_acc tr_plan]. cbn [canon pdur].
      replace ((0 + 0) / T) with 0 by (field; lra).
      destruct (trap_still_scaled t0 p1 T Hv Ha HT) as (Sp & Sv & Sa).
      split; [intros; rewrite (Sp time); symmetry; apply (canon0_pos (tr_maxacc t0) p1)|].
      split; [apply still_moves; [lra|exact Sp]|].
      split; [apply (still_velocity p1); [exact Sp|exact Sv]|].
      split; [intros u; rewrite Sv, Rabs_R0; lra|].
      split; [intros u; rewrite Sa, Rabs_R0; lra|].
      exists 0, 0, 0, 0. intros u _ _ _ _. rewrite Sa.
      apply (dl_local _ (fun _ => 0) _ _ 1); [lra|intros; apply Sv|apply const_derive].
    + assert (Hd : 0 < trap_duration tmin).
      { destruct G as ((D & _) & _). destruct (Req_EM_T (trap_duration tmin) 0) as [Z'|Z']; [exfalso; tauto|lra]. }
      set (f := trap_duration tmin / T).
      assert (Hf : 0 < f) by (apply Rdiv_lt_0_compat; assumption).
      assert (Hf1 : f <= 1) by (unfold f, trap_duration; lra).
      destruct (trap_scaled t0 tmin p1 p2 f Hv Ha E Hf) as (D & P & G').
      assert (ET : trap_duration tmin / f = T) by (unfold f; field; split; lra).
      rewrite ET in *. cbv [trap_pos trap_vel trap_acc tr_plan].
      change (pdur (let (_, _, tr_plan) := tmin in tr_plan) / T) with f.
      split; [exact P|].
      refine (good_le _ _ _ _ _ _ _ _ _ _ _ _ G'); [nra|].
      assert (f * f <= 1) by nra. nra.
Qed.

Lemma clamp_code : forall v,
  (let f := if Rlt_dec 1 v then 1 else v in if Rlt_dec f kdl_epsilon then kdl_epsilon else f) = clamp kdl_epsilon 1 v.
Proof.
  intros v. cbv zeta. unfold clamp, kdl_epsilon, Rmax, Rmin.
  destruct (Rlt_dec 1 v); destruct (Rle_dec 1 v); rdec; lra.
Qed.

Lemma eps_pos : 0 < kdl_epsilon <= 1.
Proof. unfold kdl_epsilon. lra. Qed.

Lemma clamp_range : forall v, kdl_epsilon <= clamp kdl_epsilon 1 v <= 1.
Proof. intros v. pose proof eps_pos. unfold clamp, Rmax, Rmin. destruct (Rle_dec 1 v); rdec; lra. Qed.

Lemma trap_profile_velocity : forall t0 tmin p1 p2 v, 0 < tr_maxvel t0 -> 0 < tr_maxacc t0 ->
  trap_setProfile t0 p1 p2 = Ret tmin ->
  let f := clamp kdl_epsilon 1 v in
  exists t, trap_setProfileVelocity t0 p1 p2 v = Ret t /\
     trap_duration t = trap_duration tmin / f /\
     (forall time, trap_pos t time = trap_pos tmin (time * f)) /\
     good_motion p1 p2 (trap_duration tmin / f) (f * tr_maxvel t0) (f * f * tr_maxacc t0)
       (trap_pos t) (trap_vel t) (trap_acc t).
Proof.
  intros t0 tmin p1 p2 v Hv Ha E f. unfold trap_setProfileVelocity. rewrite E. cbn [obind].
  pose proof (clamp_code v) as CC. cbv zeta in CC. rewrite CC. fold f.
  assert (Hf : 0 < f) by (unfold f; pose proof (clamp_range v); pose proof eps_pos; lra).
  eexists. split; [reflexivity|]. apply (trap_scaled t0 tmin p1 p2 f Hv Ha E Hf).
Qed.

(** ** Time optimality *)
Lemma nonincreasing : forall (f f' : R -> R) a b, a <= b ->
  (forall c, a <= c <= b -> derivable_pt_lim f c (f' c)) -> (forall c, a <= c <= b -> f' c <= 0) -> f b <= f a.
Proof.
  intros f f' a b Hab D L. destruct (Req_EM_T a b) as [E|N]; [subst; lra|].
  destruct (MVT_cor2 f f' a b) as (c & E & Hc); [lra|exact D|].
  assert (f' c <= 0) by (apply L; lra). nra.
Qed.

Section Optimal.
Variables (y w : R -> R) (T A V : R).
Hypothesis HT : 0 <= T.
Hypothesis HA : 0 < A.
Hypothesis Dy : forall t, 0 <= t <= T -> derivable_pt_lim y t (w t).
Hypothesis Wa : forall t, 0 <= t <= T -> w t <= A * t.
Hypothesis Wd : forall t, 0 <= t <= T -> w t <= A * (T - t).
Hypothesis Wv : forall t, 0 <= t <= T -> w t <= V.

Lemma opt_a : forall b, 0 <= b <= T -> y b - y 0 <= A * (b * b) / 2.
Proof.
  intros b Hb.
  assert (H : y b - quad 0 0 (A / 2) b <= y 0 - quad 0 0 (A / 2) 0).
  { apply (nonincreasing (fun t => y t - quad 0 0 (A / 2) t) (fun t => w t - quadv 0 (A / 2) t)); [lra| |].
    - intros c Hc. apply derivable_pt_lim_minus; [apply Dy; lra|apply quad_derive].
    - intros c Hc. unfold quadv. assert (w c <= A * c) by (apply Wa; lra). lra. }
  unfold quad in H. lra.
Qed.
Lemma opt_d : forall a, 0 <= a <= T -> y T - y a <= A * ((T - a) * (T - a)) / 2.
Proof.
  intros a Ha.
  assert (H : y T - quad 0 (A * T) (- A / 2) T <= y a - quad 0 (A * T) (- A / 2) a).
  { apply (nonincreasing (fun t => y t - quad 0 (A * T) (- A / 2) t) (fun t => w t - quadv (A * T) (- A / 2) t)); [lra| |].
    - intros c Hc. apply derivable_pt_lim_minus; [apply Dy; lra|apply quad_derive].
    - intros c Hc. unfold quadv. assert (w c <= A * (T - c)) by (apply Wd; lra). lra. }
  unfold quad in H. lra.
Qed.
Lemma opt_v : forall a b, 0 <= a -> a <= b -> b <= T -> y b - y a <= V * (b - a).
Proof.
  intros a b H0 Hab Hb.
  assert (H : y b - quad 0 V 0 b <= y a - quad 0 V 0 a).
  { apply (nonincreasing (fun t => y t - quad 0 V 0 t) (fun t => w t - quadv V 0 t)); [lra| |].
    - intros c Hc. apply derivable_pt_lim_minus; [apply Dy; lra|apply quad_derive].
    - intros c Hc. unfold quadv. assert (w c <= V) by (apply Wv; lra). lra. }
  unfold quad in H. lra.
Qed.

Lemma opt_bound : forall t1 t2, 0 < t1 -> t1 <= t2 -> y T - y 0 = A * t1 * t2 ->
  (A * t1 = V \/ t1 = t2) -> t1 + t2 <= T.
Proof.
  intros t1 t2 H1 H2 E Hc. apply Rnot_lt_le. intros L.
  destruct Hc as [Hc|Hc].
  - destruct (Rle_dec (2 * t1) T) as [K|K].
    + pose proof (opt_a t1 ltac:(lra)) as Q1.
      pose proof (opt_v t1 (T - t1) ltac:(lra) ltac:(lra) ltac:(lra)) as Q2.
      pose proof (opt_d (T - t1) ltac:(lra)) as Q3.
      replace (T - (T - t1)) with t1 in Q3 by ring.
      assert (A * t1 * t2 <= A * (t1 * t1) + V * (T - t1 - t1)) by lra.
      assert (0 < A * t1) by (apply Rmult_lt_0_compat; lra).
      assert (A * t1 * t2 <= A * t1 * (T - t1)) by (rewrite <- Hc in H; lra).
      apply Rmult_le_reg_l in H3; lra.
    + pose proof (opt_a (T / 2) ltac:(lra)) as Q1. pose proof (opt_d (T / 2) ltac:(lra)) as Q2.
      assert (A * t1 * t2 <= A * ((T / 2) * (T / 2))) by (replace (T - T / 2) with (T / 2) in Q2 by field; lra).
      assert (A * ((T / 2) * (T / 2)) < A * (t1 * t2)) by (apply Rmult_lt_compat_l; [lra|nra]). lra.
  - pose proof (opt_a (T / 2) ltac:(lra)) as Q1. pose proof (opt_d (T / 2) ltac:(lra)) as Q2.
    assert (A * t1 * t2 <= A * ((T / 2) * (T / 2))) by (replace (T - T / 2) with (T / 2) in Q2 by field; lra).
    assert (A * ((T / 2) * (T / 2)) < A * (t1 * t2)) by (apply Rmult_lt_compat_l; [lra|nra]). lra.
Qed.
End Optimal.

Lemma abs_le : forall x m, Rabs x <= m -> - m <= x <= m.
Proof. intros x m H. unfold Rabs in H. destruct (Rcase_abs x); lra. Qed.

Lemma trap_optimal : forall t0 t p1 p2 T pos vel, 0 < tr_maxvel t0 -> 0 < tr_maxacc t0 ->
  trap_setProfile t0 p1 p2 = Ret t ->
  admissible p1 p2 (tr_maxvel t0) (tr_maxacc t0) T pos vel -> trap_duration t <= T.
Proof.
  intros t0 t p1 p2 T pos vel Hv Ha E (HT & E0 & E1 & V0 & V1 & D & B & L).
  destruct (Req_EM_T p1 p2) as [Q|N].
  - rewrite <- Q in E. rewrite trap_set_same in E by assumption. injection E as <-.
    cbv [trap_duration tr_plan pdur canon]. lra.
  - destruct (trap_set t0 p1 p2 Hv Ha N) as (t1 & t2 & E' & OK & _ & M).
    rewrite E' in E. injection E as <-. cbv [trap_duration tr_plan pdur canon].
    destruct OK as (Hs & HA & H1 & H2 & Ep). set (s := sign (p2 - p1)) in *.
    apply (opt_bound (fun u => s * pos u) (fun u => s * vel u) T (tr_maxacc t0) (tr_maxvel t0)); try assumption.
    + intros u Hu. replace (s * vel u) with (0 * pos u + s * vel u) by ring.
      apply (derivable_pt_lim_mult (fun _ => s) pos); [apply derivable_pt_lim_const|apply D; exact Hu].
    + intros u Hu. pose proof (L u 0 Hu ltac:(lra)) as Q. rewrite V0 in Q.
      rewrite !Rminus_0_r, (Rabs_right u) in Q by lra. apply abs_le in Q.
      destruct Hs as [-> | ->]; lra.
    + intros u Hu. pose proof (L u T Hu ltac:(lra)) as Q. rewrite V1 in Q.
      rewrite Rminus_0_r, (Rabs_left1 (u - T)) in Q by lra. apply abs_le in Q.
      destruct Hs as [-> | ->]; lra.
    + intros u Hu. pose proof (B u Hu) as Q. apply abs_le in Q. destruct Hs as [-> | ->]; lra.
    + rewrite E0, E1, Ep. destruct Hs as [-> | ->]; ring.
Qed.

(** the planned motion itself is admissible, so the bound is attained *)
Lemma canon_lipschitz : forall s A t1 t2 p1 p2, canon_ok s A t1 t2 p1 p2 -> forall x y,
  Rabs (plan_vel (canon s A t1 t2 p1 p2) x - plan_vel (canon s A t1 t2 p1 p2) y) <= A * Rabs (x - y).
Proof.
  intros s A t1 t2 p1 p2 OK.
  assert (W : forall x y, x <= y ->
    Rabs (plan_vel (canon s A t1 t2 p1 p2) x - plan_vel (canon s A t1 t2 p1 p2) y) <= A * (y - x)).
  { intros x y Hxy. pose proof OK as (Hs & HA & H1 & H2 & E).
    set (g := fun t => if Rlt_dec t 0 then 0 else if Rlt_dec t t1 then t else if Rlt_dec t t2 then t1
                       else if Rle_dec t (t1 + t2) then t1 + t2 - t else 0).
    assert (G : forall t, plan_vel (canon s A t1 t2 p1 p2) t = s * (A * g t)).
    { intros t. unfold g, plan_vel, canon, ltN; simpl. rdec; field. }
    rewrite (G x), (G y). replace (s * (A * g x) - s * (A * g y)) with (s * A * (g x - g y)) by ring.
    rewrite Rabs_mult. assert (Rabs (s * A) = A).
    { rewrite Rabs_mult, (Rabs_right A) by lra. destruct Hs as [-> | ->]; [rewrite Rabs_R1|rewrite Rabs_left by lra]; ring. }
    rewrite H. apply Rmult_le_compat_l; [lra|].
    assert (- (y - x) <= g x - g y <= y - x).
    { unfold g. rdec; lra. }
    unfold Rabs. destruct (Rcase_abs (g x - g y)); lra. }
  intros x y. destruct (Rle_dec x y) as [L|L].
  - rewrite (Rabs_left1 (x - y)) by lra. replace (- (x - y)) with (y - x) by ring. apply W; exact L.
  - rewrite (Rabs_right (x - y)) by lra. rewrite Rabs_minus_sym. apply W. lra.
Qed.

Lemma trap_admissible : forall t0 t p1 p2, 0 < tr_maxvel t0 -> 0 < tr_maxacc t0 ->
  trap_setProfile t0 p1 p2 = Ret t ->
  admissible p1 p2 (tr_maxvel t0) (tr_maxacc t0) (trap_duration t) (trap_pos t) (trap_vel t).
Proof.
  intros t0 t p1 p2 Hv Ha E.
  destruct (trap_profile t0 p1 p2 Hv Ha) as (t' & E' & _ & _ & (M & V & L & _) & _).
  rewrite E in E'. injection E' as <-. destruct M as (D & M0 & M1 & _).
  destruct (Req_EM_T p1 p2) as [Q|N].
  - subst p2. rewrite trap_set_same in E by assumption. injection E as <-.
    split; [exact D|]. split; [apply M0; lra|]. split; [apply M1; lra|].
    split; [apply canon0_vel|]. split; [apply canon0_vel|].
    split; [intros; apply V|]. split; [intros; apply L|].
    intros u v _ _. cbv [trap_vel tr_plan]. rewrite !canon0_vel, Rminus_diag_eq, Rabs_R0 by reflexivity.
    apply Rmult_le_pos; [lra|apply Rabs_pos].
  - destruct (trap_set t0 p1 p2 Hv Ha N) as (t1 & t2 & E' & OK & _). rewrite E' in E. injection E as <-.
    split; [exact D|]. split; [apply M0; lra|]. split; [apply M1; lra|].
    pose proof OK as (Hs & HA & H1 & H2 & _).
    destruct (canon_vel_cases (sign (p2 - p1)) (tr_maxacc t0) t1 t2 p1 p2 0 ltac:(lra) H2) as (_ & C0 & _).
    destruct (canon_vel_cases (sign (p2 - p1)) (tr_maxacc t0) t1 t2 p1 p2 (t1 + t2) ltac:(lra) H2) as (_ & _ & _ & C1 & _).
    split; [cbv [trap_vel tr_plan]; rewrite C0 by lra; unfold quadv; ring|].
    split; [cbv [trap_vel trap_duration tr_plan]; cbn [canon pdur]; fold (canon (sign (p2 - p1)) (tr_maxacc t0) t1 t2 p1 p2);
            rewrite C1 by lra; unfold quadv; field|].
    split; [intros; apply V|]. split; [intros; apply L|].
    intros u v _ _. apply canon_lipschitz. exact OK.
Qed.

(** ** Clone *)
Definition same_motion (t t' : Trap) : Prop :=
  trap_duration t' = trap_duration t /\
  (forall u, trap_pos t' u = trap_pos t u /\ trap_vel t' u = trap_vel t u /\ trap_acc t' u = trap_acc t u).

Lemma trap_set_old : forall t t' p1 p2, tr_maxvel t = tr_maxvel t' -> tr_maxacc t = tr_maxacc t' ->
  trap_setProfile t p1 p2 = trap_setProfile t' p1 p2.
Proof. intros [v a p] [v' a' p'] p1 p2 Ev Ea. simpl in *. subst. reflexivity. Qed.

Lemma clone_scaled : forall t0 t p1 p2 f, 0 < tr_maxvel t0 -> 0 < tr_maxacc t0 -> p1 <> p2 ->
  trap_setProfile t0 p1 p2 = Ret t -> 0 < f <= 1 ->
  trap_clone (mkTrap (tr_maxvel t0) (tr_maxacc t0) (scale_plan (tr_plan t) f (trap_duration t / f)))
  = Ret (mkTrap (tr_maxvel t0) (tr_maxacc t0) (scale_plan (tr_plan t) f (trap_duration t / f))).
Proof.
  intros t0 t p1 p2 f Hv Ha N E Hf.
  destruct (trap_profile t0 p1 p2 Hv Ha) as (t' & E' & Ev & Ea & (M & _) & Z). rewrite E in E'. injection E' as <-.
  assert (Hd : 0 < trap_duration t).
  { destruct M as (D & _). destruct (Req_EM_T (trap_duration t) 0) as [Z'|Z']; [exfalso; tauto|lra]. }
  unfold trap_clone. cbn [tr_maxvel tr_maxacc tr_plan].
  assert (Es : pstart (scale_plan (tr_plan t) f (trap_duration t / f)) = p1 /\
               pend (scale_plan (tr_plan t) f (trap_duration t / f)) = p2).
  { destruct (trap_set t0 p1 p2 Hv Ha N) as (t1 & t2 & E' & _). rewrite E' in E. injection E as <-. split; reflexivity. }
  destruct Es as (-> & ->).
  change (pdur (scale_plan (tr_plan t) f (trap_duration t / f))) with (trap_duration t / f).
  unfold trap_setProfileDuration.
  rewrite (trap_set_old (trap_make (tr_maxvel t0) (tr_maxacc t0)) t0) by reflexivity. rewrite E. cbn [obind].
  assert (0 < trap_duration t / f) by (apply Rdiv_lt_0_compat; lra).
  destruct (Req_EM_T (trap_duration t / f) 0) as [Q|_]; [exfalso; lra|].
  change (pdur (tr_plan t)) with (trap_duration t).
  replace (trap_duration t / (trap_duration t / f)) with f by (field; split; lra).
  destruct (Rlt_dec 1 f) as [Q|_]; [exfalso; lra|]. rewrite Ev, Ea. reflexivity.
Qed.

Lemma scale_one : forall p, pdur p = pdur p -> forall u1 u2, pt1 p = Some u1 -> pt2 p = Some u2 ->
  scale_plan p 1 (pdur p / 1) = p.
Proof.
  intros [a1 a2 a3 b1 b2 b3 c1 c2 c3 d o1 o2 s e] _ u1 u2 E1 E2. simpl in *. subst. unfold scale_plan, divN; simpl.
  destruct (Req_EM_T 1 0) as [Q|_]; [exfalso; lra|]. f_equal; peel; field.
Qed.

Lemma same_motion_refl : forall t, same_motion t t.
Proof. intros t. split; [reflexivity|]. intros; repeat split. Qed.

Lemma trap_clone_same : forall t0 t p1 p2, 0 < tr_maxvel t0 -> 0 < tr_maxacc t0 -> p1 <> p2 ->
  trap_setProfile t0 p1 p2 = Ret t \/ (exists T, 0 < T /\ trap_setProfileDuration t0 p1 p2 T = Ret t) \/
  (exists v, trap_setProfileVelocity t0 p1 p2 v = Ret t) ->
  trap_clone t = Ret t.
Proof.
  intros t0 t p1 p2 Hv Ha N H.
  destruct (trap_profile t0 p1 p2 Hv Ha) as (tm & E & Ev & Ea & (M & _) & Z).
  assert (Hd : 0 < trap_duration tm).
  { destruct M as (D & _). destruct (Req_EM_T (trap_duration tm) 0) as [Z'|Z']; [exfalso; tauto|lra]. }
  assert (K : exists f, 0 < f <= 1 /\
            t = mkTrap (tr_maxvel t0) (tr_maxacc t0) (scale_plan (tr_plan tm) f (trap_duration tm / f))).
  { assert (One : tm = mkTrap (tr_maxvel t0) (tr_maxacc t0) (scale_plan (tr_plan tm) 1 (trap_duration tm / 1))).
    { destruct (trap_set t0 p1 p2 Hv Ha N) as (t1 & t2 & E' & _). rewrite E' in E. injection E as <-.
      cbv [tr_plan trap_duration]. f_equal. symmetry. eapply scale_one; reflexivity. }
    destruct H as [H|[(T & HT & H)|(v & H)]].
    - rewrite H in E. injection E as ->. exists 1. split; [lra|exact One].
    - unfold trap_setProfileDuration in H. rewrite E in H. cbn [obind] in H.
      destruct (Req_EM_T T 0) as [Q|_]; [exfalso; lra|].
      destruct (Rlt_dec 1 (pdur (tr_plan tm) / T)) as [Q|Q].
      + injection H as <-. exists 1. split; [lra|exact One].
      + injection H as <-. exists (trap_duration tm / T). unfold trap_duration in *.
        split; [split; [apply Rdiv_lt_0_compat; lra|lra]|].
        rewrite Ev, Ea. f_equal. f_equal. field. split; lra.
    - unfold trap_setProfileVelocity in H. rewrite E in H. cbn [obind] in H.
      pose proof (clamp_code v) as CC. cbv zeta in CC. rewrite CC in H. injection H as <-.
      exists (clamp kdl_epsilon 1 v). pose proof (clamp_range v). pose proof eps_pos.
      split; [lra|]. rewrite Ev, Ea. reflexivity. }
  destruct K as (f & Hf & ->). apply (clone_scaled t0 tm p1 p2 f); assumption.
Qed.

(** a standing profile: planned duration 0 requested again gives 0/0 *)
Lemma trap_standstill : forall t0 p, 0 < tr_maxvel t0 -> 0 < tr_maxacc t0 ->
  exists t, trap_setProfile t0 p p = Ret t /\ trap_setProfileDuration t0 p p 0 = Undef /\ trap_clone t = Undef.
Proof.
  intros t0 p Hv Ha. eexists. split; [apply trap_set_same; assumption|].
  assert (D : forall t, 0 < tr_maxvel t -> 0 < tr_maxacc t -> trap_setProfileDuration t p p 0 = Undef).
  { intros t Hv' Ha'. unfold trap_setProfileDuration. rewrite trap_set_same by assumption. cbn [obind tr_plan canon pdur].
    destruct (Req_EM_T 0 0) as [_|Q]; [|exfalso; lra].
    destruct (Rlt_dec 0 (0 + 0)) as [Q|_]; [exfalso; lra|reflexivity]. }
  split; [apply D; assumption|]. unfold trap_clone. cbn [tr_plan tr_maxvel tr_maxacc canon pdur pstart pend].
  replace (0 + 0) with 0 by ring. apply D; assumption.
Qed.
