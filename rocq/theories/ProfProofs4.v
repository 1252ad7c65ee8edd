(** Half-trapezoidal, rectangular, impulse and spline profiles: planning calls. *)
From Coq Require Import Reals Lra Lia Psatz Bool.
From Verif Require Import FramesModel Outcome DerivProofs ProfModel ProfSpec ProfProofs ProfProofs2 ProfProofs3.
Local Open Scope R_scope.

Lemma half_eval : forall v a b p, 
  evaluates (PHalf (mkHalf v a b (Some p))) (pdur p) (plan_pos p) (plan_vel p) (plan_acc p).
Proof. intros. split; [reflexivity|]. intros t. repeat split. Qed.

(** what a moving profile's direction sign is *)
Lemma dir_sign : forall p1 p2, p1 <> p2 -> let s := sign (p2 - p1) in
  (s = 1 \/ s = -1) /\ s * s = 1 /\ 0 < s * (p2 - p1) /\ s * (p2 - p1) = Rabs (p2 - p1).
Proof.
  intros p1 p2 N s. unfold s. destruct (sign_cases (p2 - p1)) as [[H ->]|[H ->]].
  - rewrite Rabs_right by lra. repeat split; try lra; auto.
  - rewrite Rabs_left by lra. repeat split; try lra; auto.
Qed.

Lemma kdl_min_Rmin : forall a b, kdl_min a b = Rmin a b.
Proof. intros. unfold kdl_min, Rmin. rdec; lra. Qed.


Lemma peak_facts : forall mv ma p1 p2, 0 < mv -> 0 < ma -> p1 <> p2 ->
  let v := peak mv ma p1 p2 in
  0 < v <= mv /\ v * v <= 2 * Rabs (p2 - p1) * ma /\ (v < mv -> v * v = 2 * Rabs (p2 - p1) * ma) /\
  (mv * mv <= 2 * Rabs (p2 - p1) * ma -> v = mv).
Proof.
  intros mv ma p1 p2 Hv Ha N v.
  assert (HD : 0 < Rabs (p2 - p1)) by (apply Rabs_pos_lt; lra).
  assert (HX : 0 < 2 * Rabs (p2 - p1) * ma) by (apply Rmult_lt_0_compat; lra).
  assert (Hr : 0 < sqrt (2 * Rabs (p2 - p1) * ma)) by (apply sqrt_lt_R0; exact HX).
  assert (Hrr : sqrt (2 * Rabs (p2 - p1) * ma) * sqrt (2 * Rabs (p2 - p1) * ma) = 2 * Rabs (p2 - p1) * ma)
    by (apply sqrt_sqrt; lra).
  unfold v, peak, Rmin. set (r := sqrt (2 * Rabs (p2 - p1) * ma)) in *. set (X := 2 * Rabs (p2 - p1) * ma) in *.
  destruct (Rle_dec mv r) as [L|L]; split; [lra| |lra|]; split; [nra| |nra|]; split; intros; try lra; nra.
Qed.

Lemma half_set : forall h p1 p2, 0 < th_maxvel h -> 0 < th_maxacc h -> p1 <> p2 ->
  let s := sign (p2 - p1) in
  let v := peak (th_maxvel h) (th_maxacc h) p1 p2 in
  let T := Rabs (p2 - p1) / v + v / th_maxacc h / 2 in
  half_setProfile h p1 p2 = Ret (mkHalf (th_maxvel h) (th_maxacc h) (th_starting h) (Some
    (if th_starting h then half_plan1 p1 p2 T 0 (v / th_maxacc h) (v * s) (th_maxacc h * s)
     else half_plan2 p1 p2 T (T - v / th_maxacc h) T (s * v) (s * th_maxacc h)))) /\
  up_ok s (th_maxacc h * s) (v * s) 0 (v / th_maxacc h) T p1 p2 /\
  down_ok s (s * th_maxacc h) (s * v) (T - v / th_maxacc h) T T p1 p2 /\
  0 < T.
Proof.
  intros [mv ma st pl] p1 p2 Hv Ha N s v T. simpl in *.
  destruct (peak_facts mv ma p1 p2 Hv Ha N) as (Hvp & Hvv & _). fold v in Hvp, Hvv.
  destruct (dir_sign p1 p2 N) as (Hs & Hss & HD & HDa). fold s in Hs, Hss, HD, HDa.
  assert (HDp : 0 < Rabs (p2 - p1)) by lra.
  assert (Hva : 0 < v / ma) by (apply Rdiv_lt_0_compat; lra).
  assert (HDv : 0 < Rabs (p2 - p1) / v) by (apply Rdiv_lt_0_compat; lra).
  assert (Hle : v / ma / 2 <= Rabs (p2 - p1) / v).
  { apply (Rmult_le_reg_r (2 * ma * v)); [apply Rmult_lt_0_compat; lra|].
    replace (v / ma / 2 * (2 * ma * v)) with (v * v) by (field; lra).
    replace (Rabs (p2 - p1) / v * (2 * ma * v)) with (2 * Rabs (p2 - p1) * ma) by (field; lra). exact Hvv. }
  assert (Ep : p2 - p1 = s * Rabs (p2 - p1)) by (rewrite <- HDa, <- Rmult_assoc, Hss; ring).
  split; [|split; [|split]].
  - unfold half_setProfile. simpl. fold s.
    replace (2 * s * (p2 - p1) * ma) with (2 * Rabs (p2 - p1) * ma) by (rewrite <- HDa; ring).
    rewrite kdl_min_Rmin. fold (peak mv ma p1 p2). fold v.
    destruct (Req_EM_T v 0) as [Q|_]; [exfalso; lra|]. destruct (Req_EM_T ma 0) as [Q|_]; [exfalso; lra|].
    rewrite HDa. fold T. reflexivity.
  - unfold up_ok. split; [exact Hs|]. split; [replace (s * (ma * s)) with (s * s * ma) by ring; rewrite Hss; lra|].
    split; [lra|]. split; [lra|]. split; [unfold T; lra|]. split; [field; lra|].
    replace p2 with (p1 + s * Rabs (p2 - p1)) at 1 by lra. unfold T. field. lra.
  - unfold down_ok. split; [exact Hs|]. split; [replace (s * (s * ma)) with (s * s * ma) by ring; rewrite Hss; lra|].
    split; [unfold T; lra|]. split; [lra|]. split; [lra|]. split; [field; lra|].
    replace p2 with (p1 + s * Rabs (p2 - p1)) at 1 by lra. unfold T. field. lra.
  - unfold T. lra.
Qed.


Lemma abs_sv : forall s v, (s = 1 \/ s = -1) -> 0 <= v -> Rabs (s * v) = v /\ Rabs (v * s) = v.
Proof.
  intros s v Hs Hv. rewrite (Rmult_comm v s). assert (Rabs (s * v) = v); [|auto].
  destruct Hs as [-> | ->]; [rewrite Rabs_right|rewrite Rabs_left1]; lra.
Qed.

Lemma half_profile : forall h p1 p2, 0 < th_maxvel h -> 0 < th_maxacc h -> p1 <> p2 ->
  exists h' T pos vel acc, half_setProfile h p1 p2 = Ret h' /\ evaluates (PHalf h') T pos vel acc /\
    half_motion p1 p2 T (th_maxvel h) (th_maxacc h) pos vel acc /\
    half_ends (th_starting h) (peak (th_maxvel h) (th_maxacc h) p1 p2) T vel /\ 0 < T.
Proof.
  intros h p1 p2 Hv Ha N. destruct (half_set h p1 p2 Hv Ha N) as (E & U & D & HT).
  destruct (dir_sign p1 p2 N) as (Hs & _).
  destruct (peak_facts _ _ p1 p2 Hv Ha N) as (Hp & _).
  set (s := sign (p2 - p1)) in *. set (v := peak (th_maxvel h) (th_maxacc h) p1 p2) in *.
  set (T := Rabs (p2 - p1) / v + v / th_maxacc h / 2) in *.
  destruct (abs_sv s v Hs ltac:(lra)) as (A1 & A2). destruct (abs_sv s (th_maxacc h) Hs ltac:(lra)) as (B1 & B2).
  unfold half_ends. destruct (th_starting h).
  - eexists _, T, _, _, _. split; [exact E|]. split; [apply half_eval|]. destruct (up_motion _ _ _ _ _ _ _ _ U) as ((M & C & V & Lv & La & A) & V0 & V1).
    split; [|split; [split; [exact V0|rewrite V1; exact A2]|exact HT]].
    rewrite A2 in Lv. rewrite B2 in La.
    split; [exact M|]. split; [exact C|]. split; [exact V|]. split; [apply (limited_le v); [lra|exact Lv]|]. split; assumption.
  - eexists _, T, _, _, _. split; [exact E|]. split; [apply half_eval|]. destruct (down_motion _ _ _ _ _ _ _ _ D) as ((M & C & V & Lv & La & A) & V0 & V1).
    split; [|split; [split; [rewrite V0; exact A1|exact V1]|exact HT]].
    rewrite A1 in Lv. rewrite B1 in La.
    split; [exact M|]. split; [exact C|]. split; [exact V|]. split; [apply (limited_le v); [lra|exact Lv]|]. split; assumption.
Qed.

Lemma half_standstill : forall h p, 0 < th_maxvel h -> half_setProfile h p p = Undef.
Proof.
  intros h p Hv. unfold half_setProfile.
  replace (2 * sign (p - p) * (p - p) * th_maxacc h) with 0 by ring.
  rewrite sqrt_0. unfold kdl_min. destruct (Rlt_dec 0 (th_maxvel h)) as [_|Q]; [|exfalso; lra].
  destruct (Req_EM_T 0 0) as [_|Q]; [reflexivity|exfalso; lra].
Qed.

Lemma half_profile_duration : forall h hmin p1 p2 T, 0 < th_maxvel h -> 0 < th_maxacc h -> p1 <> p2 ->
  half_setProfile h p1 p2 = Ret hmin -> 0 < T ->
  exists dmin, half_duration hmin = VVal dmin /\
  (T < dmin -> half_setProfileDuration h p1 p2 T = Ret hmin) /\
  (dmin <= T -> exists h' pos vel acc a, half_setProfileDuration h p1 p2 T = Ret h' /\
     evaluates (PHalf h') T pos vel acc /\ half_motion p1 p2 T (th_maxvel h) a pos vel acc /\
     half_ends (th_starting h) (th_maxvel h) T vel /\
     (th_maxvel h * th_maxvel h <= 2 * Rabs (p2 - p1) * th_maxacc h -> a <= th_maxacc h)).
Proof.
  intros h hmin p1 p2 T Hv Ha N E HT.
  destruct (half_set h p1 p2 Hv Ha N) as (E' & _ & _ & HTm).
  destruct (dir_sign p1 p2 N) as (Hs & Hss & HD & HDa).
  destruct (peak_facts _ _ p1 p2 Hv Ha N) as (Hp & Hpp & _ & Hpm).
  set (s := sign (p2 - p1)) in *. set (v := peak (th_maxvel h) (th_maxacc h) p1 p2) in *.
  set (D := Rabs (p2 - p1)) in *.
  set (Tm := D / v + v / th_maxacc h / 2) in *.
  rewrite E' in E. injection E as E.
  exists Tm.
  assert (Ed : exists p, hmin = mkHalf (th_maxvel h) (th_maxacc h) (th_starting h) (Some p) /\ pdur p = Tm /\ pstart p = p1 /\ pend p = p2).
  { eexists. split; [symmetry; exact E|]. destruct (th_starting h); repeat split. }
  destruct Ed as (pm & Ehm & Epd & Eps & Epe).
  assert (EdT : half_duration hmin = VVal Tm) by (unfold half_duration; rewrite Ehm; cbn [th_plan]; rewrite Epd; reflexivity).
  split; [exact EdT|].
  unfold half_setProfileDuration. rewrite E'. rewrite E. cbn [obind]. rewrite Ehm. cbn [th_plan th_maxvel th_maxacc th_starting].
  rewrite Epd, Eps, Epe. fold s.
  destruct (Req_EM_T T 0) as [Q|_]; [exfalso; lra|].
  assert (L1 : 1 < Tm / T <-> T < Tm) by (pose proof (Rdiv_lt_iff 1 Tm T HT) as Q; rewrite Rmult_1_l in Q; exact Q).
  destruct (Rlt_dec 1 (Tm / T)) as [K|K]; split; intros H.
  { reflexivity. } { exfalso. apply L1 in K. lra. } { exfalso. apply K. apply L1. exact H. }
  set (mv := th_maxvel h) in *. set (ma := th_maxacc h) in *.
  destruct (Req_EM_T mv 0) as [Q|_]; [exfalso; lra|].
  assert (HDp : 0 < D) by lra.
  assert (Ep : p2 - p1 = s * D) by (rewrite <- HDa, <- Rmult_assoc, Hss; ring).
  replace (2 * s * (p2 - p1) / mv) with (2 * D / mv) by (rewrite <- HDa; field; lra).
  assert (HmT : 0 < mv * T - D).
  { assert (D / v <= T) by (unfold Tm in H; assert (0 < v / ma) by (apply Rdiv_lt_0_compat; lra); lra).
    assert (D / v * v <= T * v) by (apply Rmult_le_compat_r; lra).
    replace (D / v * v) with D in H1 by (field; lra).
    assert (0 < v / ma) by (apply Rdiv_lt_0_compat; lra).
    assert (D < T * v). { assert (D / v < T) by (unfold Tm in H; lra). assert (D / v * v < T * v) by (apply Rmult_lt_compat_r; lra).
      replace (D / v * v) with D in H4 by (field; lra). exact H4. }
    assert (T * v <= T * mv) by (apply Rmult_le_compat_l; lra). lra. }
  assert (Hs0 : s <> 0) by (destruct Hs; lra).
  destruct (Rlt_dec T (2 * D / mv)) as [C|C].
  - (* cruise phase present *)
    assert (HC : mv * T < 2 * D).
    { assert (T * mv < 2 * D / mv * mv) by (apply Rmult_lt_compat_r; lra).
      replace (2 * D / mv * mv) with (2 * D) in H0 by (field; lra). lra. }
    assert (Ediv : s * mv * T - (p2 - p1) = s * (mv * T - D)) by (rewrite Ep; ring).
    rewrite Ediv. destruct (Req_EM_T (s * (mv * T - D)) 0) as [Q|_].
    { exfalso. destruct Hs as [Hs | Hs]; rewrite Hs in Q; lra. }
    set (A := mv * mv / 2 / (mv * T - D)).
    assert (HA : 0 < A) by (unfold A; apply Rdiv_lt_0_compat; [nra|lra]).
    assert (Ea : s * mv * (s * mv) / 2 / (s * (mv * T - D)) = s * A).
    { unfold A. replace (s * mv * (s * mv)) with (s * s * (mv * mv)) by ring. rewrite Hss.
      destruct Hs as [-> | ->]; field; lra. }
    rewrite Ea.
    assert (Eva : s * mv / (s * A) = 2 * (mv * T - D) / mv).
    { unfold A. field. repeat split; lra. }
    rewrite Eva. set (u := 2 * (mv * T - D) / mv).
    assert (Hu : 0 < u) by (unfold u; apply Rdiv_lt_0_compat; lra).
    assert (HuT : u <= T).
    { unfold u. apply (Rmult_le_reg_r mv); [lra|]. replace (2 * (mv * T - D) / mv * mv) with (2 * (mv * T - D)) by (field; lra). lra. }
    assert (EAu : A * u = mv) by (unfold A, u; field; split; lra).
    assert (HAlim : mv * mv <= 2 * D * ma -> A <= ma).
    { intros Hm. specialize (Hpm Hm). unfold A. apply (Rmult_le_reg_r (2 * (mv * T - D))); [lra|].
      replace (mv * mv / 2 / (mv * T - D) * (2 * (mv * T - D))) with (mv * mv) by (field; lra).
      assert (HT' : D / mv + mv / ma / 2 <= T) by (unfold Tm in H; rewrite Hpm in H; exact H).
      assert (HT'' : (D / mv + mv / ma / 2) * (2 * mv * ma) <= T * (2 * mv * ma)).
      { apply Rmult_le_compat_r; [|exact HT']. apply Rmult_le_pos; lra. }
      replace ((D / mv + mv / ma / 2) * (2 * mv * ma)) with (2 * D * ma + mv * mv) in HT'' by (field; lra). lra. }
    destruct (abs_sv s mv Hs ltac:(lra)) as (A1 & A2). destruct (abs_sv s A Hs ltac:(lra)) as (B1 & B2).
    unfold half_ends. destruct (th_starting h).
    + assert (U : up_ok s (s * A) (s * mv) 0 u T p1 p2).
      { unfold up_ok. split; [exact Hs|]. split; [rewrite <- Rmult_assoc, Hss; lra|]. split; [lra|]. split; [lra|]. split; [exact HuT|].
        split; [rewrite <- EAu; ring|]. replace p2 with (p1 + s * D) by lra.
        replace (s * A * ((u - 0) * (u - 0)) / 2) with (s * (A * u) * u / 2) by field. rewrite EAu. unfold u. field. lra. }
      destruct (up_motion _ _ _ _ _ _ _ _ U) as (M & V0 & V1). rewrite A1, B1 in M.
      eexists _, _, _, _, A. split; [reflexivity|]. split; [apply half_eval|]. split; [exact M|].
      split; [split; [exact V0|rewrite V1; exact A1]|exact HAlim].
    + assert (U : down_ok s (s * A) (s * mv) (T - u) T T p1 p2).
      { unfold down_ok. split; [exact Hs|]. split; [rewrite <- Rmult_assoc, Hss; lra|]. split; [lra|]. split; [lra|]. split; [lra|].
        split; [rewrite <- EAu; ring|]. replace p2 with (p1 + s * D) by lra.
        replace (s * A * ((T - (T - u)) * (T - (T - u))) / 2) with (s * (A * u) * u / 2) by field. rewrite EAu. unfold u. field. lra. }
      destruct (down_motion _ _ _ _ _ _ _ _ U) as (M & V0 & V1). rewrite A1, B1 in M.
      eexists _, _, _, _, A. split; [reflexivity|]. split; [apply half_eval|]. split; [exact M|].
      split; [split; [rewrite V0; exact A1|exact V1]|exact HAlim].
  - (* stalled *)
    rewrite Ep. destruct (Req_EM_T (s * D) 0) as [Q|_].
    { exfalso. destruct Hs as [Hs | Hs]; rewrite Hs in Q; lra. }
    set (A := mv * mv / 2 / D).
    assert (HA : 0 < A) by (unfold A; apply Rdiv_lt_0_compat; [nra|lra]).
    assert (Ea : s * mv * (s * mv) / 2 / (s * D) = s * A).
    { unfold A. replace (s * mv * (s * mv)) with (s * s * (mv * mv)) by ring. rewrite Hss.
      destruct Hs as [-> | ->]; field; lra. }
    rewrite Ea.
    assert (Eva : s * mv / (s * A) = 2 * D / mv).
    { unfold A. field. repeat split; lra. }
    rewrite Eva. set (u := 2 * D / mv) in *.
    assert (Hu : 0 < u) by (unfold u; apply Rdiv_lt_0_compat; lra).
    assert (HuT : u <= T) by lra.
    assert (EAu : A * u = mv) by (unfold A, u; field; split; lra).
    assert (HAlim : mv * mv <= 2 * D * ma -> A <= ma).
    { intros Hm. unfold A. apply (Rmult_le_reg_r (2 * D)); [lra|].
      replace (mv * mv / 2 / D * (2 * D)) with (mv * mv) by (field; lra). lra. }
    destruct (abs_sv s mv Hs ltac:(lra)) as (A1 & A2). destruct (abs_sv s A Hs ltac:(lra)) as (B1 & B2).
    unfold half_ends. destruct (th_starting h).
    + assert (U : up_ok s (s * A) (s * mv) (T - u) T T p1 p2).
      { unfold up_ok. split; [exact Hs|]. split; [rewrite <- Rmult_assoc, Hss; lra|]. split; [lra|]. split; [lra|]. split; [lra|].
        split; [rewrite <- EAu; ring|]. replace p2 with (p1 + s * D) by lra.
        replace (s * A * ((T - (T - u)) * (T - (T - u))) / 2) with (s * (A * u) * u / 2) by field. rewrite EAu. unfold u. field. lra. }
      destruct (up_motion _ _ _ _ _ _ _ _ U) as (M & V0 & V1). rewrite A1, B1 in M.
      eexists _, _, _, _, A. split; [reflexivity|]. split; [apply half_eval|]. split; [exact M|].
      split; [split; [exact V0|rewrite V1; exact A1]|exact HAlim].
    + assert (U : down_ok s (s * A) (s * mv) 0 u T p1 p2).
      { unfold down_ok. split; [exact Hs|]. split; [rewrite <- Rmult_assoc, Hss; lra|]. split; [lra|]. split; [lra|]. split; [lra|].
        split; [rewrite <- EAu; ring|]. replace p2 with (p1 + s * D) by lra.
        replace (s * A * ((u - 0) * (u - 0)) / 2) with (s * (A * u) * u / 2) by field. rewrite EAu. unfold u. field. lra. }
      destruct (down_motion _ _ _ _ _ _ _ _ U) as (M & V0 & V1). rewrite A1, B1 in M.
      eexists _, _, _, _, A. split; [reflexivity|]. split; [apply half_eval|]. split; [exact M|].
      split; [split; [rewrite V0; exact A1|exact V1]|exact HAlim].
Qed.

(** Refutations: 0 to 1 with maxvel 10, maxacc 1.  The peak speed is sqrt 2; a
    request for 2 seconds is planned as 1.8 s of waiting and an acceleration of
    50, and Clone re-plans the same way. *)
Lemma sqrt2_bounds : 1.4 < sqrt 2 < 1.5.
Proof.
  split.
  - rewrite <- (sqrt_square 1.4) by lra. apply sqrt_lt_1; lra.
  - rewrite <- (sqrt_square 1.5) by lra. apply sqrt_lt_1; lra.
Qed.

Lemma half_example : half_setProfile (half_make 10 1 true) 0 1 =
  Ret (mkHalf 10 1 true (Some (half_plan1 0 1 (sqrt 2) 0 (sqrt 2) (sqrt 2) 1))).
Proof.
  pose proof sqrt2_bounds as B.
  unfold half_setProfile. simpl. unfold sign. destruct (Rlt_dec (1 - 0) 0) as [Q|_]; [exfalso; lra|].
  replace (2 * 1 * (1 - 0) * 1) with 2 by ring.
  unfold kdl_min. destruct (Rlt_dec (sqrt 2) 10) as [_|Q]; [|exfalso; lra].
  destruct (Req_EM_T (sqrt 2) 0) as [Q|_]; [exfalso; lra|]. destruct (Req_EM_T 1 0) as [Q|_]; [exfalso; lra|].
  assert (SS : sqrt 2 * sqrt 2 = 2) by (apply sqrt_sqrt; lra).
  assert (E : 1 * (1 - 0) / sqrt 2 + sqrt 2 / 1 / 2 = sqrt 2).
  { apply (Rmult_eq_reg_r (2 * sqrt 2)); [|lra].
    replace ((1 * (1 - 0) / sqrt 2 + sqrt 2 / 1 / 2) * (2 * sqrt 2)) with (2 + sqrt 2 * sqrt 2) by (field; lra).
    rewrite SS. replace (sqrt 2 * (2 * sqrt 2)) with (2 * (sqrt 2 * sqrt 2)) by ring. rewrite SS. ring. }
  rewrite E. replace (sqrt 2 / 1) with (sqrt 2) by field. replace (sqrt 2 * 1) with (sqrt 2) by ring.
  replace (1 * 1) with 1 by ring. reflexivity.
Qed.

Lemma half_example_duration : forall T, sqrt 2 <= T ->
  half_setProfileDuration (half_make 10 1 true) 0 1 T =
  Ret (mkHalf 10 1 true (Some (half_plan1 0 1 T (T - / 5) T 10 50))).
Proof.
  intros T HT. pose proof sqrt2_bounds as B.
  unfold half_setProfileDuration. rewrite half_example. cbn [obind th_plan th_maxvel th_maxacc th_starting half_plan1 pdur pstart pend].
  destruct (Req_EM_T T 0) as [Q|_]; [exfalso; lra|].
  destruct (Rlt_dec 1 (sqrt 2 / T)) as [Q|_].
  { exfalso. apply (Rdiv_lt_iff 1 (sqrt 2) T) in Q; lra. }
  destruct (Req_EM_T 10 0) as [Q|_]; [exfalso; lra|].
  unfold sign. destruct (Rlt_dec (1 - 0) 0) as [Q|_]; [exfalso; lra|].
  replace (2 * 1 * (1 - 0) / 10) with (/ 5) by field.
  destruct (Rlt_dec T (/ 5)) as [Q|_]; [exfalso; lra|].
  destruct (Req_EM_T (1 - 0) 0) as [Q|_]; [exfalso; lra|].
  replace (1 * 10 * (1 * 10) / 2 / (1 - 0)) with 50 by field. replace (1 * 10 / 50) with (/ 5) by field.
  replace (1 * 10) with 10 by ring. reflexivity.
Qed.

Lemma half_acc_refuted : exists h', half_setProfileDuration (half_make 10 1 true) 0 1 2 = Ret h' /\
  half_acc h' (1.9) = VVal 50.
Proof.
  pose proof sqrt2_bounds as B. eexists. split; [apply half_example_duration; lra|].
  unfold half_acc. cbn [th_plan]. f_equal. unfold plan_acc, ltN. simpl. rdec; lra.
Qed.

Lemma half_clone_refuted : exists h h', half_setProfile (half_make 10 1 true) 0 1 = Ret h /\
  half_clone h = Ret h' /\ half_pos h 1 = VVal (1 / 2) /\ half_pos h' 1 = VVal 0.
Proof.
  pose proof sqrt2_bounds as B. eexists _, _. split; [apply half_example|].
  unfold half_clone. cbn [th_plan th_maxvel th_maxacc th_starting half_plan1 pdur pstart pend].
  split; [apply half_example_duration; lra|].
  split; unfold half_pos; cbn [th_plan]; f_equal; unfold plan_pos, ltN; simpl; rdec; lra.
Qed.

(** * Rectangular *)
Lemma ramp_motion : forall p1 p2 v T, 0 < T -> p2 = v * T + p1 ->
  let pos := fun t => if Rlt_dec t 0 then p1 else if Rlt_dec T t then v * T + p1 else v * t + p1 in
  let vel := fun t => if Rlt_dec t 0 then 0 else if Rlt_dec T t then 0 else v in
  moves p1 p2 T pos /\ continuous pos /\ velocity_on 0 T pos vel /\ limited (Rabs v) vel /\
  (forall t, 0 <= t <= T -> vel t = v).
Proof.
  intros p1 p2 v T HT E pos vel.
  assert (Q : forall t, quad p1 v 0 t = v * t + p1) by (intros; unfold quad; ring).
  split; [|split; [|split; [|split]]].
  - split; [lra|]. split; [intros t Ht; unfold pos; rdec; [reflexivity|replace t with 0 by lra; ring]|].
    split; [intros t Ht; unfold pos; rdec; [lra|replace t with T by lra; lra]|].
    intros t. unfold pos, between. rdec.
    + destruct (Rle_dec 0 v); [left|right]; split; nra.
    + destruct (Rle_dec 0 v); [left|right]; split; nra.
    + destruct (Rle_dec 0 v); [left|right]; split; nra.
  - intros x. change (cont_at pos x). destruct (Rtotal_order x 0) as [C|[C|C]].
    + apply (cont_local _ (fun _ => p1) _ (- x)); [lra| |apply cont_const].
      intros y Hy. apply abs_lt in Hy. unfold pos. rdec. reflexivity.
    + subst x. apply (cont_glue _ (fun _ => p1) (quad p1 v 0) _ T); [lra| | | |apply cont_const|apply cont_quad].
      * intros y Hy. apply abs_lt in Hy. rewrite Q. unfold pos. rdec; auto.
      * unfold pos. rdec. ring.
      * rewrite Q. unfold pos. rdec. reflexivity.
    + destruct (Rtotal_order x T) as [D|[D|D]].
      * apply (cont_local _ (quad p1 v 0) _ (Rmin x (T - x))); [apply Rmin_pos; lra| |apply cont_quad].
        intros y Hy. apply abs_lt in Hy. pose proof (Rmin_l x (T - x)). pose proof (Rmin_r x (T - x)).
        rewrite Q. unfold pos. rdec. reflexivity.
      * subst x. apply (cont_glue _ (quad p1 v 0) (fun _ => v * T + p1) _ T); [lra| | | |apply cont_quad|apply cont_const].
        -- intros y Hy. apply abs_lt in Hy. rewrite Q. unfold pos. rdec; auto.
        -- rewrite Q. unfold pos. rdec. reflexivity.
        -- unfold pos. rdec. reflexivity.
      * apply (cont_local _ (fun _ => v * T + p1) _ (x - T)); [lra| |apply cont_const].
        intros y Hy. apply abs_lt in Hy. unfold pos. rdec. reflexivity.
  - intros x Hx. replace (vel x) with (quadv v 0 x) by (unfold vel, quadv; rdec; ring).
    apply (dl_local _ (quad p1 v 0) _ _ (Rmin x (T - x))); [apply Rmin_pos; lra| |apply quad_derive].
    intros y Hy. apply abs_lt in Hy. pose proof (Rmin_l x (T - x)). pose proof (Rmin_r x (T - x)).
    rewrite Q. unfold pos. rdec. reflexivity.
  - intros t. pose proof (Rabs_pos v). unfold vel. rdec; try (rewrite Rabs_R0); lra.
  - intros t Ht. unfold vel. rdec. reflexivity.
Qed.


Lemma rect_eval : forall mv d p v, exists pos vel,
  evaluates_noacc (PRect (mkRect mv (Some (mkRP d p v)))) d pos vel /\
  (forall t, pos t = if Rlt_dec t 0 then p else if Rlt_dec d t then v * d + p else v * t + p) /\
  (forall t, vel t = if Rlt_dec t 0 then 0 else if Rlt_dec d t then 0 else v).
Proof.
  intros. eexists (fun t => _), (fun t => _). split; [|split; intros t; reflexivity].
  split; [reflexivity|]. intros t. split; reflexivity.
Qed.

Lemma ramp_ext : forall p1 p2 T v pos vel pos' vel', (forall t, pos t = pos' t) -> (forall t, vel t = vel' t) ->
  ramp p1 p2 T v pos' vel' -> ramp p1 p2 T v pos vel.
Proof.
  intros p1 p2 T v pos vel pos' vel' Hp Hv ((M0 & M1 & M2 & M3) & C & V & L & W).
  split; [|split; [|split; [|split]]].
  - split; [exact M0|]. split; [intros; rewrite Hp; auto|]. split; [intros; rewrite Hp; auto|]. intros; rewrite Hp; auto.
  - intros x eps He. destruct (C x eps He) as (d & Hd & Q). exists d. split; [exact Hd|]. intros y Hy. rewrite !Hp. auto.
  - intros t Ht. rewrite Hv. apply (dl_local _ pos' _ _ 1); [lra|intros; apply Hp|apply V; exact Ht].
  - intros t. rewrite Hv. apply L.
  - intros t Ht. rewrite Hv. auto.
Qed.

Lemma rect_ramp : forall mv p1 p2 v, p1 <> p2 -> 0 < (p2 - p1) / v ->
  exists pos vel, evaluates_noacc (PRect (mkRect mv (Some (mkRP ((p2 - p1) / v) p1 v)))) ((p2 - p1) / v) pos vel /\
    ramp p1 p2 ((p2 - p1) / v) v pos vel.
Proof.
  intros mv p1 p2 v N HT. destruct (rect_eval mv ((p2 - p1) / v) p1 v) as (pos & vel & E & Ep & Ev).
  exists pos, vel. split; [exact E|].
  assert (Hv0 : v <> 0).
  { intros Z. rewrite Z in HT. unfold Rdiv in HT. rewrite Rinv_0, Rmult_0_r in HT. lra. }
  eapply ramp_ext; [exact Ep|exact Ev|]. apply ramp_motion; [exact HT|field; exact Hv0].
Qed.

Lemma rect_profile : forall r p1 p2, 0 < re_maxvel r -> p1 <> p2 ->
  exists r' pos vel, rect_setProfile r p1 p2 = Ret r' /\
    let T := Rabs (p2 - p1) / re_maxvel r in
    evaluates_noacc (PRect r') T pos vel /\ 0 < T /\
    ramp p1 p2 T ((p2 - p1) / T) pos vel /\ limited (re_maxvel r) vel.
Proof.
  intros r p1 p2 Hv N. unfold rect_setProfile.
  destruct (Req_EM_T (p2 - p1) 0) as [Q|_]; [exfalso; lra|].
  assert (HA : 0 < Rabs (p2 - p1)) by (apply Rabs_pos_lt; lra).
  assert (HT : 0 < Rabs (p2 - p1) / re_maxvel r) by (apply Rdiv_lt_0_compat; lra).
  destruct (Rlt_dec 0 (p2 - p1)) as [L|L].
  - destruct (Req_EM_T (re_maxvel r) 0) as [Q|_]; [exfalso; lra|].
    rewrite (Rabs_right (p2 - p1)) in * by lra.
    destruct (rect_ramp (re_maxvel r) p1 p2 (re_maxvel r) N HT) as (pos & vel & E & Rm).
    eexists _, pos, vel. split; [reflexivity|]. cbv zeta. split; [exact E|]. split; [exact HT|].
    replace ((p2 - p1) / ((p2 - p1) / re_maxvel r)) with (re_maxvel r) by (field; lra).
    split; [exact Rm|]. destruct Rm as (_ & _ & _ & Lm & _). rewrite Rabs_right in Lm by lra. exact Lm.
  - destruct (Req_EM_T (- re_maxvel r) 0) as [Q|_]; [exfalso; lra|].
    rewrite (Rabs_left1 (p2 - p1)) in * by lra.
    replace (- (p2 - p1) / re_maxvel r) with ((p2 - p1) / - re_maxvel r) in * by (field; lra).
    destruct (rect_ramp (re_maxvel r) p1 p2 (- re_maxvel r) N HT) as (pos & vel & E & Rm).
    eexists _, pos, vel. split; [reflexivity|]. cbv zeta. split; [exact E|]. split; [exact HT|].
    replace ((p2 - p1) / ((p2 - p1) / - re_maxvel r)) with (- re_maxvel r) by (field; lra).
    split; [exact Rm|]. destruct Rm as (_ & _ & _ & Lm & _). rewrite Rabs_left1 in Lm by lra.
    rewrite Ropp_involutive in Lm. exact Lm.
Qed.

Lemma rect_profile_still : forall r p, exists r' pos vel, rect_setProfile r p p = Ret r' /\
  evaluates_noacc (PRect r') 0 pos vel /\ (forall t, pos t = p) /\ (forall t, vel t = 0).
Proof.
  intros r p. unfold rect_setProfile. destruct (Req_EM_T (p - p) 0) as [_|Q]; [|exfalso; lra].
  destruct (rect_eval (re_maxvel r) 0 p 0) as (pos & vel & E & Ep & Ev).
  eexists _, pos, vel. split; [reflexivity|]. split; [exact E|].
  split; intros t; [rewrite Ep|rewrite Ev]; rdec; ring.
Qed.

(** SetProfileDuration: honoured exactly unless a forward motion would be too fast *)
Lemma rect_profile_duration : forall r p1 p2 T, 0 < re_maxvel r -> p1 <> p2 -> 0 < T ->
  exists r' pos vel, rect_setProfileDuration r p1 p2 T = Ret r' /\
    let T' := if Rlt_dec (re_maxvel r) ((p2 - p1) / T) then (p2 - p1) / re_maxvel r else T in
    evaluates_noacc (PRect r') T' pos vel /\ 0 < T' /\
    ramp p1 p2 T' ((p2 - p1) / T') pos vel /\ (p1 < p2 -> limited (re_maxvel r) vel).
Proof.
  intros r p1 p2 T Hv N HT. unfold rect_setProfileDuration.
  destruct (Req_EM_T (p2 - p1) 0) as [Q|_]; [exfalso; lra|].
  destruct (Req_EM_T T 0) as [Q|_]; [exfalso; lra|].
  destruct (Rlt_dec (re_maxvel r) ((p2 - p1) / T)) as [L|L].
  - destruct (Req_EM_T (re_maxvel r) 0) as [Q|_]; [exfalso; lra|].
    assert (HD : 0 < p2 - p1). { assert (re_maxvel r * T < p2 - p1) by (apply Rdiv_lt_iff; assumption). nra. }
    assert (HT' : 0 < (p2 - p1) / re_maxvel r) by (apply Rdiv_lt_0_compat; lra).
    destruct (rect_ramp (re_maxvel r) p1 p2 (re_maxvel r) N HT') as (pos & vel & E & Rm).
    eexists _, pos, vel. split; [reflexivity|]. cbv zeta. split; [exact E|]. split; [exact HT'|].
    replace ((p2 - p1) / ((p2 - p1) / re_maxvel r)) with (re_maxvel r) by (field; lra).
    split; [exact Rm|]. intros _. destruct Rm as (_ & _ & _ & Lm & _). rewrite Rabs_right in Lm by lra. exact Lm.
  - assert (Hne : (p2 - p1) / T <> 0).
    { intros Q. assert (p2 - p1 = (p2 - p1) / T * T) by (field; lra). rewrite Q in H. lra. }
    destruct (Req_EM_T ((p2 - p1) / T) 0) as [Q|_]; [exfalso; apply Hne; exact Q|].
    assert (ET : (p2 - p1) / ((p2 - p1) / T) = T) by (field; split; lra).
    destruct (rect_ramp (re_maxvel r) p1 p2 ((p2 - p1) / T) N) as (pos & vel & E & Rm); [rewrite ET; exact HT|].
    rewrite ET in E, Rm. rewrite ET.
    eexists _, pos, vel. split; [reflexivity|]. cbv zeta. split; [exact E|]. split; [exact HT|].
    split; [exact Rm|]. intros Hlt. destruct Rm as (_ & _ & _ & Lm & _).
    assert (0 < (p2 - p1) / T) by (apply Rdiv_lt_0_compat; lra).
    rewrite Rabs_right in Lm by lra. apply (limited_le ((p2 - p1) / T)); [lra|exact Lm].
Qed.

Lemma rect_reverse_refuted : exists r' v, rect_setProfileDuration (rect_make 1) 10 0 1 = Ret r' /\
  rect_vel r' (1 / 2) = VVal v /\ Rabs v = 10.
Proof.
  unfold rect_setProfileDuration. simpl. destruct (Req_EM_T (0 - 10) 0) as [Q|_]; [exfalso; lra|].
  destruct (Req_EM_T 1 0) as [Q|_]; [exfalso; lra|]. replace ((0 - 10) / 1) with (-10) by field.
  destruct (Rlt_dec 1 (-10)) as [Q|_]; [exfalso; lra|]. destruct (Req_EM_T (-10) 0) as [Q|_]; [exfalso; lra|].
  eexists _, _. split; [reflexivity|]. unfold rect_vel. cbn [re_plan rp_d rp_v].
  replace ((0 - 10) / -10) with 1 by field. rdec. split; [reflexivity|]. rewrite Rabs_left; lra.
Qed.

Lemma rect_zero_duration_refuted : exists r' d, rect_setProfileDuration (rect_make 1) 10 0 0 = Ret r' /\
  rect_duration r' = VVal d /\ d = -10.
Proof.
  unfold rect_setProfileDuration. simpl. destruct (Req_EM_T (0 - 10) 0) as [Q|_]; [exfalso; lra|].
  destruct (Req_EM_T 0 0) as [_|Q]; [|exfalso; lra]. destruct (Req_EM_T 1 0) as [Q|_]; [exfalso; lra|].
  eexists _, _. split; [reflexivity|]. split; [reflexivity|]. simpl. field.
Qed.

Lemma rect_clone_same : forall r r' p1 p2, 0 < re_maxvel r ->
  rect_setProfile r p1 p2 = Ret r' \/ (exists T, 0 < T /\ rect_setProfileDuration r p1 p2 T = Ret r') ->
  rect_clone r' = Ret r'.
Proof.
  intros r r' p1 p2 Hv H.
  assert (K : exists d p v, r' = mkRect (re_maxvel r) (Some (mkRP d p v)) /\ ((v = 0 /\ 0 <= d) \/ (v <> 0 /\ d <> 0 /\ v <= re_maxvel r))).
  { destruct H as [H|(T & HT & H)].
    - unfold rect_setProfile in H. destruct (Req_EM_T (p2 - p1) 0) as [Q|Q].
      + injection H as <-. exists 0, p1, 0. split; [reflexivity|left; lra].
      + destruct (Rlt_dec 0 (p2 - p1)) as [L|L].
        * destruct (Req_EM_T (re_maxvel r) 0) as [Q'|_]; [exfalso; lra|]. injection H as <-.
          eexists _, _, _. split; [reflexivity|]. right. split; [lra|]. split; [|lra].
          assert (0 < (p2 - p1) / re_maxvel r) by (apply Rdiv_lt_0_compat; lra). lra.
        * destruct (Req_EM_T (- re_maxvel r) 0) as [Q'|_]; [exfalso; lra|]. injection H as <-.
          eexists _, _, _. split; [reflexivity|]. right. split; [lra|]. split; [|lra].
          assert (0 < - (p2 - p1) / re_maxvel r) by (apply Rdiv_lt_0_compat; lra).
          replace ((p2 - p1) / - re_maxvel r) with (- (p2 - p1) / re_maxvel r) by (field; lra). lra.
    - unfold rect_setProfileDuration in H. destruct (Req_EM_T (p2 - p1) 0) as [Q|Q].
      + injection H as <-. exists T, p1, 0. split; [reflexivity|left; lra].
      + destruct (Req_EM_T T 0) as [Q'|_]; [exfalso; lra|].
        destruct (Rlt_dec (re_maxvel r) ((p2 - p1) / T)) as [L|L].
        * destruct (Req_EM_T (re_maxvel r) 0) as [Q'|_]; [exfalso; lra|]. injection H as <-.
          eexists _, _, _. split; [reflexivity|]. right. split; [lra|]. split; [|lra].
          intros Z. assert (p2 - p1 = (p2 - p1) / re_maxvel r * re_maxvel r) by (field; lra). rewrite Z in H. lra.
        * destruct (Req_EM_T ((p2 - p1) / T) 0) as [Q'|Q']; [discriminate H|]. injection H as <-.
          eexists _, _, _. split; [reflexivity|]. right. split; [exact Q'|]. split; [|lra].
          replace ((p2 - p1) / ((p2 - p1) / T)) with T by (field; split; lra). lra. }
  destruct K as (d & p & v & -> & K). unfold rect_clone. cbn [re_plan re_maxvel rp_d rp_p rp_v].
  unfold rect_setProfileDuration. cbn [re_maxvel rect_make].
  replace (p + v * d - p) with (v * d) by ring.
  destruct K as [(-> & _)|(K1 & K2 & K3)].
  - destruct (Req_EM_T (0 * d) 0) as [_|Q]; [reflexivity|exfalso; lra].
  - destruct (Req_EM_T (v * d) 0) as [Q|_]; [exfalso; apply Rmult_integral in Q; tauto|].
    destruct (Req_EM_T d 0) as [Q|_]; [exfalso; tauto|].
    replace (v * d / d) with v by (field; exact K2). destruct (Rlt_dec (re_maxvel r) v) as [Q|_]; [exfalso; lra|].
    destruct (Req_EM_T v 0) as [Q|_]; [exfalso; tauto|].
    replace (v * d / v) with d by (field; exact K1). reflexivity.
Qed.

(** * Dirac *)
Lemma dirac_jump : forall d p1 p2, let d' := dirac_setProfile d p1 p2 in
  dirac_duration d' = VVal 0 /\ (forall t, t <= 0 -> dirac_pos d' t = VVal p1) /\
  (forall t, 0 < t -> dirac_pos d' t = VVal p2) /\ (forall t, dirac_vel d' t = VThrow).
Proof.
  intros d p1 p2 d'. unfold d', dirac_setProfile, dirac_duration, dirac_pos, dirac_vel; simpl.
  destruct (Req_EM_T 0 0) as [_|Q]; [|exfalso; lra].
  repeat split; intros; rdec; reflexivity.
Qed.

Lemma dirac_ramp : forall d p1 p2 T, 0 < T -> exists pos vel,
  evaluates_noacc (PDirac (dirac_setProfileDuration d p1 p2 T)) T pos vel /\
  moves p1 p2 T pos /\ continuous pos /\ velocity_on 0 T pos vel /\ limited (Rabs ((p2 - p1) / T)) vel.
Proof.
  intros d p1 p2 T HT. pose proof (ramp_motion p1 p2 ((p2 - p1) / T) T HT ltac:(field; lra)) as Rm.
  cbv zeta in Rm. destruct Rm as (M & C & V & L & W).
  set (pos := fun t => _) in M, C, V. set (vel := fun t => _) in V, L, W.
  exists pos, (fun t => if Rlt_dec 0 t then if Rlt_dec t T then (p2 - p1) / T else 0 else 0).
  split; [|split; [exact M|split; [exact C|split]]].
  - split; [reflexivity|]. intros t. simpl. destruct (Req_EM_T T 0) as [Q|_]; [exfalso; lra|].
    split; unfold pos; rdec; f_equal; try reflexivity; try ring. field. lra.
  - intros t Ht. replace (if Rlt_dec 0 t then if Rlt_dec t T then (p2 - p1) / T else 0 else 0) with (vel t); [apply V; exact Ht|].
    unfold vel. rdec. reflexivity.
  - intros t. pose proof (Rabs_pos ((p2 - p1) / T)). rdec; try rewrite Rabs_R0; lra.
Qed.

Lemma dirac_clone_same : forall d p, d = Some p -> dirac_clone d = Ret d.
Proof. intros d [a b c] ->. reflexivity. Qed.

(** * Spline *)
Lemma spline_velocity : forall s, velocity (spline_pos s) (spline_vel s).
Proof.
  intros [c0 c1 c2 c3 c4 c5 dur] t. unfold spline_pos, spline_vel; cbn [gen_power sp_c0 sp_c1 sp_c2 sp_c3 sp_c4 sp_c5].
  cut (derivable_pt_lim (fun time => c0 + c1 * time ^ 1 + c2 * time ^ 2 + c3 * time ^ 3 + c4 * time ^ 4 + c5 * time ^ 5) t
    (0 + c1 * (INR 1 * t ^ 0) + c2 * (INR 2 * t ^ 1) + c3 * (INR 3 * t ^ 2) + c4 * (INR 4 * t ^ 3) + c5 * (INR 5 * t ^ 4))).
  { intros H. refine (dl_local _ _ t _ 1 ltac:(lra) _ _); [|].
    2: { match type of H with derivable_pt_lim _ _ ?l =>
           match goal with |- derivable_pt_lim _ _ ?m => replace m with l; [exact H|simpl INR; simpl; ring] end end. }
    intros y _. simpl. ring. }
  assert (D : forall c n, derivable_pt_lim (fun y => c * y ^ n) t (c * (INR n * t ^ pred n))).
  { intros c n. apply derivable_pt_lim_scal. apply derivable_pt_lim_pow. }
  repeat match goal with |- derivable_pt_lim (fun y => ?f + c5 * y ^ 5) _ _ => idtac end.
  apply (derivable_pt_lim_plus (fun y => c0 + c1 * y ^ 1 + c2 * y ^ 2 + c3 * y ^ 3 + c4 * y ^ 4)); [|apply (D c5 5%nat)].
  apply (derivable_pt_lim_plus (fun y => c0 + c1 * y ^ 1 + c2 * y ^ 2 + c3 * y ^ 3)); [|apply (D c4 4%nat)].
  apply (derivable_pt_lim_plus (fun y => c0 + c1 * y ^ 1 + c2 * y ^ 2)); [|apply (D c3 3%nat)].
  apply (derivable_pt_lim_plus (fun y => c0 + c1 * y ^ 1)); [|apply (D c2 2%nat)].
  apply (derivable_pt_lim_plus (fun y => c0)); [apply derivable_pt_lim_const|apply (D c1 1%nat)].
Qed.

Lemma spline_acceleration : forall s, velocity (spline_vel s) (spline_acc s).
Proof.
  intros [c0 c1 c2 c3 c4 c5 dur] t.
  pose proof (spline_velocity (mkSpline c1 (2 * c2) (3 * c3) (4 * c4) (5 * c5) 0 dur) t) as H.
  refine (dl_local _ _ t _ 1 ltac:(lra) _ _).
  2: { match type of H with derivable_pt_lim _ _ ?l =>
         match goal with |- derivable_pt_lim _ _ ?m => replace m with l; [exact H|] end end.
       unfold spline_vel, spline_acc; simpl; ring. }
  intros y _. unfold spline_pos, spline_vel; simpl. ring.
Qed.

Lemma spline_linear_ends : forall p1 p2 T, dbl_epsilon < T -> let s := spline_linear p1 p2 T in
  spline_duration s = T /\ spline_pos s 0 = p1 /\ spline_pos s T = p2 /\
  (forall t, spline_vel s t = (p2 - p1) / T).
Proof.
  intros p1 p2 T HT s. unfold s, spline_linear. destruct (Rle_dec T dbl_epsilon) as [Q|_]; [exfalso; lra|].
  assert (He : 0 < dbl_epsilon) by (unfold dbl_epsilon; apply Rinv_0_lt_compat; apply pow_lt; lra).
  unfold spline_duration, spline_pos, spline_vel; simpl. split; [reflexivity|].
  split; [ring|]. split; [field; lra|]. intros t. ring.
Qed.

Lemma spline_cubic_ends : forall p1 v1 p2 v2 T, dbl_epsilon < T -> let s := spline_cubic p1 v1 p2 v2 T in
  spline_duration s = T /\ spline_pos s 0 = p1 /\ spline_vel s 0 = v1 /\ spline_pos s T = p2 /\ spline_vel s T = v2.
Proof.
  intros p1 v1 p2 v2 T HT s. unfold s, spline_cubic. destruct (Rle_dec T dbl_epsilon) as [Q|_]; [exfalso; lra|].
  assert (He : 0 < dbl_epsilon) by (unfold dbl_epsilon; apply Rinv_0_lt_compat; apply pow_lt; lra).
  unfold spline_duration, spline_pos, spline_vel; simpl. split; [reflexivity|].
  split; [ring|]. split; [ring|]. split; field; lra.
Qed.

Lemma spline_quintic_ends : forall p1 v1 a1 p2 v2 a2 T, dbl_epsilon < T -> let s := spline_quintic p1 v1 a1 p2 v2 a2 T in
  spline_duration s = T /\ spline_pos s 0 = p1 /\ spline_vel s 0 = v1 /\ spline_acc s 0 = a1 /\
  spline_pos s T = p2 /\ spline_vel s T = v2 /\ spline_acc s T = a2.
Proof.
  intros p1 v1 a1 p2 v2 a2 T HT s. unfold s, spline_quintic. destruct (Rle_dec T dbl_epsilon) as [Q|_]; [exfalso; lra|].
  assert (He : 0 < dbl_epsilon) by (unfold dbl_epsilon; apply Rinv_0_lt_compat; apply pow_lt; lra).
  unfold spline_duration, spline_pos, spline_vel, spline_acc; simpl. split; [reflexivity|].
  split; [ring|]. split; [ring|]. split; [field; lra|]. split; [|split]; field; lra.
Qed.

(** below the machine epsilon the profile degenerates: the linear one stays at
    its start, the others sit on (the tangent of) their end *)
Lemma spline_degenerate : forall p1 v1 a1 p2 v2 a2 T, T <= dbl_epsilon ->
  spline_pos (spline_linear p1 p2 T) 0 = p1 /\ (forall t, spline_pos (spline_linear p1 p2 T) t = p1) /\
  spline_pos (spline_cubic p1 v1 p2 v2 T) 0 = p2 /\ spline_vel (spline_cubic p1 v1 p2 v2 T) 0 = v2 /\
  spline_pos (spline_quintic p1 v1 a1 p2 v2 a2 T) 0 = p2 /\ spline_vel (spline_quintic p1 v1 a1 p2 v2 a2 T) 0 = v2 /\
  spline_acc (spline_quintic p1 v1 a1 p2 v2 a2 T) 0 = a2.
Proof.
  intros. unfold spline_linear, spline_cubic, spline_quintic. destruct (Rle_dec T dbl_epsilon) as [_|Q]; [|exfalso; lra].
  unfold spline_pos, spline_vel, spline_acc; simpl. repeat split; intros; field.
Qed.

Lemma spline_no_hold : let s := spline_linear 0 1 1 in spline_pos s 2 = 2 /\ spline_pos s (-1) = -1.
Proof.
  unfold spline_linear. destruct (Rle_dec 1 dbl_epsilon) as [Q|_].
  - exfalso. assert (dbl_epsilon < 1). { unfold dbl_epsilon. rewrite <- Rinv_1. apply Rinv_lt_contravar; [rewrite Rmult_1_l; apply pow_lt; lra|].
      apply Rlt_pow_R1; [lra|]. apply Nat.lt_0_succ. } lra.
  - unfold spline_pos; simpl. split; field.
Qed.

Lemma spline_clone_same : forall s, spline_clone s = s.
Proof. intros []. reflexivity. Qed.
