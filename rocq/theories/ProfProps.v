(** Property theorems C40-C43, C60 and C61 (velocity profiles).  Definitions:
    ProfModel.v (code), ProfSpec.v (specification vocabulary). *)
From Coq Require Import Reals.
From Verif Require Import FramesModel Outcome ProfModel ProfSpec ProfProofs ProfProofs2 ProfProofs3 ProfProofs4 ProfWitness.
Local Open Scope R_scope.

(** ** C40: SetProfile *)
Theorem C40_trap_profile : forall t0 p1 p2, 0 < tr_maxvel t0 -> 0 < tr_maxacc t0 ->
  exists t, trap_setProfile t0 p1 p2 = Ret t /\
    tr_maxvel t = tr_maxvel t0 /\ tr_maxacc t = tr_maxacc t0 /\
    good_motion p1 p2 (trap_duration t) (tr_maxvel t0) (tr_maxacc t0) (trap_pos t) (trap_vel t) (trap_acc t) /\
    (trap_duration t = 0 <-> p1 = p2).
Proof. exact trap_profile. Qed.
Print Assumptions C40_trap_profile.

Theorem C40_limits_keep_old_object : forall t t' p1 p2, tr_maxvel t = tr_maxvel t' -> tr_maxacc t = tr_maxacc t' ->
  trap_setProfile t p1 p2 = trap_setProfile t' p1 p2.
Proof. exact trap_set_old. Qed.
Print Assumptions C40_limits_keep_old_object.


(** ** C41: SetProfileDuration and SetProfileVelocity *)
Theorem C41_duration : forall t0 tmin p1 p2 T, 0 < tr_maxvel t0 -> 0 < tr_maxacc t0 ->
  trap_setProfile t0 p1 p2 = Ret tmin -> 0 < T ->
  (T < trap_duration tmin -> trap_setProfileDuration t0 p1 p2 T = Ret tmin) /\
  (trap_duration tmin <= T -> exists t, trap_setProfileDuration t0 p1 p2 T = Ret t /\
     trap_duration t = T /\
     (forall time, trap_pos t time = trap_pos tmin (time * (trap_duration tmin / T))) /\
     good_motion p1 p2 T (tr_maxvel t0) (tr_maxacc t0) (trap_pos t) (trap_vel t) (trap_acc t)).
Proof. exact trap_profile_duration. Qed.
Print Assumptions C41_duration.

Theorem C41_velocity : forall t0 tmin p1 p2 v, 0 < tr_maxvel t0 -> 0 < tr_maxacc t0 ->
  trap_setProfile t0 p1 p2 = Ret tmin ->
  let f := clamp kdl_epsilon 1 v in
  exists t, trap_setProfileVelocity t0 p1 p2 v = Ret t /\
     trap_duration t = trap_duration tmin / f /\
     (forall time, trap_pos t time = trap_pos tmin (time * f)) /\
     good_motion p1 p2 (trap_duration tmin / f) (f * tr_maxvel t0) (f * f * tr_maxacc t0)
       (trap_pos t) (trap_vel t) (trap_acc t).
Proof. exact trap_profile_velocity. Qed.
Print Assumptions C41_velocity.

(** a standing profile cannot be given a zero duration: the code computes 0/0 *)
Theorem C41_standstill_refuted : forall t0 p, 0 < tr_maxvel t0 -> 0 < tr_maxacc t0 ->
  exists t, trap_setProfile t0 p p = Ret t /\ trap_setProfileDuration t0 p p 0 = Undef /\ trap_clone t = Undef.
Proof. exact trap_standstill. Qed.
Print Assumptions C41_standstill_refuted.


(** ** C60: the planned profile is the fastest admissible one *)
Theorem C60_time_optimal : forall t0 t p1 p2 T pos vel, 0 < tr_maxvel t0 -> 0 < tr_maxacc t0 ->
  trap_setProfile t0 p1 p2 = Ret t ->
  admissible p1 p2 (tr_maxvel t0) (tr_maxacc t0) T pos vel -> trap_duration t <= T.
Proof. exact trap_optimal. Qed.
Print Assumptions C60_time_optimal.

Theorem C60_attained : forall t0 t p1 p2, 0 < tr_maxvel t0 -> 0 < tr_maxacc t0 ->
  trap_setProfile t0 p1 p2 = Ret t ->
  admissible p1 p2 (tr_maxvel t0) (tr_maxacc t0) (trap_duration t) (trap_pos t) (trap_vel t).
Proof. exact trap_admissible. Qed.
Print Assumptions C60_attained.


(** ** C42: half-trapezoidal, rectangular and impulse profiles *)
Theorem C42_half_profile : forall h p1 p2, 0 < th_maxvel h -> 0 < th_maxacc h -> p1 <> p2 ->
  exists h' T pos vel acc, half_setProfile h p1 p2 = Ret h' /\ evaluates (PHalf h') T pos vel acc /\
    half_motion p1 p2 T (th_maxvel h) (th_maxacc h) pos vel acc /\
    half_ends (th_starting h) (peak (th_maxvel h) (th_maxacc h) p1 p2) T vel /\ 0 < T.
Proof. exact half_profile. Qed.
Print Assumptions C42_half_profile.

Theorem C42_half_duration : forall h hmin p1 p2 T, 0 < th_maxvel h -> 0 < th_maxacc h -> p1 <> p2 ->
  half_setProfile h p1 p2 = Ret hmin -> 0 < T ->
  exists dmin, half_duration hmin = VVal dmin /\
  (T < dmin -> half_setProfileDuration h p1 p2 T = Ret hmin) /\
  (dmin <= T -> exists h' pos vel acc a, half_setProfileDuration h p1 p2 T = Ret h' /\
     evaluates (PHalf h') T pos vel acc /\ half_motion p1 p2 T (th_maxvel h) a pos vel acc /\
     half_ends (th_starting h) (th_maxvel h) T vel /\
     (th_maxvel h * th_maxvel h <= 2 * Rabs (p2 - p1) * th_maxacc h -> a <= th_maxacc h)).
Proof. exact half_profile_duration. Qed.
Print Assumptions C42_half_duration.

Theorem C42_half_standstill_refuted : forall h p, 0 < th_maxvel h -> half_setProfile h p p = Undef.
Proof. exact half_standstill. Qed.
Print Assumptions C42_half_standstill_refuted.

Theorem C42_half_acceleration_refuted : exists h', half_setProfileDuration (half_make 10 1 true) 0 1 2 = Ret h' /\
  half_acc h' (1.9) = VVal 50.
Proof. exact half_acc_refuted. Qed.
Print Assumptions C42_half_acceleration_refuted.

Theorem C42_rect_profile : forall r p1 p2, 0 < re_maxvel r -> p1 <> p2 ->
  exists r' pos vel, rect_setProfile r p1 p2 = Ret r' /\
    let T := Rabs (p2 - p1) / re_maxvel r in
    evaluates_noacc (PRect r') T pos vel /\ 0 < T /\
    ramp p1 p2 T ((p2 - p1) / T) pos vel /\ limited (re_maxvel r) vel.
Proof. exact rect_profile. Qed.
Print Assumptions C42_rect_profile.

Theorem C42_rect_still : forall r p, exists r' pos vel, rect_setProfile r p p = Ret r' /\
  evaluates_noacc (PRect r') 0 pos vel /\ (forall t, pos t = p) /\ (forall t, vel t = 0).
Proof. exact rect_profile_still. Qed.
Print Assumptions C42_rect_still.

Theorem C42_rect_duration : forall r p1 p2 T, 0 < re_maxvel r -> p1 <> p2 -> 0 < T ->
  exists r' pos vel, rect_setProfileDuration r p1 p2 T = Ret r' /\
    let T' := if Rlt_dec (re_maxvel r) ((p2 - p1) / T) then (p2 - p1) / re_maxvel r else T in
    evaluates_noacc (PRect r') T' pos vel /\ 0 < T' /\
    ramp p1 p2 T' ((p2 - p1) / T') pos vel /\ (p1 < p2 -> limited (re_maxvel r) vel).
Proof. exact rect_profile_duration. Qed.
Print Assumptions C42_rect_duration.

Theorem C42_rect_reverse_limit_refuted : exists r' v, rect_setProfileDuration (rect_make 1) 10 0 1 = Ret r' /\
  rect_vel r' (1 / 2) = VVal v /\ Rabs v = 10.
Proof. exact rect_reverse_refuted. Qed.
Print Assumptions C42_rect_reverse_limit_refuted.

Theorem C42_rect_zero_duration_refuted : exists r' d, rect_setProfileDuration (rect_make 1) 10 0 0 = Ret r' /\
  rect_duration r' = VVal d /\ d = -10.
Proof. exact rect_zero_duration_refuted. Qed.
Print Assumptions C42_rect_zero_duration_refuted.

Theorem C42_dirac_jump : forall d p1 p2, let d' := dirac_setProfile d p1 p2 in
  dirac_duration d' = VVal 0 /\ (forall t, t <= 0 -> dirac_pos d' t = VVal p1) /\
  (forall t, 0 < t -> dirac_pos d' t = VVal p2) /\ (forall t, dirac_vel d' t = VThrow).
Proof. exact dirac_jump. Qed.
Print Assumptions C42_dirac_jump.

Theorem C42_dirac_ramp : forall d p1 p2 T, 0 < T -> exists pos vel,
  evaluates_noacc (PDirac (dirac_setProfileDuration d p1 p2 T)) T pos vel /\
  moves p1 p2 T pos /\ continuous pos /\ velocity_on 0 T pos vel /\ limited (Rabs ((p2 - p1) / T)) vel.
Proof. exact dirac_ramp. Qed.
Print Assumptions C42_dirac_ramp.


(** ** C43: splines *)
Theorem C43_velocity : forall s, velocity (spline_pos s) (spline_vel s).
Proof. exact spline_velocity. Qed.
Print Assumptions C43_velocity.

Theorem C43_acceleration : forall s, velocity (spline_vel s) (spline_acc s).
Proof. exact spline_acceleration. Qed.
Print Assumptions C43_acceleration.

Theorem C43_linear : forall p1 p2 T, dbl_epsilon < T -> let s := spline_linear p1 p2 T in
  spline_duration s = T /\ spline_pos s 0 = p1 /\ spline_pos s T = p2 /\
  (forall t, spline_vel s t = (p2 - p1) / T).
Proof. exact spline_linear_ends. Qed.
Print Assumptions C43_linear.

Theorem C43_cubic : forall p1 v1 p2 v2 T, dbl_epsilon < T -> let s := spline_cubic p1 v1 p2 v2 T in
  spline_duration s = T /\ spline_pos s 0 = p1 /\ spline_vel s 0 = v1 /\ spline_pos s T = p2 /\ spline_vel s T = v2.
Proof. exact spline_cubic_ends. Qed.
Print Assumptions C43_cubic.

Theorem C43_quintic : forall p1 v1 a1 p2 v2 a2 T, dbl_epsilon < T -> let s := spline_quintic p1 v1 a1 p2 v2 a2 T in
  spline_duration s = T /\ spline_pos s 0 = p1 /\ spline_vel s 0 = v1 /\ spline_acc s 0 = a1 /\
  spline_pos s T = p2 /\ spline_vel s T = v2 /\ spline_acc s T = a2.
Proof. exact spline_quintic_ends. Qed.
Print Assumptions C43_quintic.

Theorem C43_degenerate : forall p1 v1 a1 p2 v2 a2 T, T <= dbl_epsilon ->
  spline_pos (spline_linear p1 p2 T) 0 = p1 /\ (forall t, spline_pos (spline_linear p1 p2 T) t = p1) /\
  spline_pos (spline_cubic p1 v1 p2 v2 T) 0 = p2 /\ spline_vel (spline_cubic p1 v1 p2 v2 T) 0 = v2 /\
  spline_pos (spline_quintic p1 v1 a1 p2 v2 a2 T) 0 = p2 /\ spline_vel (spline_quintic p1 v1 a1 p2 v2 a2 T) 0 = v2 /\
  spline_acc (spline_quintic p1 v1 a1 p2 v2 a2 T) 0 = a2.
Proof. exact spline_degenerate. Qed.
Print Assumptions C43_degenerate.

Theorem C43_held_outside_refuted : let s := spline_linear 0 1 1 in spline_pos s 2 = 2 /\ spline_pos s (-1) = -1.
Proof. exact spline_no_hold. Qed.
Print Assumptions C43_held_outside_refuted.


(** ** C61: Clone *)
Theorem C61_trap_clone : forall t0 t p1 p2, 0 < tr_maxvel t0 -> 0 < tr_maxacc t0 -> p1 <> p2 ->
  trap_setProfile t0 p1 p2 = Ret t \/ (exists T, 0 < T /\ trap_setProfileDuration t0 p1 p2 T = Ret t) \/
  (exists v, trap_setProfileVelocity t0 p1 p2 v = Ret t) ->
  trap_clone t = Ret t.
Proof. exact trap_clone_same. Qed.
Print Assumptions C61_trap_clone.

Theorem C61_rect_clone : forall r r' p1 p2, 0 < re_maxvel r ->
  rect_setProfile r p1 p2 = Ret r' \/ (exists T, 0 < T /\ rect_setProfileDuration r p1 p2 T = Ret r') ->
  rect_clone r' = Ret r'.
Proof. exact rect_clone_same. Qed.
Print Assumptions C61_rect_clone.

Theorem C61_dirac_clone : forall d p, d = Some p -> dirac_clone d = Ret d.
Proof. exact dirac_clone_same. Qed.
Print Assumptions C61_dirac_clone.

Theorem C61_spline_clone : forall s, spline_clone s = s.
Proof. exact spline_clone_same. Qed.
Print Assumptions C61_spline_clone.

Theorem C61_half_clone_refuted : exists h h', half_setProfile (half_make 10 1 true) 0 1 = Ret h /\
  half_clone h = Ret h' /\ half_pos h 1 = VVal (1 / 2) /\ half_pos h' 1 = VVal 0.
Proof. exact half_clone_refuted. Qed.
Print Assumptions C61_half_clone_refuted.


(** ** The hypotheses are satisfiable *)
Theorem C40_witness :
  (exists t, trap_setProfile (trap_make 1 1) 0 3 = Ret t /\ trap_duration t = 4 /\ trap_vel t 2 = 1) /\
  (exists t, trap_setProfile (trap_make 1 1) (1 / 4) 0 = Ret t /\ trap_duration t = 1 /\ trap_vel t (1 / 2) = - (1 / 2)).
Proof. exact prof_witness. Qed.
Print Assumptions C40_witness.

