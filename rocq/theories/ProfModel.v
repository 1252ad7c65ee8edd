(** Model of the velocity profiles.

    Sources: /repo/orocos_kdl/src/velocityprofile.hpp, velocityprofile_trap.cpp,
    velocityprofile_traphalf.cpp, velocityprofile_rect.{hpp,cpp},
    velocityprofile_dirac.{hpp,cpp}, velocityprofile_spline.cpp.

    Doubles are idealised as reals.  Where a C++ division can have a zero
    divisor the model says what becomes of the quotient: a switching time that
    is NaN is [None] (every comparison with it is false), and a planning call
    whose coefficients or duration become NaN gives [Undef]. *)
From Coq Require Import Reals List Bool.
From Verif Require Import FramesModel Outcome.
Local Open Scope R_scope.

(** The result of an evaluation call: a number, the exception
    Error_MotionPlanning_Incompatible, or a read of a member that was never
    written. *)
Inductive vres : Type := VVal (r : R) | VThrow | VUndef.

(** A time that may be NaN. *)
Definition ltN (x : R) (t : option R) : bool :=
  match t with Some v => if Rlt_dec x v then true else false | None => false end.
(** [t /= f] on a possibly-NaN time: 0/0 is NaN.  Only reached with a divisor
    that is nonzero or with [t] zero; see [scale_plan]. *)
Definition divN (t : option R) (f : R) : option R :=
  match t with Some v => if Req_EM_T f 0 then None else Some (v / f) | None => None end.

(** The planned motion of a trapezoidal profile: members a1..c3, duration, t1,
    t2, startpos, endpos of VelocityProfile_Trap (velocityprofile_trap.hpp:63-73)
    and of VelocityProfile_TrapHalf (velocityprofile_traphalf.hpp:66-73). *)
Record Plan := mkPlan {
  pa1 : R; pa2 : R; pa3 : R; pb1 : R; pb2 : R; pb3 : R; pc1 : R; pc2 : R; pc3 : R;
  pdur : R; pt1 : option R; pt2 : option R; pstart : R; pend : R }.

(** velocityprofile_trap.cpp:139-151, velocityprofile_traphalf.cpp:144-156 *)
Definition plan_pos (p : Plan) (time : R) : R :=
  if Rlt_dec time 0 then pstart p
  else if ltN time (pt1 p) then pa1 p + time * (pa2 p + pa3 p * time)
  else if ltN time (pt2 p) then pb1 p + time * (pb2 p + pb3 p * time)
  else if Rle_dec time (pdur p) then pc1 p + time * (pc2 p + pc3 p * time)
  else pend p.

(** velocityprofile_trap.cpp:152-164, velocityprofile_traphalf.cpp:157-169 *)
Definition plan_vel (p : Plan) (time : R) : R :=
  if Rlt_dec time 0 then 0
  else if ltN time (pt1 p) then pa2 p + 2 * pa3 p * time
  else if ltN time (pt2 p) then pb2 p + 2 * pb3 p * time
  else if Rle_dec time (pdur p) then pc2 p + 2 * pc3 p * time
  else 0.

(** velocityprofile_trap.cpp:166-178, velocityprofile_traphalf.cpp:171-183 *)
Definition plan_acc (p : Plan) (time : R) : R :=
  if Rlt_dec time 0 then 0
  else if ltN time (pt1 p) then 2 * pa3 p
  else if ltN time (pt2 p) then 2 * pb3 p
  else if Rle_dec time (pdur p) then 2 * pc3 p
  else 0.

(** * VelocityProfile_Trap *)
Record Trap := mkTrap { tr_maxvel : R; tr_maxacc : R; tr_plan : Plan }.

(** velocityprofile_trap.cpp:49-57 *)
Definition trap_make (maxvel maxacc : R) : Trap :=
  mkTrap maxvel maxacc (mkPlan 0 0 0 0 0 0 0 0 0 0 (Some 0) (Some 0) 0 0).

(** velocityprofile_trap.cpp:130-133 *)
Definition trap_setMax (t : Trap) (maxvel maxacc : R) : Trap := mkTrap maxvel maxacc (tr_plan t).

(** velocityprofile_trap.cpp:61-89.  Simplification: with a zero limit the
    quotients of lines 64 and 67 are infinite or NaN; the model gives [Undef]. *)
Definition trap_setProfile (t : Trap) (pos1 pos2 : R) : outcome Trap :=
  let maxvel := tr_maxvel t in
  let maxacc := tr_maxacc t in
  if Req_EM_T maxvel 0 then Undef else if Req_EM_T maxacc 0 then Undef else
  let startpos := pos1 in
  let endpos := pos2 in
  let t1 := maxvel / maxacc in
  let s := sign (endpos - startpos) in
  let deltax1 := s * maxacc * sqr t1 / 2 in
  let deltaT := (endpos - startpos - 2 * deltax1) / (s * maxvel) in
  let '(t1, duration, t2) :=
    if Rlt_dec 0 deltaT then (t1, 2 * t1 + deltaT, 2 * t1 + deltaT - t1)
    else let t1 := sqrt ((endpos - startpos) / s / maxacc) in (t1, t1 * 2, t1) in
  let a3 := s * maxacc / 2 in
  let a2 := 0 in
  let a1 := startpos in
  let b3 := 0 in
  let b2 := a2 + 2 * a3 * t1 - 2 * b3 * t1 in
  let b1 := a1 + t1 * (a2 + a3 * t1) - t1 * (b2 + t1 * b3) in
  let c3 := - s * maxacc / 2 in
  let c2 := b2 + 2 * b3 * t2 - 2 * c3 * t2 in
  let c1 := b1 + t2 * (b2 + b3 * t2) - t2 * (c2 + t2 * c3) in
  Ret (mkTrap maxvel maxacc
         (mkPlan a1 a2 a3 b1 b2 b3 c1 c2 c3 duration (Some t1) (Some t2) startpos endpos)).

(** velocityprofile_trap.cpp:100-108 and 119-127: the plan slowed down by [factor]. *)
Definition scale_plan (p : Plan) (factor newduration : R) : Plan :=
  mkPlan (pa1 p) (pa2 p * factor) (pa3 p * (factor * factor))
         (pb1 p) (pb2 p * factor) (pb3 p * (factor * factor))
         (pc1 p) (pc2 p * factor) (pc3 p * (factor * factor))
         newduration (divN (pt1 p) factor) (divN (pt2 p) factor) (pstart p) (pend p).

(** velocityprofile_trap.cpp:91-109.  A zero [newduration] makes the factor of
    line 97 infinite (return at line 99) when the planned duration is positive,
    and NaN (all coefficients NaN) when it is zero. *)
Definition trap_setProfileDuration (t : Trap) (pos1 pos2 newduration : R) : outcome Trap :=
  let! t := trap_setProfile t pos1 pos2 in
  let p := tr_plan t in
  if Req_EM_T newduration 0 then
    if Rlt_dec 0 (pdur p) then Ret t else Undef
  else
    let factor := pdur p / newduration in
    if Rlt_dec 1 factor then Ret t
    else Ret (mkTrap (tr_maxvel t) (tr_maxacc t) (scale_plan p factor newduration)).

(** velocityprofile_trap.cpp:111-128 *)
Definition trap_setProfileVelocity (t : Trap) (pos1 pos2 newvelocity : R) : outcome Trap :=
  let! t := trap_setProfile t pos1 pos2 in
  let p := tr_plan t in
  let factor := newvelocity in
  let factor := if Rlt_dec 1 factor then 1 else factor in
  let factor := if Rlt_dec factor kdl_epsilon then kdl_epsilon else factor in
  Ret (mkTrap (tr_maxvel t) (tr_maxacc t) (scale_plan p factor (pdur p / factor))).

(** velocityprofile_trap.cpp:135-178 *)
Definition trap_duration (t : Trap) : R := pdur (tr_plan t).
Definition trap_pos (t : Trap) (time : R) : R := plan_pos (tr_plan t) time.
Definition trap_vel (t : Trap) (time : R) : R := plan_vel (tr_plan t) time.
Definition trap_acc (t : Trap) (time : R) : R := plan_acc (tr_plan t) time.

(** velocityprofile_trap.cpp:180-184 *)
Definition trap_clone (t : Trap) : outcome Trap :=
  trap_setProfileDuration (trap_make (tr_maxvel t) (tr_maxacc t))
    (pstart (tr_plan t)) (pend (tr_plan t)) (pdur (tr_plan t)).

(** * VelocityProfile_TrapHalf *)
(** The constructor (velocityprofile_traphalf.cpp:50-51) leaves the planned
    motion uninitialised: [None]. *)
Record Half := mkHalf { th_maxvel : R; th_maxacc : R; th_starting : bool; th_plan : option Plan }.

(** velocityprofile_traphalf.cpp:50-51 *)
Definition half_make (maxvel maxacc : R) (starting : bool) : Half := mkHalf maxvel maxacc starting None.

(** velocityprofile_traphalf.cpp:53-56 *)
Definition half_setMax (h : Half) (maxvel maxacc : R) (starting : bool) : Half :=
  mkHalf maxvel maxacc starting (th_plan h).

(** velocityprofile_traphalf.cpp:58-68; the members it reads are arguments *)
Definition half_plan1 (startpos endpos duration t1 t2 v a : R) : Plan :=
  mkPlan startpos 0 0
         (startpos + a * t1 * t1 / 2) (- a * t1) (a / 2)
         (endpos - v * duration) v 0
         duration (Some t1) (Some t2) startpos endpos.

(** velocityprofile_traphalf.cpp:70-80 *)
Definition half_plan2 (startpos endpos duration t1 t2 v a : R) : Plan :=
  mkPlan startpos v 0
         (endpos - a * t2 * t2 / 2) (a * t2) (- a / 2)
         endpos 0 0
         duration (Some t1) (Some t2) startpos endpos.

(** velocityprofile_traphalf.cpp:82-98.  [std::min(a,b)] is [b<a ? b : a].  A
    zero velocity or acceleration makes line 88 divide by zero: [Undef]; this
    happens in particular when pos1 = pos2. *)
Definition half_setProfile (h : Half) (pos1 pos2 : R) : outcome Half :=
  let maxvel := th_maxvel h in
  let maxacc := th_maxacc h in
  let startpos := pos1 in
  let endpos := pos2 in
  let s := sign (endpos - startpos) in
  let vel := kdl_min maxvel (sqrt (2 * s * (endpos - startpos) * maxacc)) in
  if Req_EM_T vel 0 then Undef else if Req_EM_T maxacc 0 then Undef else
  let duration := s * (endpos - startpos) / vel + vel / maxacc / 2 in
  Ret (mkHalf maxvel maxacc (th_starting h) (Some
    (if th_starting h then
       half_plan1 startpos endpos duration 0 (vel / maxacc) (vel * s) (maxacc * s)
     else
       half_plan2 startpos endpos duration (duration - vel / maxacc) duration (s * vel) (s * maxacc)))).

(** velocityprofile_traphalf.cpp:100-138.  The divisors of lines 116, 121, 128
    and 132 and the acceleration are checked for zero: [Undef].  A zero
    [newduration] makes the factor infinite, since the planned duration is not
    zero when [half_setProfile] succeeds with positive limits. *)
Definition half_setProfileDuration (h : Half) (pos1 pos2 newduration : R) : outcome Half :=
  let! h := half_setProfile h pos1 pos2 in
  match th_plan h with
  | None => Undef
  | Some p =>
    if Req_EM_T newduration 0 then
      if Rlt_dec 0 (pdur p) then Ret h else Undef
    else
    let factor := pdur p / newduration in
    if Rlt_dec 1 factor then Ret h
    else
      let maxvel := th_maxvel h in
      let startpos := pstart p in
      let endpos := pend p in
      let s := sign (endpos - startpos) in
      if Req_EM_T maxvel 0 then Undef else
      let tmp := 2 * s * (endpos - startpos) / maxvel in
      let v := s * maxvel in
      let duration := newduration in
      let divisor := if Rlt_dec duration tmp then v * duration - (endpos - startpos) else endpos - startpos in
      if Req_EM_T divisor 0 then Undef else
      let a := v * v / 2 / divisor in
      let plan :=
        if th_starting h then
          if Rlt_dec duration tmp then
            half_plan1 startpos endpos duration 0 (v / a) v a
          else
            half_plan1 startpos endpos duration (duration - v / a) duration v a
        else
          if Rlt_dec duration tmp then
            half_plan2 startpos endpos duration (duration - v / a) duration v a
          else
            half_plan2 startpos endpos duration 0 (v / a) v a in
      Ret (mkHalf maxvel (th_maxacc h) (th_starting h) (Some plan))
  end.

(** velocityprofile_traphalf.cpp:140-183; reads of uninitialised members are undefined *)
Definition half_duration (h : Half) : vres :=
  match th_plan h with Some p => VVal (pdur p) | None => VUndef end.
Definition half_pos (h : Half) (time : R) : vres :=
  match th_plan h with Some p => VVal (plan_pos p time) | None => VUndef end.
Definition half_vel (h : Half) (time : R) : vres :=
  match th_plan h with Some p => VVal (plan_vel p time) | None => VUndef end.
Definition half_acc (h : Half) (time : R) : vres :=
  match th_plan h with Some p => VVal (plan_acc p time) | None => VUndef end.

(** velocityprofile_traphalf.cpp:185-189 *)
Definition half_clone (h : Half) : outcome Half :=
  match th_plan h with
  | None => Undef
  | Some p => half_setProfileDuration (half_make (th_maxvel h) (th_maxacc h) (th_starting h))
                (pstart p) (pend p) (pdur p)
  end.

(** * VelocityProfile_Rectangular *)
(** velocityprofile_rect.hpp:60-62: members d, p, v are uninitialised by the
    constructor (lines 64-65). *)
Record RectPlan := mkRP { rp_d : R; rp_p : R; rp_v : R }.
Record Rect := mkRect { re_maxvel : R; re_plan : option RectPlan }.

(** velocityprofile_rect.hpp:64-65 *)
Definition rect_make (maxvel : R) : Rect := mkRect maxvel None.
(** velocityprofile_rect.cpp:70-73 *)
Definition rect_setMax (r : Rect) (vMax : R) : Rect := mkRect vMax (re_plan r).

(** velocityprofile_rect.cpp:49-68; a zero velocity limit makes line 60 divide
    by zero: [Undef]. *)
Definition rect_setProfile (r : Rect) (pos1 pos2 : R) : outcome Rect :=
  let diff := pos2 - pos1 in
  if Req_EM_T diff 0 then Ret (mkRect (re_maxvel r) (Some (mkRP 0 pos1 0)))
  else
    let v := if Rlt_dec 0 diff then re_maxvel r else - re_maxvel r in
    if Req_EM_T v 0 then Undef
    else Ret (mkRect (re_maxvel r) (Some (mkRP (diff / v) pos1 v))).

(** velocityprofile_rect.cpp:76-95.  With [duration] zero the quotient of line
    83 is infinite and line 84 replaces it by [maxvel]. *)
Definition rect_setProfileDuration (r : Rect) (pos1 pos2 duration : R) : outcome Rect :=
  let diff := pos2 - pos1 in
  if Req_EM_T diff 0 then Ret (mkRect (re_maxvel r) (Some (mkRP duration pos1 0)))
  else
    let v := if Req_EM_T duration 0 then re_maxvel r
             else let v := diff / duration in if Rlt_dec (re_maxvel r) v then re_maxvel r else v in
    if Req_EM_T v 0 then Undef
    else Ret (mkRect (re_maxvel r) (Some (mkRP (diff / v) pos1 v))).

(** velocityprofile_rect.cpp:97-99 *)
Definition rect_duration (r : Rect) : vres :=
  match re_plan r with Some p => VVal (rp_d p) | None => VUndef end.
(** velocityprofile_rect.cpp:101-109 *)
Definition rect_pos (r : Rect) (time : R) : vres :=
  match re_plan r with
  | None => VUndef
  | Some p => VVal (if Rlt_dec time 0 then rp_p p
                    else if Rlt_dec (rp_d p) time then rp_v p * rp_d p + rp_p p
                    else rp_v p * time + rp_p p)
  end.
(** velocityprofile_rect.cpp:111-119 *)
Definition rect_vel (r : Rect) (time : R) : vres :=
  match re_plan r with
  | None => VUndef
  | Some p => VVal (if Rlt_dec time 0 then 0
                    else if Rlt_dec (rp_d p) time then 0
                    else rp_v p)
  end.
(** velocityprofile_rect.cpp:121-124 *)
Definition rect_acc (r : Rect) (time : R) : vres := VThrow.
(** velocityprofile_rect.hpp:78-82 *)
Definition rect_clone (r : Rect) : outcome Rect :=
  match re_plan r with
  | None => Undef
  | Some p => rect_setProfileDuration (rect_make (re_maxvel r)) (rp_p p) (rp_p p + rp_v p * rp_d p) (rp_d p)
  end.

(** * VelocityProfile_Dirac *)
(** velocityprofile_dirac.hpp:50: members p1, p2, t, uninitialised by the
    implicit constructor: [None]. *)
Record DiracPlan := mkDP { dp_p1 : R; dp_p2 : R; dp_t : R }.
Definition Dirac : Type := option DiracPlan.

Definition dirac_make : Dirac := None.
(** velocityprofile_dirac.cpp:34-42 *)
Definition dirac_setProfile (_ : Dirac) (pos1 pos2 : R) : Dirac := Some (mkDP pos1 pos2 0).
(** velocityprofile_dirac.cpp:44-49 *)
Definition dirac_setProfileDuration (_ : Dirac) (pos1 pos2 duration : R) : Dirac := Some (mkDP pos1 pos2 duration).
(** velocityprofile_dirac.cpp:51-53 *)
Definition dirac_duration (d : Dirac) : vres :=
  match d with Some p => VVal (dp_t p) | None => VUndef end.
(** velocityprofile_dirac.cpp:55-65 *)
Definition dirac_pos (d : Dirac) (time : R) : vres :=
  match d with
  | None => VUndef
  | Some p => VVal (
      if Req_EM_T (dp_t p) 0 then (if Rle_dec time 0 then dp_p1 p else dp_p2 p)
      else if Rlt_dec time 0 then dp_p1 p
      else if Rle_dec time (dp_t p) then dp_p1 p + (dp_p2 p - dp_p1 p) / dp_t p * time
      else dp_p2 p)
  end.
(** velocityprofile_dirac.cpp:67-76 *)
Definition dirac_vel (d : Dirac) (time : R) : vres :=
  match d with
  | None => VUndef
  | Some p =>
      if Req_EM_T (dp_t p) 0 then VThrow
      else if Rlt_dec 0 time then
             if Rlt_dec time (dp_t p) then VVal ((dp_p2 p - dp_p1 p) / dp_t p) else VVal 0
           else VVal 0
  end.
(** velocityprofile_dirac.cpp:78-81 *)
Definition dirac_acc (d : Dirac) (time : R) : vres := VThrow.
(** velocityprofile_dirac.hpp:59-63 *)
Definition dirac_clone (d : Dirac) : outcome Dirac :=
  match d with
  | None => Undef
  | Some p => Ret (dirac_setProfileDuration dirac_make (dp_p1 p) (dp_p2 p) (dp_t p))
  end.

(** * VelocityProfile_Spline *)
(** velocityprofile_spline.hpp:63-64 *)
Record Spline := mkSpline { sp_c0 : R; sp_c1 : R; sp_c2 : R; sp_c3 : R; sp_c4 : R; sp_c5 : R; sp_dur : R }.

(** velocityprofile_spline.cpp:8-16: powers[i], computed by repeated multiplication *)
Fixpoint gen_power (x : R) (i : nat) : R :=
  match i with O => 1 | S i' => gen_power x i' * x end.

(** std::numeric_limits<double>::epsilon() = 2^-52 *)
Definition dbl_epsilon : R := / 2 ^ 52.

(** velocityprofile_spline.cpp:18-30 *)
Definition spline_make : Spline := mkSpline 0 0 0 0 0 0 0.
(** velocityprofile_spline.cpp:32-44, 190-193 *)
Definition spline_clone (s : Spline) : Spline :=
  mkSpline (sp_c0 s) (sp_c1 s) (sp_c2 s) (sp_c3 s) (sp_c4 s) (sp_c5 s) (sp_dur s).
(** velocityprofile_spline.cpp:51-54: does nothing *)
Definition spline_setProfile (s : Spline) (pos1 pos2 : R) : Spline := s.
(** velocityprofile_spline.cpp:56-78 *)
Definition spline_linear (pos1 pos2 duration : R) : Spline :=
  if Rle_dec duration dbl_epsilon then mkSpline pos1 0 0 0 0 0 duration
  else mkSpline pos1 ((pos2 - pos1) / duration) 0 0 0 0 duration.
(** velocityprofile_spline.cpp:80-105 *)
Definition spline_cubic (pos1 vel1 pos2 vel2 duration : R) : Spline :=
  let T := gen_power duration in
  if Rle_dec duration dbl_epsilon then mkSpline pos2 vel2 0 0 0 0 duration
  else mkSpline pos1 vel1
         ((-3 * pos1 + 3 * pos2 - 2 * vel1 * T 1%nat - vel2 * T 1%nat) / T 2%nat)
         ((2 * pos1 - 2 * pos2 + vel1 * T 1%nat + vel2 * T 1%nat) / T 3%nat)
         0 0 duration.
(** velocityprofile_spline.cpp:107-135 *)
Definition spline_quintic (pos1 vel1 acc1 pos2 vel2 acc2 duration : R) : Spline :=
  let T := gen_power duration in
  if Rle_dec duration dbl_epsilon then mkSpline pos2 vel2 (/ 2 * acc2) 0 0 0 duration
  else mkSpline pos1 vel1 (/ 2 * acc1)
         ((-20 * pos1 + 20 * pos2 - 3 * acc1 * T 2%nat + acc2 * T 2%nat
           - 12 * vel1 * T 1%nat - 8 * vel2 * T 1%nat) / (2 * T 3%nat))
         ((30 * pos1 - 30 * pos2 + 3 * acc1 * T 2%nat - 2 * acc2 * T 2%nat
           + 16 * vel1 * T 1%nat + 14 * vel2 * T 1%nat) / (2 * T 4%nat))
         ((-12 * pos1 + 12 * pos2 - acc1 * T 2%nat + acc2 * T 2%nat
           - 6 * vel1 * T 1%nat - 6 * vel2 * T 1%nat) / (2 * T 5%nat))
         duration.
(** velocityprofile_spline.cpp:137-140 *)
Definition spline_duration (s : Spline) : R := sp_dur s.
(** velocityprofile_spline.cpp:142-155 *)
Definition spline_pos (s : Spline) (time : R) : R :=
  let t := gen_power time in
  t 0%nat * sp_c0 s + t 1%nat * sp_c1 s + t 2%nat * sp_c2 s + t 3%nat * sp_c3 s
  + t 4%nat * sp_c4 s + t 5%nat * sp_c5 s.
(** velocityprofile_spline.cpp:157-169 *)
Definition spline_vel (s : Spline) (time : R) : R :=
  let t := gen_power time in
  t 0%nat * sp_c1 s + 2 * t 1%nat * sp_c2 s + 3 * t 2%nat * sp_c3 s + 4 * t 3%nat * sp_c4 s
  + 5 * t 4%nat * sp_c5 s.
(** velocityprofile_spline.cpp:171-182 *)
Definition spline_acc (s : Spline) (time : R) : R :=
  let t := gen_power time in
  2 * t 0%nat * sp_c2 s + 6 * t 1%nat * sp_c3 s + 12 * t 2%nat * sp_c4 s + 20 * t 3%nat * sp_c5 s.

(** * Virtual dispatch: a VelocityProfile object of any of the five classes *)
Inductive Prof : Type :=
| PTrap (t : Trap) | PHalf (h : Half) | PRect (r : Rect) | PDirac (d : Dirac) | PSpline (s : Spline).

Definition prof_duration (p : Prof) : vres :=
  match p with
  | PTrap t => VVal (trap_duration t) | PHalf h => half_duration h | PRect r => rect_duration r
  | PDirac d => dirac_duration d | PSpline s => VVal (spline_duration s)
  end.
Definition prof_pos (p : Prof) (time : R) : vres :=
  match p with
  | PTrap t => VVal (trap_pos t time) | PHalf h => half_pos h time | PRect r => rect_pos r time
  | PDirac d => dirac_pos d time | PSpline s => VVal (spline_pos s time)
  end.
Definition prof_vel (p : Prof) (time : R) : vres :=
  match p with
  | PTrap t => VVal (trap_vel t time) | PHalf h => half_vel h time | PRect r => rect_vel r time
  | PDirac d => dirac_vel d time | PSpline s => VVal (spline_vel s time)
  end.
Definition prof_acc (p : Prof) (time : R) : vres :=
  match p with
  | PTrap t => VVal (trap_acc t time) | PHalf h => half_acc h time | PRect r => rect_acc r time
  | PDirac d => dirac_acc d time | PSpline s => VVal (spline_acc s time)
  end.
Definition prof_clone (p : Prof) : outcome Prof :=
  match p with
  | PTrap t => let! t' := trap_clone t in Ret (PTrap t')
  | PHalf h => let! h' := half_clone h in Ret (PHalf h')
  | PRect r => let! r' := rect_clone r in Ret (PRect r')
  | PDirac d => let! d' := dirac_clone d in Ret (PDirac d')
  | PSpline s => Ret (PSpline (spline_clone s))
  end.
