(** Theorems about text input and output of paths, velocity profiles and trajectories (C68). *)
From Coq Require Import Reals ZArith Ascii String List Bool.
From Verif Require Import FramesModel FramesSpec Outcome ProfModel PathModel PathSpec IoModel IoSpec MioModel MioSpec MioFinal MioWitness.
Import ListNotations.
Local Open Scope char_scope.
Local Open Scope list_scope.
Local Open Scope Z_scope.

(** ** C68: every text of the plain form is read as what it describes *)
Theorem C68_path_complete : forall rd jd ji t d,
  plain_path rd t d -> ends_as (Path_Read rd jd ji) t (build d).
Proof. exact (@path_complete). Qed.
Print Assumptions C68_path_complete.

Theorem C68_profile_complete : forall rd jd jb t m,
  plain_prof rd t m -> takes_before (VelocityProfile_Read rd jd jb) t m.
Proof. exact (@prof_complete). Qed.
Print Assumptions C68_profile_complete.

Theorem C68_trajectory_complete : forall rd jd ji jb t d m,
  plain_traj rd t d m ->
  ends_as (Trajectory_Read rd jd ji jb) t (match build d with Val P => Val (TSegment P m) | Throw e => Throw e | Undefd => Undefd end).
Proof. exact (@traj_complete). Qed.
Print Assumptions C68_trajectory_complete.


(** A reader that returns has read a text of the documented form, and returns what it describes. *)
Theorem C68_path_only : forall rd jd ji,
  only_takes (Path_Read rd jd ji) (path_means rd) /\ (forall s P s', Path_Read rd jd ji s = MGot P s' -> good s' = true).
Proof. exact (@paths_only). Qed.
Print Assumptions C68_path_only.

Theorem C68_profile_only : forall rd jd jb,
  only_takes (VelocityProfile_Read rd jd jb) (any_prof rd).
Proof. exact (@profs_only). Qed.
Print Assumptions C68_profile_only.

Theorem C68_trajectory_only : forall rd jd ji jb,
  only_takes (Trajectory_Read rd jd ji jb) (traj_means rd) /\ (forall s T s', Trajectory_Read rd jd ji jb s = MGot T s' -> good s' = true).
Proof. exact (@trajs_only). Qed.
Print Assumptions C68_trajectory_only.

Theorem C68_readers_end : forall rd jd ji jb s,
  Path_Read rd jd ji s <> MHang /\ VelocityProfile_Read rd jd jb s <> MHang /\ Trajectory_Read rd jd ji jb s <> MHang.
Proof. exact (@readers_end). Qed.
Print Assumptions C68_readers_end.


(** What Write writes is such a text; it describes the object with every number rounded to the precision of the stream. *)
Theorem C68_path_back : forall rd jd ji p P,
  1 <= p -> counts_ok P ->
  exists t, write_Path p P = t ++ ["010"] /\ ends_as (Path_Read rd jd ji) t (build (described (fun x => rd (round10 p x)) P)).
Proof. exact (@path_back). Qed.
Print Assumptions C68_path_back.

Theorem C68_profile_back : forall rd jd jb p m m',
  1 <= p -> limits (fun x => rd (round10 p x)) m = Some m' ->
  takes_before (VelocityProfile_Read rd jd jb) (write_Prof p m) m'.
Proof. exact (@prof_back). Qed.
Print Assumptions C68_profile_back.

Theorem C68_segment_back : forall rd jd ji jb p g m m',
  1 <= p -> counts_ok g -> limits (fun x => rd (round10 p x)) m = Some m' ->
  ends_as (Trajectory_Read rd jd ji jb) (write_Traj p (TSegment g m))
    (match build (described (fun x => rd (round10 p x)) g) with Val P => Val (TSegment P m') | Throw e => Throw e | Undefd => Undefd end).
Proof. exact (@traj_back). Qed.
Print Assumptions C68_segment_back.

Theorem C68_lines_rounded : forall rd jd ji p d,
  1 <= p -> of_lines d ->
  exists P Q t, build d = Val P /\ build (dmap (fun x => rd (round10 p x)) d) = Val Q /\
    write_Path p P = t ++ ["010"] /\ takes (Path_Read rd jd ji) t Q.
Proof. exact (@lines_rounded). Qed.
Print Assumptions C68_lines_rounded.

Theorem C68_lines_same : forall jd ji p d,
  17 <= p -> of_lines d -> (forall x, In x (numbers_desc d) -> is_double x) ->
  exists P t, build d = Val P /\ write_Path p P = t ++ ["010"] /\ takes (Path_Read to_double jd ji) t P.
Proof. exact (@lines_same). Qed.
Print Assumptions C68_lines_same.

Theorem C68_lines_witness : of_lines two_lines /\ (forall x, In x (numbers_desc two_lines) -> is_double x).
Proof. exact (@two_lines_ok). Qed.
Print Assumptions C68_lines_witness.


(** Texts the readers refuse. *)
Theorem C68_stationary_refused : forall rd jd ji jb p d F,
  1 <= p ->
  throws (Trajectory_Read rd jd ji jb) (write_Traj p (TStationary d F)) (MIo Error_MotionIO_Unexpected_Traj).
Proof. exact (@stationary_refused). Qed.
Print Assumptions C68_stationary_refused.

Theorem C68_composite_refused : forall rd jd ji jb p vt vd dur,
  throws (Trajectory_Read rd jd ji jb) (write_Traj p (TComposite vt vd dur)) (MIo Error_MotionIO_Unexpected_Traj).
Proof. exact (@composite_refused). Qed.
Print Assumptions C68_composite_refused.

Theorem C68_spline_refused : forall rd jd jb p s,
  throws (VelocityProfile_Read rd jd jb) (write_Prof p (PSpline s)) (MIo Error_BasicIO_Exp_Delim).
Proof. exact (@spline_refused). Qed.
Print Assumptions C68_spline_refused.

Theorem C68_axes_refused : forall b,
  plain b -> throws read_Interp (b ++ lit "THREEAXIS[]") (MIo Error_Not_Implemented) /\ throws read_Interp (b ++ lit "TWOAXIS[]") (MIo Error_Not_Implemented).
Proof. exact (@axes_refused). Qed.
Print Assumptions C68_axes_refused.


(** Texts that lead to undefined behaviour, and a profile at the end of the text. *)
Theorem C68_cut_short_defined_refuted : forall rd jd ji jb,
  Path_Read rd jd ji (stream [] (lit "POINT[") []) = MUb /\ Path_Read rd jd ji (stream [] (lit "CYCLIC_CLOSED[") []) = MUb /\
  Trajectory_Read rd jd ji jb (stream [] (lit "SEGMENT[") []) = MUb.
Proof. exact (@cut_short). Qed.
Print Assumptions C68_cut_short_defined_refuted.

Theorem C68_long_keyword_defined_refuted : forall rd jd ji,
  Path_Read rd jd ji (stream [] (repeat "A" 64 ++ lit "[") []) = MUb /\
  exists s, Path_Read rd jd ji (stream [] (repeat "A" 63 ++ lit "[ x") []) = MThrew (MIo Error_MotionIO_Unexpected_Traj) s.
Proof. exact (@long_keyword). Qed.
Print Assumptions C68_long_keyword_defined_refuted.

Theorem C68_profile_leaves_stream_good_refuted : forall rd jd jb,
  exists s, VelocityProfile_Read rd jd jb (stream [] (lit "DIRACVEL[ ]") []) = MGot (PDirac dirac_make) s /\ good s = false.
Proof. exact (@profile_end). Qed.
Print Assumptions C68_profile_leaves_stream_good_refuted.


Local Open Scope R_scope.
(** Circles: the text has the direction of the second axis where the reader expects a point. *)
Theorem C68_circle_text : forall F center q Rend alpha eqradius c rd jd ji p,
  (1 <= p)%Z ->
  rigid F -> is_rotation Rend -> resolved_rotation (fM F) Rend -> resolved_displacement center q -> 0 < alpha -> 0 < eqradius ->
  circle_make F center q Rend alpha sa_make eqradius = Val c ->
  exists y t, unit_vector y /\ v_dot y (v_sub (fp F) center) = 0 /\ write_Path p (PLeaf (LCircle c)) = (t ++ ["010"%char])%list /\
    ends_as (Path_Read rd jd ji) t (build (dmap (fun x => rd (round10 p x)) (DCircle F center y Rend (alpha / (PI / 180)) eqradius))).
Proof. exact (@circle_text). Qed.
Print Assumptions C68_circle_text.

Theorem C68_circle_same_refuted : forall jd ji,
  exists c c' t,
  circle_make (mkF r_id (mkV 2 0 1)) (mkV 1 0 1) (mkV 1 1 1) r_id (degrees 90) sa_make 1 = Val c /\
  write_Path 17 (PLeaf (LCircle c)) = (t ++ ["010"%char])%list /\
  takes (Path_Read to_double jd ji) t (PLeaf (LCircle c')) /\
  fp (circle_Pos c (ci_len c)) = mkV 1 1 1 /\ vz (fp (circle_Pos c' (ci_len c'))) < 1.
Proof. exact (@circle_moved). Qed.
Print Assumptions C68_circle_same_refuted.

Theorem C68_circle_readable_refuted : forall jd ji,
  exists c t,
  circle_make (mkF r_id (mkV 1 1 0)) (mkV 0 1 0) (mkV 0 2 0) r_id (degrees 90) sa_make 1 = Val c /\
  write_Path 17 (PLeaf (LCircle c)) = (t ++ ["010"%char])%list /\
  throws (Path_Read to_double jd ji) t (MPlan CircleNoPlane).
Proof. exact (@circle_fails). Qed.
Print Assumptions C68_circle_readable_refuted.


(** The motion of a profile is not part of its text. *)
Theorem C68_motion_lost : forall f m m',
  limits f m = Some m' ->
  match m with
  | PTrap _ => prof_duration m' = VVal 0 /\ forall time, prof_pos m' time = VVal 0
  | PSpline _ => False
  | _ => prof_duration m' = VUndef /\ forall time, prof_pos m' time = VUndef
  end.
Proof. exact (@motion_lost). Qed.
Print Assumptions C68_motion_lost.

Theorem C68_segment_stands_still : forall jd ji jb p d t,
  (17 <= p)%Z -> of_lines d -> (forall x, In x (numbers_desc d) -> is_double x) ->
  exists P v a, build d = Val P /\ takes (Trajectory_Read to_double jd ji jb) (write_Traj p (TSegment P (PTrap t))) (TSegment P (PTrap (trap_make v a))) /\
    traj_Duration (TSegment P (PTrap (trap_make v a))) = Val 0 /\ (forall time, traj_Pos (TSegment P (PTrap (trap_make v a))) time = traj_Pos (TSegment P (PTrap (trap_make v a))) 0).
Proof. exact (@segment_back). Qed.
Print Assumptions C68_segment_stands_still.

Theorem C68_duration_kept_refuted : exists t, trap_setProfile (trap_make 1 1) 0 2 = Ret t /\ prof_duration (PTrap t) = VVal 3.
Proof. exact (@duration_lost). Qed.
Print Assumptions C68_duration_kept_refuted.

