(** Concrete cases for the statements about text input and output of paths, profiles and trajectories. *)
From Coq Require Import Reals ZArith Ascii String List Bool Lia Lra.
From Flocq Require Import Core.
From Verif Require Import FramesModel FramesSpec FramesProofs RotationProofs FrameOpsProofs Outcome ProfModel PathModel PathSpec PathProofs PathProofs2 PathProofs3 PathProofs4 IoModel IoSpec IoNum IoEat IoObjects IoComplete IoFinal IoRound MioModel MioSpec MioComplete MioSound MioEnds MioWritten MioFinal.
Import ListNotations.
Local Open Scope char_scope.
Local Open Scope list_scope.
Local Open Scope Z_scope.

(** the text of a spline has a word the reader does not know, and a colon before the bracket *)
Lemma spline_refused rd jd jb p s : throws (VelocityProfile_Read rd jd jb) (write_Prof p (PSpline s)) (MIo Error_BasicIO_Exp_Delim).
Proof.
  intros past rest tr. cbn [write_Prof].
  match goal with |- context [stream past ((lit "coefficients : [ " ++ ?x) ++ rest) tr] => generalize x end. intros x.
  rewrite <- app_assoc. generalize (x ++ rest). clear. intros x. eexists. vm_compute. reflexivity.
Qed.
Lemma axes_refused b : plain b -> throws read_Interp (b ++ lit "THREEAXIS[]") (MIo Error_Not_Implemented) /\ throws read_Interp (b ++ lit "TWOAXIS[]") (MIo Error_Not_Implemented).
Proof.
  intros B. split; intros past rest tr.
  - pose proof (at_start past (b ++ lit "THREEAXIS[]") rest tr) as P. apply (at_trace _ _ _ _ "RotationalInterpolation::Read"%string) in P.
    set (W := rev past ++ (b ++ lit "THREEAXIS[]") ++ rest) in P. clearbody W.
    replace ((b ++ lit "THREEAXIS[]") ++ rest) with ((b ++ lit "THREEAXIS" ++ ["["] ++ []) ++ ["]"] ++ rest) in P |- * by (rewrite <- ?app_assoc; reflexivity).
    destruct (m_opening _ _ 64 "THREEAXIS" _ "]" [] rest ["]"] _ (kchars_of "THREEAXIS" eq_refl) ltac:(discriminate) ltac:(cbn; lia)
      (w_opening b "THREEAXIS" (lit "THREEAXIS") [] B eq_refl plain_nil) (ex_intro _ [] (conj eq_refl (conj plain_nil (tokb_tok "]" eq_refl)))) P) as (s1 & E & _).
    unfold read_Interp. rewrite E. cbn [mbind]. eexists. reflexivity.
  - pose proof (at_start past (b ++ lit "TWOAXIS[]") rest tr) as P. apply (at_trace _ _ _ _ "RotationalInterpolation::Read"%string) in P.
    set (W := rev past ++ (b ++ lit "TWOAXIS[]") ++ rest) in P. clearbody W.
    replace ((b ++ lit "TWOAXIS[]") ++ rest) with ((b ++ lit "TWOAXIS" ++ ["["] ++ []) ++ ["]"] ++ rest) in P |- * by (rewrite <- ?app_assoc; reflexivity).
    destruct (m_opening _ _ 64 "TWOAXIS" _ "]" [] rest ["]"] _ (kchars_of "TWOAXIS" eq_refl) ltac:(discriminate) ltac:(cbn; lia)
      (w_opening b "TWOAXIS" (lit "TWOAXIS") [] B eq_refl plain_nil) (ex_intro _ [] (conj eq_refl (conj plain_nil (tokb_tok "]" eq_refl)))) P) as (s1 & E & _).
    unfold read_Interp. rewrite E. cbn [mbind]. eexists. reflexivity.
Qed.
(** a text that stops after the bracket *)
Lemma cut_short rd jd ji jb : Path_Read rd jd ji (stream [] (lit "POINT[") []) = MUb /\ Path_Read rd jd ji (stream [] (lit "CYCLIC_CLOSED[") []) = MUb /\
  Trajectory_Read rd jd ji jb (stream [] (lit "SEGMENT[") []) = MUb.
Proof.
  repeat split; vm_compute; reflexivity.
Qed.
(** a keyword that does not fit *)
Lemma long_keyword rd jd ji : Path_Read rd jd ji (stream [] (repeat "A" 64 ++ lit "[") []) = MUb /\
  exists s, Path_Read rd jd ji (stream [] (repeat "A" 63 ++ lit "[ x") []) = MThrew (MIo Error_MotionIO_Unexpected_Traj) s.
Proof.
  split; [vm_compute; reflexivity|]. eexists. vm_compute. reflexivity.
Qed.
(** a profile at the end of the text *)
Lemma profile_end rd jd jb : exists s, VelocityProfile_Read rd jd jb (stream [] (lit "DIRACVEL[ ]") []) = MGot (PDirac dirac_make) s /\ good s = false.
Proof.
  eexists. split; [vm_compute; reflexivity|reflexivity].
Qed.

(** ** Hypotheses that are met *)
Local Open Scope R_scope.
Definition two_lines : desc :=
  DCyclic (DComposite [DPoint (mkF r_id (mkV 1 (1 / 2) (-3))); DLine (mkF r_id (mkV 0 0 0)) (mkF (mkR 0 (-1) 0 1 0 0 0 0 1) (mkV 2 0 0)) (1 / 4)]) 3.
Lemma half_double n : (Z.abs n < 2 ^ 53)%Z -> is_double (IZR n / 4).
Proof.
  intros H. apply generic_format_FLT. exists (Float radix2 n (-2)); [unfold F2R; cbn; field|exact H|cbn; lia].
Qed.
Lemma quarter_turn : is_rotation (mkR 0 (-1) 0 1 0 0 0 0 1).
Proof. split; unfold det3; cbn [r0 r1 r2 r3 r4 r5 r6 r7 r8]; ring. Qed.
Lemma two_lines_ok : of_lines two_lines /\ (forall x, In x (numbers_desc two_lines) -> is_double x).
Proof.
  split.
  - cbn [of_lines two_lines]. unfold in_int. split; [lia|]. split; [cbn; lia|]. split; [exact I|]. split; [|exact I]. split; [|lra].
    split; [apply is_rotation_id|]. split; [apply quarter_turn|]. split.
    + left. left. unfold r_mul, r_inv, r_id. cbn [fM r0 r1 r2 r3 r4 r5 r6 r7 r8]. unfold kdl_epsilon.
      match goal with |- _ <= Rabs ?e => replace e with (-2) by ring end. rewrite Rabs_left; lra.
    + right. apply max_abs_1. left. unfold v_sub. cbn. replace (2 - 0) with 2 by ring. rewrite Rabs_pos_eq; lra.
  - intros x I. assert (exists n, (Z.abs n < 2 ^ 53)%Z /\ x = IZR n / 4) as (n & Hn & ->).
    { cbn [numbers_desc two_lines flat_map numbers_Frame numbers_Rotation numbers_Vector app fM fp r_id r0 r1 r2 r3 r4 r5 r6 r7 r8 vx vy vz] in I.
      repeat (destruct I as [<-|I]; [first [exists 0%Z; split; [reflexivity|lra]|exists 4%Z; split; [reflexivity|lra]|exists (-4)%Z; split; [reflexivity|lra]
        |exists 2%Z; split; [reflexivity|lra]|exists (-12)%Z; split; [reflexivity|lra]|exists 8%Z; split; [reflexivity|lra]|exists 1%Z; split; [reflexivity|lra]]|]). destruct I. }
    apply half_double. exact Hn.
Qed.
(** ** A segment read back stands still *)
Lemma segment_back jd ji jb p d t : (17 <= p)%Z -> of_lines d -> (forall x, In x (numbers_desc d) -> is_double x) ->
  exists P v a, build d = Val P /\ takes (Trajectory_Read to_double jd ji jb) (write_Traj p (TSegment P (PTrap t))) (TSegment P (PTrap (trap_make v a))) /\
    traj_Duration (TSegment P (PTrap (trap_make v a))) = Val 0 /\ (forall time, traj_Pos (TSegment P (PTrap (trap_make v a))) time = traj_Pos (TSegment P (PTrap (trap_make v a))) 0).
Proof.
  intros Hp O D. set (f := fun x => to_double (round10 p x)). destruct (of_lines_built f d O) as (P & E & De & C). exists P, (f (tr_maxvel t)), (f (tr_maxacc t)).
  split; [exact E|]. split.
  - pose proof (traj_back to_double jd ji jb p P (PTrap t) _ ltac:(lia) C eq_refl) as H. fold f in H. rewrite De, dmap_id in H; [rewrite E in H; exact H|exact O|].
    intros x I. apply seventeen; [exact Hp|apply D; exact I].
  - destruct (motion_lost f (PTrap t) _ eq_refl) as [M1 M2]. split; [cbn [traj_Duration]; rewrite M1; reflexivity|]. intros time.
    unfold traj_Pos, traj_eval, seg_Pos. rewrite !M2. reflexivity.
Qed.
Lemma duration_lost : exists t, trap_setProfile (trap_make 1 1) 0 2 = Ret t /\ prof_duration (PTrap t) = VVal 3.
Proof.
  eexists. unfold trap_setProfile. cbn [tr_maxvel tr_maxacc trap_make]. destruct (Req_EM_T 1 0); [lra|].
  assert (S1 : sign (2 - 0) = 1).
  { unfold sign. repeat match goal with |- context [if ?b then _ else _] => destruct b end; lra. }
  rewrite S1. unfold sqr. replace ((2 - 0 - 2 * (1 * 1 * (1 / 1 * (1 / 1)) / 2)) / (1 * 1)) with 1 by field.
  destruct (Rlt_dec 0 1); [|lra]. split; [reflexivity|]. cbn. f_equal. field.
Qed.
