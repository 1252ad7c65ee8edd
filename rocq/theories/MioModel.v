(** Text input and output of paths, velocity profiles and trajectories: Path::Read (path.cpp), RotationalInterpolation::Read
    (rotational_interpolation.cpp), VelocityProfile::Read (velocityprofile.cpp), Trajectory::Read (trajectory.cpp), and the
    Write function of every class derived from them.  The streams, Eat, EatEnd, EatWord, the number formats and the operators
    of frames_io.cpp are those of IoModel.

    Local variables that the C++ code leaves uninitialised have the arbitrary values [jd], [ji], [jb]; they only show when
    operator>> finds the stream in a state that is not good.  Ownership (scoped_ptr, release) is not modelled. *)
From Coq Require Import Reals ZArith Ascii String List Bool.
From Verif Require Import FramesModel Outcome ProfModel PathModel IoModel.
Import ListNotations.
Local Open Scope char_scope.
Local Open Scope list_scope.
Local Open Scope Z_scope.

(** ** Output.  [p] is the precision of the stream. *)
Definition endl : text := [nl].
(** os << true writes 1 (no boolalpha) *)
Definition fmt_bool (b : bool) : text := if b then ["1"] else ["0"].

(** rotational_interpolation_sa.cpp 75-77 *)
Definition write_SA (o : SA) : text := lit "SingleAxis[] " ++ endl.
(** path_line.cpp 173-180 *)
Definition write_Line (p : Z) (l : Line) : text :=
  lit "LINE[ " ++ lit "  " ++ write_Frame p (mkF (sa_Pos (ln_orient l) 0) (ln_start l)) ++ endl
  ++ lit "  " ++ write_Frame p (mkF (sa_Pos (ln_orient l) (ln_len l * ln_scalerot l)%R) (ln_end l)) ++ endl
  ++ lit "  " ++ write_SA (ln_orient l) ++ lit "  " ++ fmt_double p (ln_eqradius l) ++ lit "]" ++ endl.
(** path_circle.cpp 158-168 *)
Definition write_Circle (p : Z) (c : Circle) : text :=
  lit "CIRCLE[ " ++ lit "  " ++ write_Frame p (circle_Pos c 0) ++ endl
  ++ lit "  " ++ write_Vector p (fp (ci_center c)) ++ endl
  ++ lit "  " ++ write_Vector p (r_UnitY (fM (ci_center c))) ++ endl
  ++ lit "  " ++ write_Rotation p (sa_Pos (ci_orient c) (ci_len c * ci_scalerot c)%R) ++ endl
  ++ lit "  " ++ fmt_double p (ci_len c * ci_scalelin c / ci_radius c / deg2rad)%R ++ endl
  ++ lit "  " ++ write_SA (ci_orient c) ++ lit "  " ++ fmt_double p (ci_eqradius c) ++ lit "]" ++ endl.
(** path_point.cpp 77-79 and the two above *)
Definition write_Leaf (p : Z) (l : Leaf) : text :=
  match l with
  | LPoint F => lit "POINT[ " ++ write_Frame p F ++ lit "]" ++ endl
  | LLine l => write_Line p l
  | LCircle c => write_Circle p c
  end.
(** path_composite.cpp 121-128 (the loop runs over dv.size() elements of gv; both vectors always have the same size),
    path_cyclic_closed.cpp 82-87, path_roundedcomposite.cpp 168-170 *)
Fixpoint write_Path (p : Z) (P : Path) : text :=
  match P with
  | PLeaf l => write_Leaf p l
  | PComposite gv dv _ _ =>
      lit "COMPOSITE[ " ++ endl ++ lit "   " ++ fmt_int (Z.of_nat (length dv)) ++ endl
      ++ (fix all (gv : list Path) : text := match gv with [] => [] | c :: r => write_Path p c ++ all r end) gv
      ++ lit "]" ++ endl
  | PCyclic geom times =>
      lit "CYCLIC_CLOSED[ " ++ lit "  " ++ write_Path p geom ++ endl ++ lit "  " ++ fmt_int times ++ endl ++ lit "]" ++ endl
  | PRounded comp _ _ _ _ _ => write_Path p comp
  end.

(** velocityprofile_trap.cpp 189-191, velocityprofile_traphalf.cpp 194-196, velocityprofile_rect.cpp 127-129,
    velocityprofile_dirac.cpp 84-86, velocityprofile_spline.cpp 184-188 *)
Definition write_Prof (p : Z) (m : Prof) : text :=
  match m with
  | PTrap t => lit "TRAPEZOIDAL[" ++ fmt_double p (tr_maxvel t) ++ lit "," ++ fmt_double p (tr_maxacc t) ++ lit "]"
  | PHalf h => lit "TRAPEZOIDALHALF[" ++ fmt_double p (th_maxvel h) ++ lit "," ++ fmt_double p (th_maxacc h) ++ lit ","
               ++ fmt_bool (th_starting h) ++ lit "]"
  | PRect r => lit "CONSTVEL[" ++ fmt_double p (re_maxvel r) ++ lit "]"
  | PDirac _ => lit "DIRACVEL[ ]"
  | PSpline s => lit "coefficients : [ " ++ fmt_double p (sp_c0 s) ++ lit " " ++ fmt_double p (sp_c1 s) ++ lit " "
                 ++ fmt_double p (sp_c2 s) ++ lit " " ++ fmt_double p (sp_c3 s) ++ lit " " ++ fmt_double p (sp_c4 s) ++ lit " "
                 ++ fmt_double p (sp_c5 s) ++ lit " ]"
  end.

(** trajectory_segment.cpp 84-90, trajectory_stationary.cpp 21-25, trajectory_composite.cpp 107-114 *)
Fixpoint write_Traj (p : Z) (t : Traj) : text :=
  match t with
  | TSegment g m => lit "SEGMENT[ " ++ endl ++ lit "  " ++ write_Path p g ++ endl ++ lit "  " ++ write_Prof p m ++ endl ++ lit "]"
  | TStationary d F => lit "STATIONARY[ " ++ fmt_double p d ++ endl ++ write_Frame p F ++ endl ++ lit "]"
  | TComposite vt _ _ =>
      lit "COMPOSITE[ " ++ fmt_int (Z.of_nat (length vt)) ++ endl
      ++ (fix all (vt : list Traj) : text := match vt with [] => [] | c :: r => write_Traj p c ++ all r end) vt
      ++ lit "]" ++ endl
  end.

(** ** Input *)
(** what is thrown: one of the exceptions of the readers, or one of a constructor *)
Inductive mexc := MIo (e : exc) | MPlan (e : perr).
(** a Read function: the object, an exception, undefined behaviour, or out of fuel *)
Inductive mio (A : Type) := MGot (a : A) (s : istr) | MThrew (e : mexc) (s : istr) | MUb | MHang.
Arguments MGot {A}. Arguments MThrew {A}. Arguments MUb {A}. Arguments MHang {A}.
Definition mbind {A B : Type} (m : mio A) (k : A -> istr -> mio B) : mio B :=
  match m with MGot a s => k a s | MThrew e s => MThrew e s | MUb => MUb | MHang => MHang end.
(** Eat, EatEnd, EatWord, IOTracePop *)
Definition of_io {A : Type} (m : io A) : mio A :=
  match m with Got a s => MGot a s | Threw e s => MThrew (MIo e) s | Ub => MUb | Hang => MHang end.
(** operator>> on a local object *)
Definition of_oio {A : Type} (m : oio A) : mio A :=
  match m with OGot a s => MGot a s | OThrew e _ s => MThrew (MIo e) s | OUb => MUb | OHang => MHang end.
(** a constructor *)
Definition of_result {A : Type} (r : result A) (s : istr) : mio A :=
  match r with Val a => MGot a s | Throw e => MThrew (MPlan e) s | Undefd => MUb end.

(** EatWord(is,"[",storage,n); Eat(is,'['); *)
Definition read_opening (n : nat) (s : istr) : mio text :=
  mbind (of_io (EatWord s (lit "[") n)) (fun storage s =>
  mbind (of_io (Eat s "[")) (fun _ s => MGot storage s)).
(** EatEnd(is,']'); IOTracePop(); IOTracePop(); *)
Definition read_closing (s : istr) : mio unit :=
  mbind (of_io (EatEnd s "]")) (fun _ s =>
  mbind (of_io (IOTracePop s)) (fun _ s => of_io (IOTracePop s))).

Section Readers.
Variable rd : R -> R.
Variable jd : R.
Variable ji : Z.
Variable jb : bool.

(** rotational_interpolation.cpp 51-80; the statements after the two throws are not reached *)
Definition read_Interp (s : istr) : mio SA :=
  let s := IOTrace "RotationalInterpolation::Read" s in
  mbind (read_opening 64 s) (fun storage s =>
  if text_eqb storage (lit "SINGLEAXIS") then
    let s := IOTrace "SINGLEAXIS" s in
    mbind (read_closing s) (fun _ s => MGot sa_make s)
  else if text_eqb storage (lit "THREEAXIS") then MThrew (MIo Error_Not_Implemented) (IOTrace "THREEAXIS" s)
  else if text_eqb storage (lit "TWOAXIS") then MThrew (MIo Error_Not_Implemented) (IOTrace "TWOAXIS" s)
  else MThrew (MIo Error_MotionIO_Unexpected_Traj) s).

(** path.cpp 126-130: the loop over the points of a rounded composite *)
Fixpoint read_points (n : nat) (tr : Path) (s : istr) : mio Path :=
  match n with
  | O => MGot tr s
  | S n =>
      mbind (of_oio (read_Frame rd s f_id)) (fun f s =>
      let (tr, r) := rounded_Add tr f in
      mbind (of_result r s) (fun _ s => read_points n tr s))
  end.

(** path.cpp 60-164.  The recursion through COMPOSITE and CYCLIC_CLOSED gets fuel, one unit per level. *)
Fixpoint read_path (fuel : nat) (s : istr) : mio Path :=
  match fuel with
  | O => MHang
  | S k =>
    let s := IOTrace "Path::Read" s in
    mbind (read_opening 64 s) (fun storage s =>
    if text_eqb storage (lit "POINT") then
      let s := IOTrace "POINT" s in
      mbind (of_oio (read_Frame rd s f_id)) (fun startpos s =>
      mbind (read_closing s) (fun _ s => MGot (PLeaf (LPoint startpos)) s))
    else if text_eqb storage (lit "LINE") then
      let s := IOTrace "LINE" s in
      mbind (of_oio (read_Frame rd s f_id)) (fun startpos s =>
      mbind (of_oio (read_Frame rd s f_id)) (fun endpos s =>
      mbind (read_Interp s) (fun orient s =>
      let (eqradius, s) := read_double rd s jd in
      mbind (read_closing s) (fun _ s => MGot (PLeaf (LLine (line_make startpos endpos orient eqradius))) s))))
    else if text_eqb storage (lit "CIRCLE") then
      let s := IOTrace "CIRCLE" s in
      mbind (of_oio (read_Frame rd s f_id)) (fun F_base_start s =>
      mbind (of_oio (read_Vector rd s v_zero)) (fun V_base_center s =>
      mbind (of_oio (read_Vector rd s v_zero)) (fun V_base_p s =>
      mbind (of_oio (read_Rotation rd s r_id)) (fun R_base_end s =>
      let (alpha, s) := read_double rd s jd in
      let alpha := (alpha * deg2rad)%R in
      mbind (read_Interp s) (fun orient s =>
      let (eqradius, s) := read_double rd s jd in
      mbind (read_closing s) (fun _ s =>
      mbind (of_result (circle_make F_base_start V_base_center V_base_p R_base_end alpha orient eqradius) s) (fun c s =>
      MGot (PLeaf (LCircle c)) s)))))))
    else if text_eqb storage (lit "ROUNDEDCOMPOSITE") then
      let s := IOTrace "ROUNDEDCOMPOSITE" s in
      let (radius, s) := read_double rd s jd in
      let (eqradius, s) := read_double rd s jd in
      mbind (read_Interp s) (fun orient s =>
      mbind (of_result (rounded_make radius eqradius) s) (fun tr s =>
      let (size, s) := read_int s ji in
      mbind (read_points (Z.to_nat size) tr s) (fun tr s =>
      let tr := rounded_Finish tr in
      mbind (read_closing s) (fun _ s => MGot tr s))))
    else if text_eqb storage (lit "COMPOSITE") then
      let s := IOTrace "COMPOSITE" s in
      let (size, s) := read_int s ji in
      mbind ((fix loop (n : nat) (tr : Path) (s : istr) : mio Path :=
                match n with
                | O => MGot tr s
                | S n => mbind (read_path k s) (fun geom s => loop n (comp_Add tr geom) s)
                end) (Z.to_nat size) comp_make s) (fun tr s =>
      mbind (read_closing s) (fun _ s => MGot tr s))
    else if text_eqb storage (lit "CYCLIC_CLOSED") then
      let s := IOTrace "CYCLIC_CLOSED" s in
      mbind (read_path k s) (fun tr s =>
      let (times, s) := read_int s ji in
      mbind (read_closing s) (fun _ s => MGot (PCyclic tr times) s))
    else MThrew (MIo Error_MotionIO_Unexpected_Traj) s)
  end.
(** every level takes at least one character *)
Definition Path_Read (s : istr) : mio Path := read_path (S (length (is_rest s))) s.

(** velocityprofile.cpp 52-93 *)
Definition VelocityProfile_Read (s : istr) : mio Prof :=
  let s := IOTrace "VelocityProfile::Read" s in
  mbind (read_opening 25 s) (fun storage s =>
  if text_eqb storage (lit "DIRACVEL") then
    mbind (of_io (Eat s "]")) (fun _ s =>
    mbind (of_io (IOTracePop s)) (fun _ s => MGot (PDirac dirac_make) s))
  else if text_eqb storage (lit "CONSTVEL") then
    let (vel, s) := read_double rd s jd in
    mbind (of_io (Eat s "]")) (fun _ s =>
    mbind (of_io (IOTracePop s)) (fun _ s => MGot (PRect (rect_make vel)) s))
  else if text_eqb storage (lit "TRAPEZOIDAL") then
    let (maxvel, s) := read_double rd s jd in
    mbind (of_io (Eat s ",")) (fun _ s =>
    let (maxacc, s) := read_double rd s jd in
    mbind (of_io (Eat s "]")) (fun _ s =>
    mbind (of_io (IOTracePop s)) (fun _ s => MGot (PTrap (trap_make maxvel maxacc)) s)))
  else if text_eqb storage (lit "TRAPEZOIDALHALF") then
    let (maxvel, s) := read_double rd s jd in
    mbind (of_io (Eat s ",")) (fun _ s =>
    let (maxacc, s) := read_double rd s jd in
    mbind (of_io (Eat s ",")) (fun _ s =>
    let (starting, s) := read_bool s jb in
    mbind (of_io (Eat s "]")) (fun _ s =>
    mbind (of_io (IOTracePop s)) (fun _ s => MGot (PHalf (half_make maxvel maxacc starting)) s))))
  else MThrew (MIo Error_MotionIO_Unexpected_MotProf) s).

(** trajectory.cpp 56-73; the constructor of Trajectory_Segment used (trajectory_segment.cpp 48-53) keeps both objects as
    they are *)
Definition Trajectory_Read (s : istr) : mio Traj :=
  let s := IOTrace "Trajectory::Read" s in
  mbind (read_opening 64 s) (fun storage s =>
  if text_eqb storage (lit "SEGMENT") then
    let s := IOTrace "SEGMENT" s in
    mbind (Path_Read s) (fun geom s =>
    mbind (VelocityProfile_Read s) (fun motprof s =>
    mbind (read_closing s) (fun _ s => MGot (TSegment geom motprof) s)))
  else MThrew (MIo Error_MotionIO_Unexpected_Traj) s).
End Readers.
