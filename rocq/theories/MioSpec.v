(** What the texts of paths, velocity profiles and trajectories look like, and which constructor calls they stand for. *)
From Coq Require Import Reals ZArith Ascii String List Bool.
From Verif Require Import FramesModel Outcome ProfModel PathModel PathSpec IoModel IoSpec MioModel.
Import ListNotations.
Local Open Scope char_scope.
Local Open Scope list_scope.
Local Open Scope Z_scope.

(** *** Descriptions: which constructors with which arguments *)
Inductive desc :=
| DPoint (F : Frame)
| DLine (startpos endpos : Frame) (eqradius : R)
| DCircle (start : Frame) (center p : Vector) (R_end : Rotation) (alpha_degrees eqradius : R)
| DRounded (radius eqradius : R) (points : list Frame)
| DComposite (parts : list desc)
| DCyclic (part : desc) (times : Z).

(** add the points one after the other; stop at the first exception *)
Fixpoint add_points (tr : Path) (Fs : list Frame) : result Path :=
  match Fs with
  | [] => Val tr
  | F :: r => match rounded_Add tr F with (tr', Val _) => add_points tr' r | (_, Throw e) => Throw e | (_, Undefd) => Undefd end
  end.
(** the path the constructors build, or what they throw *)
Fixpoint build (d : desc) : result Path :=
  match d with
  | DPoint F => Val (PLeaf (LPoint F))
  | DLine F G eqradius => Val (PLeaf (LLine (line_make F G sa_make eqradius)))
  | DCircle F c p R alpha eqradius =>
      match circle_make F c p R (degrees alpha) sa_make eqradius with Val c => Val (PLeaf (LCircle c)) | Throw e => Throw e | Undefd => Undefd end
  | DRounded radius eqradius Fs =>
      match rounded_make radius eqradius with
      | Val tr => match add_points tr Fs with Val tr => Val (rounded_Finish tr) | Throw e => Throw e | Undefd => Undefd end
      | Throw e => Throw e
      | Undefd => Undefd
      end
  | DComposite ds =>
      (fix all (ds : list desc) (acc : Path) : result Path :=
         match ds with
         | [] => Val acc
         | d :: r => match build d with Val P => all r (comp_Add acc P) | Throw e => Throw e | Undefd => Undefd end
         end) ds comp_make
  | DCyclic d times => match build d with Val P => Val (PCyclic P times) | Throw e => Throw e | Undefd => Undefd end
  end.
(** a composite of the given parts *)
Definition composite (Ps : list Path) : Path := fold_left comp_Add Ps comp_make.

(** *** Whole numbers *)
Definition in_int (z : Z) : Prop := -2147483648 <= z <= 2147483647.
Definition integer (t : text) (z : Z) : Prop :=
  exists sg s ds, t = sg ++ ds /\ sign_text sg s /\ digits_text ds /\ ds <> [] /\ z = s * number ds.
Definition int_text (t : text) (z : Z) : Prop := integer t z /\ in_int z.

(** *** The grammar.  [blk] is the space allowed between the parts, [gap] the space after a number that is not followed by a
    separator; [vec], [rot], [frm] are the texts of vectors, rotations and frames. *)
Section Grammar.
Variable blk gap : text -> Prop.
Variable rd : R -> R.
Variable vec : text -> Vector -> Prop.
Variable rot : text -> Rotation -> Prop.
Variable frm : text -> Frame -> Prop.

(** a keyword and the opening bracket *)
Definition opening (k : string) (t : text) : Prop := exists u b, t = u ++ ["["] ++ b /\ word blk k u /\ blk b.
(** space and a number *)
Definition num (t : text) (x : R) : Prop := exists b n v, t = b ++ n /\ blk b /\ numeral n v /\ x = rd v.
Definition int (t : text) (z : Z) : Prop := exists b n, t = b ++ n /\ blk b /\ int_text n z.
(** space and the closing bracket *)
Definition closing (t : text) : Prop := exists b, t = b ++ ["]"] /\ blk b.
Definition interp (t : text) : Prop := exists t1 t2, t = t1 ++ t2 /\ opening "SINGLEAXIS" t1 /\ closing t2.

Inductive frames : text -> list Frame -> Prop :=
| fr_nil : frames [] []
| fr_cons t F u Fs : frm t F -> frames u Fs -> frames (t ++ u) (F :: Fs).

Inductive path_text : text -> desc -> Prop :=
| pt_point t1 t2 t3 F : opening "POINT" t1 -> frm t2 F -> closing t3 -> path_text (t1 ++ t2 ++ t3) (DPoint F)
| pt_line t1 t2 t3 t4 t5 t6 F G r :
    opening "LINE" t1 -> frm t2 F -> frm t3 G -> interp t4 -> num t5 r -> closing t6 ->
    path_text (t1 ++ t2 ++ t3 ++ t4 ++ t5 ++ t6) (DLine F G r)
| pt_circle t1 t2 t3 t4 t5 t6 g t7 t8 t9 F c q R a r :
    opening "CIRCLE" t1 -> frm t2 F -> vec t3 c -> vec t4 q -> rot t5 R -> num t6 a -> gap g -> interp t7 -> num t8 r -> closing t9 ->
    path_text (t1 ++ t2 ++ t3 ++ t4 ++ t5 ++ t6 ++ g ++ t7 ++ t8 ++ t9) (DCircle F c q R a r)
| pt_rounded t1 t2 g2 t3 g3 t4 t5 g5 t6 t7 radius r z Fs :
    opening "ROUNDEDCOMPOSITE" t1 -> num t2 radius -> gap g2 -> num t3 r -> gap g3 -> interp t4 -> int t5 z -> gap g5 ->
    frames t6 Fs -> length Fs = Z.to_nat z -> closing t7 ->
    path_text (t1 ++ t2 ++ g2 ++ t3 ++ g3 ++ t4 ++ t5 ++ g5 ++ t6 ++ t7) (DRounded radius r Fs)
| pt_composite t1 t2 g t3 t4 z ds :
    opening "COMPOSITE" t1 -> int t2 z -> gap g -> paths t3 ds -> length ds = Z.to_nat z -> closing t4 ->
    path_text (t1 ++ t2 ++ g ++ t3 ++ t4) (DComposite ds)
| pt_cyclic t1 t2 t3 t4 d z :
    opening "CYCLIC_CLOSED" t1 -> path_text t2 d -> int t3 z -> closing t4 ->
    path_text (t1 ++ t2 ++ t3 ++ t4) (DCyclic d z)
with paths : text -> list desc -> Prop :=
| ps_nil : paths [] []
| ps_cons t d u ds : path_text t d -> paths u ds -> paths (t ++ u) (d :: ds).

(** profiles; the space after the closing bracket is part of the text *)
Inductive prof_text : text -> Prof -> Prop :=
| pr_dirac t1 t2 b : opening "DIRACVEL" t1 -> closing t2 -> blk b -> prof_text (t1 ++ t2 ++ b) (PDirac dirac_make)
| pr_rect t1 t2 t3 b v : opening "CONSTVEL" t1 -> num t2 v -> closing t3 -> blk b ->
    prof_text (t1 ++ t2 ++ t3 ++ b) (PRect (rect_make v))
| pr_trap t1 t2 b1 t3 t4 b v a : opening "TRAPEZOIDAL" t1 -> num t2 v -> blk b1 -> num t3 a -> closing t4 -> blk b ->
    prof_text (t1 ++ t2 ++ b1 ++ [","] ++ t3 ++ t4 ++ b) (PTrap (trap_make v a))
| pr_half t1 t2 b1 t3 b2 b3 n z t4 b v a : opening "TRAPEZOIDALHALF" t1 -> num t2 v -> blk b1 -> num t3 a -> blk b2 ->
    blk b3 -> integer n z -> (z = 0 \/ z = 1) -> closing t4 -> blk b ->
    prof_text (t1 ++ t2 ++ b1 ++ [","] ++ t3 ++ b2 ++ [","] ++ b3 ++ n ++ t4 ++ b) (PHalf (half_make v a (z =? 1))).

Inductive traj_text : text -> desc -> Prof -> Prop :=
| tt_segment t1 t2 t3 t4 d m : opening "SEGMENT" t1 -> path_text t2 d -> prof_text t3 m -> closing t4 ->
    traj_text (t1 ++ t2 ++ t3 ++ t4) d m.
End Grammar.

(** every accepted text: white space and comments anywhere between the parts, keyword forms of the geometric types *)
Definition any_path (rd : R -> R) : text -> desc -> Prop :=
  path_text skipped skipped rd (vector_text skipped rd) (rotation_text skipped rd) (frame_text skipped rd).
Definition any_prof (rd : R -> R) : text -> Prof -> Prop := prof_text skipped rd.
Definition any_traj (rd : R -> R) : text -> desc -> Prof -> Prop :=
  traj_text skipped skipped rd (vector_text skipped rd) (rotation_text skipped rd) (frame_text skipped rd).
(** the plain form: spaces, tabs and newlines between the parts, at least one after a number; no keyword forms that end in a
    word *)
Definition some (t : text) : Prop := plain t /\ t <> [].
Definition plain_path (rd : R -> R) : text -> desc -> Prop :=
  path_text plain some rd (vector_list plain rd) (closed_rotation plain rd) (closed_frame plain rd).
Definition plain_prof (rd : R -> R) : text -> Prof -> Prop := prof_text plain rd.
Definition plain_traj (rd : R -> R) : text -> desc -> Prof -> Prop :=
  traj_text plain some rd (vector_list plain rd) (closed_rotation plain rd) (closed_frame plain rd).

(** *** What the readers do *)
(** takes exactly t and returns x, the stream stays good *)
Definition takes {A : Type} (rdr : istr -> mio A) (t : text) (x : A) : Prop :=
  forall past rest tr, rdr (stream past (t ++ rest) tr) = MGot x (stream (rev t ++ past) rest tr).
(** the same, provided something other than space or a comment follows *)
Definition takes_before {A : Type} (rdr : istr -> mio A) (t : text) (x : A) : Prop :=
  forall past c rest tr, ~ In c [" "; "009"; "010"; "#"; "/"] ->
    rdr (stream past (t ++ c :: rest) tr) = MGot x (stream (rev t ++ past) (c :: rest) tr).
(** ends in the given exception of a constructor *)
Definition throws {A : Type} (rdr : istr -> mio A) (t : text) (e : mexc) : Prop :=
  forall past rest tr, exists s, rdr (stream past (t ++ rest) tr) = MThrew e s.
Definition undefined {A : Type} (rdr : istr -> mio A) (t : text) : Prop :=
  forall past rest tr, rdr (stream past (t ++ rest) tr) = MUb.
(** whenever the reader returns, it has taken a text that means what it returns *)
Definition only_takes {A : Type} (rdr : istr -> mio A) (means : text -> A -> Prop) : Prop :=
  forall s x s', rdr s = MGot x s' ->
    good s = true /\ is_trace s' = is_trace s /\
    exists t u, is_rest s = t ++ u /\ means t x /\ (good s' = true -> u = is_rest s' /\ is_past s' = rev t ++ is_past s).
(** the text t stands for a path that the constructors accept *)
Definition path_means (rd : R -> R) (t : text) (P : Path) : Prop := exists d, any_path rd t d /\ build d = Val P.
Definition traj_means (rd : R -> R) (t : text) (T : Traj) : Prop :=
  exists d P m, any_traj rd t d m /\ build d = Val P /\ T = TSegment P m.

(** *** What is written *)
(** frames with every number replaced by f of it *)
Definition fmap (f : R -> R) (F : Frame) : Frame := mkF (rmap f (fM F)) (vmap f (fp F)).
(** the description the text of a path gives, every number replaced by f of it *)
Fixpoint described (f : R -> R) (P : Path) : desc :=
  match P with
  | PLeaf (LPoint F) => DPoint (fmap f F)
  | PLeaf (LLine l) =>
      DLine (fmap f (mkF (sa_Pos (ln_orient l) 0) (ln_start l)))
            (fmap f (mkF (sa_Pos (ln_orient l) (ln_len l * ln_scalerot l)%R) (ln_end l))) (f (ln_eqradius l))
  | PLeaf (LCircle c) =>
      DCircle (fmap f (circle_Pos c 0)) (vmap f (fp (ci_center c))) (vmap f (r_UnitY (fM (ci_center c))))
              (rmap f (sa_Pos (ci_orient c) (ci_len c * ci_scalerot c)%R))
              (f (ci_len c * ci_scalelin c / ci_radius c / (PI / 180))%R) (f (ci_eqradius c))
  | PComposite gv _ _ _ => DComposite (map (described f) gv)
  | PCyclic geom times => DCyclic (described f geom) times
  | PRounded comp _ _ _ _ _ => described f comp
  end.
(** the counts in a path fit in an int, and the two vectors of a composite have the same size *)
Fixpoint counts_ok (P : Path) : Prop :=
  match P with
  | PLeaf _ => True
  | PComposite gv dv _ _ => length dv = length gv /\ Z.of_nat (length gv) <= 2147483647 /\
      (fix all (gv : list Path) : Prop := match gv with [] => True | c :: r => counts_ok c /\ all r end) gv
  | PCyclic geom times => in_int times /\ counts_ok geom
  | PRounded comp _ _ _ _ _ => counts_ok comp
  end.
(** the profile the text of a profile gives: the limits, no motion *)
Definition limits (f : R -> R) (m : Prof) : option Prof :=
  match m with
  | PTrap t => Some (PTrap (trap_make (f (tr_maxvel t)) (f (tr_maxacc t))))
  | PHalf h => Some (PHalf (half_make (f (th_maxvel h)) (f (th_maxacc h)) (th_starting h)))
  | PRect r => Some (PRect (rect_make (f (re_maxvel r))))
  | PDirac _ => Some (PDirac dirac_make)
  | PSpline _ => None
  end.

(** a reader does with t what the constructors did *)
Definition ends_as {A : Type} (rdr : istr -> mio A) (t : text) (r : result A) : Prop :=
  match r with Val x => takes rdr t x | Throw e => throws rdr t (MPlan e) | Undefd => undefined rdr t end.
(** points, lines the code can tell from standing still, composites and cyclic paths of these *)
Fixpoint of_lines (d : desc) : Prop :=
  match d with
  | DPoint _ => True
  | DLine F G eqradius => resolved F G /\ (0 < eqradius)%R
  | DComposite ds => Z.of_nat (length ds) <= 2147483647 /\
      (fix all (ds : list desc) : Prop := match ds with [] => True | d :: r => of_lines d /\ all r end) ds
  | DCyclic d times => in_int times /\ of_lines d
  | DCircle _ _ _ _ _ _ | DRounded _ _ _ => False
  end.
(** every number replaced by f of it *)
Fixpoint dmap (f : R -> R) (d : desc) : desc :=
  match d with
  | DPoint F => DPoint (fmap f F)
  | DLine F G eqradius => DLine (fmap f F) (fmap f G) (f eqradius)
  | DCircle F c q M a eqradius => DCircle (fmap f F) (vmap f c) (vmap f q) (rmap f M) (f a) (f eqradius)
  | DRounded radius eqradius Fs => DRounded (f radius) (f eqradius) (map (fmap f) Fs)
  | DComposite ds => DComposite (map (dmap f) ds)
  | DCyclic d times => DCyclic (dmap f d) times
  end.
Definition numbers_Frame (F : Frame) : list R := numbers_Rotation (fM F) ++ numbers_Vector (fp F).
Fixpoint numbers_desc (d : desc) : list R :=
  match d with
  | DPoint F => numbers_Frame F
  | DLine F G eqradius => numbers_Frame F ++ numbers_Frame G ++ [eqradius]
  | DCircle F c q M a eqradius => numbers_Frame F ++ numbers_Vector c ++ numbers_Vector q ++ numbers_Rotation M ++ [a; eqradius]
  | DRounded radius eqradius Fs => [radius; eqradius] ++ flat_map numbers_Frame Fs
  | DComposite ds => flat_map numbers_desc ds
  | DCyclic d _ => numbers_desc d
  end.
