(** Model of the geometric paths and of the trajectories.

    Sources: /repo/orocos_kdl/src/rotational_interpolation_sa.cpp, path_point.cpp,
    path_line.cpp, path_circle.cpp, path_composite.cpp, path_cyclic_closed.cpp,
    path_roundedcomposite.cpp, trajectory_segment.{hpp,cpp},
    trajectory_stationary.hpp, trajectory_composite.cpp.

    Doubles are idealised as reals; a division by zero (which yields inf or NaN)
    gives [Undefd].  Ownership (the [aggregate] flags, destructors) is not
    modelled: objects reached through pointers are held by value, so two paths
    never share one interpolation object.  The only RotationalInterpolation class
    of the library is RotationalInterpolation_SingleAxis.  The lookup cache of
    Path_Composite is mutable and is therefore part of the object: every query
    returns the answer and the object as it is after the call. *)
From Coq Require Import Reals List ZArith Bool.
From Verif Require Import FramesModel Outcome ProfModel.
Import ListNotations.
Local Open Scope R_scope.

(** Exceptions, utilities/error.h:162-199. *)
Inductive perr : Type :=
| CircleToSmall | CircleNoPlane | NotApplicable | NotFeasible (reason : Z) | Incompatible.

(** The result of a call: a value, an exception, or undefined behaviour
    (an access out of bounds, a failed assertion, a value that is inf or NaN). *)
Inductive result (A : Type) : Type := Val (a : A) | Throw (e : perr) | Undefd.
Arguments Val {A} a.
Arguments Throw {A} e.
Arguments Undefd {A}.
Definition rbind {A B : Type} (x : result A) (f : A -> result B) : result B :=
  match x with Val a => f a | Throw e => Throw e | Undefd => Undefd end.
Notation "'let?' x ':=' a 'in' b" := (rbind a (fun x => b))
  (at level 200, x pattern, a at level 100, b at level 200, right associativity) : outcome_scope.

(** * RotationalInterpolation_SingleAxis *)
Record SA := mkSA { sa_start : Rotation; sa_end : Rotation; sa_axis : Vector; sa_angle : R }.

(** rotational_interpolation_sa.cpp:49-50 (default-constructed members) and
    Clone, lines 83-85.  The angle is uninitialised; 0 stands for it.  It is never
    read before SetStartEnd, which the constructor of every path calls. *)
Definition sa_make : SA := mkSA r_id r_id v_zero 0.
Definition sa_Clone (o : SA) : SA := sa_make.

(** rotational_interpolation_sa.cpp:52-57 *)
Definition sa_SetStartEnd (o : SA) (start_ end_ : Rotation) : SA :=
  let '(axis, angle) := r_GetRotAngle (r_mul (r_inv start_) end_) kdl_epsilon in
  mkSA start_ end_ axis angle.

(** rotational_interpolation_sa.cpp:59-73 *)
Definition sa_Pos (o : SA) (theta : R) : Rotation := r_mul (sa_start o) (r_Rot2 (sa_axis o) theta).
Definition sa_Vel (o : SA) (theta thetad : R) : Vector := r_app (sa_start o) (v_scale (sa_axis o) thetad).
Definition sa_Acc (o : SA) (theta thetad thetadd : R) : Vector :=
  r_app (sa_start o) (v_scale (sa_axis o) thetadd).
Definition sa_Angle (o : SA) : R := sa_angle o.

(** * Path_Line *)
Record Line := mkLine {
  ln_orient : SA; ln_start : Vector; ln_end : Vector; ln_dir : Vector; ln_eqradius : R;
  ln_len : R; ln_scalelin : R; ln_scalerot : R }.

(** path_line.cpp:58-83 and 102-126: the common body of the two constructors. *)
Definition line_body (o : SA) (vs ve : Vector) (Ms Me : Rotation) (eqradius : R) : Line :=
  let '(dir, dist) := v_normalize (v_sub ve vs) in
  let o := sa_SetStartEnd o Ms Me in
  let alpha := sa_Angle o in
  if (if Req_EM_T alpha 0 then false else true) && (if Rlt_dec dist (alpha * eqradius) then true else false) then
    let pathlength := alpha * eqradius in
    mkLine o vs ve dir eqradius pathlength (dist / pathlength) (1 / eqradius)
  else if (if Req_EM_T dist 0 then false else true) then
    let pathlength := dist in
    mkLine o vs ve dir eqradius pathlength 1 (alpha / pathlength)
  else mkLine o vs ve dir eqradius 0 1 1.

(** path_line.cpp:47-84 *)
Definition line_make (startpos endpos : Frame) (o : SA) (eqradius : R) : Line :=
  line_body o (fp startpos) (fp endpos) (fM startpos) (fM endpos) eqradius.

(** path_line.cpp:86-127 *)
Definition line_make_twist (startpos : Frame) (starttwist : Twist) (o : SA) (eqradius : R) : Line :=
  line_body o (fp startpos) (v_add (fp startpos) (tvel starttwist)) (fM startpos)
    (fM (f_mul startpos (mkF (r_Rot (trot starttwist) (v_norm (trot starttwist))) (tvel starttwist)))) eqradius.

(** path_line.cpp:129-131 *)
Definition line_LengthToS (l : Line) (length : R) : result R :=
  if Req_EM_T (ln_scalelin l) 0 then Undefd else Val (length / ln_scalelin l).
(** path_line.cpp:135-145 *)
Definition line_Pos (l : Line) (s : R) : Frame :=
  mkF (sa_Pos (ln_orient l) (s * ln_scalerot l))
      (v_add (ln_start l) (v_scale (v_scale (ln_dir l) s) (ln_scalelin l))).
Definition line_Vel (l : Line) (s sd : R) : Twist :=
  mkT (v_scale (v_scale (ln_dir l) sd) (ln_scalelin l))
      (sa_Vel (ln_orient l) (s * ln_scalerot l) (sd * ln_scalerot l)).
Definition line_Acc (l : Line) (s sd sdd : R) : Twist :=
  mkT (v_scale (v_scale (ln_dir l) sdd) (ln_scalelin l))
      (sa_Acc (ln_orient l) (s * ln_scalerot l) (sd * ln_scalerot l) (sdd * ln_scalerot l)).
(** path_line.cpp:153-171; both branches build the same value *)
Definition line_Clone (l : Line) : Line :=
  line_make (mkF (sa_Pos (ln_orient l) 0) (ln_start l))
            (mkF (sa_Pos (ln_orient l) (ln_len l * ln_scalerot l)) (ln_end l))
            (sa_Clone (ln_orient l)) (ln_eqradius l).

(** * Path_Circle *)
Record Circle := mkCircle {
  ci_orient : SA; ci_center : Frame; ci_radius : R; ci_eqradius : R;
  ci_len : R; ci_scalelin : R; ci_scalerot : R }.

(** utilities/utility.cxx:19 *)
Definition deg2rad : R := PI / 180.

(** path_circle.cpp:48-97.  Lines 89-90 and 94 divide by values that may be zero. *)
Definition circle_make (F_base_start : Frame) (V_base_center V_base_p : Vector) (R_base_end : Rotation)
    (alpha : R) (o : SA) (eqradius : R) : result Circle :=
  let o := sa_SetStartEnd o (fM F_base_start) R_base_end in
  let oalpha := sa_Angle o in
  let '(x, radius) := v_normalize (v_sub (fp F_base_start) V_base_center) in
  if Rlt_dec radius kdl_epsilon then Throw CircleToSmall else
  let '(tmpv, _) := v_normalize (v_sub V_base_p V_base_center) in
  let '(z, n) := v_normalize (v_cross x tmpv) in
  if Rlt_dec n kdl_epsilon then Throw CircleNoPlane else
  let center := mkF (r_cols x (v_cross z x) z) V_base_center in
  let dist := alpha * radius in
  if Rlt_dec dist (oalpha * eqradius) then
    let pathlength := oalpha * eqradius in
    if Req_EM_T eqradius 0 then Undefd else if Req_EM_T pathlength 0 then Undefd else
    Val (mkCircle o center radius eqradius pathlength (dist / pathlength) (1 / eqradius))
  else
    let pathlength := dist in
    if Req_EM_T pathlength 0 then Undefd else
    Val (mkCircle o center radius eqradius pathlength 1 (oalpha / pathlength)).

(** path_circle.cpp:100-102 *)
Definition circle_LengthToS (c : Circle) (length : R) : result R :=
  if Req_EM_T (ci_scalelin c) 0 then Undefd else Val (length / ci_scalelin c).
(** path_circle.cpp:109-115 *)
Definition circle_Pos (c : Circle) (s : R) : Frame :=
  let p := s * ci_scalelin c / ci_radius c in
  mkF (sa_Pos (ci_orient c) (s * ci_scalerot c))
      (f_app (ci_center c) (mkV (ci_radius c * cos p) (ci_radius c * sin p) 0)).
(** path_circle.cpp:117-123 *)
Definition circle_Vel (c : Circle) (s sd : R) : Twist :=
  let p := s * ci_scalelin c / ci_radius c in
  let v := sd * ci_scalelin c / ci_radius c in
  mkT (r_app (fM (ci_center c)) (mkV (- ci_radius c * sin p * v) (ci_radius c * cos p * v) 0))
      (sa_Vel (ci_orient c) (s * ci_scalerot c) (sd * ci_scalerot c)).
(** path_circle.cpp:125-138 *)
Definition circle_Acc (c : Circle) (s sd sdd : R) : Twist :=
  let p := s * ci_scalelin c / ci_radius c in
  let cp := cos p in
  let sp := sin p in
  let v := sd * ci_scalelin c / ci_radius c in
  let a := sdd * ci_scalelin c / ci_radius c in
  mkT (r_app (fM (ci_center c))
         (mkV (- ci_radius c * cp * v * v - ci_radius c * sp * a)
              (- ci_radius c * sp * v * v + ci_radius c * cp * a) 0))
      (sa_Acc (ci_orient c) (s * ci_scalerot c) (sd * ci_scalerot c) (sdd * ci_scalerot c)).
(** path_circle.cpp:140-151 *)
Definition circle_Clone (c : Circle) : result Circle :=
  circle_make (circle_Pos c 0) (fp (ci_center c)) (r_UnitY (fM (ci_center c)))
    (sa_Pos (ci_orient c) (ci_len c * ci_scalerot c))
    (ci_len c * ci_scalelin c / ci_radius c / deg2rad)
    (sa_Clone (ci_orient c)) (ci_eqradius c).

(** * Elementary paths: Path_Point, Path_Line, Path_Circle *)
Inductive Leaf : Type := LPoint (F : Frame) | LLine (l : Line) | LCircle (c : Circle).

(** path_point.cpp:52-75 and the functions above *)
Definition leaf_len (l : Leaf) : R :=
  match l with LPoint _ => 0 | LLine l => ln_len l | LCircle c => ci_len c end.
Definition leaf_LengthToS (l : Leaf) (length : R) : result R :=
  match l with LPoint _ => Val length | LLine l => line_LengthToS l length | LCircle c => circle_LengthToS c length end.
Definition leaf_Pos (l : Leaf) (s : R) : Frame :=
  match l with LPoint F => F | LLine l => line_Pos l s | LCircle c => circle_Pos c s end.
Definition leaf_Vel (l : Leaf) (s sd : R) : Twist :=
  match l with LPoint F => t_zero | LLine l => line_Vel l s sd | LCircle c => circle_Vel c s sd end.
Definition leaf_Acc (l : Leaf) (s sd sdd : R) : Twist :=
  match l with LPoint F => t_zero | LLine l => line_Acc l s sd sdd | LCircle c => circle_Acc c s sd sdd end.
Definition leaf_Clone (l : Leaf) : result Leaf :=
  match l with
  | LPoint F => Val (LPoint F)
  | LLine l => Val (LLine (line_Clone l))
  | LCircle c => let? c' := circle_Clone c in Val (LCircle c')
  end.

(** * All paths *)

(** The lookup cache of Path_Composite: cached_starts, cached_ends, cached_index
    (path_composite.hpp:79-81). *)
Record Cache := mkCache { ca_starts : R; ca_ends : R; ca_index : nat }.

(** Objects of the classes derived from Path.  [PComposite] has the members gv,
    dv, pathlength and the cache (path_composite.hpp:71-82); [PRounded] the members
    comp, radius, eqradius, nrofpoints, F_base_start, F_base_via
    (path_roundedcomposite.hpp); [PCyclic] the members geom and times. *)
Inductive Path : Type :=
| PLeaf (l : Leaf)
| PComposite (gv : list Path) (dv : list R) (pathlength : R) (ca : Cache)
| PCyclic (geom : Path) (times : Z)
| PRounded (comp : Path) (radius eqradius : R) (nrofpoints : nat) (F_base_start F_base_via : Frame).

(** PathLength: path_composite.cpp:93-95, path_cyclic_closed.cpp:56-58,
    path_roundedcomposite.cpp:152-154 *)
Fixpoint path_len (p : Path) : R :=
  match p with
  | PLeaf l => leaf_len l
  | PComposite _ _ pathlength _ => pathlength
  | PCyclic geom times => path_len geom * IZR times
  | PRounded comp _ _ _ _ _ => path_len comp
  end.

(** LengthToS: path_composite.cpp:88-91, path_cyclic_closed.cpp:51-54,
    path_roundedcomposite.cpp:147-149 *)
Fixpoint path_LengthToS (p : Path) (length : R) : result R :=
  match p with
  | PLeaf l => leaf_LengthToS l length
  | PComposite _ _ _ _ => Throw NotApplicable
  | PCyclic _ _ => Throw NotApplicable
  | PRounded comp _ _ _ _ _ => path_LengthToS comp length
  end.

(** path_composite.cpp:75-80 *)
Definition comp_make : Path := PComposite [] [] 0 (mkCache 0 0 0).
(** path_composite.cpp:82-86.  Only called on composites. *)
Definition comp_Add (p : Path) (geom : Path) : Path :=
  match p with
  | PComposite gv dv pathlength ca =>
      let pathlength := pathlength + path_len geom in
      PComposite (gv ++ [geom]) (dv ++ [pathlength]) pathlength ca
  | _ => p
  end.

(** path_composite.cpp:63-71: the search loop from index [i] on; [None] when it
    runs off the end (the vector was empty). *)
Fixpoint lookup_scan (dv : list R) (i : nat) (previous_s s : R) : option (R * Cache) :=
  match dv with
  | [] => None
  | d :: ds =>
      if (if Rle_dec s d then true else false) || (match ds with [] => true | _ => false end)
      then Some (s - previous_s, mkCache previous_s d i)
      else lookup_scan ds (S i) d s
  end.

(** path_composite.cpp:55-73.  A failed assertion (lines 57-58) is [Undefd]: it
    aborts in a debug build and is not compiled in a release build. *)
Definition lookup (dv : list R) (pathlength : R) (ca : Cache) (s : R) : result (R * Cache) :=
  if Rlt_dec s (- / 1000000000000) then Undefd else
  if Rlt_dec (pathlength + / 1000000000000) s then Undefd else
  if (if Rle_dec (ca_starts ca) s then true else false) && (if Rle_dec s (ca_ends ca) then true else false)
  then Val (s - ca_starts ca, ca)
  else match lookup_scan dv 0 0 s with
       | Some r => Val r
       | None => Val (0, ca)
       end.

(** C's fmod: the remainder of the division truncated towards zero; NaN (here
    [Undefd]) for a zero divisor. *)
Definition trunc (x : R) : Z := if Rle_dec 0 x then Int_part x else (- Int_part (- x))%Z.
Definition fmod (x y : R) : result R :=
  if Req_EM_T y 0 then Undefd else Val (x - y * IZR (trunc (x / y))).

(** Pos, Vel and Acc of the composed paths all have the same form: find the
    component and the parameter within it, and ask the component.
    path_composite.cpp:98-111, path_cyclic_closed.cpp:60-70,
    path_roundedcomposite.cpp:156-166. *)
Fixpoint path_eval {A : Type} (f : Leaf -> R -> A) (p : Path) (s : R) {struct p} : result (A * Path) :=
  match p with
  | PLeaf l => Val (f l s, p)
  | PComposite gv dv pathlength ca =>
      let? (s', ca') := lookup dv pathlength ca s in
      let? (a, gv') :=
        (fix at_ (gv : list Path) (i : nat) {struct gv} : result (A * list Path) :=
           match gv, i with
           | [], _ => Undefd
           | c :: r, O => let? (a, c') := path_eval f c s' in Val (a, c' :: r)
           | c :: r, S i => let? (a, r') := at_ r i in Val (a, c :: r')
           end) gv (ca_index ca') in
      Val (a, PComposite gv' dv pathlength ca')
  | PCyclic geom times =>
      let? s' := fmod s (path_len geom) in
      let? (a, geom') := path_eval f geom s' in
      Val (a, PCyclic geom' times)
  | PRounded comp radius eqradius n Fs Fv =>
      let? (a, comp') := path_eval f comp s in
      Val (a, PRounded comp' radius eqradius n Fs Fv)
  end.

Definition path_Pos (p : Path) (s : R) : result (Frame * Path) := path_eval leaf_Pos p s.
Definition path_Vel (p : Path) (s sd : R) : result (Twist * Path) :=
  path_eval (fun l s => leaf_Vel l s sd) p s.
Definition path_Acc (p : Path) (s sd sdd : R) : result (Twist * Path) :=
  path_eval (fun l s => leaf_Acc l s sd sdd) p s.

(** GetCurrentSegmentLocation, path_composite.cpp:146-151: (segment_number, inner_s) *)
Definition comp_GetCurrentSegmentLocation (p : Path) (s : R) : result (nat * R * Path) :=
  match p with
  | PComposite gv dv pathlength ca =>
      let? (s', ca') := lookup dv pathlength ca s in
      Val (ca_index ca', s', PComposite gv dv pathlength ca')
  | _ => Undefd
  end.

(** Clone: path_composite.cpp:113-119, path_cyclic_closed.cpp:78-80,
    path_roundedcomposite.cpp:198-200 (the private constructor, lines 55-59,
    leaves F_base_start and F_base_via default-constructed). *)
Fixpoint path_Clone (p : Path) : result Path :=
  match p with
  | PLeaf l => let? l' := leaf_Clone l in Val (PLeaf l')
  | PComposite gv _ _ _ =>
      (fix all (gv : list Path) (acc : Path) : result Path :=
         match gv with
         | [] => Val acc
         | c :: r => let? c' := path_Clone c in all r (comp_Add acc c')
         end) gv comp_make
  | PCyclic geom times => let? g := path_Clone geom in Val (PCyclic g times)
  | PRounded comp radius eqradius n _ _ =>
      let? c := path_Clone comp in Val (PRounded c radius eqradius n f_id f_id)
  end.

(** * Path_RoundedComposite *)

(** path_roundedcomposite.cpp:61-68 *)
Definition rounded_make (radius eqradius : R) : result Path :=
  if Rle_dec eqradius 0 then Throw (NotFeasible 1)
  else Val (PRounded comp_make radius eqradius 0 f_id f_id).

(** path_roundedcomposite.cpp:70-137: the state of the object after the call
    together with the way the call ended.  [std::acos] is Coq's [acos] on [-1,1]. *)
Definition rounded_Add (p : Path) (F : Frame) : Path * result unit :=
  match p with
  | PRounded comp radius eqradius n Fs Fv =>
      let eps := / 10000000 in
      match n with
      | O => (PRounded comp radius eqradius 1 F Fv, Val tt)
      | S O => (PRounded comp radius eqradius 2 Fs F, Val tt)
      | _ =>
        let ab := v_sub (fp Fv) (fp Fs) in
        let bc := v_sub (fp F) (fp Fv) in
        let abdist := v_norm ab in
        let bcdist := v_norm bc in
        if Rlt_dec abdist eps then (p, Throw (NotFeasible 2)) else
        if Rlt_dec bcdist eps then (p, Throw (NotFeasible 3)) else
        let alpha := acos (kdl_max (-1) (kdl_min (v_dot ab bc / abdist / bcdist) 1)) in
        if Rlt_dec (PI - alpha) eps then (p, Throw (NotFeasible 4)) else
        if Rlt_dec alpha eps then
          (PRounded (comp_Add comp (PLeaf (LLine (line_make Fs Fv sa_make eqradius)))) radius eqradius (S n) Fv F, Val tt)
        else
          let d := radius / tan ((PI - alpha) / 2) in
          if Rle_dec abdist d then (p, Throw (NotFeasible 5)) else
          if Rle_dec bcdist d then (p, Throw (NotFeasible 6)) else
          let line1 := line_make Fs Fv sa_make eqradius in
          let line2 := line_make Fv F sa_make eqradius in
          match line_LengthToS line1 (abdist - d), line_LengthToS line2 d with
          | Val s1, Val s2 =>
            let F_base_circlestart := line_Pos line1 s1 in
            let F_base_circleend := line_Pos line2 s2 in
            let V_base_t := fst (v_normalize (v_cross ab (v_cross ab bc))) in
            let comp1 := comp_Add comp (PLeaf (LLine (line_make Fs F_base_circlestart sa_make eqradius))) in
            match circle_make F_base_circlestart
                    (v_sub (fp F_base_circlestart) (v_scale V_base_t radius))
                    (fp F_base_circleend) (fM F_base_circleend) alpha sa_make eqradius with
            | Val c => (PRounded (comp_Add comp1 (PLeaf (LCircle c))) radius eqradius (S n) F_base_circleend F, Val tt)
            | Throw e => (PRounded comp1 radius eqradius n Fs Fv, Throw e)
            | Undefd => (p, Undefd)
            end
          | _, _ => (p, Undefd)
          end
      end
  | _ => (p, Undefd)
  end.

(** path_roundedcomposite.cpp:139-145 *)
Definition rounded_Finish (p : Path) : Path :=
  match p with
  | PRounded comp radius eqradius n Fs Fv =>
      match n with
      | O => p
      | _ => PRounded (comp_Add comp (PLeaf (LLine (line_make Fs Fv sa_make eqradius)))) radius eqradius n Fs Fv
      end
  | _ => p
  end.

(** * Trajectories *)

(** Trajectory_Segment (members geom, motprof), Trajectory_Stationary (duration,
    pos), Trajectory_Composite (vt, vd, duration). *)
Inductive Traj : Type :=
| TSegment (geom : Path) (motprof : Prof)
| TStationary (duration : R) (pos : Frame)
| TComposite (vt : list Traj) (vd : list R) (duration : R).

Definition of_vres (v : vres) : result R :=
  match v with VVal r => Val r | VThrow => Throw Incompatible | VUndef => Undefd end.

(** trajectory_segment.cpp:63-66, trajectory_stationary.hpp:35-37,
    trajectory_composite.cpp:25-27 *)
Definition traj_Duration (t : Traj) : result R :=
  match t with
  | TSegment _ m => of_vres (prof_duration m)
  | TStationary d _ => Val d
  | TComposite _ _ d => Val d
  end.

(** trajectory_segment.cpp:68-81 *)
Definition seg_Pos (g : Path) (m : Prof) (time : R) : result (Frame * Path) :=
  let? s := of_vres (prof_pos m time) in path_Pos g s.
Definition seg_Vel (g : Path) (m : Prof) (time : R) : result (Twist * Path) :=
  let? s := of_vres (prof_pos m time) in
  let? sd := of_vres (prof_vel m time) in path_Vel g s sd.
Definition seg_Acc (g : Path) (m : Prof) (time : R) : result (Twist * Path) :=
  let? s := of_vres (prof_pos m time) in
  let? sd := of_vres (prof_vel m time) in
  let? sdd := of_vres (prof_acc m time) in path_Acc g s sd sdd.

(** The search loop of Trajectory_Composite::Pos/Vel/Acc,
    trajectory_composite.cpp:35-46, 55-66, 74-85: which element is asked, and at
    what time ([None]: at its own Duration()). *)
Fixpoint tc_scan (vd : list R) (i : nat) (previoustime time : R) : nat * option R :=
  match vd with
  | [] => (pred i, None)
  | d :: ds => if Rlt_dec time d then (i, Some (time - previoustime)) else tc_scan ds (S i) d time
  end.
Definition tc_lookup (vd : list R) (time : R) : nat * option R :=
  if Rlt_dec time 0 then (O, Some 0) else tc_scan vd 0 0 time.

(** Pos, Vel and Acc of the three classes: [seg] evaluates a segment, [stat] a
    stationary trajectory. *)
Fixpoint traj_eval {A : Type} (seg : Path -> Prof -> R -> result (A * Path)) (stat : Frame -> A)
    (t : Traj) (time : R) {struct t} : result (A * Traj) :=
  match t with
  | TSegment g m => let? (a, g') := seg g m time in Val (a, TSegment g' m)
  | TStationary d F => Val (stat F, t)
  | TComposite vt vd dur =>
      let '(i, local) := tc_lookup vd time in
      let? (a, vt') :=
        (fix at_ (vt : list Traj) (i : nat) {struct vt} : result (A * list Traj) :=
           match vt, i with
           | [], _ => Undefd
           | c :: r, O =>
               let? time' := match local with Some u => Val u | None => traj_Duration c end in
               let? (a, c') := traj_eval seg stat c time' in Val (a, c' :: r)
           | c :: r, S i => let? (a, r') := at_ r i in Val (a, c :: r')
           end) vt i in
      Val (a, TComposite vt' vd dur)
  end.
Definition traj_Pos : Traj -> R -> result (Frame * Traj) := traj_eval seg_Pos (fun F => F).
Definition traj_Vel : Traj -> R -> result (Twist * Traj) := traj_eval seg_Vel (fun _ => t_zero).
Definition traj_Acc : Traj -> R -> result (Twist * Traj) := traj_eval seg_Acc (fun _ => t_zero).

(** trajectory_composite.cpp:21-23 *)
Definition tc_make : Traj := TComposite [] [] 0.
(** trajectory_composite.cpp:88-92.  Only called on composites. *)
Definition tc_Add (t : Traj) (elem : Traj) : result Traj :=
  match t with
  | TComposite vt vd dur =>
      let? d := traj_Duration elem in
      Val (TComposite (vt ++ [elem]) (vd ++ [dur + d]) (dur + d))
  | _ => Undefd
  end.
(** trajectory_composite.cpp:94-101 *)
Definition tc_Destroy (t : Traj) : Traj :=
  match t with TComposite _ _ dur => TComposite [] [] dur | _ => t end.

(** Clone: trajectory_segment.hpp:90-95 (the deep copy of the aggregate case),
    trajectory_stationary.hpp:49-51, trajectory_composite.cpp:116-122 *)
Definition of_outcome {A : Type} (o : outcome A) : result A := match o with Ret a => Val a | Undef => Undefd end.
Fixpoint traj_Clone (t : Traj) : result Traj :=
  match t with
  | TSegment g m => let? g' := path_Clone g in let? m' := of_outcome (prof_clone m) in Val (TSegment g' m')
  | TStationary d F => Val (TStationary d F)
  | TComposite vt _ _ =>
      (fix all (vt : list Traj) (acc : Traj) : result Traj :=
         match vt with
         | [] => Val acc
         | c :: r => let? c' := traj_Clone c in let? acc' := tc_Add acc c' in all r acc'
         end) vt tc_make
  end.

(** trajectory_segment.cpp:55-60 for a trapezoidal profile, the constructor with
    a duration. *)
Definition segment_for_duration (g : Path) (m : Trap) (duration : R) : result Traj :=
  let? m' := of_outcome (trap_setProfileDuration m 0 (path_len g) duration) in Val (TSegment g (PTrap m')).
