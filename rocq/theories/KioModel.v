(** Model of kinfam_io.cpp: text output (and the empty input operators) of joints, segments, chains, trees, joint arrays,
    Jacobians and joint space inertia matrices.

    Source: /repo/orocos_kdl/src/kinfam_io.cpp.  A text is a list of characters.  [p] is the precision of the stream (6
    unless changed); the flags are the default ones and the field width is 0 when an operator starts. *)
From Coq Require Import Reals ZArith Ascii String List Bool.
From Verif Require Import FramesModel Outcome InertiaModel DualModel KinModel PathModel IoModel TreeModel MiscModel.
Import ListNotations.
Local Open Scope char_scope.
Local Open Scope list_scope.
Local Open Scope Z_scope.

(** joint.hpp:169-193 *)
Definition joint_getTypeName (j : Joint) : string :=
  match jtype j with
  | RotAxis => "RotAxis" | TransAxis => "TransAxis"
  | RotX => "RotX" | RotY => "RotY" | RotZ => "RotZ"
  | TransX => "TransX" | TransY => "TransY" | TransZ => "TransZ"
  | Fixed => "Fixed"
  end%string.

(** kinfam_io.cpp:27-30 *)
Definition write_Joint (p : Z) (j : Joint) : text :=
  lit (jname j) ++ lit ":[" ++ lit (joint_getTypeName j) ++ lit ", axis: " ++ write_Vector p (joint_JointAxis j)
  ++ lit ", origin" ++ write_Vector p (joint_JointOrigin j) ++ lit "]".
(** kinfam_io.cpp:36-39 *)
Definition write_Segment (p : Z) (s : Segment) : text :=
  lit (sname s) ++ lit ":[" ++ write_Joint p (sjoint s) ++ lit "," ++ [nl] ++ lit " tip: " ++ [nl]
  ++ write_Frame p (segment_getFrameToTip s) ++ lit "]".
(** kinfam_io.cpp:45-51 *)
Definition write_Chain (p : Z) (c : Chain) : outcome text :=
  let! t := for_loop (ch_ns c) 0
    (fun i t => let! s := chain_getSegment c i in Ret (t ++ write_Segment p s ++ [nl])) (lit "[") in
  Ret (t ++ lit "]").

(** the tab character *)
Definition tab : ascii := "009".
(** kinfam_io.cpp:62-69.  The recursion of the code is bounded by [fuel]; running out of it is [Undef]. *)
Fixpoint write_SegmentIt (fuel : nat) (t : Tree) (n : string) : outcome text :=
  match fuel with
  | O => Undef
  | S f =>
      match tfind t n with
      | None => Undef
      | Some e =>
          let! out := (fix loop (cs : list string) (out : text) : outcome text :=
             match cs with
             | [] => Ret out
             | c :: cs' => let! x := write_SegmentIt f t c in loop cs' (out ++ x ++ [tab])
             end) (te_children e)
            (lit n ++ lit "(q_nr: " ++ fmt_nat (Z.of_nat (te_qnr e)) ++ lit ")" ++ [nl] ++ lit " " ++ [tab]) in
          Ret (out ++ [nl])
      end
  end.
(** kinfam_io.cpp:57-60 *)
Definition write_Tree (t : Tree) : outcome text := write_SegmentIt (length (tr_segs t)) t (tr_root t).

(** kinfam_io.cpp:117-126, fuel as above *)
Fixpoint tree2str_it (fuel : nat) (t : Tree) (n : string) (separator preamble : text) (level : nat) : outcome text :=
  match fuel with
  | O => Undef
  | S f =>
      match tfind t n with
      | None => Undef
      | Some e =>
          (fix loop (cs : list string) (out : text) : outcome text :=
             match cs with
             | [] => Ret out
             | c :: cs' => let! x := tree2str_it f t c separator preamble (S level) in loop cs' (out ++ x)
             end) (te_children e)
            (preamble ++ concat (repeat separator level) ++ lit n ++ lit "(q_nr: " ++ fmt_nat (Z.of_nat (te_qnr e))
             ++ lit ")" ++ [nl])
      end
  end.
(** kinfam_io.cpp:128-130 *)
Definition tree2str (t : Tree) (separator preamble : text) : outcome text :=
  tree2str_it (length (tr_segs t)) t (tr_root t) separator preamble 0.

(** kinfam_io.cpp:75-81; the array is the list of its elements *)
Definition write_JntArray (p : Z) (q : list R) : text := lit "[" ++ flat_map (put p) q ++ lit "]".
(** jacobian.cpp, operator()(i,j) for i < 6 and j < columns *)
Definition jac_entry (J : list Twist) (i j : nat) : R :=
  let c := nth j J t_zero in nth i [vx (tvel c); vy (tvel c); vz (tvel c); vx (trot c); vy (trot c); vz (trot c)] 0%R.
(** the loops of kinfam_io.cpp:89-93 and 103-107 *)
Definition write_rows (p : Z) (rows cols : nat) (entry : nat -> nat -> R) : text :=
  flat_map (fun i => flat_map (fun j => put p (entry i j)) (seq 0 cols) ++ [nl]) (seq 0 rows).
(** kinfam_io.cpp:87-96 *)
Definition write_Jacobian (p : Z) (J : list Twist) : text :=
  lit "[" ++ write_rows p 6 (length J) (jac_entry J) ++ lit "]".
(** kinfam_io.cpp:101-110; the indices are within the matrix *)
Definition write_JntSpaceInertiaMatrix (p : Z) (m : jmat) : text :=
  lit "[" ++ write_rows p (jm_n m) (jm_n m) (fun i j => nth (j * jm_n m + i) (jm_d m) 0%R) ++ lit "]".

(** kinfam_io.cpp:32-34, 41-43, 53-55, 71-73, 83-85, 98-100, 112-114: [return is;] *)
Definition read_nothing {T : Type} (s : istr) (x : T) : oio T := OGot x s.
Definition read_Joint : istr -> Joint -> oio Joint := read_nothing.
Definition read_Segment : istr -> Segment -> oio Segment := read_nothing.
Definition read_Chain : istr -> Chain -> oio Chain := read_nothing.
Definition read_Tree : istr -> Tree -> oio Tree := read_nothing.
Definition read_JntArray : istr -> list R -> oio (list R) := read_nothing.
Definition read_Jacobian : istr -> list Twist -> oio (list Twist) := read_nothing.
Definition read_JntSpaceInertiaMatrix : istr -> jmat -> oio jmat := read_nothing.
