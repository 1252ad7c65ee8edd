(** Specification vocabulary for the text of kinematic structures (C75). *)
From Coq Require Import Reals ZArith Ascii String List Bool.
From Verif Require Import FramesModel Outcome InertiaModel DualModel KinModel KinSpec PathModel IoModel IoSpec TreeModel TreeSpec KioModel.
Import ListNotations.
Local Open Scope char_scope.
Local Open Scope list_scope.
Local Open Scope Z_scope.

(** Row i of a Jacobian whose columns are twists: the three components of the linear velocity, then those of the angular velocity. *)
Definition jacobian_row (i : nat) (t : Twist) : R :=
  match i with
  | O => vx (tvel t) | 1%nat => vy (tvel t) | 2%nat => vz (tvel t)
  | 3%nat => vx (trot t) | 4%nat => vy (trot t) | _ => vz (trot t)
  end.
(** *** Trees *)
(** one line of the tree listing: how deep, which segment, which joint number *)
Record entry := mkEntry { en_level : nat; en_name : string; en_qnr : nat }.
(** the subtrees that start at the given names, depth first, children in their stored order *)
Inductive listed (t : Tree) : nat -> list string -> list entry -> Prop :=
| li_nil d : listed t d [] []
| li_cons d c e cs l1 l2 :
    tfind t c = Some e -> listed t (S d) (te_children e) l1 -> listed t d cs l2 ->
    listed t d (c :: cs) (mkEntry d c (te_qnr e) :: l1 ++ l2).
(** k is the decimal numeral of n, without leading zeros *)
Definition decimal (n : nat) (k : text) : Prop :=
  digits_text k /\ number k = Z.of_nat n /\ k <> [] /\ (forall r, k = "0" :: r -> r = []).
(** the line of an entry *)
Definition line_of (separator preamble : text) (x : entry) (l : text) : Prop :=
  exists k, decimal (en_qnr x) k /\
    l = preamble ++ concat (repeat separator (en_level x)) ++ lit (en_name x) ++ lit "(q_nr: " ++ k ++ lit ")" ++ [nl].
(** the text of operator<< for the subtrees that start at the given names *)
Inductive nested (t : Tree) : list string -> text -> Prop :=
| ne_nil : nested t [] []
| ne_cons c e cs k a b :
    tfind t c = Some e -> decimal (te_qnr e) k -> nested t (te_children e) a -> nested t cs b ->
    nested t (c :: cs) (lit c ++ lit "(q_nr: " ++ k ++ lit ")" ++ [nl] ++ lit " " ++ [tab] ++ a ++ [nl] ++ [tab] ++ b).
(** no name in the tree contains the character *)
Definition names_without (c : ascii) (t : Tree) : Prop := forall n, In n (names t) -> ~ In c (lit n).
Definition starts_with (a t : text) : Prop := exists r, t = a ++ r.
(** the trees have the same segments, joined in the same way, with the same joint numbers *)
Definition same_shape (a b : Tree) : Prop :=
  tr_root a = tr_root b /\
  forall n, option_map (fun e => (te_qnr e, te_parent e, te_children e)) (tfind a n)
          = option_map (fun e => (te_qnr e, te_parent e, te_children e)) (tfind b n).

(** *** Joints, segments and chains *)
(** equal when rounded to p significant decimal digits *)
Definition agree (p : Z) (x y : R) : Prop := round10 p x = round10 p y.
Definition agree_v (p : Z) (a b : Vector) : Prop := Forall2 (agree p) (numbers_Vector a) (numbers_Vector b).
Definition agree_f (p : Z) (a b : Frame) : Prop :=
  Forall2 (agree p) (numbers_Rotation (fM a)) (numbers_Rotation (fM b)) /\ agree_v p (fp a) (fp b).
Definition agree_joint (p : Z) (a b : Joint) : Prop :=
  jname a = jname b /\ jtype a = jtype b /\ agree_v p (joint_JointAxis a) (joint_JointAxis b) /\
  agree_v p (joint_JointOrigin a) (joint_JointOrigin b).
Definition agree_segment (p : Z) (a b : Segment) : Prop :=
  sname a = sname b /\ agree_joint p (sjoint a) (sjoint b) /\ agree_f p (segment_getFrameToTip a) (segment_getFrameToTip b).
Definition no_colon (s : Segment) : Prop := ~ In ":" (lit (sname s)) /\ ~ In ":" (lit (jname (sjoint s))).

(** *** Arrays *)
(** zero, or of ordinary size *)
Definition ordinary (x : R) : Prop := x = 0%R \/ (powerRZ 10 (-99) <= Rabs x < powerRZ 10 99)%R.
(** n characters from position i on *)
Definition window (i n : nat) (t : text) : text := firstn n (skipn i t).
(** spaces and a numeral for the value of x to p significant digits *)
Definition cell (p : Z) (x : R) (t : text) : Prop :=
  exists b n, t = b ++ n /\ (forall c, In c b -> c = " ") /\ numeral n (round10 p x).
