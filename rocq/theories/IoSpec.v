(** What the texts of the geometric types look like, and what they mean. *)
From Coq Require Import Reals ZArith Ascii String List Bool.
From Flocq Require Import Core.
From Verif Require Import FramesModel PathModel IoModel.
Import ListNotations.
Local Open Scope char_scope.
Local Open Scope list_scope.
Local Open Scope R_scope.

(** *** Space between the parts *)
Definition white (c : ascii) : Prop := In c [" "; "009"; "010"; "011"; "012"; "013"].
(** space, tab, newline only *)
Definition plain (t : text) : Prop := forall c, In c t -> In c [" "; "009"; "010"].
(** t does not contain a newline; t does not contain the end of a C comment *)
Definition one_line (t : text) : Prop := ~ In "010" t.
Definition no_end (t : text) : Prop := forall a b, t <> a ++ ["*"; "/"] ++ b.
Inductive skip_item : text -> Prop :=
| sk_white c : white c -> skip_item [c]
| sk_hash l : one_line l -> skip_item (["#"] ++ l ++ ["010"])
| sk_line l : one_line l -> skip_item (["/"; "/"] ++ l ++ ["010"])
| sk_comment l : no_end (l ++ ["*"]) -> skip_item (["/"; "*"] ++ l ++ ["*"; "/"]).
(** white space and comments *)
Inductive skipped : text -> Prop :=
| sk_none : skipped []
| sk_more a b : skip_item a -> skipped b -> skipped (a ++ b).

(** *** Numbers *)
Definition digits_text (t : text) : Prop :=
  forall c, In c t -> In c ["0"; "1"; "2"; "3"; "4"; "5"; "6"; "7"; "8"; "9"].
Definition number (t : text) : Z := fold_left (fun a c => 10 * a + (Z.of_nat (nat_of_ascii c) - 48))%Z t 0%Z.
Inductive sign_text : text -> Z -> Prop :=
| sg_none : sign_text [] 1
| sg_plus : sign_text ["+"] 1
| sg_minus : sign_text ["-"] (-1).
Inductive exponent_text : text -> Z -> Prop :=
| ex_none : exponent_text [] 0
| ex_some e sg s ds : In e ["e"; "E"] -> sign_text sg s -> digits_text ds -> ds <> [] ->
    exponent_text (e :: sg ++ ds) (s * number ds).
(** t is a decimal numeral, v the number it denotes *)
Definition numeral (t : text) (v : R) : Prop :=
  exists sg s ip dot fp ex e, t = sg ++ ip ++ dot ++ fp ++ ex /\
    sign_text sg s /\ digits_text ip /\ digits_text fp /\ (dot = ["."] \/ dot = [] /\ fp = []) /\ ip ++ fp <> [] /\
    exponent_text ex e /\
    v = IZR s * IZR (number (ip ++ fp)) * powerRZ 10 (e - Z.of_nat (length fp)).

(** the nearest number with p significant decimal digits, ties to even *)
Definition round10 (p : Z) (x : R) : R := round radix10 (FLX_exp p) ZnearestE x.
(** an IEEE double (subnormal numbers included, overflow left out), and rounding to the nearest one *)
Definition is_double (x : R) : Prop := generic_format radix2 (FLT_exp (-1074) 53) x.
Definition to_double (x : R) : R := round radix2 (FLT_exp (-1074) 53) ZnearestE x.

(** *** Objects.  [blk] is the space allowed between the parts, [rd] the rounding applied to a numeral. *)
Section Grammar.
Variable blk : text -> Prop.
Variable rd : R -> R.

(** numbers separated by the given characters, each with space before and after *)
Inductive fields : list ascii -> text -> list R -> Prop :=
| fs_last b n v b' : blk b -> numeral n v -> blk b' -> fields [] (b ++ n ++ b') [rd v]
| fs_more b n v b' c cs t xs : blk b -> numeral n v -> blk b' -> fields cs t xs ->
    fields (c :: cs) (b ++ n ++ b' ++ [c] ++ t) (rd v :: xs).
Definition bracketed (seps : list ascii) (t : text) (xs : list R) : Prop :=
  exists b f, t = b ++ ["["] ++ f ++ ["]"] /\ blk b /\ fields seps f xs.
(** a word, upper or lower case, with space before and after *)
Definition word (k : string) (t : text) : Prop :=
  exists b w a, t = b ++ w ++ a /\ blk b /\ map Upper w = lit k /\ blk a.

Definition numbers_Vector (v : Vector) : list R := [vx v; vy v; vz v].
Definition numbers_Rotation (r : Rotation) : list R := [r0 r; r1 r; r2 r; r3 r; r4 r; r5 r; r6 r; r7 r; r8 r].

Definition vector_list (t : text) (v : Vector) : Prop := bracketed [","; ","] t (numbers_Vector v).
Definition vector_text (t : text) (v : Vector) : Prop :=
  vector_list t v \/ (word "ZERO" t /\ v = v_zero).
Definition twist_text (t : text) (v : Twist) : Prop :=
  bracketed [","; ","; ","; ","; ","] t (numbers_Vector (tvel v) ++ numbers_Vector (trot v)).
Definition wrench_text (t : text) (v : Wrench) : Prop :=
  bracketed [","; ","; ","; ","; ","] t (numbers_Vector (wforce v) ++ numbers_Vector (wtorque v)).
Definition rotation_list (t : text) (r : Rotation) : Prop :=
  bracketed [","; ","; ";"; ","; ","; ";"; ","; ","] t (numbers_Rotation r).
Definition degrees (x : R) : R := x * (PI / 180).
(** a word followed by a vector *)
Definition word_vector (k : string) (t : text) (v : Vector) : Prop :=
  exists t1 t2, t = t1 ++ t2 /\ word k t1 /\ vector_text t2 v.
Definition rotation_text (t : text) (r : Rotation) : Prop :=
  rotation_list t r
  \/ (exists v, word_vector "EULERZYX" t v /\ r = r_EulerZYX (degrees (vx v)) (degrees (vy v)) (degrees (vz v)))
  \/ (exists v, word_vector "EULERZYZ" t v /\ r = r_EulerZYZ (degrees (vx v)) (degrees (vy v)) (degrees (vz v)))
  \/ (exists v, word_vector "RPY" t v /\ r = r_RPY (degrees (vx v)) (degrees (vy v)) (degrees (vz v)))
  \/ (exists t1 t2 v a, t = t1 ++ t2 /\ word_vector "ROT" t1 v /\ bracketed [] t2 [a] /\ r = r_Rot v (degrees a))
  \/ (word "IDENTITY" t /\ r = r_id).
Definition frame_text (t : text) (T : Frame) : Prop :=
  (exists b tM tp b', t = b ++ ["["] ++ tM ++ tp ++ b' ++ ["]"] /\ blk b /\ rotation_text tM (fM T) /\
     vector_text tp (fp T) /\ blk b')
  \/ (exists t1 t2 a alpha d theta, t = t1 ++ t2 /\ word "DH" t1 /\
        bracketed [","; ","; ","] t2 [a; alpha; d; theta] /\ T = f_DH a (degrees alpha) d (degrees theta)).
(** the forms of a rotation that end in a bracket *)
Definition word_list (k : string) (t : text) (v : Vector) : Prop :=
  exists t1 t2, t = t1 ++ t2 /\ word k t1 /\ vector_list t2 v.
Definition closed_rotation (t : text) (r : Rotation) : Prop :=
  rotation_list t r
  \/ (exists v, word_list "EULERZYX" t v /\ r = r_EulerZYX (degrees (vx v)) (degrees (vy v)) (degrees (vz v)))
  \/ (exists v, word_list "EULERZYZ" t v /\ r = r_EulerZYZ (degrees (vx v)) (degrees (vy v)) (degrees (vz v)))
  \/ (exists v, word_list "RPY" t v /\ r = r_RPY (degrees (vx v)) (degrees (vy v)) (degrees (vz v)))
  \/ (exists t1 t2 v a, t = t1 ++ t2 /\ word_list "ROT" t1 v /\ bracketed [] t2 [a] /\ r = r_Rot v (degrees a)).
(** t starts with space or a bracket, so that it can follow a word *)
Definition apart (t : text) : Prop := exists c u, t = c :: u /\ In c ["["; " "; "009"; "010"].
Definition closed_frame (t : text) (T : Frame) : Prop :=
  (exists b tM tp b', t = b ++ ["["] ++ tM ++ tp ++ b' ++ ["]"] /\ blk b /\
     (closed_rotation tM (fM T) \/ (word "IDENTITY" tM /\ fM T = r_id /\ apart tp)) /\ vector_text tp (fp T) /\ blk b')
  \/ (exists t1 t2 a alpha d theta, t = t1 ++ t2 /\ word "DH" t1 /\
        bracketed [","; ","; ","] t2 [a; alpha; d; theta] /\ T = f_DH a (degrees alpha) d (degrees theta)).
Definition vector2_text (t : text) (v : Vector2) : Prop := bracketed [","] t [v2x v; v2y v].
End Grammar.

(** a stream in good state with the given text before and after the read position *)
Definition stream (past rest : text) (tr : list string) : istr := mkIs past rest false false false tr.

(** [rdr] reads from a stream that starts with t, takes exactly t, leaves the stream good and the object equal to x *)
Definition reads {T : Type} (rdr : istr -> T -> oio T) (t : text) (x : T) : Prop :=
  forall past rest tr old, rdr (stream past (t ++ rest) tr) old = OGot x (stream (rev t ++ past) rest tr).
(** whenever [rdr] returns, the text at the read position starts with a text t that means the value stored; if the stream
    is still good after the call, exactly t has been taken *)
Definition only_reads {T : Type} (rdr : istr -> T -> oio T) (means : text -> T -> Prop) : Prop :=
  forall s old x s', rdr s old = OGot x s' ->
    good s = true /\ is_trace s' = is_trace s /\
    exists t u, is_rest s = t ++ u /\ means t x /\
      (good s' = true -> u = is_rest s' /\ is_past s' = rev t ++ is_past s).
(** [rdr] takes t, a keyword form that ends in a word, provided the text goes on with something other than space or a
    comment, and there is space or a bracket after the word *)
Definition reads_word {T : Type} (rdr : istr -> T -> oio T) (b w a : text) (x : T) : Prop :=
  forall past c rest tr old, ~ In c [" "; "009"; "010"; "#"; "/"] -> (a <> [] \/ c = "[" \/ c = "]") ->
    rdr (stream past (b ++ w ++ a ++ c :: rest) tr) old = OGot x (stream (rev (b ++ w ++ a) ++ past) (c :: rest) tr).

(** the call ends in a value or an exception; it ends at all *)
Definition value_or_exception {T : Type} (m : oio T) : Prop := match m with OGot _ _ | OThrew _ _ _ => True | OUb | OHang => False end.
Definition ends {T : Type} (m : oio T) : Prop := m <> OHang.
(** t starts, after space and comments, with n or more characters among which there is none of delim *)
Definition long_word (delim : text) (n : nat) (t : text) : Prop :=
  exists b raw u, skipped b /\ t = b ++ raw ++ u /\ (n <= length raw)%nat /\ forall c, In c raw -> ~ In c delim.

(** objects with every number replaced by f of it *)
Definition vmap (f : R -> R) (v : Vector) : Vector := mkV (f (vx v)) (f (vy v)) (f (vz v)).
Definition rmap (f : R -> R) (r : Rotation) : Rotation :=
  mkR (f (r0 r)) (f (r1 r)) (f (r2 r)) (f (r3 r)) (f (r4 r)) (f (r5 r)) (f (r6 r)) (f (r7 r)) (f (r8 r)).
