(** Text input and output of the geometric types: orocos_kdl/src/utilities/utility_io.cxx and
    orocos_kdl/src/frames_io.cpp, on top of a model of the C++ streams they use.

    Trusted parts (not in /repo): the behaviour of std::istream::get, putback, operator>>(double&),
    operator>>(int&), operator>>(bool&), of std::ostream's number formatting with default flags, of strtod,
    strchr and toupper in the "C" locale.  They are modelled after the standard and libstdc++ (num_get).
    Doubles are real numbers; [rd] stands for the rounding strtod applies to the decimal value it has read.
    Infinities, NaN and overflow of strtod are left out. *)
From Coq Require Import Reals ZArith Ascii String List Bool Lia.
From Flocq Require Import Core.
From Verif Require Import FramesModel PathModel.
Import ListNotations.
Local Open Scope char_scope.
Local Open Scope list_scope.
Local Open Scope Z_scope.

Definition text := list ascii.
Definition lit (s : string) : text := list_ascii_of_string s.
Definition nl : ascii := "010".
Definition tab : ascii := "009".

(** ** Streams *)

(** std::istream: characters already taken (last first), characters to come, the three state bits.
    [is_trace] is the static errorstack of utilities/error_stack.cxx 29, last pushed first; it is kept here
    because every reader that touches it takes the stream. *)
Record istr := mkIs { is_past : text; is_rest : text; is_eof : bool; is_fail : bool; is_bad : bool;
                      is_trace : list string }.
Definition good (s : istr) : bool := negb (is_eof s || is_fail s || is_bad s).
Definition set_fail (s : istr) : istr := mkIs (is_past s) (is_rest s) (is_eof s) true (is_bad s) (is_trace s).
Definition set_bad (s : istr) : istr := mkIs (is_past s) (is_rest s) (is_eof s) (is_fail s) true (is_trace s).
Definition set_eof (s : istr) : istr := mkIs (is_past s) (is_rest s) true (is_fail s) (is_bad s) (is_trace s).
Definition clear_eof (s : istr) : istr := mkIs (is_past s) (is_rest s) false (is_fail s) (is_bad s) (is_trace s).

(** std::istream::get(): None is EOF (-1). *)
Definition get (s : istr) : option ascii * istr :=
  if good s then
    match is_rest s with
    | c :: r => (Some c, mkIs (c :: is_past s) r false false false (is_trace s))
    | [] => (None, set_fail (set_eof s))
    end
  else (None, set_fail s).

(** (char) ch, EOF becomes 0xFF *)
Definition char_of (ch : option ascii) : ascii := match ch with Some c => c | None => "255" end.

(** std::istream::putback(ch): clears eofbit first (C++11); on a read-only buffer only the character taken last can
    be put back. *)
Definition putback (s : istr) (ch : option ascii) : istr :=
  let s := clear_eof s in
  if good s then
    match is_past s with
    | d :: p => if Ascii.eqb d (char_of ch) then mkIs p (d :: is_rest s) false false false (is_trace s) else set_bad s
    | [] => set_bad s
    end
  else set_fail s.

(** the exceptions of utilities/error.h that the readers throw *)
Inductive exc :=
| Error_BasicIO_File | Error_BasicIO_Exp_Delim | Error_BasicIO_Not_A_Space | Error_BasicIO_Unexpected
| Error_BasicIO_ToBig | Error_Frame_Vector_Unexpected_id | Error_Frame_Rotation_Unexpected_id
| Error_Frame_Frame_Unexpected_id | Error_MotionIO_Unexpected_Traj | Error_MotionIO_Unexpected_MotProf
| Error_Not_Implemented.

(** result of a routine that reads from a stream: a value, an exception, undefined behaviour (write outside a buffer,
    pop of an empty stack), or a loop that did not end within the fuel given to it *)
Inductive io (A : Type) := Got (a : A) (s : istr) | Threw (e : exc) (s : istr) | Ub | Hang.
Arguments Got {A}. Arguments Threw {A}. Arguments Ub {A}. Arguments Hang {A}.
Definition ibind {A B : Type} (m : io A) (k : A -> istr -> io B) : io B :=
  match m with Got a s => k a s | Threw e s => Threw e s | Ub => Ub | Hang => Hang end.

(** ** utilities/error_stack.cxx *)
(** error_stack.cxx 32-34: IOTrace *)
Definition IOTrace (d : string) (s : istr) : istr :=
  mkIs (is_past s) (is_rest s) (is_eof s) (is_fail s) (is_bad s) (d :: is_trace s).
(** error_stack.cxx 37-39: IOTracePop; std::stack::pop of an empty stack is undefined *)
Definition IOTracePop (s : istr) : io unit :=
  match is_trace s with
  | _ :: t => Got tt (mkIs (is_past s) (is_rest s) (is_eof s) (is_fail s) (is_bad s) t)
  | [] => Ub
  end.

(** ** utilities/utility_io.cxx *)
(** utility_io.cxx 32-38: _check_istream *)
Definition check_istream (s : istr) : io unit :=
  if negb (good s) && is_eof s then Threw Error_BasicIO_File s else Got tt s.

Definition is_ch (ch : option ascii) (c : ascii) : bool := match ch with Some d => Ascii.eqb d c | None => false end.

(** utility_io.cxx 40-51: _EatUntilEndOfLine; result: last character and count.
    The do-while loop gets fuel, one unit per character. *)
Fixpoint EatUntilEndOfLine (fuel : nat) (count : Z) (s : istr) : io (option ascii * Z) :=
  match fuel with
  | O => Hang
  | S k => let (ch, s) := get s in
           ibind (check_istream s) (fun _ s =>
           if is_ch ch nl then Got (ch, count + 1) s else EatUntilEndOfLine k (count + 1) s)
  end.

(** utility_io.cxx 54-72: _EatUntilEndOfComment *)
Fixpoint EatUntilEndOfComment (fuel : nat) (count : Z) (prevch : option ascii) (s : istr) : io (option ascii * Z) :=
  match fuel with
  | O => Hang
  | S k => let (ch, s) := get s in
           ibind (check_istream s) (fun _ s =>
           if is_ch prevch "*" && is_ch ch "/" then let (ch, s) := get s in Got (ch, count + 1) s
           else EatUntilEndOfComment k (count + 1) ch s)
  end.

Definition blank_ch (ch : option ascii) : bool := is_ch ch " " || is_ch ch nl || is_ch ch tab.

(** utility_io.cxx 76-102: _EatSpace *)
Fixpoint EatSpace_loop (fuel : nat) (count : Z) (s : istr) : io (option ascii * Z) :=
  match fuel with
  | O => Hang
  | S k =>
    ibind (check_istream s) (fun _ s =>
    let (ch, s) := get s in
    let count := count + 1 in
    ibind (if is_ch ch "#" then EatUntilEndOfLine (S (length (is_rest s))) 0 s else Got (ch, count) s) (fun r s =>
    let (ch, count) := r in
    ibind (if is_ch ch "/" then
             let (ch, s) := get s in
             if is_ch ch "/" then EatUntilEndOfLine (S (length (is_rest s))) 0 s
             else if is_ch ch "*" then EatUntilEndOfComment (S (length (is_rest s))) 0 None s
             else Got (Some "/", count) (putback s ch)
           else Got (ch, count) s) (fun r s =>
    let (ch, count) := r in
    if blank_ch ch then EatSpace_loop k count s else Got (ch, count) s)))
  end.
Definition EatSpace (s : istr) : io (option ascii * Z) := EatSpace_loop (S (length (is_rest s))) (-1) s.

(** utility_io.cxx 108-117: Eat(is,delim) *)
Definition Eat (s : istr) (delim : ascii) : io unit :=
  ibind (EatSpace s) (fun r s =>
  if negb (is_ch (fst r) delim) then Threw Error_BasicIO_Exp_Delim s
  else ibind (EatSpace s) (fun r s => Got tt (putback s (fst r)))).

(** utility_io.cxx 122-129: EatEnd *)
Definition EatEnd (s : istr) (delim : ascii) : io unit :=
  ibind (EatSpace s) (fun r s =>
  if negb (is_ch (fst r) delim) then Threw Error_BasicIO_Exp_Delim s else Got tt s).

(** toupper in the "C" locale; utility_io.cxx 141-149: Upper *)
Definition Upper (c : ascii) : ascii :=
  let n := nat_of_ascii c in if ((97 <=? n)%nat && (n <=? 122)%nat)%bool then ascii_of_nat (n - 32) else c.

(** utility_io.cxx 151-178: Eat(is,descript) *)
Fixpoint Eat_descr_loop (p : text) (s : istr) : io unit :=
  match p with
  | [] => Got tt s
  | d :: p =>
    if Ascii.eqb (Upper d) " " then
      ibind (EatSpace s) (fun r s => let s := putback s (fst r) in
      if snd r =? 0 then Threw Error_BasicIO_Not_A_Space s else Eat_descr_loop p s)
    else
      let (ch, s) := get s in
      if negb (Ascii.eqb (Upper d) (Upper (char_of ch))) then Threw Error_BasicIO_Unexpected s else Eat_descr_loop p s
  end.
Definition Eat_descr (s : istr) (descript : text) : io unit :=
  ibind (EatSpace s) (fun r s => Eat_descr_loop descript (putback s (fst r))).

(** strchr(delim,ch) != NULL; the terminating 0 counts *)
Definition strchr (delim : text) (ch : option ascii) : bool :=
  Ascii.eqb (char_of ch) "000" || existsb (fun d => Ascii.eqb d (char_of ch)) delim.

(** utility_io.cxx 182-205: EatWord with a buffer of maxsize characters.  [room] is the number of characters that still
    fit; writing with no room left is outside the buffer, before the test for ToBig is reached (lines 194-198, 203). *)
Fixpoint EatWord_loop (delim : text) (room : nat) (ch : option ascii) (count : Z) (word : text) (s : istr) : io text :=
  if ((count =? 0) && negb (strchr delim ch))%bool then
    match room with
    | O => Ub
    | S k =>
      let word := word ++ [Upper (char_of ch)] in
      ibind (check_istream s) (fun _ s =>
      ibind (EatSpace s) (fun r s => EatWord_loop delim k (fst r) (snd r) word s))
    end
  else match room with O => Ub | S _ => Got word (putback s ch) end.
Definition EatWord (s : istr) (delim : text) (maxsize : nat) : io text :=
  ibind (EatSpace s) (fun r s => EatWord_loop delim maxsize (fst r) 0 [] s).

(** ** Numbers *)
Definition is_digit (c : ascii) : bool := let n := nat_of_ascii c in ((48 <=? n)%nat && (n <=? 57)%nat)%bool.
Definition digit (c : ascii) : Z := Z.of_nat (nat_of_ascii c) - 48.
(** isspace in the "C" locale *)
Definition is_space (c : ascii) : bool := let n := nat_of_ascii c in ((n =? 32) || ((9 <=? n) && (n <=? 13)))%nat.
Fixpoint span (f : ascii -> bool) (t : text) : text * text :=
  match t with
  | [] => ([], [])
  | c :: r => if f c then let (a, b) := span f r in (c :: a, b) else ([], t)
  end.
(** value of a sequence of decimal digits *)
Definition dval (ds : text) : Z := fold_left (fun a c => 10 * a + digit c) ds 0.
(** optional sign *)
Definition take_sign (t : text) : text * text :=
  match t with c :: r => if (Ascii.eqb c "+" || Ascii.eqb c "-")%bool then ([c], r) else ([], t) | [] => ([], []) end.
Definition signed (sg : text) (z : Z) : Z := match sg with [c] => if Ascii.eqb c "-" then - z else z | _ => z end.

Definition radix10 : radix := Build_radix 10 (eq_refl true).

(** libstdc++ num_get::_M_extract_float ("C" locale) followed by strtod: the characters taken, the rest, and the value,
    None if strtod does not accept all characters taken. *)
Definition num_float (t : text) : text * text * option R :=
  let (sg, t1) := take_sign t in
  let (ip, t2) := span is_digit t1 in
  let (dot, t3) := match t2 with c :: r => if Ascii.eqb c "." then ([c], r) else ([], t2) | [] => ([], t2) end in
  let (fp, t4) := match dot with [] => ([], t3) | _ => span is_digit t3 end in
  let mant := (dval (ip ++ fp), - Z.of_nat (length fp)) in
  match ip ++ fp with
  | [] => (sg ++ dot, t4, None)
  | _ =>
    match t4 with
    | c :: r =>
      if (Ascii.eqb c "e" || Ascii.eqb c "E")%bool then
        let (esg, t5) := take_sign r in
        let (ep, t6) := span is_digit t5 in
        (sg ++ ip ++ dot ++ fp ++ c :: esg ++ ep, t6,
         match ep with
         | [] => None
         | _ => Some (F2R (Float radix10 (signed sg (fst mant)) (snd mant + signed esg (dval ep))))
         end)
      else (sg ++ ip ++ dot ++ fp, t4, Some (F2R (Float radix10 (signed sg (fst mant)) (snd mant))))
    | [] => (sg ++ ip ++ dot ++ fp, t4, Some (F2R (Float radix10 (signed sg (fst mant)) (snd mant))))
    end
  end.

(** libstdc++ num_get::_M_extract_int, base 10 *)
Definition num_int (t : text) : text * text * option Z :=
  let (sg, t1) := take_sign t in
  let (ip, t2) := span is_digit t1 in
  (sg ++ ip, t2, match ip with [] => None | _ => Some (signed sg (dval ip)) end).

(** operator>> for numbers: the sentry (skip white space; on a stream that is not good, or when nothing is left, set
    failbit and do not touch the variable), then num_get, which stores 0 when it fails (C++11). *)
Definition extract {A B : Type} (num : text -> text * text * option A) (conv : A -> B * bool) (dflt : B) (s : istr) (old : B) : B * istr :=
  if good s then
    let (ws, t) := span is_space (is_rest s) in
    let past := rev ws ++ is_past s in
    match t with
    | [] => (old, mkIs past [] true true false (is_trace s))
    | _ =>
      match num t with
      | (tok, r, ov) =>
        let eof := match r with [] => true | _ => false end in
        match ov with
        | Some v => (fst (conv v), mkIs (rev tok ++ past) r eof (snd (conv v)) false (is_trace s))
        | None => (dflt, mkIs (rev tok ++ past) r eof true false (is_trace s))
        end
      end
    end
  else (old, set_fail s).

Definition read_double (rd : R -> R) (s : istr) (old : R) : R * istr :=
  extract num_float (fun v => (rd v, false)) 0%R s old.
Definition int_min : Z := -2147483648.
Definition int_max : Z := 2147483647.
(** an int out of range is clamped and sets failbit *)
Definition read_int (s : istr) (old : Z) : Z * istr :=
  extract num_int (fun v => if v <? int_min then (int_min, true) else if int_max <? v then (int_max, true) else (v, false))
    0 s old.
(** without boolalpha: 0 and 1; anything else stores true and sets failbit *)
Definition read_bool (s : istr) (old : bool) : bool * istr :=
  extract num_int (fun v => if v =? 0 then (false, false) else if v =? 1 then (true, false) else (true, true)) false s old.

(** *** output *)
Definition digit_char (d : Z) : ascii := ascii_of_nat (Z.to_nat d + 48).
(** the last n decimal digits of z *)
Fixpoint digits (n : nat) (z : Z) : text :=
  match n with O => [] | S k => digits k (z / 10) ++ [digit_char (z mod 10)] end.
Fixpoint strip_leading (t : text) : text :=
  match t with
  | [] => []
  | c :: r => match r with [] => t | _ :: _ => if Ascii.eqb c "0" then strip_leading r else t end
  end.
(** a natural number without leading zeros *)
Definition fmt_nat (z : Z) : text := strip_leading (digits (S (Z.to_nat (Z.log2 z))) z).
Definition fmt_int (z : Z) : text := if z <? 0 then "-" :: fmt_nat (- z) else fmt_nat z.

Fixpoint strip_trailing (t : text) : text :=
  match t with
  | [] => []
  | c :: r => match strip_trailing r with [] => if Ascii.eqb c "0" then [] else [c] | r' => c :: r' end
  end.
Definition with_fraction (ip fp : text) : text :=
  match strip_trailing fp with [] => ip | f => ip ++ "." :: f end.

(** Correctly rounded decimal conversion with p significant digits (round to nearest, ties to even):
    |x| is printed as d * 10^(X-p+1) with 10^(p-1) <= d < 10^p. *)
Definition dec_parts (p : Z) (x : R) : Z * Z :=
  let m := ZnearestE (scaled_mantissa radix10 (FLX_exp p) (Rabs x)) in
  let e := mag radix10 x : Z in
  if m =? 10 ^ p then (10 ^ (p - 1), e) else (m, e - 1).

(** ostream << double with default flags and precision p >= 1: printf's %.{p}g *)
Definition fmt_abs (p : Z) (x : R) : text :=
  let (d, X) := dec_parts p x in
  let ds := digits (Z.to_nat p) d in
  if ((-4 <=? X) && (X <? p))%bool then
    if 0 <=? X then with_fraction (firstn (Z.to_nat (X + 1)) ds) (skipn (Z.to_nat (X + 1)) ds)
    else with_fraction ["0"] (repeat "0" (Z.to_nat (- X - 1)) ++ ds)
  else
    with_fraction (firstn 1 ds) (skipn 1 ds) ++ "e" :: (if X <? 0 then "-" else "+")
      :: (if Z.abs X <? 10 then "0" :: fmt_nat (Z.abs X) else fmt_nat (Z.abs X)).
Definition fmt_double (p : Z) (x : R) : text :=
  if Req_EM_T x 0 then ["0"] else if Rlt_dec x 0 then "-" :: fmt_abs p x else fmt_abs p x.

(** os << std::setw(w) << ...: padded on the left with spaces *)
Definition setw (w : nat) (t : text) : text := repeat " " (w - length t) ++ t.
(** utilities/kdl-config.h 27 *)
Definition KDL_FRAME_WIDTH : nat := 12.
Definition put (p : Z) (x : R) : text := setw KDL_FRAME_WIDTH (fmt_double p x).

(** ** frames_io.cpp, output.  [p] is the precision of the stream (6 unless changed); the width is 0 at the start. *)
(** frames_io.cpp 42-46 *)
Definition write_Vector (p : Z) (v : Vector) : text :=
  ["["] ++ put p (vx v) ++ [","] ++ put p (vy v) ++ [","] ++ put p (vz v) ++ ["]"].
(** frames_io.cpp 48-57 *)
Definition write_Twist (p : Z) (v : Twist) : text :=
  ["["] ++ put p (vx (tvel v)) ++ [","] ++ put p (vy (tvel v)) ++ [","] ++ put p (vz (tvel v))
  ++ [","] ++ put p (vx (trot v)) ++ [","] ++ put p (vy (trot v)) ++ [","] ++ put p (vz (trot v)) ++ ["]"].
(** frames_io.cpp 59-68 *)
Definition write_Wrench (p : Z) (v : Wrench) : text :=
  ["["] ++ put p (vx (wforce v)) ++ [","] ++ put p (vy (wforce v)) ++ [","] ++ put p (vz (wforce v))
  ++ [","] ++ put p (vx (wtorque v)) ++ [","] ++ put p (vy (wtorque v)) ++ [","] ++ put p (vz (wtorque v)) ++ ["]"].
(** frames_io.cpp 71-103, without KDL_ROTATION_PROPERTIES_RPY and KDL_ROTATION_PROPERTIES_EULER *)
Definition write_Rotation (p : Z) (r : Rotation) : text :=
  ["["] ++ put p (r0 r) ++ [","] ++ put p (r1 r) ++ [","] ++ put p (r2 r) ++ [";"] ++ [nl] ++ [" "]
  ++ put p (r3 r) ++ [","] ++ put p (r4 r) ++ [","] ++ put p (r5 r) ++ [";"] ++ [nl] ++ [" "]
  ++ put p (r6 r) ++ [","] ++ put p (r7 r) ++ [","] ++ put p (r8 r) ++ ["]"].
(** frames_io.cpp 105-109 *)
Definition write_Frame (p : Z) (T : Frame) : text :=
  ["["] ++ write_Rotation p (fM T) ++ [nl] ++ write_Vector p (fp T) ++ ["]"].
(** frames_io.cpp 111-115 *)
Definition write_Vector2 (p : Z) (v : Vector2) : text :=
  ["["] ++ put p (v2x v) ++ [","] ++ put p (v2y v) ++ ["]"].
(** utilities/utility.cxx 20 *)
Definition rad2deg : R := (180 / PI)%R.
(** frames_io.cpp 118-121 *)
Definition write_Rotation2 (p : Z) (r : Rotation2) : text :=
  ["["] ++ fmt_double p (rot2_GetRot r * rad2deg)%R ++ ["]"].
(** frames_io.cpp 123-127 *)
Definition write_Frame2 (p : Z) (T : Frame2) : text := write_Rotation2 p (f2M T) ++ write_Vector2 p (f2p T).

(** ** frames_io.cpp, input *)
(** result of operator>>: the object the call leaves behind is there after an exception too *)
Inductive oio (T : Type) := OGot (t : T) (s : istr) | OThrew (e : exc) (t : T) (s : istr) | OUb | OHang.
Arguments OGot {T}. Arguments OThrew {T}. Arguments OUb {T}. Arguments OHang {T}.
(** a routine that does not touch the object [t] *)
Definition lift {A T : Type} (m : io A) (t : T) (k : A -> istr -> oio T) : oio T :=
  match m with Got a s => k a s | Threw e s => OThrew e t s | Ub => OUb | Hang => OHang end.
(** an operator>> that fills a part [a] of the object, or a local variable *)
Definition sub {A T : Type} (m : oio A) (obj : A -> T) (k : A -> istr -> oio T) : oio T :=
  match m with OGot a s => k a s | OThrew e a s => OThrew e (obj a) s | OUb => OUb | OHang => OHang end.

Definition done {T : Type} (t : T) (s : istr) : oio T := lift (IOTracePop s) t (fun _ s => OGot t s).
Definition text_eqb (a b : text) : bool := if list_eq_dec ascii_dec a b then true else false.

Section Readers.
Variable rd : R -> R.

(** frames_io.cpp 129-150; Eat, number, Eat, ... with the fields of the object in turn *)
Definition read_Vector (s : istr) (v : Vector) : oio Vector :=
  let s := IOTrace "Stream input Vector (vector or ZERO)" s in
  lift (EatWord s (lit "[]") 10) v (fun storage s =>
  if text_eqb storage [] then
    lift (Eat s "[") v (fun _ s =>
    let (x, s) := read_double rd s (vx v) in let v := mkV x (vy v) (vz v) in
    lift (Eat s ",") v (fun _ s =>
    let (x, s) := read_double rd s (vy v) in let v := mkV (vx v) x (vz v) in
    lift (Eat s ",") v (fun _ s =>
    let (x, s) := read_double rd s (vz v) in let v := mkV (vx v) (vy v) x in
    lift (EatEnd s "]") v (fun _ s => done v s))))
  else if text_eqb storage (lit "ZERO") then done v_zero s
  else OThrew Error_Frame_Vector_Unexpected_id v s).

(** frames_io.cpp 152-169 *)
Definition read_Twist (s : istr) (v : Twist) : oio Twist :=
  let s := IOTrace "Stream input Twist" s in
  lift (Eat s "[") v (fun _ s =>
  let (x, s) := read_double rd s (vx (tvel v)) in let v := mkT (mkV x (vy (tvel v)) (vz (tvel v))) (trot v) in
  lift (Eat s ",") v (fun _ s =>
  let (x, s) := read_double rd s (vy (tvel v)) in let v := mkT (mkV (vx (tvel v)) x (vz (tvel v))) (trot v) in
  lift (Eat s ",") v (fun _ s =>
  let (x, s) := read_double rd s (vz (tvel v)) in let v := mkT (mkV (vx (tvel v)) (vy (tvel v)) x) (trot v) in
  lift (Eat s ",") v (fun _ s =>
  let (x, s) := read_double rd s (vx (trot v)) in let v := mkT (tvel v) (mkV x (vy (trot v)) (vz (trot v))) in
  lift (Eat s ",") v (fun _ s =>
  let (x, s) := read_double rd s (vy (trot v)) in let v := mkT (tvel v) (mkV (vx (trot v)) x (vz (trot v))) in
  lift (Eat s ",") v (fun _ s =>
  let (x, s) := read_double rd s (vz (trot v)) in let v := mkT (tvel v) (mkV (vx (trot v)) (vy (trot v)) x) in
  lift (EatEnd s "]") v (fun _ s => done v s))))))).

(** frames_io.cpp 171-188 *)
Definition read_Wrench (s : istr) (v : Wrench) : oio Wrench :=
  let s := IOTrace "Stream input Wrench" s in
  lift (Eat s "[") v (fun _ s =>
  let (x, s) := read_double rd s (vx (wforce v)) in let v := mkW (mkV x (vy (wforce v)) (vz (wforce v))) (wtorque v) in
  lift (Eat s ",") v (fun _ s =>
  let (x, s) := read_double rd s (vy (wforce v)) in let v := mkW (mkV (vx (wforce v)) x (vz (wforce v))) (wtorque v) in
  lift (Eat s ",") v (fun _ s =>
  let (x, s) := read_double rd s (vz (wforce v)) in let v := mkW (mkV (vx (wforce v)) (vy (wforce v)) x) (wtorque v) in
  lift (Eat s ",") v (fun _ s =>
  let (x, s) := read_double rd s (vx (wtorque v)) in let v := mkW (wforce v) (mkV x (vy (wtorque v)) (vz (wtorque v))) in
  lift (Eat s ",") v (fun _ s =>
  let (x, s) := read_double rd s (vy (wtorque v)) in let v := mkW (wforce v) (mkV (vx (wtorque v)) x (vz (wtorque v))) in
  lift (Eat s ",") v (fun _ s =>
  let (x, s) := read_double rd s (vz (wtorque v)) in let v := mkW (wforce v) (mkV (vx (wtorque v)) (vy (wtorque v)) x) in
  lift (EatEnd s "]") v (fun _ s => done v s))))))).

(** r(i,j) = x for row i, frames_io.cpp 196-206: the body of the loop over the rows, [row] and [set_row] select row i *)
Definition row (r : Rotation) (i : nat) : R * R * R :=
  match i with O => (r0 r, r1 r, r2 r) | 1%nat => (r3 r, r4 r, r5 r) | _ => (r6 r, r7 r, r8 r) end.
Definition set_row (r : Rotation) (i : nat) (x : R * R * R) : Rotation :=
  match x with (a, b, c) =>
  match i with
  | O => mkR a b c (r3 r) (r4 r) (r5 r) (r6 r) (r7 r) (r8 r)
  | 1%nat => mkR (r0 r) (r1 r) (r2 r) a b c (r6 r) (r7 r) (r8 r)
  | _ => mkR (r0 r) (r1 r) (r2 r) (r3 r) (r4 r) (r5 r) a b c
  end end.
Definition read_row (i : nat) (s : istr) (r : Rotation) (k : Rotation -> istr -> oio Rotation) : oio Rotation :=
  match row r i with (a, b, c) =>
  let (a, s) := read_double rd s a in let r := set_row r i (a, b, c) in
  lift (Eat s ",") r (fun _ s =>
  let (b, s) := read_double rd s b in let r := set_row r i (a, b, c) in
  lift (Eat s ",") r (fun _ s =>
  let (c, s) := read_double rd s c in let r := set_row r i (a, b, c) in
  lift (if (i <? 2)%nat then Eat s ";" else EatEnd s "]") r (fun _ s => k r s)))
  end.

(** frames_io.cpp 190-249 *)
Definition read_Rotation (s : istr) (r : Rotation) : oio Rotation :=
  let s := IOTrace "Stream input Rotation (Matrix or EULERZYX, EULERZYZ,RPY, ROT, IDENTITY)" s in
  lift (EatWord s (lit "[]") 10) r (fun storage s =>
  if text_eqb storage [] then
    lift (Eat s "[") r (fun _ s =>
    read_row 0 s r (fun r s => read_row 1 s r (fun r s => read_row 2 s r (fun r s => done r s))))
  else if text_eqb storage (lit "EULERZYX") then
    sub (read_Vector s v_zero) (fun _ => r) (fun v s => let v := v_scale v deg2rad in
    done (r_EulerZYX (vx v) (vy v) (vz v)) s)
  else if text_eqb storage (lit "EULERZYZ") then
    sub (read_Vector s v_zero) (fun _ => r) (fun v s => let v := v_scale v deg2rad in
    done (r_EulerZYZ (vx v) (vy v) (vz v)) s)
  else if text_eqb storage (lit "RPY") then
    sub (read_Vector s v_zero) (fun _ => r) (fun v s => let v := v_scale v deg2rad in
    done (r_RPY (vx v) (vy v) (vz v)) s)
  else if text_eqb storage (lit "ROT") then
    sub (read_Vector s v_zero) (fun _ => r) (fun v s =>
    lift (Eat s "[") r (fun _ s =>
    let (angle, s) := read_double rd s 0%R in
    lift (EatEnd s "]") r (fun _ s => done (r_Rot v (angle * deg2rad)%R) s)))
  else if text_eqb storage (lit "IDENTITY") then done r_id s
  else OThrew Error_Frame_Rotation_Unexpected_id r s).

(** frames_io.cpp 251-280 *)
Definition read_Frame (s : istr) (T : Frame) : oio Frame :=
  let s := IOTrace "Stream input Frame (Rotation,Vector) or DH[...]" s in
  lift (EatWord s (lit "[") 10) T (fun storage s =>
  if text_eqb storage [] then
    lift (Eat s "[") T (fun _ s =>
    sub (read_Rotation s (fM T)) (fun M => mkF M (fp T)) (fun M s => let T := mkF M (fp T) in
    sub (read_Vector s (fp T)) (fun p => mkF (fM T) p) (fun p s => let T := mkF (fM T) p in
    lift (EatEnd s "]") T (fun _ s => done T s))))
  else if text_eqb storage (lit "DH") then
    lift (Eat s "[") T (fun _ s =>
    let (a, s) := read_double rd s 0%R in
    lift (Eat s ",") T (fun _ s =>
    let (alpha, s) := read_double rd s 0%R in
    lift (Eat s ",") T (fun _ s =>
    let (d, s) := read_double rd s 0%R in
    lift (Eat s ",") T (fun _ s =>
    let (theta, s) := read_double rd s 0%R in
    lift (EatEnd s "]") T (fun _ s => done (f_DH a (alpha * deg2rad)%R d (theta * deg2rad)%R) s)))))
  else OThrew Error_Frame_Frame_Unexpected_id T s).

(** frames_io.cpp 282-291 *)
Definition read_Vector2 (s : istr) (v : Vector2) : oio Vector2 :=
  let s := IOTrace "Stream input Vector2" s in
  lift (Eat s "[") v (fun _ s =>
  let (x, s) := read_double rd s (v2x v) in let v := mkV2 x (v2y v) in
  lift (Eat s ",") v (fun _ s =>
  let (x, s) := read_double rd s (v2y v) in let v := mkV2 (v2x v) x in
  lift (EatEnd s "]") v (fun _ s => done v s))).

(** frames_io.cpp 292-301: r.Rot(...) is a static member function; the rotation it returns is dropped *)
Definition read_Rotation2 (s : istr) (r : Rotation2) : oio Rotation2 :=
  let s := IOTrace "Stream input Rotation2" s in
  lift (Eat s "[") r (fun _ s =>
  let (val, s) := read_double rd s 0%R in
  let _ := rot2_Rot (val * deg2rad)%R in
  lift (EatEnd s "]") r (fun _ s => done r s)).

(** frames_io.cpp 302-308 *)
Definition read_Frame2 (s : istr) (T : Frame2) : oio Frame2 :=
  let s := IOTrace "Stream input Frame2" s in
  sub (read_Rotation2 s (f2M T)) (fun M => mkF2 M (f2p T)) (fun M s => let T := mkF2 M (f2p T) in
  sub (read_Vector2 s (f2p T)) (fun p => mkF2 (f2M T) p) (fun p s => let T := mkF2 (f2M T) p in
  done T s)).
End Readers.
