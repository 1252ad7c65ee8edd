(** Theorems about text input and output of the geometric types (C55). *)
From Coq Require Import Reals ZArith Ascii String List Bool.
From Flocq Require Import Core.
From Verif Require Import FramesModel PathModel IoModel IoSpec IoTotal IoRound IoFinal IoDescrSpec IoDescr IoFailSpec IoFail.
Import ListNotations.
Local Open Scope char_scope.
Local Open Scope list_scope.
Local Open Scope Z_scope.

(** ** Written with 17 significant digits or more and read back: the same value *)
Theorem C55_Vector_same : forall p v,
  17 <= p -> (forall x, In x (numbers_Vector v) -> is_double x) -> reads (read_Vector to_double) (write_Vector p v) v.
Proof. exact (@same_Vector). Qed.
Print Assumptions C55_Vector_same.

Theorem C55_Twist_same : forall p v,
  17 <= p -> (forall x, In x (numbers_Vector (tvel v) ++ numbers_Vector (trot v)) -> is_double x) ->
  reads (read_Twist to_double) (write_Twist p v) v.
Proof. exact (@same_Twist). Qed.
Print Assumptions C55_Twist_same.

Theorem C55_Wrench_same : forall p v,
  17 <= p -> (forall x, In x (numbers_Vector (wforce v) ++ numbers_Vector (wtorque v)) -> is_double x) ->
  reads (read_Wrench to_double) (write_Wrench p v) v.
Proof. exact (@same_Wrench). Qed.
Print Assumptions C55_Wrench_same.

Theorem C55_Rotation_same : forall p r,
  17 <= p -> (forall x, In x (numbers_Rotation r) -> is_double x) -> reads (read_Rotation to_double) (write_Rotation p r) r.
Proof. exact (@same_Rotation). Qed.
Print Assumptions C55_Rotation_same.

Theorem C55_Frame_same : forall p T,
  17 <= p -> (forall x, In x (numbers_Rotation (fM T) ++ numbers_Vector (fp T)) -> is_double x) ->
  reads (read_Frame to_double) (write_Frame p T) T.
Proof. exact (@same_Frame). Qed.
Print Assumptions C55_Frame_same.

Theorem C55_Vector2_same : forall p v,
  17 <= p -> is_double (v2x v) -> is_double (v2y v) -> reads (read_Vector2 to_double) (write_Vector2 p v) v.
Proof. exact (@same_Vector2). Qed.
Print Assumptions C55_Vector2_same.

Theorem C55_same_witness : forall x, In x (numbers_Rotation (fM (mkF (mkR 0 (-1) 0 1 0 0 0 0 1) (mkV (1 / 2) 1234567 (-3))))
  ++ numbers_Vector (fp (mkF (mkR 0 (-1) 0 1 0 0 0 0 1) (mkV (1 / 2) 1234567 (-3))))) -> is_double x.
Proof. exact (@frame_case). Qed.
Print Assumptions C55_same_witness.

(** With any precision: every number becomes the double nearest to its decimal rounding. *)
Theorem C55_Vector_back : forall rd p v,
  1 <= p -> reads (read_Vector rd) (write_Vector p v) (vmap (fun x => rd (round10 p x)) v).
Proof. exact (@back_Vector). Qed.
Print Assumptions C55_Vector_back.

Theorem C55_Twist_back : forall rd p v,
  1 <= p ->
  reads (read_Twist rd) (write_Twist p v) (mkT (vmap (fun x => rd (round10 p x)) (tvel v)) (vmap (fun x => rd (round10 p x)) (trot v))).
Proof. exact (@back_Twist). Qed.
Print Assumptions C55_Twist_back.

Theorem C55_Wrench_back : forall rd p v,
  1 <= p ->
  reads (read_Wrench rd) (write_Wrench p v) (mkW (vmap (fun x => rd (round10 p x)) (wforce v)) (vmap (fun x => rd (round10 p x)) (wtorque v))).
Proof. exact (@back_Wrench). Qed.
Print Assumptions C55_Wrench_back.

Theorem C55_Rotation_back : forall rd p r,
  1 <= p -> reads (read_Rotation rd) (write_Rotation p r) (rmap (fun x => rd (round10 p x)) r).
Proof. exact (@back_Rotation). Qed.
Print Assumptions C55_Rotation_back.

Theorem C55_Frame_back : forall rd p T,
  1 <= p ->
  reads (read_Frame rd) (write_Frame p T) (mkF (rmap (fun x => rd (round10 p x)) (fM T)) (vmap (fun x => rd (round10 p x)) (fp T))).
Proof. exact (@back_Frame). Qed.
Print Assumptions C55_Frame_back.

Theorem C55_Vector2_back : forall rd p v,
  1 <= p -> reads (read_Vector2 rd) (write_Vector2 p v) (mkV2 (rd (round10 p (v2x v))) (rd (round10 p (v2y v)))).
Proof. exact (@back_Vector2). Qed.
Print Assumptions C55_Vector2_back.

(** The default precision of a stream is 6: close, but not the same value. *)
Theorem C55_default_precision_error : forall x,
  (bpow radix2 (-1021) <= Rabs x)%R -> (Rabs (to_double (round10 6 x) - x) <= 51 / 10000000 * Rabs x)%R.
Proof. exact (@default_error). Qed.
Print Assumptions C55_default_precision_error.

Theorem C55_default_precision_same_refuted : exists v, (forall x, In x (numbers_Vector v) -> is_double x) /\ ~ reads (read_Vector to_double) (write_Vector 6 v) v.
Proof. exact (@default_refuted). Qed.
Print Assumptions C55_default_precision_same_refuted.


(** ** A reader that returns has read a text of the documented form, and stores what it means *)
Theorem C55_Vector_only : forall rd,
  only_reads (read_Vector rd) (vector_text skipped rd).
Proof. exact (@only_Vector). Qed.
Print Assumptions C55_Vector_only.

Theorem C55_Twist_only : forall rd,
  only_reads (read_Twist rd) (twist_text skipped rd).
Proof. exact (@only_Twist). Qed.
Print Assumptions C55_Twist_only.

Theorem C55_Wrench_only : forall rd,
  only_reads (read_Wrench rd) (wrench_text skipped rd).
Proof. exact (@only_Wrench). Qed.
Print Assumptions C55_Wrench_only.

Theorem C55_Rotation_only : forall rd,
  only_reads (read_Rotation rd) (rotation_text skipped rd).
Proof. exact (@only_Rotation). Qed.
Print Assumptions C55_Rotation_only.

Theorem C55_Frame_only : forall rd,
  only_reads (read_Frame rd) (frame_text skipped rd).
Proof. exact (@only_Frame). Qed.
Print Assumptions C55_Frame_only.

Theorem C55_Vector2_only : forall rd,
  only_reads (read_Vector2 rd) (vector2_text skipped rd).
Proof. exact (@only_Vector2). Qed.
Print Assumptions C55_Vector2_only.


(** ** Every text of the documented form (with plain space) is read *)
Theorem C55_Vector_reads : forall rd t v,
  vector_list plain rd t v -> reads (read_Vector rd) t v.
Proof. exact (@reads_Vector). Qed.
Print Assumptions C55_Vector_reads.

Theorem C55_Twist_reads : forall rd t v,
  twist_text plain rd t v -> reads (read_Twist rd) t v.
Proof. exact (@reads_Twist). Qed.
Print Assumptions C55_Twist_reads.

Theorem C55_Wrench_reads : forall rd t v,
  wrench_text plain rd t v -> reads (read_Wrench rd) t v.
Proof. exact (@reads_Wrench). Qed.
Print Assumptions C55_Wrench_reads.

Theorem C55_Rotation_reads : forall rd t r,
  closed_rotation plain rd t r -> reads (read_Rotation rd) t r.
Proof. exact (@reads_Rotation). Qed.
Print Assumptions C55_Rotation_reads.

Theorem C55_Frame_reads : forall rd t F,
  closed_frame plain rd t F -> reads (read_Frame rd) t F.
Proof. exact (@reads_Frame). Qed.
Print Assumptions C55_Frame_reads.

Theorem C55_Vector2_reads : forall rd t v,
  vector2_text plain rd t v -> reads (read_Vector2 rd) t v.
Proof. exact (@reads_Vector2). Qed.
Print Assumptions C55_Vector2_reads.

Theorem C55_ZERO_reads : forall rd b w a,
  plain b -> plain a -> map Upper w = lit "ZERO" -> reads_word (read_Vector rd) b w a v_zero.
Proof. exact (@reads_ZERO). Qed.
Print Assumptions C55_ZERO_reads.

Theorem C55_IDENTITY_reads : forall rd b w a,
  plain b -> plain a -> map Upper w = lit "IDENTITY" -> reads_word (read_Rotation rd) b w a r_id.
Proof. exact (@reads_IDENTITY). Qed.
Print Assumptions C55_IDENTITY_reads.


(** ** Anything else raises an exception *)
Theorem C55_Twist_value_or_exception : forall (rd : R -> R) s v,
  ofine (read_Twist rd s v).
Proof. exact (@Twist_total). Qed.
Print Assumptions C55_Twist_value_or_exception.

Theorem C55_Wrench_value_or_exception : forall (rd : R -> R) s v,
  ofine (read_Wrench rd s v).
Proof. exact (@Wrench_total). Qed.
Print Assumptions C55_Wrench_value_or_exception.

Theorem C55_Vector2_value_or_exception : forall (rd : R -> R) s v,
  ofine (read_Vector2 rd s v).
Proof. exact (@Vector2_total). Qed.
Print Assumptions C55_Vector2_value_or_exception.

Theorem C55_Rotation2_value_or_exception : forall (rd : R -> R) s v,
  ofine (read_Rotation2 rd s v).
Proof. exact (@Rotation2_total). Qed.
Print Assumptions C55_Rotation2_value_or_exception.

(** unless a word has ten characters or more, or the text ends in a slash *)
Theorem C55_Vector_value_or_exception : forall (rd : R -> R) s v,
  good s = true -> ~ long_word (lit "[]") 10 (is_rest s) -> (forall u, is_rest s <> u ++ ["/"]) -> ofine (read_Vector rd s v).
Proof. exact (@Vector_total). Qed.
Print Assumptions C55_Vector_value_or_exception.

Theorem C55_Vector_ends : forall (rd : R -> R) s v,
  ends (read_Vector rd s v).
Proof. exact (@Vector_ends). Qed.
Print Assumptions C55_Vector_ends.

Theorem C55_Rotation_ends : forall (rd : R -> R) s r,
  ends (read_Rotation rd s r).
Proof. exact (@Rotation_ends). Qed.
Print Assumptions C55_Rotation_ends.

Theorem C55_Frame_ends : forall (rd : R -> R) s T,
  ends (read_Frame rd s T).
Proof. exact (@Frame_ends). Qed.
Print Assumptions C55_Frame_ends.

(** A buffer of ten characters is then overrun, and also when the text of a Rotation or Frame stops early. *)
Theorem C55_long_word_raises_refuted : forall rd tr old,
  read_Vector rd (stream [] (lit "ABCDEFGHIJ[1,2,3]") tr) old = OUb.
Proof. exact (@long_word_undefined). Qed.
Print Assumptions C55_long_word_raises_refuted.

Theorem C55_slash_raises_refuted : forall rd tr old,
  read_Vector rd (stream [] (lit "/") tr) old = OUb.
Proof. exact (@slash_undefined). Qed.
Print Assumptions C55_slash_raises_refuted.

Theorem C55_short_Rotation_raises_refuted : forall rd tr old,
  read_Rotation rd (stream [] (lit "RPY ") tr) old = OUb.
Proof. exact (@short_Rotation_undefined). Qed.
Print Assumptions C55_short_Rotation_raises_refuted.

Theorem C55_short_Frame_raises_refuted : forall rd tr old,
  read_Frame rd (stream [] (lit "[") tr) old = OUb.
Proof. exact (@short_Frame_undefined). Qed.
Print Assumptions C55_short_Frame_raises_refuted.

(** A word at the very end of the text is not read; an exception leaves what had been read in the object and in the trace. *)
Theorem C55_word_at_end_refuted : forall rd tr old,
  exists s, read_Vector rd (stream [] (lit "ZERO") tr) old = OThrew Error_BasicIO_File old s.
Proof. exact (@word_at_end). Qed.
Print Assumptions C55_word_at_end_refuted.

Theorem C55_exception_keeps_value_refuted : exists e x s, read_Vector to_double (stream [] (lit "[1,a,2]") []) v_zero = OThrew e x s /\ x <> v_zero /\ is_trace s <> [].
Proof. exact (@partly_read). Qed.
Print Assumptions C55_exception_keeps_value_refuted.


(** ** The planar rotation is not changed by reading it *)
Theorem C55_Rotation2_unchanged : forall rd p r,
  1 <= p -> forall past rest tr old,
  read_Rotation2 rd (stream past (write_Rotation2 p r ++ rest) tr) old = OGot old (stream (rev (write_Rotation2 p r) ++ past) rest tr).
Proof. exact (@Rotation2_kept). Qed.
Print Assumptions C55_Rotation2_unchanged.

Theorem C55_Frame2_rotation_unchanged : forall rd p T,
  1 <= p -> forall past rest tr old,
  read_Frame2 rd (stream past (write_Frame2 p T ++ rest) tr) old
  = OGot (mkF2 (f2M old) (mkV2 (rd (round10 p (v2x (f2p T)))) (rd (round10 p (v2y (f2p T)))))) (stream (rev (write_Frame2 p T) ++ past) rest tr).
Proof. exact (@Frame2_kept). Qed.
Print Assumptions C55_Frame2_rotation_unchanged.

Theorem C55_Rotation2_same_refuted : exists r, forall p, 1 <= p -> ~ reads (read_Rotation2 to_double) (write_Rotation2 p r) r.
Proof. exact (@Rotation2_refuted). Qed.
Print Assumptions C55_Rotation2_same_refuted.



(** ** Letters in either case; Eat with a description; numbers at the end of the text *)
Theorem C55_keyword_case : forall w k,
  (forall c, In c k -> ~ In c small_letters) -> (map Upper w = k <-> Forall2 same_letter w k).
Proof. exact (@keyword_case). Qed.
Print Assumptions C55_keyword_case.

Theorem C55_Upper_letter : forall c,
  same_letter c (Upper c) /\ ~ In (Upper c) small_letters.
Proof. exact (@Upper_letter). Qed.
Print Assumptions C55_Upper_letter.

Theorem C55_Eat_description : forall d b m past rest tr,
  plain b -> described d m -> starts_visible (m ++ rest) ->
  Eat_descr (stream past (b ++ m ++ rest) tr) d = Got tt (stream (rev (b ++ m) ++ past) rest tr).
Proof. exact (@descr_reads). Qed.
Print Assumptions C55_Eat_description.

Theorem C55_Eat_description_letter : forall d x p b m y past rest tr,
  plain b -> described d m -> starts_visible (m ++ y :: rest) ->
  x <> " " -> ~ same_letter x y ->
  Eat_descr (stream past (b ++ m ++ y :: rest) tr) (d ++ x :: p) = Threw Error_BasicIO_Unexpected (stream (y :: rev (b ++ m) ++ past) rest tr).
Proof. exact (@descr_letter). Qed.
Print Assumptions C55_Eat_description_letter.

Theorem C55_Eat_description_space : forall d p b m y past rest tr,
  plain b -> described d m -> starts_visible (m ++ y :: rest) -> visible y ->
  Eat_descr (stream past (b ++ m ++ y :: rest) tr) (d ++ " " :: p) = Threw Error_BasicIO_Not_A_Space (stream (rev (b ++ m) ++ past) (y :: rest) tr).
Proof. exact (@descr_space). Qed.
Print Assumptions C55_Eat_description_space.

Theorem C55_Eat_description_example : forall past rest tr,
  Eat_descr (stream past (lit "  moVe	 To" ++ rest) tr) (lit "Move to") = Got tt (stream (rev (lit "  moVe	 To") ++ past) rest tr).
Proof. exact (@descr_example). Qed.
Print Assumptions C55_Eat_description_example.

Theorem C55_number_at_end : forall rd w n v past tr old,
  plain w -> numeral n v ->
  read_double rd (stream past (w ++ n) tr) old = (rd v, mkIs (rev n ++ rev w ++ past) [] true false false tr).
Proof. exact (@number_at_end). Qed.
Print Assumptions C55_number_at_end.

Theorem C55_number_missing : forall rd w past tr old,
  plain w ->
  read_double rd (stream past w tr) old = (old, mkIs (rev w ++ past) [] true true false tr).
Proof. exact (@number_missing). Qed.
Print Assumptions C55_number_missing.


(** ** What a failed read leaves in the object: the members read so far are new, the others are the old ones *)
Theorem C55_failed_read_fills_prefix : forall rd s, fills numbers_Vector (read_Vector rd s) /\ fills numbers_Twist (read_Twist rd s) /\ fills numbers_Wrench (read_Wrench rd s) /\ fills numbers_Rotation (read_Rotation rd s) /\ fills numbers_Frame (read_Frame rd s) /\ fills numbers_Vector2 (read_Vector2 rd s).
Proof. exact (@fills_all). Qed.
Print Assumptions C55_failed_read_fills_prefix.

Theorem C55_malformed_number_is_zero : forall rd c r past tr, is_space c = false ->
  (forall tok t, num_float (c :: r) = (tok, t, None) -> forall old, fst (read_double rd (stream past (c :: r) tr) old) = 0%R) /\ (forall tok t, num_int (c :: r) = (tok, t, None) -> forall old, fst (read_int (stream past (c :: r) tr) old) = 0) /\ (forall tok t, num_int (c :: r) = (tok, t, None) -> forall old, fst (read_bool (stream past (c :: r) tr) old) = false).
Proof. exact (@malformed). Qed.
Print Assumptions C55_malformed_number_is_zero.

