(** The readers of frames_io.cpp: they take every text of the documented form, and nothing else. *)
From Coq Require Import Reals ZArith Ascii String List Bool Lia.
From Flocq Require Import Core.
From Verif Require Import FramesModel PathModel IoModel IoSpec IoNum IoEat.
Import ListNotations.
Local Open Scope char_scope.
Local Open Scope list_scope.
Local Open Scope Z_scope.

Lemma fields_pre rd cs f xs b : skipped b -> fields skipped rd cs f xs -> fields skipped rd cs (b ++ f) xs.
Proof.
  intros Sb H. inversion H; subst; rewrite app_assoc; constructor; auto using skipped_app.
Qed.

(** ** Nothing else *)
(** the rest of a bracketed list has been read *)
Definition rest_read (rd : R -> R) (cs : list ascii) (xs : list R) (s s' : istr) : Prop :=
  good s = true /\ good s' = true /\ exists f, fields skipped rd cs f xs /\ took s (f ++ ["]"]) s'.

Lemma num_end rd s old x s1 s2 u : read_double rd s old = (x, s1) -> EatEnd s1 "]" = Got u s2 -> rest_read rd [] [x] s s2.
Proof.
  destruct u. intros H1 H2. destruct (EatEnd_sound s1 "]" s2 ltac:(discriminate) H2) as (G1 & G2 & b & Sb & T).
  destruct (read_double_sound rd s old x s1 H1 G1) as (G & w & n & v & Sw & N & -> & T1).
  split; [exact G|]. split; [exact G2|]. exists (w ++ n ++ b). split; [constructor; assumption|].
  rewrite <- !app_assoc. rewrite app_assoc. apply (took_trans _ _ s1); assumption.
Qed.
Lemma num_next rd s old x s1 d s2 cs xs s' u : d <> "/" -> read_double rd s old = (x, s1) -> Eat s1 d = Got u s2 ->
  rest_read rd cs xs s2 s' -> rest_read rd (d :: cs) (x :: xs) s s'.
Proof.
  destruct u. intros Hd H1 H2 (G2 & G' & f & F & T'). destruct (Eat_sound s1 d s2 Hd H2) as (G1 & T & _).
  destruct (T G2) as (b & b2 & Sb & Sb2 & T2).
  destruct (read_double_sound rd s old x s1 H1 G1) as (G & w & n & v & Sw & N & -> & T1).
  split; [exact G|]. split; [exact G'|]. exists (w ++ n ++ b ++ [d] ++ b2 ++ f). split; [constructor; auto using fields_pre|].
  replace ((w ++ n ++ b ++ [d] ++ b2 ++ f) ++ ["]"]) with ((w ++ n) ++ (b ++ [d] ++ b2) ++ f ++ ["]"]) by (rewrite <- !app_assoc; reflexivity).
  apply (took_trans _ _ s1); [exact T1|]. apply (took_trans _ _ s2); assumption.
Qed.
Lemma open_list rd s s1 cs xs s' u : Eat s "[" = Got u s1 -> rest_read rd cs xs s1 s' ->
  good s = true /\ good s' = true /\ exists t, bracketed skipped rd cs t xs /\ took s t s'.
Proof.
  destruct u. intros H (G1 & G' & f & F & T'). destruct (Eat_sound s "[" s1 ltac:(discriminate) H) as (G & T & _).
  destruct (T G1) as (b & b2 & Sb & Sb2 & T2). split; [exact G|]. split; [exact G'|].
  exists (b ++ ["["] ++ (b2 ++ f) ++ ["]"]). split; [exists b, (b2 ++ f); auto using fields_pre|].
  replace (b ++ ["["] ++ (b2 ++ f) ++ ["]"]) with ((b ++ ["["] ++ b2) ++ f ++ ["]"]) by (rewrite <- !app_assoc; reflexivity).
  apply (took_trans _ _ s1); assumption.
Qed.

Lemma trace_good d s : good (IOTrace d s) = good s. Proof. reflexivity. Qed.
Lemma done_got {T : Type} (x x' : T) s s' : done x s = OGot x' s' ->
  x' = x /\ good s' = good s /\ is_rest s' = is_rest s /\ is_past s' = is_past s /\ exists d, is_trace s = d :: is_trace s'.
Proof.
  unfold done, IOTracePop. destruct (is_trace s) as [|d tr]; cbn [lift]; [discriminate|]. intros Q. injection Q as <- <-.
  repeat split. exists d. reflexivity.
Qed.
Lemma done_took {T : Type} (x x' : T) d s t s1 s' : took (IOTrace d s) t s1 -> done x s1 = OGot x' s' ->
  x' = x /\ good s' = good s1 /\ took s t s'.
Proof.
  intros (A & B & C) H. apply done_got in H. destruct H as (-> & G & R & P & d' & Tr). repeat split; [exact G| | |].
  - cbn in A. rewrite R. exact A.
  - rewrite P. exact B.
  - rewrite Tr in C. injection C as _ C. exact C.
Qed.
(** what a successful reader leaves, in one relation *)
Definition read_as {T : Type} (means : text -> T -> Prop) (s : istr) (x : T) (s' : istr) : Prop :=
  good s = true /\ is_trace s' = is_trace s /\
  exists t u, is_rest s = t ++ u /\ means t x /\ (good s' = true -> u = is_rest s' /\ is_past s' = rev t ++ is_past s).
Lemma took_read {T : Type} (means : text -> T -> Prop) s x s' t : good s = true -> took s t s' -> means t x -> read_as means s x s'.
Proof. intros G (A & B & C) M. split; [exact G|]. split; [exact C|]. exists t, (is_rest s'). auto. Qed.
Lemma read_took {T : Type} (means : text -> T -> Prop) s x s' : read_as means s x s' -> good s' = true ->
  good s = true /\ exists t, means t x /\ took s t s'.
Proof.
  intros (G & Tr & t & u & R & M & H) G'. destruct (H G') as [-> P]. split; [exact G|]. exists t. split; [exact M|]. repeat split; assumption.
Qed.
Lemma done_read {T : Type} (means : text -> T -> Prop) (x x' : T) d s s1 s' :
  read_as means (IOTrace d s) x s1 -> done x s1 = OGot x' s' -> read_as means s x' s'.
Proof.
  intros (G & Tr & t & u & A & M & H) D. apply done_got in D. destruct D as (-> & G' & R & P & d' & Tr').
  split; [exact G|]. split; [rewrite Tr' in Tr; injection Tr as _ Tr; exact Tr|]. exists t, u. split; [exact A|]. split; [exact M|].
  rewrite G', R, P. exact H.
Qed.

Lemma text_eqb_eq a b : text_eqb a b = true -> a = b.
Proof. unfold text_eqb. destruct (list_eq_dec ascii_dec a b); [auto|discriminate]. Qed.

(** a list in brackets after a word that was empty *)
Lemma word_none s delim n s1 : strchr delim None = false -> EatWord s delim n = Got [] s1 -> good s1 = true ->
  good s = true /\ exists b, skipped b /\ took s b s1.
Proof.
  intros Hd H G1. destruct (EatWord_sound s delim n [] s1 Hd H) as (G & b & raw & u & Sb & M & R & Tr & H1 & _).
  split; [exact G|]. destruct (H1 G1) as (a & Sa & T & N). apply map_eq_nil in M. subst raw. rewrite (N eq_refl) in T.
  rewrite app_nil_r in T. exists b. auto.
Qed.
Lemma bracketed_pre rd cs b t xs : skipped b -> bracketed skipped rd cs t xs -> bracketed skipped rd cs (b ++ t) xs.
Proof.
  intros Sb (b' & f & -> & Sb' & F). exists (b ++ b'), f. split; [rewrite <- !app_assoc; reflexivity|]. auto using skipped_app.
Qed.
Lemma word_read s delim n k s1 : strchr delim None = false -> EatWord s delim n = Got (lit k) s1 ->
  read_as (fun t (_ : unit) => word skipped k t) s tt s1.
Proof.
  intros Hd H. destruct (EatWord_sound s delim n _ s1 Hd H) as (G & b & raw & u & Sb & M & R & Tr & H1 & D).
  split; [exact G|]. split; [exact Tr|]. destruct D as [G1|D].
  - destruct (H1 G1) as (a & Sa & T & _). destruct T as (T1 & T2 & T3). exists (b ++ raw ++ a), (is_rest s1). split; [exact T1|].
    split; [exists b, raw, a; auto|]. auto.
  - exists (b ++ raw), u. split; [rewrite <- app_assoc; exact R|]. split.
    + exists b, raw, []. rewrite app_nil_r. split; [reflexivity|]. split; [exact Sb|]. split; [exact M|constructor].
    + intros G1. destruct D as [D _]. congruence.
Qed.

Ltac io_step :=
  match goal with
  | |- lift ?m _ _ = _ -> _ =>
      let r := fresh "r" in let s := fresh "s" in let E := fresh "E" in
      destruct m as [r s|? ?| |] eqn:E; cbn [lift]; [|discriminate|discriminate|discriminate]
  | |- (let (_, _) := read_double ?rd ?s ?o in _) = _ -> _ =>
      let x := fresh "x" in let s1 := fresh "s" in let E := fresh "D" in
      destruct (read_double rd s o) as [x s1] eqn:E
  end.

Ltac io_list G G' t B T :=
  let P := fresh "P" in
  match goal with
  | H : EatEnd ?s1 "]" = Got _ ?s2, D : read_double _ _ _ = (_, ?s1) |- _ =>
      pose proof (num_end _ _ _ _ _ _ _ D H) as P; clear H D
  end;
  repeat match goal with
  | Q : rest_read _ _ _ ?s2 _, E : Eat ?s1 ?d = Got _ ?s2, D : read_double _ _ _ = (_, ?s1) |- _ =>
      apply (num_next _ _ _ _ _ d _ _ _ _ _ ltac:(discriminate) D E) in Q; clear E D
  end;
  match goal with
  | Q : rest_read _ _ _ ?s1 _, E : Eat ?s "[" = Got _ ?s1 |- _ =>
      destruct (open_list _ _ _ _ _ _ _ E Q) as (G & G' & t & B & T); clear E Q
  end.

Lemma read_Vector_sound rd s v x s' : read_Vector rd s v = OGot x s' -> read_as (vector_text skipped rd) s x s'.
Proof.
  unfold read_Vector. set (s0 := IOTrace _ s). io_step. destruct (text_eqb r []) eqn:C; [|destruct (text_eqb r (lit "ZERO")) eqn:C2; [|discriminate]].
  - apply text_eqb_eq in C. subst r. repeat io_step. cbn [vx vy vz] in *. intros DN. io_list G G' t B T.
    destruct (word_none _ (lit "[]") _ _ eq_refl E G) as (G0 & b & Sb & Tb).
    refine (done_read _ _ _ _ _ _ _ _ DN). apply (took_read _ _ _ _ (b ++ t) G0 (took_trans _ _ _ _ _ Tb T)).
    left. apply bracketed_pre; assumption.
  - apply text_eqb_eq in C2. subst r. intros DN. refine (done_read _ _ _ _ _ _ _ _ DN).
    destruct (word_read _ (lit "[]") _ _ _ eq_refl E) as (G & Tr & t & u & R & W & H). split; [exact G|]. split; [exact Tr|].
    exists t, u. split; [exact R|]. split; [right; split; [exact W|reflexivity]|exact H].
Qed.
Lemma read_Twist_sound rd s v x s' : read_Twist rd s v = OGot x s' -> read_as (twist_text skipped rd) s x s'.
Proof.
  unfold read_Twist. set (s0 := IOTrace _ s). repeat io_step. cbn [vx vy vz tvel trot] in *. intros DN. io_list G G' t B T.
  refine (done_read _ _ _ _ _ _ _ _ DN). exact (took_read _ _ _ _ t G T B).
Qed.
Lemma read_Wrench_sound rd s v x s' : read_Wrench rd s v = OGot x s' -> read_as (wrench_text skipped rd) s x s'.
Proof.
  unfold read_Wrench. set (s0 := IOTrace _ s). repeat io_step. cbn [vx vy vz wforce wtorque] in *. intros DN. io_list G G' t B T.
  refine (done_read _ _ _ _ _ _ _ _ DN). exact (took_read _ _ _ _ t G T B).
Qed.
Lemma read_Vector2_sound rd s v x s' : read_Vector2 rd s v = OGot x s' -> read_as (vector2_text skipped rd) s x s'.
Proof.
  unfold read_Vector2. set (s0 := IOTrace _ s). repeat io_step. cbn [v2x v2y] in *. intros DN. io_list G G' t B T.
  refine (done_read _ _ _ _ _ _ _ _ DN). exact (took_read _ _ _ _ t G T B).
Qed.
Lemma read_Rotation2_sound rd s r x s' : read_Rotation2 rd s r = OGot x s' ->
  read_as (fun t y => y = r /\ exists a, bracketed skipped rd [] t [a]) s x s'.
Proof.
  unfold read_Rotation2. set (s0 := IOTrace _ s). repeat io_step. intros DN. io_list G G' t B T.
  refine (done_read _ _ _ _ _ _ _ _ DN). apply (took_read _ _ _ _ t G T). split; [reflexivity|]. exists x0. exact B.
Qed.

(** a word followed by a vector *)
Lemma word_vector_read rd s n k s1 v x s2 : EatWord s (lit "[]") n = Got (lit k) s1 -> read_Vector rd s1 v = OGot x s2 ->
  read_as (word_vector skipped rd k) s x s2.
Proof.
  intros H V. apply read_Vector_sound in V. pose proof (word_read _ (lit "[]") _ _ _ eq_refl H) as W.
  destruct V as (G1 & Tr & t & u & R & M & HH).
  destruct (read_took _ _ _ _ W G1) as (G & t0 & W0 & (T1 & T2 & T3)). split; [exact G|]. split; [congruence|].
  exists (t0 ++ t), u. split; [rewrite T1, R, <- app_assoc; reflexivity|]. split; [exists t0, t; auto|].
  intros G2. destruct (HH G2) as [A B]. split; [exact A|]. rewrite B, T2, rev_app_distr, <- app_assoc. reflexivity.
Qed.
Lemma read_as_impl {T U : Type} (m1 : text -> T -> Prop) (m2 : text -> U -> Prop) s x y s' :
  (forall t, m1 t x -> m2 t y) -> read_as m1 s x s' -> read_as m2 s y s'.
Proof. intros H (G & Tr & t & u & R & M & HH). split; [exact G|]. split; [exact Tr|]. exists t, u. auto. Qed.

Lemma sub_got {A T : Type} (m : oio A) (f : A -> T) (k : A -> istr -> oio T) x s' : sub m f k = OGot x s' ->
  exists a s, m = OGot a s /\ k a s = OGot x s'.
Proof. destruct m as [a s|e a s| |]; cbn [sub]; try discriminate. intros H. exists a, s. auto. Qed.

Lemma read_row_got rd i s r k x s' : read_row rd i s r k = OGot x s' ->
  exists a b c s1 s2 s3 s4 s5 s6, read_double rd s (fst (fst (row r i))) = (a, s1) /\ Eat s1 "," = Got tt s2 /\
    read_double rd s2 (snd (fst (row r i))) = (b, s3) /\ Eat s3 "," = Got tt s4 /\
    read_double rd s4 (snd (row r i)) = (c, s5) /\ (if (i <? 2)%nat then Eat s5 ";" else EatEnd s5 "]") = Got tt s6 /\
    k (set_row r i (a, b, c)) s6 = OGot x s'.
Proof.
  unfold read_row. destruct (row r i) as [[a0 b0] c0] eqn:RW. repeat io_step. intros H.
  exists x0, x1, x2, s0, s1, s2, s3, s4, s5. cbn [fst snd]. destruct r0, r1, r2. repeat split; auto.
  revert H. unfold set_row. destruct i as [|[|i]]; cbn [r0 r1 r2 r3 r4 r5 r6 r7 r8]; auto.
Qed.

Lemma degrees_eq x : degrees x = (x * deg2rad)%R. Proof. reflexivity. Qed.

Lemma read_Rotation_sound rd s r x s' : read_Rotation rd s r = OGot x s' -> read_as (rotation_text skipped rd) s x s'.
Proof.
  unfold read_Rotation. set (s0 := IOTrace _ s). io_step.
  destruct (text_eqb r0 []) eqn:C.
  { apply text_eqb_eq in C. subst r0. io_step. intros H.
    apply read_row_got in H. destruct H as (a & b & c & t1 & t2 & t3 & t4 & t5 & t6 & D1 & E1 & D2 & E2 & D3 & E3 & H).
    apply read_row_got in H. destruct H as (a' & b' & c' & u1 & u2 & u3 & u4 & u5 & u6 & D1' & E1' & D2' & E2' & D3' & E3' & H).
    apply read_row_got in H. destruct H as (a2 & b2 & c2 & w1 & w2 & w3 & w4 & w5 & w6 & F1 & K1 & F2 & K2 & F3 & K3 & DN).
    cbn [Nat.ltb Nat.leb] in *. cbn [set_row FramesModel.r0 FramesModel.r1 FramesModel.r2 FramesModel.r3 FramesModel.r4 FramesModel.r5 FramesModel.r6 FramesModel.r7 FramesModel.r8] in DN.
    io_list G G' t B T. destruct (word_none _ (lit "[]") _ _ eq_refl E G) as (G0 & bb & Sb & Tb).
    refine (done_read _ _ _ _ _ _ _ _ DN). apply (took_read _ _ _ _ (bb ++ t) G0 (took_trans _ _ _ _ _ Tb T)).
    left. apply bracketed_pre; assumption. }
  destruct (text_eqb r0 (lit "EULERZYX")) eqn:C1.
  { apply text_eqb_eq in C1. subst r0. intros H. apply sub_got in H. destruct H as (v & s2 & V & DN).
    refine (done_read _ _ _ _ _ _ _ _ DN). refine (read_as_impl _ _ _ _ _ _ _ (word_vector_read _ _ _ _ _ _ _ _ E V)).
    intros t W. right. left. exists v. split; [exact W|reflexivity]. }
  destruct (text_eqb r0 (lit "EULERZYZ")) eqn:C2.
  { apply text_eqb_eq in C2. subst r0. intros H. apply sub_got in H. destruct H as (v & s2 & V & DN).
    refine (done_read _ _ _ _ _ _ _ _ DN). refine (read_as_impl _ _ _ _ _ _ _ (word_vector_read _ _ _ _ _ _ _ _ E V)).
    intros t W. right. right. left. exists v. split; [exact W|reflexivity]. }
  destruct (text_eqb r0 (lit "RPY")) eqn:C3.
  { apply text_eqb_eq in C3. subst r0. intros H. apply sub_got in H. destruct H as (v & s2 & V & DN).
    refine (done_read _ _ _ _ _ _ _ _ DN). refine (read_as_impl _ _ _ _ _ _ _ (word_vector_read _ _ _ _ _ _ _ _ E V)).
    intros t W. right. right. right. left. exists v. split; [exact W|reflexivity]. }
  destruct (text_eqb r0 (lit "ROT")) eqn:C4.
  { apply text_eqb_eq in C4. subst r0. intros H. apply sub_got in H. destruct H as (v & s2 & V & H). revert H. repeat io_step. intros DN.
    io_list G G' t B T. pose proof (word_vector_read _ _ _ _ _ _ _ _ E V) as W.
    destruct (read_took _ _ _ _ W G) as (G0 & t0 & W0 & T0).
    refine (done_read _ _ _ _ _ _ _ _ DN). apply (took_read _ _ _ _ (t0 ++ t) G0 (took_trans _ _ _ _ _ T0 T)).
    right. right. right. right. left. exists t0, t, v, x0. auto. }
  destruct (text_eqb r0 (lit "IDENTITY")) eqn:C5; [|discriminate].
  apply text_eqb_eq in C5. subst r0. intros DN. refine (done_read _ _ _ _ _ _ _ _ DN).
  refine (read_as_impl _ _ _ _ _ _ _ (word_read _ (lit "[]") _ _ _ eq_refl E)).
  intros t W. right. right. right. right. right. split; [exact W|reflexivity].
Qed.

Lemma rotation_pre rd b t r : skipped b -> rotation_text skipped rd t r -> rotation_text skipped rd (b ++ t) r.
Proof.
  intros Sb H.
  assert (W : forall k u, word skipped k u -> word skipped k (b ++ u)).
  { intros k u (b' & w & a & -> & S1 & M & S2). exists (b ++ b'), w, a. split; [rewrite <- !app_assoc; reflexivity|]. auto using skipped_app. }
  assert (WV : forall k u v, word_vector skipped rd k u v -> word_vector skipped rd k (b ++ u) v).
  { intros k u v (t1 & t2 & -> & A & B). exists (b ++ t1), t2. split; [rewrite <- app_assoc; reflexivity|]. auto. }
  destruct H as [H|[H|[H|[H|[H|H]]]]].
  - left. apply bracketed_pre; assumption.
  - right. left. destruct H as (v & A & B). exists v. auto.
  - right. right. left. destruct H as (v & A & B). exists v. auto.
  - right. right. right. left. destruct H as (v & A & B). exists v. auto.
  - right. right. right. right. left. destruct H as (t1 & t2 & v & a & -> & A & B & C). exists (b ++ t1), t2, v, a.
    split; [rewrite <- app_assoc; reflexivity|]. auto.
  - right. right. right. right. right. destruct H as [A B]. auto.
Qed.

Lemma read_Frame_sound rd s F x s' : read_Frame rd s F = OGot x s' -> read_as (frame_text skipped rd) s x s'.
Proof.
  unfold read_Frame. set (s0 := IOTrace _ s). io_step.
  destruct (text_eqb r []) eqn:C; [|destruct (text_eqb r (lit "DH")) eqn:C2; [|discriminate]].
  - apply text_eqb_eq in C. subst r. io_step. intros H. apply sub_got in H. destruct H as (M & s3 & RM & H).
    apply sub_got in H. destruct H as (p & s4 & RV & H). revert H. io_step. intros DN. cbn [fM fp] in *.
    apply read_Rotation_sound in RM. apply read_Vector_sound in RV.
    destruct r, r0. destruct (EatEnd_sound _ "]" _ ltac:(discriminate) E1) as (G4 & G5 & b' & Sb' & T5).
    destruct (read_took _ _ _ _ RV G4) as (G3 & tp & Mp & T4).
    destruct (read_took _ _ _ _ RM G3) as (G2 & tM & MM & T3).
    destruct (Eat_sound _ "[" _ ltac:(discriminate) E0) as (G1 & H1 & _). destruct (H1 G2) as (b & b2 & Sb & Sb2 & T2).
    destruct (word_none _ (lit "[") _ _ eq_refl E G1) as (G0 & b0 & Sb0 & T1).
    refine (done_read _ _ _ _ _ _ _ _ DN). eapply (took_read _ _ _ _ (b0 ++ (b ++ ["["] ++ b2) ++ tM ++ tp ++ b' ++ ["]"]) G0).
    + apply (took_trans _ _ s1); [exact T1|]. apply (took_trans _ _ s2); [exact T2|]. apply (took_trans _ _ s3); [exact T3|].
      apply (took_trans _ _ s4); [exact T4|exact T5].
    + left. exists (b0 ++ b), (b2 ++ tM), tp, b'. split; [rewrite <- !app_assoc; reflexivity|].
      split; [apply skipped_app; assumption|]. split; [apply rotation_pre; assumption|]. auto.
  - apply text_eqb_eq in C2. subst r. repeat io_step. intros DN. io_list G G' t B T.
    destruct (read_took _ _ _ _ (word_read _ (lit "[") _ _ _ eq_refl E) G) as (G0 & t0 & W0 & T0).
    refine (done_read _ _ _ _ _ _ _ _ DN). apply (took_read _ _ _ _ (t0 ++ t) G0 (took_trans _ _ _ _ _ T0 T)).
    right. exists t0, t, x0, x1, x2, x3. auto.
Qed.
