(** When the readers of frames_io.cpp end in a value or an exception. *)
From Coq Require Import Reals ZArith Ascii String List Bool Lia.
From Flocq Require Import Core.
From Verif Require Import FramesModel PathModel IoModel IoSpec IoNum IoEat IoObjects.
Import ListNotations.
Local Open Scope char_scope.
Local Open Scope list_scope.
Local Open Scope Z_scope.

Definition fine {A : Type} (m : io A) : Prop := match m with Got _ _ | Threw _ _ => True | _ => False end.
Definition no_hang {A : Type} (m : io A) : Prop := match m with Hang => False | _ => True end.

Lemma fine_line fuel : forall n past rest tr, (length rest < fuel)%nat -> fine (EatUntilEndOfLine fuel n (stream past rest tr)).
Proof.
  induction fuel as [|k IH]; intros n past rest tr H; [lia|]. cbn [EatUntilEndOfLine]. destruct rest as [|c rest].
  - rewrite get_nil. exact I.
  - rewrite get_cons, check_stream. cbn [ibind]. destruct (is_ch (Some c) nl); [exact I|]. apply IH. cbn in H. lia.
Qed.
Lemma fine_comment fuel : forall n prev past rest tr, (length rest < fuel)%nat -> fine (EatUntilEndOfComment fuel n prev (stream past rest tr)).
Proof.
  induction fuel as [|k IH]; intros n prev past rest tr H; [lia|]. cbn [EatUntilEndOfComment]. destruct rest as [|c rest].
  - rewrite get_nil. exact I.
  - rewrite get_cons, check_stream. cbn [ibind]. destruct (is_ch prev "*" && is_ch (Some c) "/")%bool.
    + destruct (get (stream (c :: past) rest tr)). exact I.
    + apply IH. cbn in H. lia.
Qed.
Lemma fine_space_loop fuel : forall n past rest tr, (length rest < fuel)%nat -> fine (EatSpace_loop fuel n (stream past rest tr)).
Proof.
  induction fuel as [|k IH]; intros n past rest tr H; [lia|]. cbn [EatSpace_loop]. rewrite check_stream. cbn [ibind].
  destruct rest as [|c rest]; [rewrite get_nil; exact I|]. rewrite get_cons. cbn in H.
  destruct (is_ch (Some c) "#") eqn:E1.
  { destruct (EatUntilEndOfLine _ 0 _) as [[ch1 m1] s1|e1 s1| |] eqn:L; cbn [ibind].
    - apply EatLine_sound in L. destruct L as (l & r & A & -> & -> & -> & M). cbn [is_ch]. cbn [ibind].
      change (blank_ch (Some nl)) with true. cbv iota. apply IH. rewrite app_length in H. cbn in H. lia.
    - exact I.
    - pose proof (fine_line (S (length rest)) 0 (c :: past) rest tr ltac:(lia)) as F. cbn [stream is_rest] in L. rewrite L in F. exact F.
    - pose proof (fine_line (S (length rest)) 0 (c :: past) rest tr ltac:(lia)) as F. cbn [stream is_rest] in L. rewrite L in F. exact F. }
  cbn [ibind]. destruct (is_ch (Some c) "/") eqn:E2.
  - destruct rest as [|d rest]; [rewrite get_nil; exact I|]. rewrite get_cons. destruct (is_ch (Some d) "/") eqn:E3; [|destruct (is_ch (Some d) "*") eqn:E4].
    + destruct (EatUntilEndOfLine _ 0 _) as [[ch1 m1] s1|e1 s1| |] eqn:L; cbn [ibind].
      * apply EatLine_sound in L. destruct L as (l & r & A & -> & -> & -> & M).
        change (blank_ch (Some nl)) with true. cbv iota. apply IH. cbn in H. rewrite app_length in H. cbn in H. lia.
      * exact I.
      * pose proof (fine_line (S (length rest)) 0 (d :: c :: past) rest tr ltac:(lia)) as F. cbn [stream is_rest] in L. rewrite L in F. exact F.
      * pose proof (fine_line (S (length rest)) 0 (d :: c :: past) rest tr ltac:(lia)) as F. cbn [stream is_rest] in L. rewrite L in F. exact F.
    + destruct (EatUntilEndOfComment _ 0 _ _) as [[ch1 m1] s1|e1 s1| |] eqn:L; cbn [ibind].
      * change None with (last_ch []) in L. apply EatComment_sound in L; [|exact no_end_nil].
        destruct L as (l & x & r & A & B & -> & G & M). destruct r as [|e r].
        -- rewrite get_nil in G. injection G as -> ->. exact I.
        -- rewrite get_cons in G. injection G as -> ->. destruct (blank_ch (Some e)); [|exact I]. apply IH.
           cbn in H. rewrite app_length in H. cbn in H. lia.
      * exact I.
      * pose proof (fine_comment (S (length rest)) 0 None (d :: c :: past) rest tr ltac:(lia)) as F. cbn [stream is_rest] in L. rewrite L in F. exact F.
      * pose proof (fine_comment (S (length rest)) 0 None (d :: c :: past) rest tr ltac:(lia)) as F. cbn [stream is_rest] in L. rewrite L in F. exact F.
    + cbn [ibind]. change (blank_ch (Some "/")) with false. cbv iota. exact I.
  - cbn [ibind]. destruct (blank_ch (Some c)); [|exact I]. apply IH. lia.
Qed.
Lemma fine_space s : fine (EatSpace s).
Proof.
  destruct (good s) eqn:G.
  - rewrite (good_stream s G). apply fine_space_loop. cbn [stream is_rest]. lia.
  - destruct (is_eof s) eqn:E; [rewrite EatSpace_eof by assumption; exact I|]. rewrite (proj1 (EatSpace_dead s (conj G E))). exact I.
Qed.
Lemma fine_Eat s d : fine (Eat s d).
Proof.
  unfold Eat. pose proof (fine_space s) as F. destruct (EatSpace s) as [[ch m] s1|e s1| |]; cbn [ibind fst]; try exact F.
  destruct (negb (is_ch ch d)); [exact I|]. pose proof (fine_space s1) as F1. destruct (EatSpace s1) as [[ch1 m1] s2|e s2| |]; cbn [ibind]; exact F1.
Qed.
Lemma fine_EatEnd s d : fine (EatEnd s d).
Proof.
  unfold EatEnd. pose proof (fine_space s) as F. destruct (EatSpace s) as [[ch m] s1|e s1| |]; cbn [ibind fst]; try exact F.
  destruct (negb (is_ch ch d)); exact I.
Qed.
Lemma no_hang_word delim room : forall ch n w s, no_hang (EatWord_loop delim room ch n w s).
Proof.
  induction room as [|k IH]; intros ch n w s; cbn [EatWord_loop]; destruct (_ && _)%bool; try exact I.
  unfold check_istream. destruct (_ && _)%bool; cbn [ibind]; [exact I|].
  pose proof (fine_space s) as F. destruct (EatSpace s) as [[c m] s1|e s1| |]; cbn [ibind]; try exact F; [apply IH|exact I].
Qed.
Lemma no_hang_EatWord s delim n : no_hang (EatWord s delim n).
Proof.
  unfold EatWord. pose proof (fine_space s) as F. destruct (EatSpace s) as [[c m] s1|e s1| |]; cbn [ibind]; try exact F; [apply no_hang_word|exact I].
Qed.

(** ** Objects *)
(** the entry made at the start of a reader is still there at its end *)
Definition traced (d : string) (tr : list string) (s : istr) : Prop := is_trace s = d :: tr.
Lemma read_double_trace rd s o x s' : read_double rd s o = (x, s') -> is_trace s' = is_trace s.
Proof.
  unfold read_double, extract. destruct (good s); [|intros Q; injection Q as <- <-; reflexivity].
  destruct (span is_space (is_rest s)) as [ws t]. destruct t as [|c t]; [intros Q; injection Q as <- <-; reflexivity|].
  destruct (num_float (c :: t)) as [[tk r] [v|]]; intros Q; injection Q as <- <-; reflexivity.
Qed.
Lemma Eat_trace s d s' : d <> "/" -> Eat s d = Got tt s' -> is_trace s' = is_trace s.
Proof.
  intros Hd H. unfold Eat in H. destruct (EatSpace s) as [[ch m] s1|e s1| |] eqn:E; cbn [ibind fst] in H; try discriminate.
  destruct (is_ch ch d) eqn:C; cbn [negb] in H; [|discriminate]. apply is_ch_eq in C. subst ch.
  pose proof (EatSpace_char_good _ _ _ _ E) as G. rewrite (good_stream s G) in E. apply EatSpace_sound in E. destruct E as (b & _ & _ & A).
  inversion A as [c r E1 F1 F3|E1 F1 F3|E1 F1 F3]; subst; [|congruence].
  destruct (EatSpace (stream _ r _)) as [[ch m2] s2|e2 s2| |] eqn:E2; cbn [ibind fst] in H; try discriminate. injection H as <-.
  apply EatSpace_sound in E2. destruct E2 as (b2 & _ & _ & A2).
  inversion A2 as [c r2 K1 K2 K3|K1 K2 K3|K1 K2 K3]; subst; try reflexivity. rewrite putback_ok. reflexivity.
Qed.
Lemma EatEnd_trace s d s' : d <> "/" -> EatEnd s d = Got tt s' -> is_trace s' = is_trace s.
Proof. intros Hd H. destruct (EatEnd_sound s d s' Hd H) as (_ & _ & b & _ & (_ & _ & T)). exact T. Qed.
Lemma EatWord_trace s delim n w s' : strchr delim None = false -> EatWord s delim n = Got w s' -> is_trace s' = is_trace s.
Proof. intros Hd H. destruct (EatWord_sound s delim n w s' Hd H) as (_ & b & raw & u & _ & _ & _ & T & _). exact T. Qed.

Notation ofine := value_or_exception.
Lemma ofine_done {T : Type} (x : T) s : is_trace s <> [] -> ofine (done x s).
Proof. unfold done, IOTracePop. destruct (is_trace s); [congruence|]. intros _. exact I. Qed.

Ltac fine_step :=
  match goal with
  | |- ?P (lift (Eat ?s ?d) _ _) =>
      let F := fresh "F" in let E := fresh "E" in let u := fresh "u" in let s1 := fresh "s" in
      pose proof (fine_Eat s d) as F; destruct (Eat s d) as [u s1|? ?| |] eqn:E; cbn [lift]; try exact I; try (exfalso; exact F); clear F; destruct u;
      apply (Eat_trace s d s1 ltac:(discriminate)) in E
  | |- ?P (lift (EatEnd ?s ?d) _ _) =>
      let F := fresh "F" in let E := fresh "E" in let u := fresh "u" in let s1 := fresh "s" in
      pose proof (fine_EatEnd s d) as F; destruct (EatEnd s d) as [u s1|? ?| |] eqn:E; cbn [lift]; try exact I; try (exfalso; exact F); clear F; destruct u;
      apply (EatEnd_trace s d s1 ltac:(discriminate)) in E
  | |- ?P (let (_, _) := read_double ?rd ?s ?o in _) =>
      let x := fresh "x" in let s1 := fresh "s" in let E := fresh "D" in
      destruct (read_double rd s o) as [x s1] eqn:E; apply read_double_trace in E
  | |- ?P (done _ ?s) => apply ofine_done
  end.

Section Objects.
Variable rd : R -> R.
Lemma Twist_total s v : ofine (read_Twist rd s v).
Proof. unfold read_Twist. repeat fine_step. clear rd v. repeat match goal with E : is_trace ?a = _ |- _ => rewrite E; clear E end. discriminate. Qed.
Lemma Wrench_total s v : ofine (read_Wrench rd s v).
Proof. unfold read_Wrench. repeat fine_step. repeat match goal with E : is_trace ?a = _ |- _ => rewrite E; clear E end. discriminate. Qed.
Lemma Vector2_total s v : ofine (read_Vector2 rd s v).
Proof. unfold read_Vector2. repeat fine_step. repeat match goal with E : is_trace ?a = _ |- _ => rewrite E; clear E end. discriminate. Qed.
Lemma Rotation2_total s v : ofine (read_Rotation2 rd s v).
Proof. unfold read_Rotation2. repeat fine_step. repeat match goal with E : is_trace ?a = _ |- _ => rewrite E; clear E end. discriminate. Qed.

Lemma EatWord_loop_Ub delim room : strchr delim None = false ->
  forall ch acc past rest tr s, after_space past rest tr [] ch s ->
  (room > 0)%nat ->
  EatWord_loop delim room ch 0 acc s = Ub ->
  (exists raw u, rest = raw ++ u /\ (room <= length raw)%nat /\ forall c, In c raw -> ~ In c delim) \/ exists u, rest = u ++ ["/"].
Proof.
  intros Hd. induction room as [|k IH]; intros ch acc past rest tr s A Hr; [lia|]. cbn [EatWord_loop]. rewrite Z.eqb_refl. cbn [andb].
  destruct (strchr delim ch) eqn:C; cbn [negb]; [discriminate|].
  inversion A as [c r E1 E2 E3|E1 E2 E3|E1 E2 E3]; subst; cbn [app].
  - assert (Nc : ~ In c delim).
    { intros J. unfold strchr in C. apply orb_false_elim in C. destruct C as [_ C]. rewrite <- not_true_iff_false in C. apply C.
      apply existsb_exists. exists c. split; [exact J|apply Ascii.eqb_refl]. }
    rewrite check_stream. cbn [ibind rev app]. destruct k as [|k'].
    { intros _. left. exists [c], r. split; [reflexivity|]. split; [cbn; lia|]. intros d [<-|[]]. exact Nc. }
    set (k := S k') in *.
    destruct (EatSpace (stream (c :: past) r tr)) as [[ch2 m2] s2|e s2| |] eqn:E; cbn [ibind fst snd]; try discriminate;
      [|pose proof (fine_space (stream (c :: past) r tr)) as F; rewrite E in F; destruct F].
    apply EatSpace_sound in E. destruct E as (b2 & Sb2 & HC2 & A2).
    destruct HC2 as [[-> ->]|[M _]].
    + intros Q. destruct (IH _ _ _ _ _ _ A2 ltac:(unfold k; lia) Q) as [(raw & u & -> & L & N)|(u & ->)].
      * left. exists (c :: raw), u. split; [reflexivity|]. split; [cbn; lia|]. intros d [<-|J]; auto.
      * right. exists (c :: u). reflexivity.
    + unfold k. cbn [EatWord_loop]. destruct (m2 =? 0) eqn:Z0; [apply Z.eqb_eq in Z0; lia|]. cbn [andb]. discriminate.
  - intros _. right. exists []. reflexivity.
  - discriminate.
Qed.
Lemma EatWord_Ub s delim n : strchr delim None = false -> (n > 0)%nat -> good s = true -> EatWord s delim n = Ub ->
  long_word delim n (is_rest s) \/ exists u, is_rest s = u ++ ["/"].
Proof.
  intros Hd Hn G. unfold EatWord. rewrite (good_stream s G). set (past := is_past s). set (rest := is_rest s). set (tr := is_trace s).
  pose proof (fine_space (stream past rest tr)) as F. destruct (EatSpace (stream past rest tr)) as [[ch m] s1|e s1| |] eqn:E; cbn [ibind fst]; try discriminate; [|destruct F].
  apply EatSpace_sound in E. destruct E as (b & Sb & _ & A). cbn [stream is_rest].
  assert (A' : exists rest1, rest = b ++ rest1 /\ after_space (rev b ++ past) rest1 tr [] ch s1).
  { inversion A as [c r E1 E2 E3|E1 E2 E3|E1 E2 E3]; subst.
    - exists (c :: r). split; [exact E1|]. apply (as_char _ _ _ []). reflexivity.
    - exists ["/"]. split; [exact E1|]. apply (as_slash _ _ _ []). reflexivity.
    - exists []. split; [rewrite app_nil_r; reflexivity|]. apply (as_end _ _ _ []). reflexivity. }
  destruct A' as (rest1 & E1 & A1). intros Q. destruct (EatWord_loop_Ub delim n Hd _ _ _ _ _ _ A1 Hn Q) as [(raw & u & -> & L & N)|(u & ->)].
  - left. exists b, raw, u. auto.
  - right. exists (b ++ u). rewrite E1, app_assoc. reflexivity.
Qed.

Lemma Vector_total s v : good s = true -> ~ long_word (lit "[]") 10 (is_rest s) -> (forall u, is_rest s <> u ++ ["/"]) -> ofine (read_Vector rd s v).
Proof.
  intros G NL NS. unfold read_Vector. set (s0 := IOTrace _ s).
  pose proof (no_hang_EatWord s0 (lit "[]") 10) as F.
  destruct (EatWord s0 (lit "[]") 10) as [w s1|e s1| |] eqn:E; cbn [lift]; try exact I; [| |destruct F].
  - assert (T : is_trace s1 <> []) by (rewrite (EatWord_trace s0 (lit "[]") 10 w s1 eq_refl E); discriminate).
    destruct (text_eqb w []).
    + repeat fine_step. repeat match goal with E : is_trace ?a = _ |- _ => rewrite E; clear E end. exact T.
    + destruct (text_eqb w (lit "ZERO")); [apply ofine_done; exact T|exact I].
  - destruct (EatWord_Ub s0 (lit "[]") 10 eq_refl ltac:(lia) G E) as [H|(u & H)]; [contradiction (NL H)|contradiction (NS u H)].
Qed.
(** ** Every reader ends *)
Lemma ends_lift {A T : Type} (m : io A) (t : T) k : no_hang m -> (forall a s, ends (k a s)) -> ends (lift m t k).
Proof. intros H K. destruct m; cbn [lift]; [apply K|discriminate|discriminate|destruct H]. Qed.
Lemma ends_sub {A T : Type} (m : oio A) (f : A -> T) k : ends m -> (forall a s, ends (k a s)) -> ends (sub m f k).
Proof. intros H K. destruct m; cbn [sub]; [apply K|discriminate|discriminate|contradiction H; reflexivity]. Qed.
Lemma ends_done {T : Type} (x : T) s : ends (done x s).
Proof. unfold done, IOTracePop. destruct (is_trace s); discriminate. Qed.
Lemma fine_no_hang {A : Type} (m : io A) : fine m -> no_hang m.
Proof. destruct m; cbn; auto. Qed.
Ltac ends_step :=
  match goal with
  | |- ends (lift _ _ _) => apply ends_lift; [first [apply no_hang_EatWord | apply fine_no_hang; apply fine_Eat | apply fine_no_hang; apply fine_EatEnd]|intros ? ?]
  | |- ends (let (_, _) := ?m in _) => destruct m as [? ?]
  | |- ends (done _ _) => apply ends_done
  | |- ends (if ?b then _ else _) => destruct b
  | |- ends (OThrew _ _ _) => discriminate
  end.
Lemma Vector_ends s v : ends (read_Vector rd s v).
Proof. unfold read_Vector. repeat ends_step. Qed.
Lemma row_ends i s r k : (forall r s, ends (k r s)) -> ends (read_row rd i s r k).
Proof.
  intros H. unfold read_row. destruct (row r i) as [[a b] c]. repeat ends_step. apply ends_lift; [|intros ? ?; apply H].
  destruct (i <? 2)%nat; apply fine_no_hang; [apply fine_Eat|apply fine_EatEnd].
Qed.
Lemma Rotation_ends s r : ends (read_Rotation rd s r).
Proof.
  unfold read_Rotation. repeat ends_step.
  all: try (apply ends_sub; [apply Vector_ends|intros ? ?; repeat ends_step]).
  repeat (apply row_ends; intros ? ?). apply ends_done.
Qed.
Lemma Frame_ends s T : ends (read_Frame rd s T).
Proof.
  unfold read_Frame. repeat ends_step. apply ends_sub; [apply Rotation_ends|intros ? ?]. apply ends_sub; [apply Vector_ends|intros ? ?]. repeat ends_step.
Qed.
End Objects.
