(** The low level readers of utility_io.cxx: what they take from a stream. *)
From Coq Require Import Reals ZArith Ascii String List Bool Lia.
From Flocq Require Import Core.
From Verif Require Import FramesModel PathModel IoModel IoSpec IoNum.
Import ListNotations.
Local Open Scope char_scope.
Local Open Scope list_scope.
Local Open Scope Z_scope.

Lemma get_cons past c r tr : get (stream past (c :: r) tr) = (Some c, stream (c :: past) r tr).
Proof. reflexivity. Qed.
Lemma get_nil past tr : get (stream past [] tr) = (None, mkIs past [] true true false tr).
Proof. reflexivity. Qed.
Lemma putback_ok past c r tr : putback (stream (c :: past) r tr) (Some c) = stream past (c :: r) tr.
Proof. unfold putback, clear_eof, good. cbn. rewrite Ascii.eqb_refl. reflexivity. Qed.
Lemma good_stream s : good s = true -> s = stream (is_past s) (is_rest s) (is_trace s).
Proof. destruct s as [p r e f b t]. unfold good. cbn. destruct e, f, b; try discriminate. reflexivity. Qed.
Lemma check_stream past r tr : check_istream (stream past r tr) = Got tt (stream past r tr).
Proof. reflexivity. Qed.

Lemma is_ch_eq ch c : is_ch ch c = true -> ch = Some c.
Proof. destruct ch as [d|]; cbn; [|discriminate]. intros H. apply Ascii.eqb_eq in H. subst. reflexivity. Qed.
Lemma is_ch_neq c d : c <> d -> is_ch (Some c) d = false.
Proof. intros H. cbn. apply Ascii.eqb_neq. exact H. Qed.
Lemma is_ch_refl c : is_ch (Some c) c = true. Proof. cbn. apply Ascii.eqb_refl. Qed.

(** neither space nor the start of a comment *)
Definition tok (c : ascii) : Prop := ~ In c [" "; "009"; "010"; "#"; "/"].
Definition tokb (c : ascii) : bool := negb (existsb (Ascii.eqb c) [" "; "009"; "010"; "#"; "/"]).
Lemma tokb_tok c : tokb c = true -> tok c.
Proof.
  unfold tokb, tok. intros H I. assert (E : existsb (Ascii.eqb c) [" "; "009"; "010"; "#"; "/"] = true).
  { apply existsb_exists. exists c. split; [exact I|apply Ascii.eqb_refl]. }
  rewrite E in H. discriminate H.
Qed.
Lemma tok_split c : tok c -> c <> " " /\ c <> tab /\ c <> nl /\ c <> "#" /\ c <> "/".
Proof. unfold tok. cbn. intros H. repeat split; intros ->; apply H; tauto. Qed.
Lemma plain_nil : plain []. Proof. intros c []. Qed.
Lemma plain_app a b : plain (a ++ b) <-> plain a /\ plain b.
Proof.
  unfold plain. split.
  - intros H. split; intros c I; apply H; apply in_or_app; auto.
  - intros [A B] c I. apply in_app_or in I. destruct I; auto.
Qed.
Lemma plain_cons c b : plain (c :: b) <-> In c [" "; "009"; "010"] /\ plain b.
Proof.
  unfold plain. split.
  - intros H. split; [apply H; left; reflexivity|]. intros d I. apply H. right. exact I.
  - intros [A B] d [I|I]; [subst; exact A|auto].
Qed.
Lemma plain_spaces k : plain (repeat " " k).
Proof. intros c I. apply repeat_spec in I. subst. cbn. tauto. Qed.
Lemma skipped_app a b : skipped a -> skipped b -> skipped (a ++ b).
Proof. induction 1 as [|x y H1 H2 IH]; intros B; [exact B|]. rewrite <- app_assoc. constructor; auto. Qed.
Lemma skipped_one a : skip_item a -> skipped a.
Proof. intros H. rewrite <- (app_nil_r a). constructor; [exact H|constructor]. Qed.
Lemma skipped_white w : (forall c, In c w -> white c) -> skipped w.
Proof.
  induction w as [|c w IH]; intros H; [constructor|]. change (c :: w) with ([c] ++ w). constructor.
  - constructor. apply H. left. reflexivity.
  - apply IH. intros d I. apply H. right. exact I.
Qed.
Lemma plain_skipped b : plain b -> skipped b.
Proof. intros H. apply skipped_white. intros c I. specialize (H c I). unfold white. cbn in *. tauto. Qed.

(** ** Plain texts are taken *)
Lemma EatSpace_loop_plain b : forall fuel n past c r tr, plain b -> tok c -> (length b < fuel)%nat ->
  EatSpace_loop fuel n (stream past (b ++ c :: r) tr)
  = Got (Some c, n + 1 + Z.of_nat (length b)) (stream (c :: rev b ++ past) r tr).
Proof.
  induction b as [|d b IH]; intros fuel n past c r tr Hb Hc Hf; (destruct fuel as [|k]; [cbn in Hf; lia|]);
    cbn [EatSpace_loop app]; rewrite check_stream; cbn [ibind]; rewrite get_cons.
  - destruct (tok_split c Hc) as (A & B & C & D & E).
    rewrite (is_ch_neq c "#" D). cbn [ibind]. rewrite (is_ch_neq c "/" E). cbn [ibind]. unfold blank_ch.
    rewrite (is_ch_neq c " " A), (is_ch_neq c nl C), (is_ch_neq c tab B). cbn [orb length rev app].
    match goal with |- Got (_, ?x) _ = Got (_, ?y) _ => let E := fresh in assert (E : x = y) by (cbn [length]; lia); exact (f_equal (fun z => Got (_, z) _) E) end.
  - apply plain_cons in Hb. destruct Hb as [Hd Hb].
    assert (F : is_ch (Some d) "#" = false /\ is_ch (Some d) "/" = false /\ blank_ch (Some d) = true).
    { cbn in Hd. destruct Hd as [<-|[<-|[<-|[]]]]; repeat split; reflexivity. }
    destruct F as (F1 & F2 & F3). rewrite F1. cbn [ibind]. rewrite F2. cbn [ibind]. rewrite F3.
    rewrite (IH k (n + 1) (d :: past) c r tr Hb Hc) by (cbn in Hf; lia). cbn [rev length]. rewrite <- app_assoc. cbn [app].
    match goal with |- Got (_, ?x) _ = Got (_, ?y) _ => let E := fresh in assert (E : x = y) by (cbn [length]; lia); exact (f_equal (fun z => Got (_, z) _) E) end.
Qed.
Lemma EatSpace_plain b past c r tr : plain b -> tok c ->
  EatSpace (stream past (b ++ c :: r) tr) = Got (Some c, Z.of_nat (length b)) (stream (c :: rev b ++ past) r tr).
Proof.
  intros Hb Hc. unfold EatSpace. rewrite (EatSpace_loop_plain b) by (auto; cbn [stream is_rest]; rewrite app_length; cbn; lia).
  match goal with |- Got (_, ?x) _ = Got (_, ?y) _ => let E := fresh in assert (E : x = y) by (cbn [length]; lia); exact (f_equal (fun z => Got (_, z) _) E) end.
Qed.
Lemma Eat_plain b b2 past d c r tr : plain b -> plain b2 -> tok d -> tok c ->
  Eat (stream past (b ++ d :: b2 ++ c :: r) tr) d = Got tt (stream (rev b2 ++ d :: rev b ++ past) (c :: r) tr).
Proof.
  intros Hb Hb2 Hd Hc. unfold Eat. rewrite (EatSpace_plain b) by assumption. cbn [ibind fst]. rewrite is_ch_refl. cbn [negb].
  rewrite (EatSpace_plain b2) by assumption. cbn [ibind fst]. rewrite putback_ok. reflexivity.
Qed.
Lemma EatEnd_plain b past d r tr : plain b -> tok d ->
  EatEnd (stream past (b ++ d :: r) tr) d = Got tt (stream (d :: rev b ++ past) r tr).
Proof. intros Hb Hd. unfold EatEnd. rewrite (EatSpace_plain b) by assumption. cbn [ibind fst]. rewrite is_ch_refl. reflexivity. Qed.

(** EatWord in front of a delimiter *)
Lemma EatWord_none b past delim n c r tr : plain b -> tok c -> strchr delim (Some c) = true ->
  EatWord (stream past (b ++ c :: r) tr) delim (S n) = Got [] (stream (rev b ++ past) (c :: r) tr).
Proof.
  intros Hb Hc Hd. unfold EatWord. rewrite (EatSpace_plain b) by assumption. cbn [ibind fst]. cbn [EatWord_loop].
  rewrite Hd, andb_false_r. rewrite putback_ok. reflexivity.
Qed.
(** a word of at most n letters, then space or a delimiter *)
Lemma EatWord_loop_word w : forall room past delim a c r tr acc d, (length w < room)%nat ->
  Forall (fun x => tok x /\ strchr delim (Some x) = false) (d :: w) -> plain a -> tok c -> (a <> [] \/ strchr delim (Some c) = true) ->
  EatWord_loop delim (S room) (Some d) 0 acc (stream (d :: past) (w ++ a ++ c :: r) tr)
  = Got (acc ++ map Upper (d :: w)) (stream (rev a ++ rev (d :: w) ++ past) (c :: r) tr).
Proof.
  induction w as [|e w IH]; intros room past delim a c r tr acc d Hl HF Ha Hc Hn; inversion HF as [|x y [T D] HF']; subst x y;
    cbn [EatWord_loop]; rewrite D; cbn [Z.eqb negb andb]; rewrite check_stream; cbn [ibind].
  - cbn [app]. rewrite (EatSpace_plain a) by assumption. cbn [ibind fst snd].
    assert (R : exists k, room = S k) by (destruct room as [|k]; [cbn in Hl; lia|exists k; reflexivity]). destruct R as [k ->].
    cbn [EatWord_loop]. replace ((Z.of_nat (length a) =? 0) && negb (strchr delim (Some c)))%bool with false.
    + rewrite putback_ok. reflexivity.
    + destruct Hn as [Hn|Hn]; [|rewrite Hn; cbn; rewrite andb_false_r; reflexivity].
      destruct a as [|a1 a]; [congruence|]. cbn. reflexivity.
  - inversion HF' as [|x y [T' D'] HF'']; subst x y.
    replace ((e :: w) ++ a ++ c :: r) with ([] ++ e :: (w ++ a ++ c :: r)) by reflexivity.
    rewrite (EatSpace_plain []) by (auto using plain_nil). cbn [ibind fst snd]. cbn [rev app length]. change (Z.of_nat 0) with 0.
    assert (R : exists k, room = S k) by (destruct room as [|k]; [cbn in Hl; lia|exists k; reflexivity]). destruct R as [k ->].
    rewrite (IH k (d :: past) delim a c r tr) by (auto; cbn in Hl; lia). cbn [map rev]. rewrite <- !app_assoc. reflexivity.
Qed.
Lemma EatWord_word b w past delim n a c r tr : plain b -> w <> [] -> (length w < n)%nat ->
  Forall (fun x => tok x /\ strchr delim (Some x) = false) w -> plain a -> tok c -> (a <> [] \/ strchr delim (Some c) = true) ->
  EatWord (stream past (b ++ w ++ a ++ c :: r) tr) delim n
  = Got (map Upper w) (stream (rev a ++ rev w ++ rev b ++ past) (c :: r) tr).
Proof.
  intros Hb Hw Hl HF Ha Hc Hn. destruct w as [|d w]; [congruence|]. inversion HF as [|x y [T D] HF']; subst x y.
  unfold EatWord. change ((d :: w) ++ a ++ c :: r) with (d :: (w ++ a ++ c :: r)).
  rewrite (EatSpace_plain b) by assumption. cbn [ibind fst].
  destruct n as [|n]; [cbn in Hl; lia|]. rewrite (EatWord_loop_word w n) by (auto; cbn in Hl; lia). reflexivity.
Qed.

(** ** What has been taken *)
Definition took (s : istr) (t : text) (s' : istr) : Prop :=
  is_rest s = t ++ is_rest s' /\ is_past s' = rev t ++ is_past s /\ is_trace s' = is_trace s.
Lemma took_trans a s t b u : took s a t -> took t b u -> took s (a ++ b) u.
Proof.
  intros (A1 & A2 & A3) (B1 & B2 & B3). repeat split; [rewrite A1, B1, app_assoc; reflexivity| |congruence].
  rewrite B2, A2, rev_app_distr, app_assoc. reflexivity.
Qed.
Lemma took_nil s : took s [] s. Proof. repeat split. Qed.

Lemma EatLine_sound fuel : forall count past rest tr ch m s',
  EatUntilEndOfLine fuel count (stream past rest tr) = Got (ch, m) s' ->
  exists l r, one_line l /\ rest = l ++ nl :: r /\ ch = Some nl /\ s' = stream (nl :: rev l ++ past) r tr /\ count + 1 <= m.
Proof.
  induction fuel as [|k IH]; intros count past rest tr ch m s'; cbn [EatUntilEndOfLine]; [discriminate|].
  destruct rest as [|c rest]; [rewrite get_nil; discriminate|]. rewrite get_cons, check_stream. cbn [ibind].
  destruct (is_ch (Some c) nl) eqn:E.
  - intros Q. injection Q as <- <- <-. apply is_ch_eq in E. injection E as ->. exists [], rest. repeat split; [intros []|lia].
  - intros Q. apply IH in Q. destruct Q as (l & r & A & -> & -> & -> & L). exists (c :: l), r. repeat split.
    + intros [I|I]; [subst c; discriminate E|exact (A I)].
    + cbn [rev]. rewrite <- app_assoc. reflexivity.
    + lia.
Qed.

Definition last_ch (t : text) : option ascii := match rev t with c :: _ => Some c | [] => None end.
Lemma no_end_nil : no_end []. Proof. intros a b E. symmetry in E. apply app_eq_nil in E. destruct E as [_ E]. discriminate E. Qed.
Lemma no_end_snoc t c : no_end t -> (is_ch (last_ch t) "*" && is_ch (Some c) "/")%bool = false -> no_end (t ++ [c]).
Proof.
  intros H N a b E. destruct (list_eq_dec ascii_dec b []) as [B|B].
  - subst b. assert (F : t ++ [c] = (a ++ ["*"]) ++ ["/"]) by (rewrite E, <- app_assoc; reflexivity).
    apply app_inj_tail in F. destruct F as [-> ->]. unfold last_ch in N. rewrite rev_app_distr in N. cbn in N. discriminate N.
  - destruct (exists_last B) as (b' & x & ->). rewrite !app_assoc in E. apply app_inj_tail in E. destruct E as [E _].
    apply (H a b'). rewrite E, <- app_assoc. reflexivity.
Qed.
Lemma last_ch_snoc t c : last_ch (t ++ [c]) = Some c. Proof. unfold last_ch. rewrite rev_app_distr. reflexivity. Qed.
Lemma last_star t : is_ch (last_ch t) "*" = true -> exists l, t = l ++ ["*"].
Proof.
  unfold last_ch. destruct (rev t) as [|c r] eqn:E; [discriminate|]. intros H. apply is_ch_eq in H. injection H as ->.
  exists (rev r). rewrite <- (rev_involutive t), E. reflexivity.
Qed.
Lemma EatComment_sound fuel : forall count past rest tr ch m s' dn, no_end dn ->
  EatUntilEndOfComment fuel count (last_ch dn) (stream past rest tr) = Got (ch, m) s' ->
  exists l x r, no_end (l ++ ["*"]) /\ dn ++ x = l ++ ["*"] /\ rest = x ++ "/" :: r /\
    (ch, s') = get (stream ("/" :: rev x ++ past) r tr) /\ count + 1 <= m.
Proof.
  induction fuel as [|k IH]; intros count past rest tr ch m s' dn Hd; cbn [EatUntilEndOfComment]; [discriminate|].
  destruct rest as [|c rest]; [rewrite get_nil; discriminate|]. rewrite get_cons, check_stream. cbn [ibind].
  destruct (is_ch (last_ch dn) "*" && is_ch (Some c) "/")%bool eqn:E.
  - destruct (get (stream (c :: past) rest tr)) as [ch' s1] eqn:G. intros Q. injection Q as <- <- <-. apply andb_prop in E. destruct E as [E1 E2].
    apply is_ch_eq in E2. injection E2 as ->. apply last_star in E1. destruct E1 as [l ->].
    exists l, [], rest. rewrite app_nil_r. repeat split; [exact Hd|symmetry; exact G|lia].
  - intros Q. rewrite <- (last_ch_snoc dn c) in Q. apply IH in Q; [|apply no_end_snoc; assumption].
    destruct Q as (l & x & r & A & B & -> & C & L). exists l, (c :: x), r. repeat split.
    + exact A.
    + rewrite <- B, <- app_assoc. reflexivity.
    + rewrite C. cbn [rev]. rewrite <- app_assoc. reflexivity.
    + lia.
Qed.

(** the streams _EatSpace can leave *)
Inductive after_space (past rest : text) (tr : list string) (b : text) : option ascii -> istr -> Prop :=
| as_char c r : rest = b ++ c :: r -> after_space past rest tr b (Some c) (stream (c :: rev b ++ past) r tr)
| as_slash : rest = b ++ ["/"] -> after_space past rest tr b (Some "/") (mkIs ("/" :: rev b ++ past) [] false true false tr)
| as_end : rest = b -> after_space past rest tr b None (mkIs (rev b ++ past) [] true true false tr).

Lemma blank_white c : blank_ch (Some c) = true -> white c.
Proof.
  unfold blank_ch. intros H. apply orb_prop in H. destruct H as [H|H]; [apply orb_prop in H; destruct H as [H|H]|]; apply is_ch_eq in H;
    injection H as ->; unfold white, nl, tab; cbn; tauto.
Qed.

Lemma EatSpace_loop_sound fuel : forall n past rest tr ch m s', -1 <= n ->
  EatSpace_loop fuel n (stream past rest tr) = Got (ch, m) s' ->
  exists b, skipped b /\ (m = n + 1 /\ b = [] \/ 1 <= m /\ b <> []) /\ after_space past rest tr b ch s'.
Proof.
  induction fuel as [|k IH]; intros n past rest tr ch m s' Hn; cbn [EatSpace_loop]; [discriminate|].
  rewrite check_stream. cbn [ibind].
  (* after an item [it] has been taken with count m1 >= 1 and the next step sees a blank *)
  assert (Loop : forall it m1 past1 rest1, skipped it -> it <> [] -> 0 <= m1 -> rest = it ++ rest1 -> past1 = rev it ++ past ->
    EatSpace_loop k m1 (stream past1 rest1 tr) = Got (ch, m) s' ->
    exists b, skipped b /\ (m = n + 1 /\ b = [] \/ 1 <= m /\ b <> []) /\ after_space past rest tr b ch s').
  { intros it m1 past1 rest1 S1 N1 M1 -> -> Q. apply IH in Q; [|lia]. destruct Q as (b & Sb & M & A).
    exists (it ++ b). split; [apply skipped_app; assumption|]. split.
    - right. split; [|intros E; apply app_eq_nil in E; tauto]. destruct M as [[-> _]|[M _]]; lia.
    - inversion A as [c r E1 E2 E3|E1 E2 E3|E1 E2 E3]; subst.
      + rewrite (app_assoc (rev b) (rev it)), <- rev_app_distr. apply as_char. rewrite app_assoc. reflexivity.
      + rewrite (app_assoc (rev b) (rev it)), <- rev_app_distr. apply as_slash. rewrite app_assoc. reflexivity.
      + rewrite (app_assoc (rev b) (rev it)), <- rev_app_distr. apply as_end. reflexivity. }
  destruct rest as [|c rest].
  { rewrite get_nil. cbn. intros Q. injection Q as <- <- <-. exists []. split; [constructor|]. split; [left; split; [lia|reflexivity]|].
    apply as_end. reflexivity. }
  rewrite get_cons. destruct (is_ch (Some c) "#") eqn:E1.
  - apply is_ch_eq in E1. injection E1 as ->.
    destruct (EatUntilEndOfLine _ 0 _) as [[ch1 m1] s1|e1 s1| |] eqn:L; cbn [ibind]; try discriminate.
    apply EatLine_sound in L. destruct L as (l & r & A & -> & -> & -> & M). cbn [is_ch]. cbn [ibind].
    change (blank_ch (Some nl)) with true. cbv iota. intros Q.
    refine (Loop (["#"] ++ l ++ [nl]) m1 _ _ _ _ _ _ _ Q).
    + apply skipped_one. constructor. exact A.
    + discriminate.
    + lia.
    + cbn [app]. rewrite <- app_assoc. reflexivity.
    + cbn [app rev]. rewrite rev_app_distr. cbn [rev app]. rewrite <- app_assoc. reflexivity.
  - cbn [ibind]. destruct (is_ch (Some c) "/") eqn:E2.
    + apply is_ch_eq in E2. injection E2 as ->. destruct rest as [|d rest].
      { rewrite get_nil. cbn [is_ch]. cbn. intros Q. injection Q as <- <- <-. exists []. split; [constructor|]. split; [left; split; [lia|reflexivity]|].
        apply as_slash. reflexivity. }
      rewrite get_cons. destruct (is_ch (Some d) "/") eqn:E3; [|destruct (is_ch (Some d) "*") eqn:E4].
      * apply is_ch_eq in E3. injection E3 as ->.
        destruct (EatUntilEndOfLine _ 0 _) as [[ch1 m1] s1|e1 s1| |] eqn:L; cbn [ibind]; try discriminate.
        apply EatLine_sound in L. destruct L as (l & r & A & -> & -> & -> & M).
        change (blank_ch (Some nl)) with true. cbv iota. intros Q.
        refine (Loop (["/"; "/"] ++ l ++ [nl]) m1 _ _ _ _ _ _ _ Q).
        -- apply skipped_one. constructor. exact A.
        -- discriminate.
        -- lia.
        -- cbn [app]. rewrite <- app_assoc. reflexivity.
        -- cbn [app rev]. rewrite rev_app_distr. cbn [rev app]. rewrite <- !app_assoc. reflexivity.
      * apply is_ch_eq in E4. injection E4 as ->.
        destruct (EatUntilEndOfComment _ 0 _ _) as [[ch1 m1] s1|e1 s1| |] eqn:L; cbn [ibind]; try discriminate.
        change None with (last_ch []) in L. apply EatComment_sound in L; [|exact no_end_nil].
        destruct L as (l & x & r & A & B & -> & G & M). cbn [app] in B. subst x.
        set (it := ["/"; "*"] ++ l ++ ["*"; "/"]).
        assert (Si : skipped it) by (apply skipped_one; constructor; exact A).
        assert (P : "/" :: rev (l ++ ["*"]) ++ "*" :: "/" :: past = rev it ++ past).
        { unfold it. rewrite !rev_app_distr. cbn. rewrite <- !app_assoc. reflexivity. }
        assert (T : "/" :: "*" :: (l ++ ["*"]) ++ "/" :: r = it ++ r).
        { unfold it. cbn [app]. rewrite <- !app_assoc. reflexivity. }
        destruct r as [|e r].
        -- rewrite get_nil in G. injection G as -> ->. cbn. intros Q. injection Q as <- <- <-. exists it. split; [exact Si|]. split; [right; split; [lia|discriminate]|].
           rewrite T, app_nil_r. change ("/" :: rev (l ++ ["*"]) ++ "*" :: "/" :: past) with ("/" :: rev (l ++ ["*"]) ++ "*" :: "/" :: past). rewrite P.
           apply as_end. reflexivity.
        -- rewrite get_cons in G. injection G as -> ->. rewrite T in Loop. rewrite P, T. destruct (blank_ch (Some e)) eqn:W.
           ++ intros Q. refine (Loop (it ++ [e]) m1 _ _ _ _ _ _ _ Q).
              ** apply skipped_app; [exact Si|]. apply skipped_one. constructor. apply blank_white. exact W.
              ** discriminate.
              ** lia.
              ** rewrite <- app_assoc. reflexivity.
              ** rewrite rev_app_distr. reflexivity.
           ++ intros Q. injection Q as <- <- <-. exists it. split; [exact Si|]. split; [right; split; [lia|discriminate]|].
              apply as_char. reflexivity.
      * cbn [ibind]. rewrite putback_ok. change (blank_ch (Some "/")) with false. cbv iota. intros Q. injection Q as <- <- <-.
        exists []. split; [constructor|]. split; [left; split; [lia|reflexivity]|]. apply (as_char _ _ _ []). reflexivity.
    + cbn [ibind]. destruct (blank_ch (Some c)) eqn:W.
      * intros Q. refine (Loop [c] (n + 1) _ _ _ _ _ _ _ Q); try reflexivity.
        -- apply skipped_one. constructor. apply blank_white. exact W.
        -- discriminate.
        -- lia.
      * intros Q. injection Q as <- <- <-. exists []. split; [constructor|]. split; [left; split; [lia|reflexivity]|].
        apply (as_char _ _ _ []). reflexivity.
Qed.
Lemma EatSpace_sound past rest tr ch m s' : EatSpace (stream past rest tr) = Got (ch, m) s' ->
  exists b, skipped b /\ (m = 0 /\ b = [] \/ 1 <= m /\ b <> []) /\ after_space past rest tr b ch s'.
Proof. intros H. apply EatSpace_loop_sound in H; [exact H|lia]. Qed.

(** a stream that is not good *)
Definition dead (s : istr) : Prop := good s = false /\ is_eof s = false.
Lemma EatSpace_dead s : dead s -> EatSpace s = Got (None, 0) (set_fail s) /\ dead (set_fail s).
Proof.
  intros [H E]. unfold EatSpace. cbn [EatSpace_loop]. unfold check_istream. rewrite H, E. cbn [negb andb ibind].
  unfold get. rewrite H. cbn. split; [reflexivity|]. split; [|exact E].
  unfold good, set_fail. cbn. rewrite E. reflexivity.
Qed.
Lemma EatSpace_eof s : good s = false -> is_eof s = true -> EatSpace s = Threw Error_BasicIO_File s.
Proof. intros H E. unfold EatSpace. cbn [EatSpace_loop]. unfold check_istream. rewrite H, E. reflexivity. Qed.
Lemma EatSpace_char_good s c m s' : EatSpace s = Got (Some c, m) s' -> good s = true.
Proof.
  intros H. destruct (good s) eqn:G; [reflexivity|]. destruct (is_eof s) eqn:E.
  - rewrite EatSpace_eof in H by assumption. discriminate H.
  - rewrite (proj1 (EatSpace_dead s (conj G E))) in H. discriminate H.
Qed.

Lemma EatEnd_sound s d s' : d <> "/" -> EatEnd s d = Got tt s' ->
  good s = true /\ good s' = true /\ exists b, skipped b /\ took s (b ++ [d]) s'.
Proof.
  intros Hd. unfold EatEnd. destruct (EatSpace s) as [[ch m] s1|e s1| |] eqn:E; cbn [ibind fst]; try discriminate.
  destruct (is_ch ch d) eqn:C; cbn [negb]; [|discriminate]. apply is_ch_eq in C. subst ch. intros Q. injection Q as ->.
  pose proof (EatSpace_char_good _ _ _ _ E) as G. rewrite (good_stream s G) in E. apply EatSpace_sound in E.
  destruct E as (b & Sb & _ & A). split; [exact G|]. inversion A as [c r E1 E2 E3|E1 E2 E3|E1 E2 E3]; subst.
  - split; [reflexivity|]. exists b. split; [exact Sb|]. repeat split; cbn [stream is_rest is_past is_trace].
    + rewrite E1, <- app_assoc. reflexivity.
    + rewrite rev_app_distr. reflexivity.
  - congruence.
Qed.
Lemma Eat_sound s d s' : d <> "/" -> Eat s d = Got tt s' ->
  good s = true /\ (good s' = true -> exists b b2, skipped b /\ skipped b2 /\ took s (b ++ [d] ++ b2) s') /\ (good s' = true \/ dead s').
Proof.
  intros Hd. unfold Eat. destruct (EatSpace s) as [[ch m] s1|e s1| |] eqn:E; cbn [ibind fst]; try discriminate.
  destruct (is_ch ch d) eqn:C; cbn [negb]; [|discriminate]. apply is_ch_eq in C. subst ch.
  destruct (EatSpace s1) as [[ch m2] s2|e2 s2| |] eqn:E2; cbn [ibind fst]; try discriminate. intros Q. injection Q as <-.
  pose proof (EatSpace_char_good _ _ _ _ E) as G. rewrite (good_stream s G) in E. apply EatSpace_sound in E.
  destruct E as (b & Sb & _ & A). split; [exact G|]. inversion A as [c r E1 F1 F3|E1 F1 F3|E1 F1 F3]; subst; [|congruence].
  apply EatSpace_sound in E2. destruct E2 as (b2 & Sb2 & _ & A2).
  inversion A2 as [c r2 K1 K2 K3|K1 K2 K3|K1 K2 K3]; subst.
  - rewrite putback_ok. split; [|left; reflexivity]. intros _. exists b, b2. split; [exact Sb|]. split; [exact Sb2|].
    repeat split; cbn [stream is_rest is_past is_trace].
    + rewrite E1, <- !app_assoc. reflexivity.
    + rewrite !rev_app_distr. cbn. rewrite <- !app_assoc. reflexivity.
  - split; [intros F; discriminate F|right; split; reflexivity].
  - split; [intros F; discriminate F|right; split; reflexivity].
Qed.
Lemma Eat_dead s d : dead s -> exists s', Eat s d = Threw Error_BasicIO_Exp_Delim s'.
Proof. intros H. unfold Eat. rewrite (proj1 (EatSpace_dead s H)). cbn. eexists. reflexivity. Qed.

(** ** EatWord *)
Lemma EatWord_loop_dead delim room : strchr delim None = false -> forall count word s, dead s ->
  count = 0 -> EatWord_loop delim room None count word s = Ub.
Proof.
  intros Hd. induction room as [|k IH]; intros count word s D ->; cbn [EatWord_loop]; rewrite Hd; cbn [Z.eqb negb andb]; [reflexivity|].
  unfold check_istream. rewrite (proj1 D), (proj2 D). cbn [negb andb ibind].
  destruct (EatSpace_dead s D) as [E D']. rewrite E. cbn [ibind fst snd]. apply IH; [exact D'|reflexivity].
Qed.
Lemma putback_dead s ch : dead s -> dead (putback s ch).
Proof.
  intros [G E]. unfold putback. replace (clear_eof s) with s by (destruct s; cbn in E; subst; reflexivity). rewrite G.
  split; [|exact E]. unfold good, set_fail. cbn. rewrite E. reflexivity.
Qed.
Lemma EatWord_loop_sound delim room : strchr delim None = false ->
  forall ch count acc past rest tr b0 s w s',
  (count = 0 /\ b0 = [] \/ 1 <= count /\ b0 <> []) -> skipped b0 -> after_space past rest tr b0 ch s ->
  EatWord_loop delim room ch count acc s = Got w s' ->
  exists raw u, w = acc ++ map Upper raw /\ rest = raw ++ u /\ is_trace s' = tr /\
    (good s' = true -> exists a, skipped a /\ took (stream past rest tr) (raw ++ a) s' /\ (b0 = [] -> raw = [] -> a = [])) /\
    (good s' = true \/ dead s').
Proof.
  intros Hd. induction room as [|k IH]; intros ch count acc past rest tr b0 s w s' HC Sb A; cbn [EatWord_loop].
  { destruct (_ && _)%bool; discriminate. }
  destruct ((count =? 0) && negb (strchr delim ch))%bool eqn:C.
  - apply andb_prop in C. destruct C as [C1 C2]. apply Z.eqb_eq in C1. assert (b0 = []) by (destruct HC as [[_ H]|[H _]]; [exact H|lia]). subst b0 count.
    inversion A as [c r E1 E2 E3|E1 E2 E3|E1 E2 E3]; subst.
    + rewrite check_stream. cbn [ibind rev app] in *.
      destruct (EatSpace (stream (c :: past) r tr)) as [[ch2 m2] s2|e s2| |] eqn:E; cbn [ibind fst snd]; try discriminate.
      apply EatSpace_sound in E. destruct E as (b2 & Sb2 & HC2 & A2). intros Q.
      apply (IH _ _ _ _ _ _ _ _ _ _ HC2 Sb2 A2) in Q. destruct Q as (raw & u & -> & -> & T & G & D).
      exists (c :: raw), u. split; [rewrite <- app_assoc; reflexivity|]. split; [reflexivity|]. split; [exact T|]. split; [|exact D].
      intros g. destruct (G g) as (a & Sa & (T1 & T2 & T3) & _). exists a. split; [exact Sa|]. split; [|discriminate].
      cbn [stream is_rest is_past is_trace] in *. repeat split; cbn [stream is_rest is_past is_trace].
      * cbn [app]. rewrite T1. reflexivity.
      * rewrite T2. cbn [app rev]. rewrite <- app_assoc. reflexivity.
      * exact T3.
    + unfold check_istream. cbn [is_eof good is_fail is_bad negb orb andb ibind rev app].
      assert (D : dead (mkIs ("/" :: past) [] false true false tr)) by (split; reflexivity).
      destruct (EatSpace_dead _ D) as [E D']. rewrite E. cbn [ibind fst snd]. rewrite (EatWord_loop_dead delim k Hd) by (auto; reflexivity). discriminate.
    + cbn [check_istream]. discriminate.
  - intros Q. injection Q as <- <-. exists [], rest. rewrite app_nil_r. split; [reflexivity|]. split; [reflexivity|].
    inversion A as [c r E1 E2 E3|E1 E2 E3|E1 E2 E3]; subst.
    + rewrite putback_ok. split; [reflexivity|]. split; [|left; reflexivity]. intros _. exists b0. split; [exact Sb|]. split; [|auto]. repeat split.
    + split; [reflexivity|]. split; [intros F; discriminate F|right; split; reflexivity].
    + split; [reflexivity|]. split; [intros F; discriminate F|right; split; reflexivity].
Qed.
Lemma EatWord_sound s delim n w s' : strchr delim None = false -> EatWord s delim n = Got w s' ->
  good s = true /\ exists b raw u, skipped b /\ map Upper raw = w /\ is_rest s = b ++ raw ++ u /\ is_trace s' = is_trace s /\
    (good s' = true -> exists a, skipped a /\ took s (b ++ raw ++ a) s' /\ (raw = [] -> a = [])) /\ (good s' = true \/ dead s').
Proof.
  intros Hd. unfold EatWord. destruct (good s) eqn:G.
  2:{ destruct (is_eof s) eqn:E; [rewrite EatSpace_eof by assumption; discriminate|].
      destruct (EatSpace_dead s (conj G E)) as [E1 D1]. rewrite E1. cbn [ibind fst]. rewrite (EatWord_loop_dead delim n Hd) by (auto; reflexivity). discriminate. }
  rewrite (good_stream s G). set (past := is_past s). set (rest := is_rest s). set (tr := is_trace s).
  destruct (EatSpace (stream past rest tr)) as [[ch m] s1|e s1| |] eqn:E; cbn [ibind fst]; try discriminate.
  apply EatSpace_sound in E. destruct E as (b & Sb & _ & A). intros Q. split; [reflexivity|].
  (* the word starts after b *)
  assert (A' : exists rest1, rest = b ++ rest1 /\ after_space (rev b ++ past) rest1 tr [] ch s1).
  { inversion A as [c r E1 E2 E3|E1 E2 E3|E1 E2 E3]; subst.
    - exists (c :: r). split; [exact E1|]. apply (as_char _ _ _ []). reflexivity.
    - exists ["/"]. split; [exact E1|]. apply (as_slash _ _ _ []). reflexivity.
    - exists []. split; [rewrite app_nil_r; reflexivity|]. apply (as_end _ _ _ []). reflexivity. }
  destruct A' as (rest1 & E1 & A1).
  apply (EatWord_loop_sound delim n Hd ch 0 [] _ _ _ [] s1 w s' (or_introl (conj eq_refl eq_refl)) sk_none A1) in Q.
  destruct Q as (raw & u & -> & -> & T & G1 & D1). exists b, raw, u. cbn [app stream is_rest is_trace].
  split; [exact Sb|]. split; [reflexivity|]. split; [exact E1|]. split; [exact T|]. split; [|exact D1].
  intros g. destruct (G1 g) as (a & Sa & (T1 & T2 & T3) & N). exists a. split; [exact Sa|]. split; [|auto].
  cbn [stream is_rest is_past is_trace] in *. repeat split; cbn [stream is_rest is_past is_trace].
  - rewrite E1, T1, <- !app_assoc. reflexivity.
  - rewrite T2, (rev_app_distr b), <- app_assoc. reflexivity.
  - exact T3.
Qed.

(** ** Numbers *)
Lemma read_double_plain rd w n v c r past tr old : plain w -> numeral n v -> no_number c ->
  read_double rd (stream past (w ++ n ++ c :: r) tr) old = (rd v, stream (rev n ++ rev w ++ past) (c :: r) tr).
Proof.
  intros Hw Hn Hc. unfold read_double, extract. change (good (stream past (w ++ n ++ c :: r) tr)) with true. cbv iota.
  cbn [stream is_rest is_past is_trace].
  assert (Hd : exists d n', n = d :: n' /\ is_space d = false).
  { destruct Hn as (sg & s & ip & dot & fp & ex & e & -> & Hs & Hip & Hfp & Hdot & Hne & _).
    inversion Hs; subst; cbn [app]; try (eexists; eexists; split; reflexivity).
    destruct ip as [|d ip].
    - destruct Hdot as [->|[-> ->]]; [|cbn in Hne; congruence]. cbn [app]. eexists. eexists. split; reflexivity.
    - cbn [app]. eexists. eexists. split; [reflexivity|]. apply digits_text_cons in Hip. destruct Hip as [Hip _].
      apply digit_in in Hip. cbn in Hip. decompose [or] Hip; subst; try reflexivity; contradiction. }
  destruct Hd as (d & n' & En & Hd).
  rewrite (span_app is_space w (n ++ c :: r)).
  2:{ intros x I. specialize (Hw x I). apply space_white. unfold white. cbn in *. tauto. }
  2:{ rewrite En. exact Hd. }
  assert (NE : n ++ c :: r = d :: n' ++ c :: r) by (rewrite En; reflexivity).
  rewrite NE. rewrite <- NE. rewrite (num_float_complete n v (c :: r) Hn Hc). reflexivity.
Qed.
Lemma read_double_sound rd s old x s' : read_double rd s old = (x, s') -> good s' = true ->
  good s = true /\ exists w n v, skipped w /\ numeral n v /\ x = rd v /\ took s (w ++ n) s'.
Proof.
  unfold read_double, extract. destruct (good s) eqn:G.
  2:{ intros Q g. injection Q as <- <-. unfold good, set_fail in g. cbn in g. rewrite orb_true_r in g. discriminate g. }
  pose proof (span_spec is_space (is_rest s)) as SP. destruct (span is_space (is_rest s)) as [ws t]. destruct SP as (E & W & _).
  destruct t as [|c t]; [intros Q g; injection Q as <- <-; discriminate g|].
  destruct (num_float (c :: t)) as [[tok0 r] [v|]] eqn:N.
  2:{ intros Q g. injection Q as <- <-. unfold good in g. cbn in g. rewrite orb_true_r in g. discriminate g. }
  apply num_float_sound in N. destruct N as [N1 N2]. intros Q g. injection Q as <- <-. split; [reflexivity|].
  exists ws, tok0, v. split; [apply skipped_white; intros d I; apply space_white; auto|]. split; [exact N2|]. split; [reflexivity|].
  repeat split; cbn [is_rest is_past is_trace].
  - rewrite E, N1, <- app_assoc. reflexivity.
  - rewrite rev_app_distr, <- app_assoc. reflexivity.
Qed.
