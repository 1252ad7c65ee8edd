(** The readers of frames_io.cpp take every text of the documented form. *)
From Coq Require Import Reals ZArith Ascii String List Bool Lia.
From Flocq Require Import Core.
From Verif Require Import FramesModel PathModel IoModel IoSpec IoNum IoEat.
Import ListNotations.
Local Open Scope char_scope.
Local Open Scope list_scope.
Local Open Scope Z_scope.

(** a good stream over the text W with r left to read *)
Definition at_pos (W : text) (tr : list string) (r : text) (s : istr) : Prop := exists pre, W = pre ++ r /\ s = stream (rev pre) r tr.

Lemma at_start past t rest tr : at_pos (rev past ++ t ++ rest) tr (t ++ rest) (stream past (t ++ rest) tr).
Proof. exists (rev past). rewrite rev_involutive. auto. Qed.
Lemma at_end past t rest tr s : at_pos (rev past ++ t ++ rest) tr rest s -> s = stream (rev t ++ past) rest tr.
Proof.
  intros (pre & E & ->). rewrite app_assoc in E. apply app_inv_tail in E. subst pre. rewrite rev_app_distr, rev_involutive. reflexivity.
Qed.
Lemma at_trace W tr r s d : at_pos W tr r s -> at_pos W (d :: tr) r (IOTrace d s).
Proof. intros (pre & E & ->). exists pre. auto. Qed.
Lemma at_pop W tr r s d : at_pos W (d :: tr) r s -> exists s', IOTracePop s = Got tt s' /\ at_pos W tr r s'.
Proof. intros (pre & E & ->). eexists. split; [reflexivity|]. exists pre. auto. Qed.
Lemma at_done {T : Type} W tr r s d (x : T) : at_pos W (d :: tr) r s -> exists s', done x s = OGot x s' /\ at_pos W tr r s'.
Proof. intros H. destruct (at_pop _ _ _ _ _ H) as (s' & E & P). exists s'. split; [unfold done; rewrite E; reflexivity|exact P]. Qed.

Lemma numeral_first n v : numeral n v -> exists d n', n = d :: n' /\ tok d.
Proof.
  intros (sg & s & ip & dot & fp & ex & e & -> & Hs & Hip & Hfp & Hdot & Hne & _).
  inversion Hs; subst; cbn [app]; try (eexists; eexists; split; [reflexivity|apply tokb_tok; reflexivity]).
  destruct ip as [|d ip].
  - destruct Hdot as [->|[-> ->]]; [|cbn in Hne; congruence]. cbn [app]. eexists. eexists. split; [reflexivity|apply tokb_tok; reflexivity].
  - cbn [app]. eexists. eexists. split; [reflexivity|]. apply digits_text_cons in Hip. destruct Hip as [Hip _].
    apply digit_in in Hip. apply tokb_tok. cbn in Hip. decompose [or] Hip; subst; try reflexivity; contradiction.
Qed.
Lemma blank_no_number c : In c [" "; "009"; "010"] -> no_number c.
Proof. cbn. intros H. decompose [or] H; subst; try contradiction; repeat split; discriminate. Qed.

Ltac flat P := repeat first [rewrite <- !app_assoc in P | progress (cbn [app] in P)].

Section Chain.
Variable rd : R -> R.
Variable W : text.
Variable tr : list string.
Notation pos := (at_pos W tr).

(** a field list, its first space taken away *)
Lemma fields_strip cs f xs : fields plain rd cs f xs -> exists b c f', f = b ++ c :: f' /\ plain b /\ tok c /\ fields plain rd cs (c :: f') xs.
Proof.
  intros H. inversion H as [b n v b' B N B'|b n v b' c cs' t xs' B N B' F]; subst; destruct (numeral_first _ _ N) as (d & n' & -> & Td).
  - exists b, d, (n' ++ b'). split; [reflexivity|]. split; [exact B|]. split; [exact Td|].
    exact (fs_last plain rd [] (d :: n') v b' plain_nil N B').
  - exists b, d, (n' ++ b' ++ [c] ++ t). split; [reflexivity|]. split; [exact B|]. split; [exact Td|].
    exact (fs_more plain rd [] (d :: n') v b' c cs' t xs' plain_nil N B' F).
Qed.

Lemma pos_num w n v b' c r s : plain w -> numeral n v -> plain b' -> no_number c -> pos (w ++ n ++ b' ++ c :: r) s ->
  exists s1, (forall old, read_double rd s old = (rd v, s1)) /\ pos (b' ++ c :: r) s1.
Proof.
  intros Hw Hn Hb Hc (pre & E & ->).
  assert (N : exists c' r', b' ++ c :: r = c' :: r' /\ no_number c').
  { destruct b' as [|e b']; [exists c, r; auto|]. exists e, (b' ++ c :: r). split; [reflexivity|].
    apply blank_no_number. apply Hb. left. reflexivity. }
  destruct N as (c' & r' & N & Hc'). rewrite N in *. eexists. split.
  - intros old. rewrite (read_double_plain rd w n v c' r' (rev pre) tr old Hw Hn Hc'). reflexivity.
  - exists ((pre ++ w) ++ n). rewrite (rev_app_distr (pre ++ w)), (rev_app_distr pre), E, <- !app_assoc. auto.
Qed.
Lemma pos_Eat b d b2 c r s : plain b -> plain b2 -> tok d -> tok c -> pos (b ++ d :: b2 ++ c :: r) s ->
  exists s1, Eat s d = Got tt s1 /\ pos (c :: r) s1.
Proof.
  intros Hb Hb2 Hd Hc (pre & E & ->). eexists. split; [apply Eat_plain; assumption|].
  exists ((pre ++ b) ++ [d] ++ b2). split; [rewrite E, <- !app_assoc; reflexivity|]. f_equal.
  rewrite (rev_app_distr (pre ++ b)), (rev_app_distr [d]), (rev_app_distr pre). cbn [rev app]. rewrite <- !app_assoc. reflexivity.
Qed.
Lemma pos_EatEnd b d r s : plain b -> tok d -> pos (b ++ d :: r) s -> exists s1, EatEnd s d = Got tt s1 /\ pos r s1.
Proof.
  intros Hb Hd (pre & E & ->). eexists. split; [apply EatEnd_plain; assumption|].
  exists ((pre ++ b) ++ [d]). split; [rewrite E, <- !app_assoc; reflexivity|]. f_equal.
  rewrite (rev_app_distr (pre ++ b)), (rev_app_distr pre). reflexivity.
Qed.
Lemma pos_EatWord_none delim n b c r s : plain b -> tok c -> strchr delim (Some c) = true -> pos (b ++ c :: r) s ->
  exists s1, EatWord s delim (S n) = Got [] s1 /\ pos (c :: r) s1.
Proof.
  intros Hb Hc Hd (pre & E & ->). eexists. split; [apply EatWord_none; assumption|].
  exists (pre ++ b). split; [rewrite E, <- !app_assoc; reflexivity|]. f_equal. rewrite rev_app_distr. reflexivity.
Qed.
(** letters, whatever the case *)
Definition letter (c : ascii) : Prop := let n := nat_of_ascii c in (65 <= n <= 90 \/ 97 <= n <= 122)%nat.
Lemma letters_ok delim w k : (delim = lit "[]" \/ delim = lit "[") -> map Upper w = lit k -> Forall letter (lit k) ->
  Forall (fun x => tok x /\ strchr delim (Some x) = false) w.
Proof.
  intros Hd H L. rewrite <- H in L. clear H. induction w as [|c w IH]; [constructor|]. inversion L as [|x y Lc Lw]; subst. constructor; [|auto].
  clear IH Lw L. assert (Q : tokb c = true /\ strchr (lit "[]") (Some c) = false /\ strchr (lit "[") (Some c) = false).
  { destruct c as [b0 b1 b2 b3 b4 b5 b6 b7].
    destruct b0, b1, b2, b3, b4, b5, b6, b7; try (exfalso; vm_compute in Lc; lia); repeat split; reflexivity. }
  destruct Q as (A & B & C). split; [apply tokb_tok; exact A|]. destruct Hd; subst delim; assumption.
Qed.
Lemma pos_EatWord delim n b w a k c r s : (delim = lit "[]" \/ delim = lit "[") ->
  map Upper w = lit k -> Forall letter (lit k) -> lit k <> [] -> (length (lit k) < n)%nat ->
  plain b -> plain a -> tok c -> (a <> [] \/ strchr delim (Some c) = true) -> pos (b ++ w ++ a ++ c :: r) s ->
  exists s1, EatWord s delim n = Got (lit k) s1 /\ pos (c :: r) s1.
Proof.
  intros Hd M L NE Len Hb Ha Hc Hn (pre & E & ->). rewrite <- M. eexists. split.
  - apply EatWord_word; auto.
    + intros ->. apply NE. rewrite <- M. reflexivity.
    + rewrite <- M, map_length in Len. exact Len.
    + exact (letters_ok delim w k Hd M L).
  - exists (((pre ++ b) ++ w) ++ a). split; [rewrite E, <- !app_assoc; reflexivity|]. f_equal.
    rewrite (rev_app_distr ((pre ++ b) ++ w)), (rev_app_distr (pre ++ b)), (rev_app_distr pre). reflexivity.
Qed.

Lemma pos_next d cs f x xs r s : tok d -> no_number d -> fields plain rd (d :: cs) f (x :: xs) -> pos (f ++ "]" :: r) s ->
  exists s1 s2 f', (forall old, read_double rd s old = (x, s1)) /\ Eat s1 d = Got tt s2 /\ fields plain rd cs f' xs /\ pos (f' ++ "]" :: r) s2.
Proof.
  intros Td Nd F P. inversion F as [|b n v b' c cs' t xs' B N B' F' E1 E2 E3]; subst.
  destruct (fields_strip _ _ _ F') as (b2 & c & f' & -> & B2 & Tc & F2).
  destruct (pos_num b n v b' d (b2 ++ (c :: f') ++ "]" :: r) s B N B' Nd) as (s1 & R1 & P1).
  { flat P. exact P. }
  cbn [app] in P1. destruct (pos_Eat b' d b2 c (f' ++ "]" :: r) s1 B' B2 Td Tc P1) as (s2 & R2 & P2).
  exists s1, s2, (c :: f'). auto.
Qed.
Lemma pos_last f x r s : fields plain rd [] f [x] -> pos (f ++ "]" :: r) s ->
  exists s1 s2, (forall old, read_double rd s old = (x, s1)) /\ EatEnd s1 "]" = Got tt s2 /\ pos r s2.
Proof.
  intros F P. inversion F as [b n v b' B N B'|]; subst.
  destruct (pos_num b n v b' "]" r s B N B') as (s1 & R1 & P1); [repeat split; discriminate|rewrite <- !app_assoc in P; exact P|].
  destruct (pos_EatEnd b' "]" r s1 B' (tokb_tok "]" eq_refl) P1) as (s2 & R2 & P2). exists s1, s2. auto.
Qed.
(** the opening bracket *)
Lemma pos_open cs t xs r s : bracketed plain rd cs t xs -> pos (t ++ r) s ->
  exists s1 f, Eat s "[" = Got tt s1 /\ fields plain rd cs f xs /\ pos (f ++ "]" :: r) s1.
Proof.
  intros (b & f & -> & B & F) P. destruct (fields_strip _ _ _ F) as (b2 & c & f' & -> & B2 & Tc & F2).
  destruct (pos_Eat b "[" b2 c (f' ++ "]" :: r) s B B2 (tokb_tok "[" eq_refl) Tc) as (s1 & R1 & P1).
  { flat P. exact P. }
  exists s1, (c :: f'). auto.
Qed.
Lemma pos_noword delim n cs t xs r s : strchr delim (Some "[") = true -> bracketed plain rd cs t xs -> pos (t ++ r) s ->
  exists s1 t', EatWord s delim (S n) = Got [] s1 /\ bracketed plain rd cs t' xs /\ pos (t' ++ r) s1.
Proof.
  intros Hd (b & f & -> & B & F) P.
  destruct (pos_EatWord_none delim n b "[" (f ++ "]" :: r) s B (tokb_tok "[" eq_refl) Hd) as (s1 & R1 & P1).
  { flat P. exact P. }
  exists s1, (["["] ++ f ++ ["]"]). split; [exact R1|]. split; [exists [], f; split; [reflexivity|]; split; [exact plain_nil|exact F]|].
  cbn [app]. rewrite <- app_assoc. exact P1.
Qed.
(** a word and then a list *)
Lemma pos_word delim n k cs t1 t2 xs r s : (delim = lit "[]" \/ delim = lit "[") -> Forall letter (lit k) -> lit k <> [] ->
  (length (lit k) < n)%nat -> word plain k t1 -> bracketed plain rd cs t2 xs -> pos ((t1 ++ t2) ++ r) s ->
  exists s1 t', EatWord s delim n = Got (lit k) s1 /\ bracketed plain rd cs t' xs /\ pos (t' ++ r) s1.
Proof.
  intros Hd L NE Len (b & w & a & -> & B & M & A) (b2 & f & -> & B2 & F) P.
  destruct (pos_EatWord delim n b w (a ++ b2) k "[" (f ++ "]" :: r) s Hd M L NE Len B) as (s1 & R1 & P1).
  - apply plain_app. auto.
  - apply tokb_tok. reflexivity.
  - right. destruct Hd; subst; reflexivity.
  - flat P. rewrite <- !app_assoc. exact P.
  - exists s1, (["["] ++ f ++ ["]"]). split; [exact R1|]. split; [exists [], f; split; [reflexivity|]; split; [exact plain_nil|exact F]|].
    cbn [app]. rewrite <- app_assoc. exact P1.
Qed.
(** a word and then space and a character that does not belong to it *)
Lemma pos_keyword k t b c r s n : Forall letter (lit k) -> lit k <> [] -> (length (lit k) < n)%nat -> word plain k t -> plain b -> tok c ->
  (In c ["["; "]"] \/ b <> [] \/ exists u x, t = u ++ [x] /\ In x [" "; "009"; "010"]) -> pos (t ++ b ++ c :: r) s ->
  exists s1, EatWord s (lit "[]") n = Got (lit k) s1 /\ pos (c :: r) s1.
Proof.
  intros L NE Len (b1 & w & a & -> & B1 & M & A) B Tc H P.
  apply (pos_EatWord (lit "[]") n b1 w (a ++ b) k c r s); auto.
  - apply plain_app. auto.
  - destruct H as [H|[H|(u & x & E & I)]].
    + right. cbn in H. decompose [or] H; subst; try reflexivity; contradiction.
    + left. intros Q. apply app_eq_nil in Q. tauto.
    + left. intros Q. apply app_eq_nil in Q. destruct Q as [-> ->]. rewrite app_nil_r in E.
      destruct (list_eq_dec ascii_dec w []) as [->|Hw]; [apply NE; rewrite <- M; reflexivity|].
      destruct (exists_last Hw) as (w' & y & ->). rewrite app_assoc in E. apply app_inj_tail in E. destruct E as [_ ->].
      pose proof (letters_ok (lit "[]") _ k (or_introl eq_refl) M L) as F. rewrite Forall_forall in F.
      destruct (F x) as [F1 _]; [apply in_or_app; right; left; reflexivity|]. apply F1. cbn in *. tauto.
  - rewrite <- !app_assoc in *. exact P.
Qed.
End Chain.

(** ** The readers *)
Definition reads_at {T : Type} (rdr : istr -> T -> oio T) (t : text) (x : T) : Prop :=
  forall W tr r s old, at_pos W tr (t ++ r) s -> exists s', rdr s old = OGot x s' /\ at_pos W tr r s'.
Lemma reads_at_reads {T : Type} (rdr : istr -> T -> oio T) t x : reads_at rdr t x -> reads rdr t x.
Proof.
  intros H past rest tr old. destruct (H _ _ _ _ old (at_start past t rest tr)) as (s' & E & P). rewrite E. apply at_end in P. subst s'. reflexivity.
Qed.
(** the same for a word: the space up to the next character is taken too *)
Definition reads_word_at {T : Type} (rdr : istr -> T -> oio T) (t : text) (x : T) : Prop :=
  forall W tr b c r s old, plain b -> tok c -> (In c ["["; "]"] \/ b <> [] \/ exists u y, t = u ++ [y] /\ In y [" "; "009"; "010"]) ->
    at_pos W tr (t ++ b ++ c :: r) s -> exists s', rdr s old = OGot x s' /\ at_pos W tr (c :: r) s'.

Ltac step_open O P B :=
  let s1 := fresh "s" in let f := fresh "f" in let R1 := fresh "R" in
  destruct (pos_open _ _ _ _ _ _ _ _ B P) as (s1 & f & R1 & O & ?); rewrite R1; cbn [lift]; clear R1 B P.
Ltac step_next :=
  match goal with
  | F : fields plain ?rd (?d :: ?cs) ?f (?x :: ?xs), P : at_pos ?W ?tr (?f ++ "]" :: ?r) ?s |- _ =>
      let s1 := fresh "s" in let s2 := fresh "s" in let f' := fresh "f" in let R1 := fresh "R" in let R2 := fresh "R" in
      let F' := fresh "F" in let P' := fresh "P" in
      destruct (pos_next rd W tr d cs f x xs r s (tokb_tok d eq_refl) ltac:(repeat split; discriminate) F P) as (s1 & s2 & f' & R1 & R2 & F' & P');
      rewrite R1, R2; cbn [lift]; clear R1 R2 F P
  | F : fields plain ?rd [] ?f [?x], P : at_pos ?W ?tr (?f ++ "]" :: ?r) ?s |- _ =>
      let s1 := fresh "s" in let s2 := fresh "s" in let R1 := fresh "R" in let R2 := fresh "R" in let P' := fresh "P" in
      destruct (pos_last rd W tr f x r s F P) as (s1 & s2 & R1 & R2 & P');
      rewrite R1, R2; cbn [lift]; clear R1 R2 F P
  end.
Ltac finish := match goal with P : at_pos _ (_ :: _) _ ?s |- exists s', done ?x ?s = _ /\ _ => exact (at_done _ _ _ _ _ x P) end.

Lemma text_eqb_refl a : text_eqb a a = true.
Proof. unfold text_eqb. destruct (list_eq_dec ascii_dec a a); congruence. Qed.

Section Readers.
Variable rd : R -> R.

Lemma read_Vector_at t v : vector_list plain rd t v -> reads_at (read_Vector rd) t v.
Proof.
  destruct v as [x y z]. intros B W tr r s old P. unfold vector_list, numbers_Vector in B. cbn [vx vy vz] in B. unfold read_Vector.
  apply (at_trace _ _ _ _ "Stream input Vector (vector or ZERO)"%string) in P.
  destruct (pos_noword rd _ _ (lit "[]") 9 _ _ _ _ _ eq_refl B P) as (s1 & t' & R1 & B' & P1). rewrite R1. cbn [lift]. clear B P R1.
  change (text_eqb [] []) with true. cbv iota. step_open F P1 B'. repeat step_next. cbn [vx vy vz]. finish.
Qed.
Lemma read_Twist_at t v : twist_text plain rd t v -> reads_at (read_Twist rd) t v.
Proof.
  destruct v as [[x y z] [a b c]]. intros B W tr r s old P. unfold twist_text, numbers_Vector in B. cbn [vx vy vz tvel trot app] in B. unfold read_Twist.
  apply (at_trace _ _ _ _ "Stream input Twist"%string) in P. step_open F P B. repeat step_next. cbn [vx vy vz tvel trot]. finish.
Qed.
Lemma read_Wrench_at t v : wrench_text plain rd t v -> reads_at (read_Wrench rd) t v.
Proof.
  destruct v as [[x y z] [a b c]]. intros B W tr r s old P. unfold wrench_text, numbers_Vector in B. cbn [vx vy vz wforce wtorque app] in B. unfold read_Wrench.
  apply (at_trace _ _ _ _ "Stream input Wrench"%string) in P. step_open F P B. repeat step_next. cbn [vx vy vz wforce wtorque]. finish.
Qed.
Lemma read_Vector2_at t v : vector2_text plain rd t v -> reads_at (read_Vector2 rd) t v.
Proof.
  destruct v as [x y]. intros B W tr r s old P. unfold vector2_text in B. cbn [v2x v2y] in B. unfold read_Vector2.
  apply (at_trace _ _ _ _ "Stream input Vector2"%string) in P. step_open F P B. repeat step_next. cbn [v2x v2y]. finish.
Qed.
Lemma read_Rotation2_at t a : bracketed plain rd [] t [a] -> forall W tr r s old, at_pos W tr (t ++ r) s ->
  exists s', read_Rotation2 rd s old = OGot old s' /\ at_pos W tr r s'.
Proof.
  intros B W tr r s old P. unfold read_Rotation2. apply (at_trace _ _ _ _ "Stream input Rotation2"%string) in P. step_open F P B. repeat step_next. finish.
Qed.
Lemma read_Frame2_at t1 t2 a p : bracketed plain rd [] t1 [a] -> vector2_text plain rd t2 p -> forall W tr r s old, at_pos W tr ((t1 ++ t2) ++ r) s ->
  exists s', read_Frame2 rd s old = OGot (mkF2 (f2M old) p) s' /\ at_pos W tr r s'.
Proof.
  intros B V W tr r s old P. unfold read_Frame2. apply (at_trace _ _ _ _ "Stream input Frame2"%string) in P. rewrite <- app_assoc in P.
  destruct (read_Rotation2_at _ _ B _ _ _ _ (f2M old) P) as (s1 & E1 & P1). rewrite E1. cbn [sub].
  destruct (read_Vector2_at _ _ V _ _ _ _ (f2p (mkF2 (f2M old) (f2p old))) P1) as (s2 & E2 & P2). rewrite E2. cbn [sub f2M f2p]. finish.
Qed.

Lemma read_row_at i W tr r s old f d cs x y z xs k : (d = ";" /\ (i < 2)%nat) ->
  fields plain rd ("," :: "," :: d :: cs) f (x :: y :: z :: xs) -> at_pos W tr (f ++ "]" :: r) s ->
  exists s1 f', read_row rd i s old k = k (set_row old i (x, y, z)) s1 /\ fields plain rd cs f' xs /\ at_pos W tr (f' ++ "]" :: r) s1.
Proof.
  intros [-> Hi] F P. unfold read_row. destruct (row old i) as [[a b] c] eqn:RW.
  assert (I : (i <? 2)%nat = true) by (apply Nat.ltb_lt; exact Hi). rewrite I. repeat step_next.
  match goal with F : fields plain rd cs ?f' xs, P : at_pos _ _ (?f' ++ _) ?s' |- _ => exists s', f'; split; [|split; [exact F|exact P]] end.
  destruct i as [|[|i]]; reflexivity.
Qed.
Lemma read_row_last W tr r s old f x y z k : fields plain rd ["," ; ","] f [x; y; z] -> at_pos W tr (f ++ "]" :: r) s ->
  exists s1, read_row rd 2 s old k = k (set_row old 2 (x, y, z)) s1 /\ at_pos W tr r s1.
Proof.
  intros F P. unfold read_row. destruct (row old 2) as [[a b] c] eqn:RW. change (2 <? 2)%nat with false. cbv iota. repeat step_next.
  match goal with P : at_pos _ _ r ?s' |- _ => exists s'; split; [reflexivity|exact P] end.
Qed.

Lemma letters_of k : forallb (fun c => let n := nat_of_ascii c in ((65 <=? n) && (n <=? 90))%nat)%bool (lit k) = true -> Forall letter (lit k).
Proof.
  intros H. apply Forall_forall. intros c I. rewrite forallb_forall in H. specialize (H c I). cbv beta zeta in H. apply andb_prop in H.
  destruct H as [A B]. apply Nat.leb_le in A. apply Nat.leb_le in B. left. lia.
Qed.
Lemma read_word_list n k t v W tr r s : Forall letter (lit k) -> lit k <> [] -> (length (lit k) < n)%nat -> word_list plain rd k t v ->
  at_pos W tr (t ++ r) s -> exists s1 s2, EatWord s (lit "[]") n = Got (lit k) s1 /\ (forall old, read_Vector rd s1 old = OGot v s2) /\ at_pos W tr r s2.
Proof.
  intros L NE Len (t1 & t2 & -> & Wd & V) P.
  destruct (pos_word rd W tr (lit "[]") n k _ t1 t2 _ r s (or_introl eq_refl) L NE Len Wd V P) as (s1 & t' & R1 & B & P1).
  destruct (read_Vector_at t' v B _ _ _ _ v_zero P1) as (s2 & R2 & P2). exists s1, s2. split; [exact R1|]. split; [|exact P2].
  intros old. destruct (read_Vector_at t' v B _ _ _ _ old P1) as (s3 & R3 & P3). rewrite R3. f_equal.
  destruct P2 as (p2 & E2 & ->). destruct P3 as (p3 & E3 & ->). rewrite E2 in E3. apply app_inv_tail in E3. subst. reflexivity.
Qed.

Ltac word_step k P Hw :=
  destruct (read_word_list 10 k _ _ _ _ _ _ (letters_of k eq_refl) ltac:(discriminate) ltac:(cbn; lia) Hw P) as (s1 & s2 & R1 & R2 & P2);
  rewrite R1; cbn [lift];
  repeat match goal with |- context [text_eqb (lit ?a) ?b] => let e := eval vm_compute in (text_eqb (lit a) b) in change (text_eqb (lit a) b) with e; cbv iota end;
  rewrite R2; cbn [sub].

Lemma read_Rotation_at t x : closed_rotation plain rd t x -> reads_at (read_Rotation rd) t x.
Proof.
  intros H W tr r s old P. unfold read_Rotation.
  apply (at_trace _ _ _ _ "Stream input Rotation (Matrix or EULERZYX, EULERZYZ,RPY, ROT, IDENTITY)"%string) in P.
  destruct H as [B|[(v & Hw & ->)|[(v & Hw & ->)|[(v & Hw & ->)|(t1 & t2 & v & a & -> & Hw & B & ->)]]]].
  - destruct x as [x0 x1 x2 x3 x4 x5 x6 x7 x8]. unfold rotation_list, numbers_Rotation in B. cbn [r0 r1 r2 r3 r4 r5 r6 r7 r8] in B.
    destruct (pos_noword rd _ _ (lit "[]") 9 _ _ _ _ _ eq_refl B P) as (s1 & t' & R1 & B' & P1). rewrite R1. cbn [lift]. clear B P R1.
    change (text_eqb [] []) with true. cbv iota.
    destruct (pos_open _ _ _ _ _ _ _ _ B' P1) as (s2 & f & R1 & F & P2). rewrite R1. cbn [lift].
    match goal with |- context [read_row rd 0 s2 old ?K] => destruct (read_row_at 0 _ _ _ s2 old f ";" _ _ _ _ _ K (conj eq_refl (Nat.lt_0_succ 1)) F P2) as (s3 & f3 & E3 & F3 & P3) end.
    rewrite E3. clear E3.
    match goal with |- context [read_row rd 1 s3 ?o ?K] => destruct (read_row_at 1 _ _ _ s3 o f3 ";" _ _ _ _ _ K (conj eq_refl (Nat.lt_succ_diag_r 1)) F3 P3) as (s4 & f4 & E4 & F4 & P4) end.
    rewrite E4. clear E4.
    match goal with |- context [read_row rd 2 s4 ?o ?K] => destruct (read_row_last _ _ _ s4 o f4 _ _ _ K F4 P4) as (s5 & E5 & P5) end.
    rewrite E5. clear E5. cbn [set_row r0 r1 r2 r3 r4 r5 r6 r7 r8]. clear P1 P2 P3 P4. finish.
  - word_step "EULERZYX"%string P Hw. clear P. finish.
  - word_step "EULERZYZ"%string P Hw. clear P. finish.
  - word_step "RPY"%string P Hw. clear P. finish.
  - rewrite <- app_assoc in P. word_step "ROT"%string P Hw. clear P. step_open F P2 B. repeat step_next. finish.
Qed.

Lemma read_Vector_zero t : word plain "ZERO" t -> reads_word_at (read_Vector rd) t v_zero.
Proof.
  intros Hw W tr b c r s old Hb Hc Hn P. unfold read_Vector. apply (at_trace _ _ _ _ "Stream input Vector (vector or ZERO)"%string) in P.
  destruct (pos_keyword W _ "ZERO" t b c r _ 10 (letters_of "ZERO" eq_refl) ltac:(discriminate) ltac:(cbn; lia) Hw Hb Hc Hn P) as (s1 & R1 & P1).
  rewrite R1. cbn [lift]. clear P.
  repeat match goal with |- context [text_eqb (lit ?a) ?b] => let e := eval vm_compute in (text_eqb (lit a) b) in change (text_eqb (lit a) b) with e; cbv iota end.
  finish.
Qed.
Lemma read_Rotation_identity t : word plain "IDENTITY" t -> reads_word_at (read_Rotation rd) t r_id.
Proof.
  intros Hw W tr b c r s old Hb Hc Hn P. unfold read_Rotation.
  apply (at_trace _ _ _ _ "Stream input Rotation (Matrix or EULERZYX, EULERZYZ,RPY, ROT, IDENTITY)"%string) in P.
  destruct (pos_keyword W _ "IDENTITY" t b c r _ 10 (letters_of "IDENTITY" eq_refl) ltac:(discriminate) ltac:(cbn; lia) Hw Hb Hc Hn P) as (s1 & R1 & P1).
  rewrite R1. cbn [lift]. clear P.
  repeat match goal with |- context [text_eqb (lit ?a) ?b] => let e := eval vm_compute in (text_eqb (lit a) b) in change (text_eqb (lit a) b) with e; cbv iota end.
  finish.
Qed.

(** the position and the closing bracket of a frame *)
Lemma vector_then_end tp v b' W tr r s : vector_text plain rd tp v -> plain b' -> at_pos W tr (tp ++ b' ++ "]" :: r) s ->
  forall old, exists s1 s2, read_Vector rd s old = OGot v s1 /\ EatEnd s1 "]" = Got tt s2 /\ at_pos W tr r s2.
Proof.
  intros [V|[V ->]] Hb P old.
  - destruct (read_Vector_at tp v V _ _ _ _ old P) as (s1 & R1 & P1).
    destruct (pos_EatEnd W tr b' "]" r s1 Hb (tokb_tok "]" eq_refl) P1) as (s2 & R2 & P2). exists s1, s2. auto.
  - destruct (read_Vector_zero tp V W tr b' "]" r s old Hb (tokb_tok "]" eq_refl) (or_introl (or_intror (or_introl eq_refl))) P) as (s1 & R1 & P1).
    destruct (pos_EatEnd W tr [] "]" r s1 plain_nil (tokb_tok "]" eq_refl) P1) as (s2 & R2 & P2). exists s1, s2. auto.
Qed.
(** the space in front of a vector may have been taken already *)
Lemma vector_strip tp v : vector_text plain rd tp v -> exists b c u, tp = b ++ c :: u /\ plain b /\ tok c /\ vector_text plain rd (c :: u) v /\
  (c = "[" \/ c <> "[").
Proof.
  intros [(b & f & -> & B & F)|[(b & w & a & -> & B & M & A) ->]].
  - exists b, "[", (f ++ ["]"]). split; [reflexivity|]. split; [exact B|]. split; [apply tokb_tok; reflexivity|]. split; [|left; reflexivity].
    left. exists [], f. split; [reflexivity|]. split; [exact plain_nil|exact F].
  - destruct w as [|c w]; [discriminate M|]. exists b, c, (w ++ a). split; [reflexivity|]. split; [exact B|].
    pose proof (letters_ok (lit "[]") _ "ZERO" (or_introl eq_refl) M (letters_of "ZERO" eq_refl)) as L. inversion L as [|x y [Tc _] _]; subst.
    split; [exact Tc|]. split; [|destruct (ascii_dec c "["); auto]. right. split; [|reflexivity]. exists [], (c :: w), a. split; [reflexivity|]. split; [exact plain_nil|auto].
Qed.
(** the first character of a list, and of a word *)
Lemma list_strip cs t xs : bracketed plain rd cs t xs -> exists b c u, t = b ++ c :: u /\ plain b /\ tok c /\ bracketed plain rd cs (c :: u) xs.
Proof.
  intros (b & f & -> & B & F). exists b, "[", (f ++ ["]"]). split; [reflexivity|]. split; [exact B|]. split; [apply tokb_tok; reflexivity|].
  exists [], f. split; [reflexivity|]. split; [exact plain_nil|exact F].
Qed.
Lemma word_strip k t : Forall letter (lit k) -> lit k <> [] -> word plain k t -> exists b c u, t = b ++ c :: u /\ plain b /\ tok c /\ word plain k (c :: u).
Proof.
  intros L NE (b & w & a & -> & B & M & A). destruct w as [|c w]; [exfalso; apply NE; rewrite <- M; reflexivity|].
  exists b, c, (w ++ a). split; [reflexivity|]. split; [exact B|].
  pose proof (letters_ok (lit "[]") _ k (or_introl eq_refl) M L) as F. inversion F as [|x y [Tc _] _]; subst.
  split; [exact Tc|]. exists [], (c :: w), a. split; [reflexivity|]. split; [exact plain_nil|auto].
Qed.
Lemma word_list_strip k t v : Forall letter (lit k) -> lit k <> [] -> word_list plain rd k t v ->
  exists b c u, t = b ++ c :: u /\ plain b /\ tok c /\ word_list plain rd k (c :: u) v.
Proof.
  intros L NE (t1 & t2 & -> & Wd & V). destruct (word_strip k t1 L NE Wd) as (b & c & u & -> & B & Tc & W1).
  exists b, c, (u ++ t2). split; [rewrite <- app_assoc; reflexivity|]. split; [exact B|]. split; [exact Tc|].
  exists (c :: u), t2. auto.
Qed.
Lemma rotation_strip t x : closed_rotation plain rd t x -> exists b c u, t = b ++ c :: u /\ plain b /\ tok c /\ closed_rotation plain rd (c :: u) x.
Proof.
  intros [H|[(v & H & E)|[(v & H & E)|[(v & H & E)|(t1 & t2 & v & a & -> & H & B & E)]]]].
  - destruct (list_strip _ _ _ H) as (b & c & u & E & Pb & Tc & H'). exists b, c, u. split; [exact E|]. split; [exact Pb|]. split; [exact Tc|]. left. exact H'.
  - destruct (word_list_strip _ _ _ (letters_of "EULERZYX" eq_refl) ltac:(discriminate) H) as (b & c & u & E1 & Pb & Tc & H'). exists b, c, u.
    split; [exact E1|]. split; [exact Pb|]. split; [exact Tc|]. right. left. exists v. auto.
  - destruct (word_list_strip _ _ _ (letters_of "EULERZYZ" eq_refl) ltac:(discriminate) H) as (b & c & u & E1 & Pb & Tc & H'). exists b, c, u.
    split; [exact E1|]. split; [exact Pb|]. split; [exact Tc|]. right. right. left. exists v. auto.
  - destruct (word_list_strip _ _ _ (letters_of "RPY" eq_refl) ltac:(discriminate) H) as (b & c & u & E1 & Pb & Tc & H'). exists b, c, u.
    split; [exact E1|]. split; [exact Pb|]. split; [exact Tc|]. right. right. right. left. exists v. auto.
  - destruct (word_list_strip _ _ _ (letters_of "ROT" eq_refl) ltac:(discriminate) H) as (b & c & u & -> & Pb & Tc & H'). exists b, c, (u ++ t2).
    split; [rewrite <- app_assoc; reflexivity|]. split; [exact Pb|]. split; [exact Tc|]. right. right. right. right. exists (c :: u), t2, v, a. auto.
Qed.

Lemma read_Frame_at t F : closed_frame plain rd t F -> reads_at (read_Frame rd) t F.
Proof.
  intros H W tr r s old P. unfold read_Frame. apply (at_trace _ _ _ _ "Stream input Frame (Rotation,Vector) or DH[...]"%string) in P.
  destruct H as [(b & tM & tp & b' & -> & Hb & HM & HV & Hb')|(t1 & t2 & a & al & d & th & -> & Hw & B & ->)].
  - destruct F as [M p]. cbn [fM fp] in *. flat P.
    destruct (pos_EatWord_none W _ (lit "[") 9 b "[" _ _ Hb (tokb_tok "[" eq_refl) eq_refl P) as (s1 & R1 & P1). rewrite R1. cbn [lift].
    change (text_eqb [] []) with true. cbv iota. clear P R1.
    destruct HM as [HM|(HM & -> & Ha)].
    + destruct (rotation_strip _ _ HM) as (b2 & c & u & -> & B2 & Tc & HM'). flat P1.
      destruct (pos_Eat W _ [] "[" b2 c _ s1 plain_nil B2 (tokb_tok "[" eq_refl) Tc P1) as (s2 & R2 & P2). rewrite R2. cbn [lift].
      destruct (read_Rotation_at (c :: u) M HM' W _ (tp ++ b' ++ "]" :: r) s2 (fM old) P2) as (s3 & R3 & P3). rewrite R3. cbn [sub fM fp].
      destruct (vector_then_end tp p b' W _ r s3 HV Hb' P3 (fp old)) as (s4 & s5 & R4 & R5 & P5). rewrite R4. cbn [sub fM fp]. rewrite R5. cbn [lift].
      clear P1 P2 P3. finish.
    + destruct (word_strip _ _ (letters_of "IDENTITY" eq_refl) ltac:(discriminate) HM) as (b2 & c & u & -> & B2 & Tc & HM'). flat P1.
      destruct (pos_Eat W _ [] "[" b2 c _ s1 plain_nil B2 (tokb_tok "[" eq_refl) Tc P1) as (s2 & R2 & P2). rewrite R2. cbn [lift].
      destruct (vector_strip _ _ HV) as (b3 & c3 & u3 & -> & B3 & T3 & HV' & _).
      assert (Hn : In c3 ["["; "]"] \/ b3 <> [] \/ exists u0 y, c :: u = u0 ++ [y] /\ In y [" "; "009"; "010"]).
      { destruct b3 as [|x b3]; [|right; left; discriminate]. left. destruct Ha as (c' & u' & E & I). injection E as <- <-.
        cbn in I. decompose [or] I; subst; try contradiction; try (left; reflexivity); exfalso; apply T3; cbn; tauto. }
      flat P2.
      destruct (read_Rotation_identity (c :: u) HM' W _ b3 c3 (u3 ++ b' ++ "]" :: r) s2 (fM old) B3 T3 Hn P2) as (s3 & R3 & P3).
      rewrite R3. cbn [sub fM fp].
      destruct (vector_then_end (c3 :: u3) p b' W _ r s3 HV' Hb' P3 (fp old)) as (s4 & s5 & R4 & R5 & P5). rewrite R4. cbn [sub fM fp]. rewrite R5. cbn [lift].
      clear P1 P2 P3. finish.
  - destruct (pos_word rd W _ (lit "[") 10 "DH" _ t1 t2 _ r _ (or_intror eq_refl) (letters_of "DH" eq_refl) ltac:(discriminate) ltac:(cbn; lia) Hw B P) as (s1 & t' & R1 & B' & P1).
    rewrite R1. cbn [lift]. clear P B R1.
    repeat match goal with |- context [text_eqb (lit ?a) ?b] => let e := eval vm_compute in (text_eqb (lit a) b) in change (text_eqb (lit a) b) with e; cbv iota end.
    step_open F P1 B'. repeat step_next. finish.
Qed.
End Readers.

(** ** What is written *)
Lemma put_numeral p x : 1 <= p -> exists k, put p x = repeat " " k ++ fmt_double p x /\ numeral (fmt_double p x) (round10 p x).
Proof. intros Hp. unfold put, setw. exists (KDL_FRAME_WIDTH - length (fmt_double p x))%nat. split; [reflexivity|apply fmt_numeral; exact Hp]. Qed.

Section Written.
Variable rd : R -> R.
Variable p : Z.
Hypothesis Hp : 1 <= p.

Lemma put_last x : fields plain rd [] (put p x) [rd (round10 p x)].
Proof.
  destruct (put_numeral p x Hp) as (k & E & N). rewrite E. rewrite <- (app_nil_r (fmt_double p x)).
  apply fs_last; [apply plain_spaces|exact N|exact plain_nil].
Qed.
Lemma put_more x b c cs t xs : plain b -> fields plain rd cs t xs -> fields plain rd (c :: cs) (b ++ put p x ++ [c] ++ t) (rd (round10 p x) :: xs).
Proof.
  intros Hb F. destruct (put_numeral p x Hp) as (k & E & N). rewrite E.
  replace (b ++ (repeat " " k ++ fmt_double p x) ++ [c] ++ t) with ((b ++ repeat " " k) ++ fmt_double p x ++ [] ++ [c] ++ t)
    by (rewrite <- !app_assoc; reflexivity).
  apply fs_more; [apply plain_app; split; [exact Hb|apply plain_spaces]|exact N|exact plain_nil|exact F].
Qed.
Lemma list_of cs f xs : fields plain rd cs f xs -> bracketed plain rd cs (["["] ++ f ++ ["]"]) xs.
Proof. intros F. exists [], f. split; [reflexivity|]. split; [exact plain_nil|exact F]. Qed.


Lemma written_Vector v : vector_list plain rd (write_Vector p v) (vmap (fun x => rd (round10 p x)) v).
Proof.
  unfold write_Vector, vector_list. cbn [numbers_Vector vmap vx vy vz].
  replace (["["] ++ put p (vx v) ++ [","] ++ put p (vy v) ++ [","] ++ put p (vz v) ++ ["]"])
    with (["["] ++ ([] ++ put p (vx v) ++ [","] ++ ([] ++ put p (vy v) ++ [","] ++ put p (vz v))) ++ ["]"])
    by (cbn [app]; rewrite <- ?app_assoc; cbn [app]; rewrite <- ?app_assoc; reflexivity).
  apply list_of. repeat apply put_more; try exact plain_nil. apply put_last.
Qed.
Lemma written_Vector2 v : vector2_text plain rd (write_Vector2 p v) (mkV2 (rd (round10 p (v2x v))) (rd (round10 p (v2y v)))).
Proof.
  unfold write_Vector2, vector2_text. cbn [v2x v2y].
  replace (["["] ++ put p (v2x v) ++ [","] ++ put p (v2y v) ++ ["]"])
    with (["["] ++ ([] ++ put p (v2x v) ++ [","] ++ put p (v2y v)) ++ ["]"])
    by (cbn [app]; rewrite <- ?app_assoc; cbn [app]; rewrite <- ?app_assoc; reflexivity).
  apply list_of. repeat apply put_more; try exact plain_nil. apply put_last.
Qed.
(** six numbers *)
Lemma written_six a b c d e f :
  bracketed plain rd [","; ","; ","; ","; ","]
    (["["] ++ put p a ++ [","] ++ put p b ++ [","] ++ put p c ++ [","] ++ put p d ++ [","] ++ put p e ++ [","] ++ put p f ++ ["]"])
    (map (fun x => rd (round10 p x)) [a; b; c; d; e; f]).
Proof.
  replace (["["] ++ put p a ++ [","] ++ put p b ++ [","] ++ put p c ++ [","] ++ put p d ++ [","] ++ put p e ++ [","] ++ put p f ++ ["]"])
    with (["["] ++ ([] ++ put p a ++ [","] ++ [] ++ put p b ++ [","] ++ [] ++ put p c ++ [","] ++ [] ++ put p d ++ [","] ++ [] ++ put p e ++ [","] ++ put p f) ++ ["]"])
    by (cbn [app]; repeat (rewrite <- ?app_assoc; cbn [app]); reflexivity).
  apply list_of. cbn [map]. repeat (apply put_more; [exact plain_nil|]). apply put_last.
Qed.
Lemma written_Twist v : twist_text plain rd (write_Twist p v) (mkT (vmap (fun x => rd (round10 p x)) (tvel v)) (vmap (fun x => rd (round10 p x)) (trot v))).
Proof. exact (written_six _ _ _ _ _ _). Qed.
Lemma written_Wrench v : wrench_text plain rd (write_Wrench p v) (mkW (vmap (fun x => rd (round10 p x)) (wforce v)) (vmap (fun x => rd (round10 p x)) (wtorque v))).
Proof. exact (written_six _ _ _ _ _ _). Qed.
Lemma plain_newline : plain [nl; " "]. Proof. intros c I. cbn in *. tauto. Qed.
Lemma written_Rotation r : rotation_list plain rd (write_Rotation p r) (rmap (fun x => rd (round10 p x)) r).
Proof.
  unfold write_Rotation, rotation_list. cbn [numbers_Rotation rmap r0 r1 r2 r3 r4 r5 r6 r7 r8]. destruct r as [a b c d e f g h i]. cbn [r0 r1 r2 r3 r4 r5 r6 r7 r8].
  match goal with |- bracketed _ _ _ ?t _ => replace t with
    (["["] ++ ([] ++ put p a ++ [","] ++ [] ++ put p b ++ [","] ++ [] ++ put p c ++ [";"] ++ [nl; " "] ++ put p d ++ [","] ++ [] ++ put p e ++ [","]
     ++ [] ++ put p f ++ [";"] ++ [nl; " "] ++ put p g ++ [","] ++ [] ++ put p h ++ [","] ++ put p i) ++ ["]"])
    by (cbn [app]; repeat (rewrite <- ?app_assoc; cbn [app]); reflexivity) end.
  apply list_of. repeat (apply put_more; [exact plain_nil || exact plain_newline|]). apply put_last.
Qed.
Lemma written_Frame T : closed_frame plain rd (write_Frame p T) (mkF (rmap (fun x => rd (round10 p x)) (fM T)) (vmap (fun x => rd (round10 p x)) (fp T))).
Proof.
  left. exists [], (write_Rotation p (fM T)), (nl :: write_Vector p (fp T)), []. split; [reflexivity|]. split; [exact plain_nil|]. cbn [fM fp].
  split; [left; left; exact (written_Rotation (fM T))|]. split; [|exact plain_nil].
  left. destruct (written_Vector (fp T)) as (b & f & E & B & F). exists (nl :: b), f. split; [rewrite E; reflexivity|]. split; [|exact F].
  apply plain_cons. split; [cbn; tauto|exact B].
Qed.
Lemma written_Rotation2 r : bracketed plain rd [] (write_Rotation2 p r) [rd (round10 p (rot2_GetRot r * rad2deg))].
Proof.
  unfold write_Rotation2. apply list_of. rewrite <- (app_nil_r (fmt_double p (rot2_GetRot r * rad2deg))).
  apply (fs_last plain rd [] _ _ []); [exact plain_nil|apply fmt_numeral; exact Hp|exact plain_nil].
Qed.
End Written.
