(** The readers of paths, profiles and trajectories take every plain text. *)
From Coq Require Import Reals ZArith Ascii String List Bool Lia.
From Flocq Require Import Core.
From Verif Require Import FramesModel Outcome ProfModel PathModel IoModel IoSpec IoNum IoEat IoComplete MioModel MioSpec.
Import ListNotations.
Local Open Scope char_scope.
Local Open Scope list_scope.
Local Open Scope Z_scope.

(** ** Whole numbers *)
Lemma num_int_complete n z r : integer n z -> match r with [] => True | c :: _ => is_digit c = false end ->
  num_int (n ++ r) = (n, r, Some z).
Proof.
  intros (sg & s & ds & -> & Hs & Hd & Hne & ->) Hr. unfold num_int. rewrite <- app_assoc.
  assert (D : forall c, In c ds -> is_digit c = true) by (intros c I; apply digit_in; apply Hd; exact I).
  rewrite (take_sign_app sg s) by (first [exact Hs|
    destruct ds as [|c ds]; [congruence|]; cbn; destruct (is_digit_sign c (D c (or_introl eq_refl))); tauto]).
  rewrite (span_app is_digit ds r D Hr). destruct ds as [|c ds]; [congruence|]. rewrite (signed_sign sg s _ Hs). reflexivity.
Qed.
Lemma integer_first n z : integer n z -> exists d n', n = d :: n' /\ tok d /\ is_space d = false.
Proof.
  intros (sg & s & ds & -> & Hs & Hd & Hne & _).
  inversion Hs; subst; cbn [app]; try (eexists; eexists; split; [reflexivity|split; [apply tokb_tok; reflexivity|reflexivity]]).
  destruct ds as [|d ds]; [congruence|]. exists d, ds. split; [reflexivity|]. apply digits_text_cons in Hd. destruct Hd as [Hd _].
  apply digit_in in Hd. cbn in Hd. decompose [or] Hd; subst; try contradiction; split; try reflexivity; apply tokb_tok; reflexivity.
Qed.
Lemma extract_int_plain {B : Type} (conv : Z -> B * bool) (dflt : B) w n z c r past tr old :
  plain w -> integer n z -> is_digit c = false -> snd (conv z) = false ->
  extract num_int conv dflt (stream past (w ++ n ++ c :: r) tr) old = (fst (conv z), stream (rev n ++ rev w ++ past) (c :: r) tr).
Proof.
  intros Hw Hn Hc Hv. unfold extract. change (good (stream past (w ++ n ++ c :: r) tr)) with true. cbv iota.
  cbn [stream is_rest is_past is_trace]. destruct (integer_first n z Hn) as (d & n' & En & _ & Hd).
  rewrite (span_app is_space w (n ++ c :: r)).
  2:{ intros x I. specialize (Hw x I). apply space_white. unfold white. cbn in *. tauto. }
  2:{ rewrite En. exact Hd. }
  assert (NE : n ++ c :: r = d :: n' ++ c :: r) by (rewrite En; reflexivity).
  rewrite NE. rewrite <- NE. rewrite (num_int_complete n z (c :: r) Hn Hc). rewrite Hv. reflexivity.
Qed.
Lemma read_int_plain w n z c r past tr old : plain w -> int_text n z -> is_digit c = false ->
  read_int (stream past (w ++ n ++ c :: r) tr) old = (z, stream (rev n ++ rev w ++ past) (c :: r) tr).
Proof.
  intros Hw [Hn Hi] Hc. unfold read_int.
  assert (E : (if z <? int_min then (int_min, true) else if int_max <? z then (int_max, true) else (z, false)) = (z, false)).
  { unfold in_int, int_min, int_max in *. destruct (Z.ltb_spec z (-2147483648)); [lia|]. destruct (Z.ltb_spec 2147483647 z); [lia|]. reflexivity. }
  rewrite (extract_int_plain _ _ w n z) by (auto; rewrite E; reflexivity). rewrite E. reflexivity.
Qed.
Lemma read_bool_plain w n z c r past tr old : plain w -> integer n z -> (z = 0 \/ z = 1) -> is_digit c = false ->
  read_bool (stream past (w ++ n ++ c :: r) tr) old = (z =? 1, stream (rev n ++ rev w ++ past) (c :: r) tr).
Proof.
  intros Hw Hn Hz Hc. unfold read_bool. rewrite (extract_int_plain _ _ w n z) by (auto; destruct Hz; subst; reflexivity).
  destruct Hz; subst; reflexivity.
Qed.

(** ** Keywords: letters and the underscore *)
Definition kchar (c : ascii) : Prop := let n := nat_of_ascii c in (65 <= n <= 90 \/ 97 <= n <= 122 \/ n = 95)%nat.
Lemma kchars_of k : forallb (fun c => let n := nat_of_ascii c in ((65 <=? n) && (n <=? 90) || (n =? 95))%nat)%bool (lit k) = true -> Forall kchar (lit k).
Proof.
  intros H. apply Forall_forall. intros c I. rewrite forallb_forall in H. specialize (H c I). cbv beta zeta in H. apply orb_prop in H.
  destruct H as [H|H]; [|apply Nat.eqb_eq in H; unfold kchar; cbv zeta; lia]. apply andb_prop in H.
  destruct H as [A B]. apply Nat.leb_le in A. apply Nat.leb_le in B. left. lia.
Qed.
Lemma kchars_ok w k : map Upper w = lit k -> Forall kchar (lit k) -> Forall (fun x => tok x /\ strchr (lit "[") (Some x) = false) w.
Proof.
  intros H L. rewrite <- H in L. clear H. induction w as [|c w IH]; [constructor|]. inversion L as [|x y Lc Lw]; subst. constructor; [|auto].
  clear IH Lw L. assert (Q : tokb c = true /\ strchr (lit "[") (Some c) = false).
  { destruct c as [b0 b1 b2 b3 b4 b5 b6 b7].
    destruct b0, b1, b2, b3, b4, b5, b6, b7; try (exfalso; vm_compute in Lc; lia); split; reflexivity. }
  destruct Q as (A & B). split; [apply tokb_tok; exact A|exact B].
Qed.
Lemma opening_strip k t : Forall kchar (lit k) -> lit k <> [] -> opening plain k t ->
  exists b c u, t = b ++ c :: u /\ plain b /\ tok c /\ opening plain k (c :: u).
Proof.
  intros L NE (u & b1 & -> & (b & w & a & -> & B & M & A) & B1). destruct w as [|c w]; [exfalso; apply NE; rewrite <- M; reflexivity|].
  exists b, c, ((w ++ a) ++ ["["] ++ b1). split; [cbn [app]; rewrite <- ?app_assoc; cbn [app]; rewrite <- ?app_assoc; reflexivity|]. split; [exact B|].
  pose proof (kchars_ok _ k M L) as F. inversion F as [|x y [Tc _] _]; subst.
  split; [exact Tc|]. exists (c :: w ++ a), b1. split; [reflexivity|]. split; [|exact B1]. exists [], (c :: w), a. split; [reflexivity|]. split; [exact plain_nil|auto].
Qed.
Lemma opening_pre k b t : plain b -> opening plain k t -> opening plain k (b ++ t).
Proof.
  intros Hb (u & b1 & -> & (b' & w & a & -> & B & M & A) & B1). exists ((b ++ b') ++ w ++ a), b1. split; [rewrite <- !app_assoc; reflexivity|].
  split; [|exact B1]. exists (b ++ b'), w, a. split; [rewrite <- !app_assoc; reflexivity|]. split; [apply plain_app; auto|auto].
Qed.

(** a text that starts, after space, with a character that is not space *)
Definition starts (t : text) (c : ascii) (u : text) : Prop := exists b, t = b ++ c :: u /\ plain b /\ tok c.

Section Chain.
Variable rd : R -> R.
Variable jd : R.
Variable ji : Z.
Variable jb : bool.

Lemma m_opening W tr n k t c u r t' s : Forall kchar (lit k) -> lit k <> [] -> (length (lit k) < n)%nat -> opening plain k t ->
  starts t' c u -> at_pos W tr (t ++ t' ++ r) s -> exists s1, read_opening n s = MGot (lit k) s1 /\ at_pos W tr (c :: u ++ r) s1.
Proof.
  intros L NE Len (u' & b1 & -> & (b & w & a & -> & B & M & A) & B1) (b3 & -> & B3 & Tc) P. unfold read_opening.
  set (b2 := b1 ++ b3). assert (B2 : plain b2) by (apply plain_app; auto).
  replace (((b ++ w ++ a) ++ ["["] ++ b1) ++ (b3 ++ c :: u) ++ r) with (((b ++ w ++ a) ++ ["["]) ++ (b2 ++ c :: u) ++ r) in P by (unfold b2; rewrite <- !app_assoc; reflexivity).
  clearbody b2.
  assert (E : exists s1, EatWord s (lit "[") n = Got (lit k) s1 /\ at_pos W tr ("[" :: b2 ++ c :: u ++ r) s1).
  { flat P. destruct P as (pre & EW & ->). rewrite <- M. eexists. split.
    - apply EatWord_word; auto.
      + intros ->. apply NE. rewrite <- M. reflexivity.
      + rewrite <- M, map_length in Len. exact Len.
      + exact (kchars_ok w k M L).
      + apply tokb_tok. reflexivity.
    - exists (((pre ++ b) ++ w) ++ a). split; [rewrite EW, <- !app_assoc; reflexivity|]. f_equal.
      rewrite (rev_app_distr ((pre ++ b) ++ w)), (rev_app_distr (pre ++ b)), (rev_app_distr pre). reflexivity. }
  destruct E as (s1 & E1 & P1). rewrite E1. cbn [of_io mbind].
  destruct (pos_Eat W tr [] "[" b2 c (u ++ r) s1 plain_nil B2 (tokb_tok "[" eq_refl) Tc P1) as (s2 & E2 & P2). rewrite E2. cbn [of_io mbind]. eauto.
Qed.
Lemma m_closing W tr d1 d2 t r s : closing plain t -> at_pos W (d1 :: d2 :: tr) (t ++ r) s ->
  exists s1, read_closing s = MGot tt s1 /\ at_pos W tr r s1.
Proof.
  intros (b & -> & B) P. flat P. unfold read_closing.
  destruct (pos_EatEnd W _ b "]" r s B (tokb_tok "]" eq_refl) P) as (s1 & E1 & P1). rewrite E1. cbn [of_io mbind].
  destruct (at_pop _ _ _ _ _ P1) as (s2 & E2 & P2). rewrite E2. cbn [of_io mbind].
  destruct (at_pop _ _ _ _ _ P2) as (s3 & E3 & P3). rewrite E3. cbn [of_io mbind]. eauto.
Qed.
Lemma closing_starts t : closing plain t -> starts t "]" [].
Proof. intros (b & -> & B). exists b. split; [reflexivity|]. split; [exact B|apply tokb_tok; reflexivity]. Qed.

Ltac kw k := exact (kchars_of k eq_refl) || discriminate || (cbn; lia).
Ltac words := repeat match goal with |- context [text_eqb (lit ?a) ?b] => let e := eval vm_compute in (text_eqb (lit a) b) in change (text_eqb (lit a) b) with e; cbv iota end.

Lemma m_interp W tr t r s : interp plain t -> at_pos W tr (t ++ r) s -> exists s1, read_Interp s = MGot sa_make s1 /\ at_pos W tr r s1.
Proof.
  intros (t1 & t2 & -> & O & C) P. unfold read_Interp. apply (at_trace _ _ _ _ "RotationalInterpolation::Read"%string) in P.
  rewrite <- app_assoc in P.
  destruct (m_opening _ _ 64 "SINGLEAXIS" t1 "]" [] r t2 _ ltac:(kw "SINGLEAXIS"%string) ltac:(discriminate) ltac:(cbn; lia) O (closing_starts _ C) P) as (s1 & E1 & P1).
  rewrite E1. cbn [mbind]. words. apply (at_trace _ _ _ _ "SINGLEAXIS"%string) in P1.
  destruct (m_closing _ _ _ _ ["]"] r _ (ex_intro _ [] (conj eq_refl plain_nil)) P1) as (s2 & E2 & P2).
  rewrite E2. cbn [mbind]. eauto.
Qed.

(** what follows a number must not be read as part of it *)
Definition stops (t : text) : Prop := exists b c r, t = b ++ c :: r /\ plain b /\ no_number c.
Lemma m_num W tr t x r s old : num plain rd t x -> stops r -> at_pos W tr (t ++ r) s ->
  exists s1, read_double rd s old = (x, s1) /\ at_pos W tr r s1.
Proof.
  intros (b & n & v & -> & B & N & ->) (b' & c & r' & -> & B' & Nc) P. rewrite <- app_assoc in P.
  destruct (pos_num rd W tr b n v b' c r' s B N B' Nc P) as (s1 & E & P1). exists s1. auto.
Qed.
Lemma m_int W tr t z r s old : int plain t z -> stops r -> at_pos W tr (t ++ r) s ->
  exists s1, read_int s old = (z, s1) /\ at_pos W tr r s1.
Proof.
  intros (b & n & -> & B & N) (b' & c & r' & -> & B' & Nc) (pre & E & ->).
  assert (Q : exists c' r'', b' ++ c :: r' = c' :: r'' /\ is_digit c' = false).
  { destruct b' as [|e b']; [exists c, r'; split; [reflexivity|exact (proj1 Nc)]|]. exists e, (b' ++ c :: r'). split; [reflexivity|].
    exact (proj1 (blank_no_number e (B' e (or_introl eq_refl)))). }
  destruct Q as (c' & r'' & Q & Hc). rewrite Q in *. rewrite <- app_assoc in *. eexists. split.
  - rewrite (read_int_plain b n z c' r'' (rev pre) tr old B N Hc). reflexivity.
  - exists ((pre ++ b) ++ n). rewrite (rev_app_distr (pre ++ b)), (rev_app_distr pre), E, <- !app_assoc. auto.
Qed.
Lemma stops_closing t r : closing plain t -> stops (t ++ r).
Proof. intros (b & -> & B). exists b, "]", r. flat B. rewrite <- app_assoc. split; [reflexivity|]. split; [exact B|repeat split; discriminate]. Qed.
Lemma stops_some g r : some g -> stops (g ++ r).
Proof.
  intros [Hg Ne]. destruct g as [|c g]; [congruence|]. exists [], c, (g ++ r). split; [reflexivity|]. split; [exact plain_nil|].
  apply blank_no_number. apply Hg. left. reflexivity.
Qed.

Lemma num_starts t x : num plain rd t x -> exists c u, starts t c u /\ num plain rd (c :: u) x.
Proof.
  intros (b & n & v & -> & B & N & ->). destruct (numeral_first n v N) as (d & n' & -> & T). exists d, n'. split.
  - exists b. auto.
  - exists [], (d :: n'), v. split; [reflexivity|]. split; [exact plain_nil|auto].
Qed.
Lemma int_starts t z : int plain t z -> exists c u, starts t c u /\ int plain (c :: u) z.
Proof.
  intros (b & n & -> & B & N). destruct (integer_first n z (proj1 N)) as (d & n' & -> & T & _). exists d, n'. split.
  - exists b. auto.
  - exists [], (d :: n'). split; [reflexivity|]. split; [exact plain_nil|auto].
Qed.
Lemma frame_starts t F : closed_frame plain rd t F -> exists c u, starts t c u /\ closed_frame plain rd (c :: u) F.
Proof.
  intros [(b & tM & tp & b' & -> & Hb & HM & HV & Hb')|(t1 & t2 & a & al & d & th & -> & Hw & B & ->)].
  - exists "[", (tM ++ tp ++ b' ++ ["]"]). split; [exists b; split; [reflexivity|]; split; [exact Hb|apply tokb_tok; reflexivity]|].
    left. exists [], tM, tp, b'. split; [reflexivity|]. split; [exact plain_nil|]. auto.
  - destruct (word_strip "DH" t1 (letters_of "DH" eq_refl) ltac:(discriminate) Hw) as (b & c & u & -> & Hb & Tc & Hw').
    exists c, (u ++ t2). split; [exists b; split; [rewrite <- app_assoc; reflexivity|auto]|].
    right. exists (c :: u), t2, a, al, d, th. split; [reflexivity|]. auto.
Qed.
Lemma starts_app t c u r : starts t c u -> starts (t ++ r) c (u ++ r).
Proof. intros (b & -> & B & T). exists b. split; [rewrite <- app_assoc; reflexivity|auto]. Qed.

Notation ppath := (plain_path rd).
Ltac start_path O k := destruct (opening_strip k _ (kchars_of k eq_refl) ltac:(discriminate) O) as (b & c & u & -> & B & Tc & O').
Lemma path_starts t d : ppath t d -> exists c u, starts t c u /\ ppath (c :: u) d.
Proof.
  intros H. destruct H as [t1 t2 t3 F O|t1 t2 t3 t4 t5 t6 F G r O|t1 t2 t3 t4 t5 t6 g t7 t8 t9 F c0 q R a r O|t1 t2 g2 t3 g3 t4 t5 g5 t6 t7 radius r z Fs O|t1 t2 g t3 t4 z ds O|t1 t2 t3 t4 d z O].
  - start_path O "POINT"%string. exists c, (u ++ t2 ++ t3). split; [exists b; split; [rewrite <- app_assoc; reflexivity|auto]|]. change (c :: u ++ t2 ++ t3) with ((c :: u) ++ t2 ++ t3). constructor; auto.
  - start_path O "LINE"%string. exists c, (u ++ t2 ++ t3 ++ t4 ++ t5 ++ t6). split; [exists b; split; [rewrite <- app_assoc; reflexivity|auto]|].
    change (c :: u ++ t2 ++ t3 ++ t4 ++ t5 ++ t6) with ((c :: u) ++ t2 ++ t3 ++ t4 ++ t5 ++ t6). constructor; auto.
  - start_path O "CIRCLE"%string. exists c, (u ++ t2 ++ t3 ++ t4 ++ t5 ++ t6 ++ g ++ t7 ++ t8 ++ t9). split; [exists b; split; [rewrite <- app_assoc; reflexivity|auto]|].
    change (c :: u ++ t2 ++ t3 ++ t4 ++ t5 ++ t6 ++ g ++ t7 ++ t8 ++ t9) with ((c :: u) ++ t2 ++ t3 ++ t4 ++ t5 ++ t6 ++ g ++ t7 ++ t8 ++ t9). constructor; auto.
  - start_path O "ROUNDEDCOMPOSITE"%string. exists c, (u ++ t2 ++ g2 ++ t3 ++ g3 ++ t4 ++ t5 ++ g5 ++ t6 ++ t7). split; [exists b; split; [rewrite <- app_assoc; reflexivity|auto]|].
    change (c :: u ++ t2 ++ g2 ++ t3 ++ g3 ++ t4 ++ t5 ++ g5 ++ t6 ++ t7) with ((c :: u) ++ t2 ++ g2 ++ t3 ++ g3 ++ t4 ++ t5 ++ g5 ++ t6 ++ t7). econstructor; eauto.
  - start_path O "COMPOSITE"%string. exists c, (u ++ t2 ++ g ++ t3 ++ t4). split; [exists b; split; [rewrite <- app_assoc; reflexivity|auto]|].
    change (c :: u ++ t2 ++ g ++ t3 ++ t4) with ((c :: u) ++ t2 ++ g ++ t3 ++ t4). econstructor; eauto.
  - start_path O "CYCLIC_CLOSED"%string. exists c, (u ++ t2 ++ t3 ++ t4). split; [exists b; split; [rewrite <- app_assoc; reflexivity|auto]|].
    change (c :: u ++ t2 ++ t3 ++ t4) with ((c :: u) ++ t2 ++ t3 ++ t4). constructor; auto.
Qed.
Lemma path_pre b t d : plain b -> ppath t d -> ppath (b ++ t) d.
Proof.
  intros Hb H. destruct H; rewrite app_assoc; econstructor; eauto using opening_pre.
Qed.

(** what a call of a reader gives, from the result of the constructors *)
Definition gives {A : Type} (m : mio A) (v : result A) (W : text) (tr : list string) (r : text) : Prop :=
  match v with
  | Val x => exists s', m = MGot x s' /\ at_pos W tr r s'
  | Throw e => exists s', m = MThrew (MPlan e) s'
  | Undefd => m = MUb
  end.

Lemma points_at t Fs : frames (closed_frame plain rd) t Fs -> forall P W tr r s, at_pos W tr (t ++ r) s ->
  gives (read_points rd (length Fs) P s) (add_points P Fs) W tr r.
Proof.
  induction 1 as [|t F u Fs HF _ IH]; intros P W tr r s A; cbn [length read_points add_points].
  - exists s. auto.
  - rewrite <- app_assoc in A. destruct (read_Frame_at rd t F HF _ _ _ _ f_id A) as (s1 & E1 & P1). rewrite E1. cbn [of_oio mbind].
    destruct (rounded_Add P F) as [P' [x|e|]]; cbn [of_result mbind]; [apply IH; exact P1|eexists; reflexivity|reflexivity].
Qed.

Definition build_all := fix all (ds : list desc) (acc : Path) : result Path :=
         match ds with
         | [] => Val acc
         | d :: r => match build d with Val P => all r (comp_Add acc P) | Throw e => Throw e | Undefd => Undefd end
         end.
Definition read_parts (k : nat) := fix loop (n : nat) (tr : Path) (s : istr) : mio Path :=
                match n with
                | O => MGot tr s
                | S n => mbind (read_path rd jd ji k s) (fun geom s => loop n (comp_Add tr geom) s)
                end.

Ltac split_len := repeat (rewrite ?app_length in *; cbn [length] in *).
Lemma opening_len k t : opening plain k t -> (1 <= length t)%nat.
Proof. intros (u & b & -> & _). rewrite !app_length. cbn. lia. Qed.

Ltac after_frame H P s1 E1 P1 := destruct (read_Frame_at rd _ _ H _ _ _ _ f_id P) as (s1 & E1 & P1); rewrite E1; cbn [of_oio mbind].
Ltac close C P := let s1 := fresh "s" in let E1 := fresh "E" in let P1 := fresh "P" in
  destruct (m_closing _ _ _ _ _ _ _ C P) as (s1 & E1 & P1); rewrite E1; cbn [mbind].

Lemma parts_at k : (forall t d, ppath t d -> (length t < k)%nat -> forall W tr r s, at_pos W tr (t ++ r) s -> gives (read_path rd jd ji k s) (build d) W tr r) ->
  forall t ds, paths plain some rd (vector_list plain rd) (closed_rotation plain rd) (closed_frame plain rd) t ds -> (length t < k)%nat ->
  forall P W tr r s, at_pos W tr (t ++ r) s -> gives (read_parts k (length ds) P s) (build_all ds P) W tr r.
Proof.
  intros IH t ds H. induction H as [|t d u ds HP HPs IH2]; intros Hk P W tr r s A.
  - exists s. auto.
  - cbn [length read_parts build_all]. rewrite <- app_assoc in A. split_len.
    pose proof (IH t d HP ltac:(lia) W tr (u ++ r) s A) as Q. destruct (build d) as [T|e|]; cbn [gives] in Q.
    + destruct Q as (s1 & E1 & P1). rewrite E1. cbn [mbind]. apply IH2; [lia|exact P1].
    + destruct Q as (s1 & E1). rewrite E1. cbn [mbind gives]. eauto.
    + rewrite Q. reflexivity.
Qed.

Lemma path_at fuel : forall t d, ppath t d -> (length t < fuel)%nat -> forall W tr r s, at_pos W tr (t ++ r) s ->
  gives (read_path rd jd ji fuel s) (build d) W tr r.
Proof.
  induction fuel as [|k IHk]; intros t d H Hf W tr r' s P; [lia|].
  destruct H as [t1 t2 t3 F O HF C|t1 t2 t3 t4 t5 t6 F G r O HF HG HI HN C|t1 t2 t3 t4 t5 t6 g t7 t8 t9 F c0 q R a r O HF HC HQ HR HA HG HI HN C
    |t1 t2 g2 t3 g3 t4 t5 g5 t6 t7 radius r z Fs O HN1 G2 HN2 G3 HI HZ G5 HF Len C|t1 t2 g t3 t4 z ds O HZ HG HP Len C|t1 t2 t3 t4 d z O HP HZ C].
  - cbn [read_path].
    apply (at_trace _ _ _ _ "Path::Read"%string) in P. destruct (frame_starts _ _ HF) as (c & u & S1 & HF'). rewrite <- !app_assoc in P.
    destruct (m_opening _ _ 64 "POINT" t1 c u _ t2 _ ltac:(kw "POINT"%string) ltac:(discriminate) ltac:(cbn; lia) O S1 P) as (s1 & E1 & P1).
    rewrite E1. cbn [mbind]. words. apply (at_trace _ _ _ _ "POINT"%string) in P1.
    after_frame HF' P1 s2 E2 P2. close C P2. cbn [build gives]. eauto.
  - cbn [read_path].
    apply (at_trace _ _ _ _ "Path::Read"%string) in P. destruct (frame_starts _ _ HF) as (c & u & S1 & HF'). rewrite <- !app_assoc in P.
    destruct (m_opening _ _ 64 "LINE" t1 c u _ t2 _ ltac:(kw "LINE"%string) ltac:(discriminate) ltac:(cbn; lia) O S1 P) as (s1 & E1 & P1).
    rewrite E1. cbn [mbind]. words. apply (at_trace _ _ _ _ "LINE"%string) in P1.
    after_frame HF' P1 s2 E2 P2. after_frame HG P2 s3 E3 P3.
    destruct (m_interp _ _ _ _ _ HI P3) as (s4 & E4 & P4). rewrite E4. cbn [mbind].
    destruct (m_num _ _ _ _ _ _ jd HN (stops_closing _ _ C) P4) as (s5 & E5 & P5). rewrite E5.
    close C P5. cbn [build gives]. eauto.
  - cbn [read_path].
    apply (at_trace _ _ _ _ "Path::Read"%string) in P. destruct (frame_starts _ _ HF) as (c & u & S1 & HF'). rewrite <- !app_assoc in P.
    destruct (m_opening _ _ 64 "CIRCLE" t1 c u _ t2 _ ltac:(kw "CIRCLE"%string) ltac:(discriminate) ltac:(cbn; lia) O S1 P) as (s1 & E1 & P1).
    rewrite E1. cbn [mbind]. words. apply (at_trace _ _ _ _ "CIRCLE"%string) in P1.
    after_frame HF' P1 s2 E2 P2.
    destruct (read_Vector_at rd _ _ HC _ _ _ _ v_zero P2) as (s3 & E3 & P3). rewrite E3. cbn [of_oio mbind].
    destruct (read_Vector_at rd _ _ HQ _ _ _ _ v_zero P3) as (s4 & E4 & P4). rewrite E4. cbn [of_oio mbind].
    destruct (read_Rotation_at rd _ _ HR _ _ _ _ r_id P4) as (s5 & E5 & P5). rewrite E5. cbn [of_oio mbind].
    destruct (m_num _ _ _ _ _ _ jd HA (stops_some _ _ HG) P5) as (s6 & E6 & P6). rewrite E6.
    assert (HI' : interp plain (g ++ t7)).
    { destruct HI as (u1 & u2 & -> & O1 & C1). exists (g ++ u1), u2. split; [rewrite <- app_assoc; reflexivity|]. split; [apply opening_pre; [apply HG|exact O1]|exact C1]. }
    rewrite app_assoc in P6. destruct (m_interp _ _ _ _ _ HI' P6) as (s7 & E7 & P7). rewrite E7. cbn [mbind].
    destruct (m_num _ _ _ _ _ _ jd HN (stops_closing _ _ C) P7) as (s8 & E8 & P8). rewrite E8.
    close C P8. cbn [build]. unfold degrees. change (PI / 180)%R with deg2rad.
    destruct (circle_make F c0 q R (a * deg2rad) sa_make r) as [x|e|]; cbn [of_result mbind gives]; eauto.
  - cbn [read_path].
    apply (at_trace _ _ _ _ "Path::Read"%string) in P. destruct (num_starts _ _ HN1) as (c & u & S1 & HN1'). rewrite <- !app_assoc in P.
    destruct (m_opening _ _ 64 "ROUNDEDCOMPOSITE" t1 c u _ t2 _ ltac:(kw "ROUNDEDCOMPOSITE"%string) ltac:(discriminate) ltac:(cbn; lia) O S1 P) as (s1 & E1 & P1).
    rewrite E1. cbn [mbind]. words. apply (at_trace _ _ _ _ "ROUNDEDCOMPOSITE"%string) in P1.
    destruct (m_num _ _ _ _ _ _ jd HN1' (stops_some _ _ G2) P1) as (s2 & E2 & P2). rewrite E2.
    assert (HN2' : num plain rd (g2 ++ t3) r).
    { destruct HN2 as (b & n & v & -> & Hb & N & Q). exists (g2 ++ b), n, v. split; [rewrite <- app_assoc; reflexivity|]. split; [apply plain_app; split; [apply G2|exact Hb]|auto]. }
    rewrite app_assoc in P2. destruct (m_num _ _ _ _ _ _ jd HN2' (stops_some _ _ G3) P2) as (s3 & E3 & P3). rewrite E3.
    assert (HI' : interp plain (g3 ++ t4)).
    { destruct HI as (u1 & u2 & -> & O1 & C1). exists (g3 ++ u1), u2. split; [rewrite <- app_assoc; reflexivity|]. split; [apply opening_pre; [apply G3|exact O1]|exact C1]. }
    rewrite app_assoc in P3. destruct (m_interp _ _ _ _ _ HI' P3) as (s4 & E4 & P4). rewrite E4. cbn [mbind build].
    destruct (rounded_make radius r) as [T|e|]; cbn [of_result mbind gives]; [|eexists; reflexivity|reflexivity].
    destruct (m_int _ _ _ _ _ _ ji HZ (stops_some _ _ G5) P4) as (s5 & E5 & P5). rewrite E5. rewrite <- Len.
    assert (HF' : exists t6' r6, g5 ++ t6 ++ t7 ++ r' = t6' ++ r6 ++ r' /\ frames (closed_frame plain rd) t6' Fs /\ closing plain r6).
    { inversion HF as [|t F u' Fs' HF1 HF2]; subst.
      - exists [], (g5 ++ t7). split; [rewrite <- app_assoc; reflexivity|]. split; [constructor|]. destruct C as (b & -> & Hb). exists (g5 ++ b). split; [rewrite <- app_assoc; reflexivity|apply plain_app; split; [apply G5|exact Hb]].
      - exists ((g5 ++ t) ++ u'), t7. split; [rewrite <- !app_assoc; reflexivity|]. split; [|exact C]. constructor; [|exact HF2].
        destruct HF1 as [(b & tM & tp & b' & -> & Hb & HM & HV & Hb')|(y1 & y2 & a & al & d & th & -> & Hw & B & ->)].
        + left. exists (g5 ++ b), tM, tp, b'. split; [rewrite <- !app_assoc; reflexivity|]. split; [apply plain_app; split; [apply G5|exact Hb]|auto].
        + right. exists (g5 ++ y1), y2, a, al, d, th. split; [rewrite <- !app_assoc; reflexivity|]. split; [|auto].
          destruct Hw as (b & w & a' & -> & Hb & M & A). exists (g5 ++ b), w, a'. split; [rewrite <- !app_assoc; reflexivity|]. split; [apply plain_app; split; [apply G5|exact Hb]|auto]. }
    destruct HF' as (t6' & r6 & Eq & HF' & C'). rewrite Eq in P5.
    pose proof (points_at _ _ HF' T _ _ _ _ P5) as Q. destruct (add_points T Fs) as [T'|e|]; cbn [gives] in Q.
    + destruct Q as (s6 & E6 & P6). rewrite E6. cbn [mbind]. close C' P6. cbn [gives]. eauto.
    + destruct Q as (s6 & E6). rewrite E6. cbn [mbind gives]. eauto.
    + rewrite Q. reflexivity.
  - cbn [read_path]. pose proof (opening_len _ _ O) as LO.
    apply (at_trace _ _ _ _ "Path::Read"%string) in P. destruct (int_starts _ _ HZ) as (c & u & S1 & HZ'). rewrite <- !app_assoc in P.
    destruct (m_opening _ _ 64 "COMPOSITE" t1 c u _ t2 _ ltac:(kw "COMPOSITE"%string) ltac:(discriminate) ltac:(cbn; lia) O S1 P) as (s1 & E1 & P1).
    rewrite E1. cbn [mbind]. words. apply (at_trace _ _ _ _ "COMPOSITE"%string) in P1.
    destruct (m_int _ _ _ _ _ _ ji HZ' (stops_some _ _ HG) P1) as (s2 & E2 & P2). rewrite E2. rewrite <- Len.
    fold (read_parts k). change (build (DComposite ds)) with (build_all ds comp_make).
    assert (HP' : exists t3' t4', g ++ t3 ++ t4 ++ r' = t3' ++ t4' ++ r' /\ (length t3' <= length g + length t3)%nat /\
      paths plain some rd (vector_list plain rd) (closed_rotation plain rd) (closed_frame plain rd) t3' ds /\ closing plain t4').
    { inversion HP as [|t d u' ds' HP1 HP2]; subst.
      - exists [], (g ++ t4). split; [rewrite <- app_assoc; reflexivity|]. split; [cbn; lia|]. split; [constructor|]. destruct C as (b & -> & Hb).
        exists (g ++ b). split; [rewrite <- app_assoc; reflexivity|apply plain_app; split; [apply HG|exact Hb]].
      - exists ((g ++ t) ++ u'), t4. split; [rewrite <- !app_assoc; reflexivity|]. split; [split_len; lia|]. split; [|exact C]. constructor; [|exact HP2].
        apply path_pre; [apply HG|exact HP1]. }
    destruct HP' as (t3' & t4' & Eq & Hl & HP' & C'). rewrite Eq in P2.
    assert (Q : gives (read_parts k (length ds) comp_make s2) (build_all ds comp_make) W ("COMPOSITE"%string :: "Path::Read"%string :: tr) (t4' ++ r')).
    { apply (parts_at k IHk t3' ds HP'); [split_len; lia|exact P2]. }
    destruct (build_all ds comp_make) as [T'|e|]; cbn [gives] in Q.
    + destruct Q as (s6 & E6 & P6). rewrite E6. cbn [mbind]. close C' P6. cbn [gives]. eauto.
    + destruct Q as (s6 & E6). rewrite E6. cbn [mbind gives]. eauto.
    + rewrite Q. reflexivity.
  - cbn [read_path]. pose proof (opening_len _ _ O) as LO.
    apply (at_trace _ _ _ _ "Path::Read"%string) in P. destruct (path_starts _ _ HP) as (c & u & S1 & HP'). rewrite <- !app_assoc in P.
    destruct (m_opening _ _ 64 "CYCLIC_CLOSED" t1 c u _ t2 _ ltac:(kw "CYCLIC_CLOSED"%string) ltac:(discriminate) ltac:(cbn; lia) O S1 P) as (s1 & E1 & P1).
    rewrite E1. cbn [mbind]. words. apply (at_trace _ _ _ _ "CYCLIC_CLOSED"%string) in P1.
    assert (Q : gives (read_path rd jd ji k (IOTrace "CYCLIC_CLOSED" s1)) (build d) W ("CYCLIC_CLOSED"%string :: "Path::Read"%string :: tr) (t3 ++ t4 ++ r')).
    { apply (IHk _ _ HP'); [destruct S1 as (b & -> & _); split_len; lia|exact P1]. }
    cbn [build]. destruct (build d) as [T'|e|]; cbn [gives] in Q.
    + destruct Q as (s6 & E6 & P6). rewrite E6. cbn [mbind].
      destruct (m_int _ _ _ _ _ _ ji HZ (stops_closing _ _ C) P6) as (s7 & E7 & P7). rewrite E7. close C P7. cbn [gives]. eauto.
    + destruct Q as (s6 & E6). rewrite E6. cbn [mbind gives]. eauto.
    + rewrite Q. reflexivity.
Qed.

(** ** Profiles *)
Definition gives_before {A : Type} (m : istr -> mio A) (t : text) (x : A) : Prop :=
  forall W tr c r s, tok c -> at_pos W tr (t ++ c :: r) s -> exists s', m s = MGot x s' /\ at_pos W tr (c :: r) s'.
Lemma m_Eat W tr b d b2 c r s : plain b -> plain b2 -> tok d -> tok c -> at_pos W tr (b ++ d :: b2 ++ c :: r) s ->
  exists s1, of_io (Eat s d) = MGot tt s1 /\ at_pos W tr (c :: r) s1.
Proof. intros B B2 Td Tc P. destruct (pos_Eat W tr b d b2 c r s B B2 Td Tc P) as (s1 & E & P1). exists s1. rewrite E. auto. Qed.
Lemma m_pop W tr d r s : at_pos W (d :: tr) r s -> exists s1, of_io (IOTracePop s) = MGot tt s1 /\ at_pos W tr r s1.
Proof. intros P. destruct (at_pop _ _ _ _ _ P) as (s1 & E & P1). exists s1. rewrite E. auto. Qed.
Lemma stops_sep b d r : plain b -> no_number d -> stops (b ++ d :: r).
Proof. intros B N. exists b, d, r. auto. Qed.

Lemma prof_at t m : plain_prof rd t m -> gives_before (VelocityProfile_Read rd jd jb) t m.
Proof.
  intros H W tr c r s Tc P. unfold VelocityProfile_Read. apply (at_trace _ _ _ _ "VelocityProfile::Read"%string) in P.
  assert (TB : tok "]") by (apply tokb_tok; reflexivity). assert (TC : tok ",") by (apply tokb_tok; reflexivity).
  assert (NB : no_number "]") by (repeat split; discriminate). assert (NC : no_number ",") by (repeat split; discriminate).
  destruct H as [t1 t2 b O C B|t1 t2 t3 b v O HN C B|t1 t2 b1 t3 t4 b v a O HN B1 HN2 C B|t1 t2 b1 t3 b2 b3 n z t4 b v a O HN B1 HN2 B2 B3 HZ Hz C B].
  - rewrite <- !app_assoc in P.
    destruct (m_opening _ _ 25 "DIRACVEL" t1 "]" [] _ t2 _ ltac:(kw "DIRACVEL"%string) ltac:(discriminate) ltac:(cbn; lia) O (closing_starts _ C) P) as (s1 & E1 & P1).
    rewrite E1. cbn [mbind]. words. cbn [app] in P1.
    destruct (m_Eat _ _ [] "]" b c r s1 plain_nil B TB Tc P1) as (s2 & E2 & P2). rewrite E2. cbn [mbind].
    destruct (m_pop _ _ _ _ _ P2) as (s3 & E3 & P3). rewrite E3. cbn [mbind]. eauto.
  - rewrite <- !app_assoc in P. destruct (num_starts _ _ HN) as (c1 & u & S1 & HN').
    destruct (m_opening _ _ 25 "CONSTVEL" t1 c1 u _ t2 _ ltac:(kw "CONSTVEL"%string) ltac:(discriminate) ltac:(cbn; lia) O S1 P) as (s1 & E1 & P1).
    rewrite E1. cbn [mbind]. words.
    destruct (m_num _ _ _ _ _ _ jd HN' (stops_closing _ _ C) P1) as (s2 & E2 & P2). rewrite E2.
    destruct C as (b' & -> & B'). flat P2. destruct (m_Eat _ _ b' "]" b c r s2 B' B TB Tc P2) as (s3 & E3 & P3). rewrite E3. cbn [mbind].
    destruct (m_pop _ _ _ _ _ P3) as (s4 & E4 & P4). rewrite E4. cbn [mbind]. eauto.
  - rewrite <- !app_assoc in P. destruct (num_starts _ _ HN) as (c1 & u & S1 & HN').
    destruct (m_opening _ _ 25 "TRAPEZOIDAL" t1 c1 u _ t2 _ ltac:(kw "TRAPEZOIDAL"%string) ltac:(discriminate) ltac:(cbn; lia) O S1 P) as (s1 & E1 & P1).
    rewrite E1. cbn [mbind]. words. flat P1.
    destruct (m_num _ _ (c1 :: u) _ _ _ jd HN' (stops_sep _ _ _ B1 NC) P1) as (s2 & E2 & P2). rewrite E2.
    destruct (num_starts _ _ HN2) as (c2 & u2 & (b2 & -> & B2 & T2) & HN2'). flat P2.
    destruct (m_Eat _ _ b1 "," b2 c2 _ s2 B1 B2 TC T2 P2) as (s3 & E3 & P3). rewrite E3. cbn [mbind].
    destruct C as (b' & -> & B'). flat P3.
    destruct (m_num _ _ (c2 :: u2) _ _ _ jd HN2' (stops_sep _ _ _ B' NB) P3) as (s4 & E4 & P4). rewrite E4.
    destruct (m_Eat _ _ b' "]" b c r s4 B' B TB Tc P4) as (s5 & E5 & P5). rewrite E5. cbn [mbind].
    destruct (m_pop _ _ _ _ _ P5) as (s6 & E6 & P6). rewrite E6. cbn [mbind]. eauto.
  - rewrite <- !app_assoc in P. destruct (num_starts _ _ HN) as (c1 & u & S1 & HN').
    destruct (m_opening _ _ 25 "TRAPEZOIDALHALF" t1 c1 u _ t2 _ ltac:(kw "TRAPEZOIDALHALF"%string) ltac:(discriminate) ltac:(cbn; lia) O S1 P) as (s1 & E1 & P1).
    rewrite E1. cbn [mbind]. words. flat P1.
    destruct (m_num _ _ (c1 :: u) _ _ _ jd HN' (stops_sep _ _ _ B1 NC) P1) as (s2 & E2 & P2). rewrite E2.
    destruct (num_starts _ _ HN2) as (c2 & u2 & (b4 & -> & B4 & T2) & HN2'). flat P2.
    destruct (m_Eat _ _ b1 "," b4 c2 _ s2 B1 B4 TC T2 P2) as (s3 & E3 & P3). rewrite E3. cbn [mbind].
    destruct (m_num _ _ (c2 :: u2) _ _ _ jd HN2' (stops_sep _ _ _ B2 NC) P3) as (s4 & E4 & P4). rewrite E4.
    destruct (integer_first n z HZ) as (c3 & u3 & En & T3 & _). rewrite En in P4. flat P4.
    destruct (m_Eat _ _ b2 "," b3 c3 _ s4 B2 B3 TC T3 P4) as (s5 & E5 & P5). rewrite E5. cbn [mbind].
    destruct C as (b' & -> & B'). flat P5.
    assert (Q : exists s6, read_bool s5 jb = (z =? 1, s6) /\ at_pos W ("VelocityProfile::Read"%string :: tr) (b' ++ "]" :: b ++ c :: r) s6).
    { destruct P5 as (pre & EW & ->). change (c3 :: u3 ++ b' ++ "]" :: b ++ c :: r) with ((c3 :: u3) ++ b' ++ "]" :: b ++ c :: r) in *. rewrite <- En in *.
      assert (X : exists c' r'', b' ++ "]" :: b ++ c :: r = c' :: r'' /\ is_digit c' = false).
      { destruct b' as [|e b']; [exists "]", (b ++ c :: r); split; reflexivity|]. exists e, (b' ++ "]" :: b ++ c :: r). split; [reflexivity|].
        exact (proj1 (blank_no_number e (B' e (or_introl eq_refl)))). }
      destruct X as (c' & r'' & X & Hc). rewrite X in *. eexists. split.
      - rewrite (read_bool_plain [] n z c' r'' (rev pre) _ jb plain_nil HZ Hz Hc). reflexivity.
      - exists (pre ++ n). rewrite (rev_app_distr pre), EW, <- !app_assoc. auto. }
    destruct Q as (s6 & E6 & P6). rewrite E6.
    destruct (m_Eat _ _ b' "]" b c r s6 B' B TB Tc P6) as (s7 & E7 & P7). rewrite E7. cbn [mbind].
    destruct (m_pop _ _ _ _ _ P7) as (s8 & E8 & P8). rewrite E8. cbn [mbind]. eauto.
Qed.

Lemma path_read_at t d : ppath t d -> forall W tr r s, at_pos W tr (t ++ r) s -> gives (Path_Read rd jd ji s) (build d) W tr r.
Proof.
  intros H W tr r s P. unfold Path_Read. apply (path_at _ t d H); [|exact P]. destruct P as (pre & _ & ->). cbn [stream is_rest]. rewrite app_length. lia.
Qed.
Lemma traj_at t d m : plain_traj rd t d m -> forall W tr r s, at_pos W tr (t ++ r) s ->
  gives (Trajectory_Read rd jd ji jb s) (match build d with Val P => Val (TSegment P m) | Throw e => Throw e | Undefd => Undefd end) W tr r.
Proof.
  intros [t1 t2 t3 t4 d' m' O HP HM C] W tr r s P. unfold Trajectory_Read. apply (at_trace _ _ _ _ "Trajectory::Read"%string) in P.
  destruct (path_starts _ _ HP) as (c & u & S1 & HP'). rewrite <- !app_assoc in P.
  destruct (m_opening _ _ 64 "SEGMENT" t1 c u _ t2 _ ltac:(kw "SEGMENT"%string) ltac:(discriminate) ltac:(cbn; lia) O S1 P) as (s1 & E1 & P1).
  rewrite E1. cbn [mbind]. words. apply (at_trace _ _ _ _ "SEGMENT"%string) in P1.
  pose proof (path_read_at _ _ HP' _ _ _ _ P1) as Q. destruct (build d') as [T'|e|]; cbn [gives] in Q.
  - destruct Q as (s2 & E2 & P2). rewrite E2. cbn [mbind].
    assert (X : exists t3' t4', t3 ++ t4 = t3' ++ "]" :: t4' /\ plain_prof rd t3' m' /\ t4' = []).
    { destruct C as (b & -> & B). exists (t3 ++ b), []. split; [rewrite <- app_assoc; reflexivity|]. split; [|reflexivity].
      destruct HM; rewrite <- ?app_assoc; [apply pr_dirac|apply pr_rect|apply pr_trap|apply pr_half]; auto; apply plain_app; auto. }
    destruct X as (t3' & t4' & X & HM' & ->). rewrite app_assoc, X, <- app_assoc in P2. cbn [app] in P2.
    destruct (prof_at _ _ HM' _ _ "]" r s2 (tokb_tok "]" eq_refl) P2) as (s3 & E3 & P3). rewrite E3. cbn [mbind].
    destruct (m_closing _ _ _ _ ["]"] r s3 (ex_intro _ [] (conj eq_refl plain_nil)) P3) as (s4 & E4 & P4). rewrite E4. cbn [mbind gives]. eauto.
  - destruct Q as (s2 & E2). rewrite E2. cbn [mbind gives]. eauto.
  - rewrite Q. reflexivity.
Qed.
End Chain.
