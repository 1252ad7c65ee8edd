(** Numbers as text: what is printed is a numeral for the rounded value; numerals are read correctly. *)
From Coq Require Import Reals ZArith Ascii String List Bool Lia Lra.
From Flocq Require Import Core.
From Verif Require Import FramesModel PathModel IoModel IoSpec.
Import ListNotations.
Local Open Scope char_scope.
Local Open Scope list_scope.
Local Open Scope Z_scope.

(** *** characters *)
Lemma digit_in c : is_digit c = true <-> In c ["0"; "1"; "2"; "3"; "4"; "5"; "6"; "7"; "8"; "9"].
Proof.
  split.
  - destruct c as [[] [] [] [] [] [] [] []]; cbv; intros H; try discriminate H; tauto.
  - intros H. cbn in H. decompose [or] H; subst; try reflexivity. contradiction.
Qed.
Lemma space_white c : is_space c = true <-> white c.
Proof.
  split.
  - destruct c as [[] [] [] [] [] [] [] []]; cbv; intros H; try discriminate H; tauto.
  - intros H. cbn in H. decompose [or] H; subst; try reflexivity. contradiction.
Qed.
Lemma digit_char_in d : 0 <= d < 10 -> In (digit_char d) ["0"; "1"; "2"; "3"; "4"; "5"; "6"; "7"; "8"; "9"] /\ digit (digit_char d) = d.
Proof.
  intros H. assert (E : d = 0 \/ d = 1 \/ d = 2 \/ d = 3 \/ d = 4 \/ d = 5 \/ d = 6 \/ d = 7 \/ d = 8 \/ d = 9) by lia.
  decompose [or] E; subst; cbv; split; try reflexivity; tauto.
Qed.

Lemma digits_text_nil : digits_text []. Proof. intros c []. Qed.
Lemma digits_text_app a b : digits_text (a ++ b) <-> digits_text a /\ digits_text b.
Proof.
  unfold digits_text. split.
  - intros H. split; intros c I; apply H; apply in_or_app; auto.
  - intros [A B] c I. apply in_app_or in I. destruct I; auto.
Qed.
Lemma digits_text_cons c t : digits_text (c :: t) <-> is_digit c = true /\ digits_text t.
Proof.
  unfold digits_text. split.
  - intros H. split; [apply digit_in; apply H; left; reflexivity|]. intros d I. apply H. right. exact I.
  - intros [A B] d [I|I]; [subst; apply digit_in; exact A|auto].
Qed.
Lemma digits_text_zeros k : digits_text (repeat "0" k).
Proof. intros c I. apply repeat_spec in I. subst. cbn. tauto. Qed.

(** *** values of digit sequences *)
Definition horner (t : text) (a : Z) : Z := fold_left (fun a c => 10 * a + (Z.of_nat (nat_of_ascii c) - 48)) t a.
Lemma horner_acc t : forall a, horner t a = a * 10 ^ Z.of_nat (length t) + horner t 0.
Proof.
  induction t as [|c t IH]; intros a; [cbn; lia|].
  change (horner (c :: t) a) with (horner t (10 * a + (Z.of_nat (nat_of_ascii c) - 48))).
  change (horner (c :: t) 0) with (horner t (10 * 0 + (Z.of_nat (nat_of_ascii c) - 48))).
  rewrite (IH (10 * a + _)), (IH (10 * 0 + _)).
  change (length (c :: t)) with (S (length t)). rewrite Nat2Z.inj_succ, Z.pow_succ_r by lia. ring.
Qed.
Lemma number_app a b : number (a ++ b) = number a * 10 ^ Z.of_nat (length b) + number b.
Proof. unfold number. rewrite fold_left_app. apply (horner_acc b). Qed.
Lemma number_dval t : dval t = number t. Proof. reflexivity. Qed.
Lemma number_zeros k : number (repeat "0" k) = 0.
Proof. induction k as [|k IH]; [reflexivity|]. change (repeat "0" (S k)) with (["0"] ++ repeat "0" k). rewrite number_app, IH. reflexivity. Qed.
Lemma number_nonneg t : digits_text t -> 0 <= number t.
Proof.
  induction t as [|c t IH] using rev_ind; [intros _; cbn; lia|]. intros H. apply digits_text_app in H. destruct H as [H1 H2].
  rewrite number_app. specialize (IH H1). apply digits_text_cons in H2. destruct H2 as [H2 _]. apply digit_in in H2.
  assert (0 <= number [c]) by (cbn in H2; decompose [or] H2; subst; cbn; try lia; contradiction). cbn [length]. lia.
Qed.

Lemma digits_len n : forall z, length (digits n z) = n.
Proof. induction n as [|n IH]; intros z; [reflexivity|]. cbn [digits]. rewrite app_length, IH. cbn. lia. Qed.
Lemma digits_ok n : forall z, digits_text (digits n z).
Proof.
  induction n as [|n IH]; intros z; [apply digits_text_nil|]. cbn [digits]. apply digits_text_app. split; [apply IH|].
  intros c [E|[]]. subst. apply digit_char_in. apply Z.mod_pos_bound. lia.
Qed.
Lemma digits_number n : forall z, 0 <= z < 10 ^ Z.of_nat n -> number (digits n z) = z.
Proof.
  induction n as [|n IH]; intros z H; [cbn in *; lia|]. rewrite Nat2Z.inj_succ, Z.pow_succ_r in H by lia.
  cbn [digits]. rewrite number_app, IH.
  - change (number [digit_char (z mod 10)]) with (digit (digit_char (z mod 10))).
    rewrite (proj2 (digit_char_in (z mod 10) (Z.mod_pos_bound z 10 ltac:(lia)))). cbn [length].
    rewrite (Z.div_mod z 10) at 3 by lia. change (10 ^ Z.of_nat 1) with 10. ring.
  - split; [apply Z.div_pos; lia|]. apply Z.div_lt_upper_bound; lia.
Qed.

Lemma strip_leading_spec t : digits_text t ->
  digits_text (strip_leading t) /\ number (strip_leading t) = number t /\ (t <> [] -> strip_leading t <> []).
Proof.
  induction t as [|c t IH]; intros H; [repeat split; auto|].
  cbn [strip_leading]. destruct t as [|d t]; [repeat split; auto; discriminate|].
  destruct (Ascii.eqb_spec c "0") as [E|E]; [|repeat split; auto; discriminate].
  apply digits_text_cons in H. destruct (IH (proj2 H)) as (A & B & C). repeat split; auto; [|intros _; apply C; discriminate].
  rewrite B. subst c. change ("0" :: d :: t) with (["0"] ++ d :: t). rewrite (number_app ["0"]). cbn [number]. cbn. lia.
Qed.
Lemma fmt_nat_spec z : 0 <= z -> digits_text (fmt_nat z) /\ number (fmt_nat z) = z /\ fmt_nat z <> [].
Proof.
  intros H. unfold fmt_nat. set (n := S (Z.to_nat (Z.log2 z))).
  destruct (strip_leading_spec (digits n z) (digits_ok n z)) as (A & B & C). split; [exact A|]. split.
  - rewrite B. apply digits_number. split; [exact H|]. unfold n. rewrite Nat2Z.inj_succ, Z2Nat.id by apply Z.log2_nonneg.
    destruct (Z.eq_dec z 0) as [E|E]; [subst; cbn; lia|].
    eapply Z.lt_le_trans; [exact (proj2 (Z.log2_spec z ltac:(lia)))|]. apply Z.pow_le_mono_l. lia.
  - apply C. intros E. assert (L := digits_len n z). rewrite E in L. discriminate L.
Qed.

Lemma strip_trailing_spec t : exists k, t = strip_trailing t ++ repeat "0" k.
Proof.
  induction t as [|c t [k IH]]; [exists 0%nat; reflexivity|]. cbn [strip_trailing].
  destruct (strip_trailing t) as [|d r] eqn:E.
  - destruct (Ascii.eqb_spec c "0") as [E1|E1]; [exists (S k); subst c; cbn; f_equal; exact IH|exists k; cbn; f_equal; exact IH].
  - exists k. rewrite IH at 1. reflexivity.
Qed.

(** *** powers of ten *)
Lemma pow10_bpow e : powerRZ 10 e = bpow radix10 e.
Proof. symmetry. apply bpow_powerRZ. Qed.
Lemma F2R_pow m e : F2R (Float radix10 m e) = (IZR m * powerRZ 10 e)%R.
Proof. rewrite pow10_bpow. reflexivity. Qed.
Lemma pow10_Z n : 0 <= n -> IZR (10 ^ n) = bpow radix10 n.
Proof. intros H. symmetry. rewrite <- (IZR_Zpower radix10 n H). reflexivity. Qed.

(** numeral without sign and exponent; and with exponent *)
Lemma fraction_numeral ip fp k : digits_text ip -> ip <> [] -> digits_text fp ->
  exists dot f, with_fraction ip fp = ip ++ dot ++ f /\ digits_text f /\ (dot = ["."] \/ dot = [] /\ f = []) /\
    (IZR (number (ip ++ f)) * powerRZ 10 (k - Z.of_nat (length f)) = IZR (number (ip ++ fp)) * powerRZ 10 (k - Z.of_nat (length fp)))%R.
Proof.
  intros A N B. destruct (strip_trailing_spec fp) as [j E].
  assert (V : (IZR (number (ip ++ strip_trailing fp)) * powerRZ 10 (k - Z.of_nat (length (strip_trailing fp)))
          = IZR (number (ip ++ fp)) * powerRZ 10 (k - Z.of_nat (length fp)))%R).
  { rewrite E at 3 4. rewrite app_assoc, (number_app (ip ++ strip_trailing fp)), number_zeros, app_length, repeat_length, Z.add_0_r.
    rewrite mult_IZR, pow10_Z, !pow10_bpow by lia. rewrite Rmult_assoc, <- bpow_plus. do 2 f_equal. lia. }
  unfold with_fraction. destruct (strip_trailing fp) as [|c f] eqn:F.
  - exists [], []. repeat split; [rewrite !app_nil_r; reflexivity|apply digits_text_nil|right; split; reflexivity|exact V].
  - exists ["."], (c :: f). repeat split; [|left; reflexivity|exact V].
    rewrite E in B. apply digits_text_app in B. tauto.
Qed.

(** *** decimal rounding *)
Section Dec.
Variable p : Z.
Hypothesis p_pos : 1 <= p.
Instance p_prec : Prec_gt_0 p. Proof. unfold Prec_gt_0. lia. Qed.

Lemma dec_parts_spec x d X : x <> 0%R -> dec_parts p x = (d, X) ->
  10 ^ (p - 1) <= d < 10 ^ p /\ (IZR d * powerRZ 10 (X - p + 1))%R = round10 p (Rabs x).
Proof.
  intros Hx. unfold dec_parts. set (y := Rabs x).
  assert (My : (mag radix10 y : Z) = mag radix10 x) by (unfold y; rewrite mag_abs; reflexivity).
  rewrite <- My. set (e := mag radix10 y : Z). set (m := ZnearestE (scaled_mantissa radix10 (FLX_exp p) y)).
  assert (C : cexp radix10 (FLX_exp p) y = e - p) by reflexivity.
  assert (Hy : y <> 0%R) by (unfold y; apply Rabs_no_R0; exact Hx).
  assert (Py : (0 <= y)%R) by (unfold y; apply Rabs_pos).
  assert (He0 : (bpow radix10 (e - 1) <= y < bpow radix10 e)%R).
  { rewrite <- (Rabs_pos_eq y Py) at 1 2. split; [apply bpow_mag_le; exact Hy|apply bpow_mag_gt]. }
  assert (S : scaled_mantissa radix10 (FLX_exp p) y = (y * bpow radix10 (p - e))%R).
  { unfold scaled_mantissa. rewrite C. do 2 f_equal. lia. }
  assert (R1 : round10 p y = (IZR m * bpow radix10 (e - p))%R).
  { unfold round10, round, F2R. cbn [Fnum Fexp]. rewrite C. reflexivity. }
  assert (M : 10 ^ (p - 1) <= m <= 10 ^ p).
  { unfold m. split.
    - rewrite <- (Zrnd_IZR ZnearestE (10 ^ (p - 1))). apply (Zrnd_le ZnearestE). rewrite pow10_Z by lia. rewrite S.
      replace (p - 1) with (e - 1 + (p - e)) by lia. rewrite bpow_plus. apply Rmult_le_compat_r; [apply bpow_ge_0|]. apply He0.
    - rewrite <- (Zrnd_IZR ZnearestE (10 ^ p)). apply (Zrnd_le ZnearestE). rewrite pow10_Z by lia. rewrite S.
      replace p with (e + (p - e)) at 2 by lia. rewrite bpow_plus. apply Rmult_le_compat_r; [apply bpow_ge_0|]. left. apply He0. }
  assert (P1 : 10 ^ p = 10 * 10 ^ (p - 1)) by (rewrite <- Z.pow_succ_r by lia; f_equal; lia).
  assert (P0 : 0 < 10 ^ (p - 1)) by (apply Z.pow_pos_nonneg; lia).
  destruct (Z.eqb_spec m (10 ^ p)) as [E|E]; intros Q; injection Q as <- <-.
  - split; [lia|]. rewrite R1, E, !pow10_Z, pow10_bpow, <- !bpow_plus by lia. f_equal. lia.
  - split; [lia|]. rewrite R1, pow10_bpow. f_equal. f_equal. lia.
Qed.

Lemma round10_opp x : round10 p (- x) = (- round10 p x)%R.
Proof. unfold round10. apply round_NE_opp. Qed.
Lemma round10_0 : round10 p 0 = 0%R.
Proof. unfold round10. apply round_0. apply valid_rnd_N. Qed.

(** a positive number printed: a numeral without sign *)
Lemma fmt_abs_numeral x : x <> 0%R ->
  exists ip dot fp ex e, fmt_abs p x = ip ++ dot ++ fp ++ ex /\ digits_text ip /\ digits_text fp /\
    (dot = ["."] \/ dot = [] /\ fp = []) /\ ip <> [] /\ exponent_text ex e /\
    (IZR (number (ip ++ fp)) * powerRZ 10 (e - Z.of_nat (length fp)))%R = round10 p (Rabs x).
Proof.
  intros Hx. unfold fmt_abs. destruct (dec_parts p x) as [d X] eqn:D.
  destruct (dec_parts_spec x d X Hx D) as [B V]. set (n := Z.to_nat p).
  assert (Hn : Z.of_nat n = p) by (unfold n; lia).
  assert (P0 : 0 < 10 ^ (p - 1)) by (apply Z.pow_pos_nonneg; lia).
  assert (DS : digits_text (digits n d)) by apply digits_ok.
  assert (DL : length (digits n d) = n) by apply digits_len.
  assert (DN : number (digits n d) = d) by (apply digits_number; rewrite Hn; lia).
  set (ds := digits n d) in *.
  assert (Split : forall k, digits_text (firstn k ds) /\ digits_text (skipn k ds)).
  { intros k. apply digits_text_app. rewrite firstn_skipn. exact DS. }
  destruct ((-4 <=? X) && (X <? p))%bool eqn:C.
  - apply andb_prop in C. destruct C as [C1 C2]. apply Z.leb_le in C1. apply Z.ltb_lt in C2.
    destruct (Z.leb_spec 0 X) as [C3|C3].
    + set (k := Z.to_nat (X + 1)). assert (Hk : Z.of_nat k = X + 1) by (unfold k; lia). destruct (Split k) as [S1 S2].
      assert (NE : firstn k ds <> []).
      { intros E. assert (L : length (firstn k ds) = k) by (apply firstn_length_le; lia). rewrite E in L. cbn in L. lia. }
      destruct (fraction_numeral (firstn k ds) (skipn k ds) 0 S1 NE S2) as (dot & f & W & F & Dt & Vf).
      exists (firstn k ds), dot, f, [], 0. rewrite app_nil_r. repeat split; auto; [constructor|].
      rewrite Vf, firstn_skipn, DN, <- V. do 2 f_equal. rewrite skipn_length, DL. lia.
    + set (k := Z.to_nat (- X - 1)). assert (Hk : Z.of_nat k = - X - 1) by (unfold k; lia).
      assert (A0 : digits_text ["0"]) by (apply (digits_text_zeros 1)).
      assert (A1 : digits_text (repeat "0" k ++ ds)) by (apply digits_text_app; split; [apply digits_text_zeros|exact DS]).
      destruct (fraction_numeral ["0"] (repeat "0" k ++ ds) 0 A0 ltac:(discriminate) A1) as (dot & f & W & F & Dt & Vf).
      exists ["0"], dot, f, [], 0. rewrite app_nil_r. repeat split; auto; [discriminate|constructor|].
      rewrite Vf, app_assoc, number_app, DN. change (["0"] ++ repeat "0" k) with (repeat "0" (S k)). rewrite number_zeros, Z.mul_0_l, Z.add_0_l, <- V.
      do 2 f_equal. rewrite app_length, repeat_length, DL. lia.
  - destruct (Split 1%nat) as [S1 S2].
    assert (NE : firstn 1 ds <> []).
    { intros E. assert (L : length (firstn 1 ds) = 1%nat) by (apply firstn_length_le; lia). rewrite E in L. discriminate L. }
    destruct (fraction_numeral (firstn 1 ds) (skipn 1 ds) X S1 NE S2) as (dot & f & W & F & Dt & Vf).
    set (sg := if X <? 0 then "-" else "+").
    set (eds := if Z.abs X <? 10 then "0" :: fmt_nat (Z.abs X) else fmt_nat (Z.abs X)).
    assert (ED : digits_text eds /\ number eds = Z.abs X /\ eds <> []).
    { destruct (fmt_nat_spec (Z.abs X) (Z.abs_nonneg X)) as (A & B1 & C1). unfold eds. destruct (Z.abs X <? 10); [|auto].
      repeat split; [apply (digits_text_app ["0"]); split; [apply (digits_text_zeros 1)|exact A]| |discriminate].
      change ("0" :: fmt_nat (Z.abs X)) with (["0"] ++ fmt_nat (Z.abs X)). rewrite number_app, B1. cbn [number fold_left]. cbn. lia. }
    destruct ED as (E1 & E2 & E3).
    assert (EX : exponent_text ("e" :: sg :: eds) X).
    { unfold sg. destruct (Z.ltb_spec X 0) as [L|L].
      - replace X with (-1 * number eds) by (rewrite E2; lia). apply (ex_some "e" ["-"] (-1) eds); [left; reflexivity|constructor|exact E1|exact E3].
      - replace X with (1 * number eds) at 1 by (rewrite E2; lia). apply (ex_some "e" ["+"] 1 eds); [left; reflexivity|constructor|exact E1|exact E3]. }
    exists (firstn 1 ds), dot, f, ("e" :: sg :: eds), X. repeat split; auto.
    + rewrite W, <- !app_assoc. reflexivity.
    + rewrite Vf, firstn_skipn, DN, <- V. do 2 f_equal. rewrite skipn_length, DL. lia.
Qed.

Lemma fmt_numeral x : numeral (fmt_double p x) (round10 p x).
Proof.
  unfold fmt_double. destruct (Req_EM_T x 0) as [E|E].
  - subst. exists [], 1, ["0"], [], [], [], 0. split; [reflexivity|]. split; [constructor|].
    split; [apply (digits_text_zeros 1)|]. split; [apply digits_text_nil|]. split; [right; split; reflexivity|].
    split; [discriminate|]. split; [constructor|]. rewrite round10_0.
    change (number (["0"] ++ [])) with 0. rewrite Rmult_0_r, Rmult_0_l. reflexivity.
  - destruct (fmt_abs_numeral x E) as (ip & dot & fp & ex & e & W & A & B & C & N & X & V).
    assert (N' : ip ++ fp <> []) by (intros Q; apply app_eq_nil in Q; tauto).
    destruct (Rlt_dec x 0) as [L|L].
    + exists ["-"], (-1), ip, dot, fp, ex, e. rewrite W. repeat split; auto; [constructor|].
      rewrite Rmult_assoc, V, Rabs_left by exact L. rewrite round10_opp. ring.
    + exists [], 1, ip, dot, fp, ex, e. rewrite W. repeat split; auto; [constructor|].
      rewrite Rmult_assoc, V, Rabs_pos_eq by lra. ring.
Qed.
End Dec.

(** ** Reading numerals *)
Lemma span_app f a r : (forall c, In c a -> f c = true) -> match r with [] => True | c :: _ => f c = false end ->
  span f (a ++ r) = (a, r).
Proof.
  induction a as [|c a IH]; intros H N.
  - destruct r as [|c r]; [reflexivity|]. cbn. rewrite N. reflexivity.
  - cbn. rewrite (H c (or_introl eq_refl)), (IH (fun d I => H d (or_intror I)) N). reflexivity.
Qed.
Lemma span_spec f t : let (a, r) := span f t in t = a ++ r /\ (forall c, In c a -> f c = true) /\ match r with [] => True | c :: _ => f c = false end.
Proof.
  induction t as [|c t IH]; [cbn; repeat split; intros c []|]. cbn. destruct (f c) eqn:E.
  - destruct (span f t) as [a r]. destruct IH as (A & B & C). repeat split; [cbn; f_equal; exact A| |exact C].
    intros d [I|I]; [subst; exact E|auto].
  - repeat split; [intros d []|exact E].
Qed.
Definition no_number (c : ascii) : Prop := is_digit c = false /\ c <> "." /\ c <> "e" /\ c <> "E".

Lemma signed_sign sg s z : sign_text sg s -> signed sg z = s * z.
Proof. intros H. inversion H; subst; unfold signed; try change (Ascii.eqb "+" "-") with false; try change (Ascii.eqb "-" "-") with true; cbv iota; lia. Qed.
Lemma take_sign_app sg s t : sign_text sg s -> match t with c :: _ => c <> "+" /\ c <> "-" | [] => True end -> take_sign (sg ++ t) = (sg, t).
Proof.
  intros H N. inversion H; subst; cbn; try reflexivity. destruct t as [|c t]; [reflexivity|]. cbn.
  destruct (Ascii.eqb_spec c "+"); [tauto|]. destruct (Ascii.eqb_spec c "-"); [tauto|]. reflexivity.
Qed.
Lemma take_sign_spec t : let (sg, r) := take_sign t in t = sg ++ r /\ exists s, sign_text sg s.
Proof.
  destruct t as [|c t]; cbn; [split; [reflexivity|exists 1; constructor]|].
  destruct (Ascii.eqb_spec c "+") as [E|E]; cbn; [subst; split; [reflexivity|exists 1; constructor]|].
  destruct (Ascii.eqb_spec c "-") as [F|F]; cbn; [subst; split; [reflexivity|exists (-1); constructor]|].
  split; [reflexivity|exists 1; constructor].
Qed.

Lemma is_digit_sign c : is_digit c = true -> c <> "+" /\ c <> "-" /\ c <> "." /\ c <> "e" /\ c <> "E".
Proof. intros H. repeat split; intros ->; discriminate H. Qed.

Lemma num_float_complete t v r : numeral t v -> match r with [] => True | c :: _ => no_number c end ->
  num_float (t ++ r) = (t, r, Some v).
Proof.
  intros (sg & s & ip & dot & fp & ex & e & -> & Hs & Hip & Hfp & Hdot & Hne & Hex & ->) Hr.
  assert (Dig : forall ds, digits_text ds -> forall c, In c ds -> is_digit c = true) by (intros ds D c I; apply digit_in; apply D; exact I).
  unfold num_float. rewrite <- !app_assoc.
  rewrite (take_sign_app sg s) by (first [exact Hs|
    destruct ip as [|c ip]; [|cbn; apply digits_text_cons in Hip; destruct (is_digit_sign c (proj1 Hip)); tauto];
    destruct Hdot as [E|[E F]]; [subst dot; cbn; split; discriminate|subst; cbn in Hne; congruence]]).
  set (tail := ex ++ r).
  assert (Ht : match tail with [] => True | c :: _ => is_digit c = false /\ c <> "." end).
  { unfold tail. inversion Hex; subst.
    - cbn [app]. destruct r as [|c r]; [exact I|]. destruct Hr as (A & B & _). tauto.
    - cbn in *. destruct H as [<-|[<-|[]]]; split; try reflexivity; discriminate. }
  rewrite (span_app is_digit ip) by (first [exact (Dig ip Hip)|
    destruct Hdot as [E|[E F]]; [subst dot; reflexivity|subst; cbn; destruct tail as [|c tl]; [exact I|exact (proj1 Ht)]]]).
  assert (Fin : forall f, digits_text f -> ip ++ f <> [] -> forall d', 
    match ip ++ f with
    | [] => (sg ++ d', tail, None)
    | _ =>
      match tail with
      | c :: r0 =>
        if (Ascii.eqb c "e" || Ascii.eqb c "E")%bool then
          let (esg, t5) := take_sign r0 in
          let (ep, t6) := span is_digit t5 in
          (sg ++ ip ++ d' ++ f ++ c :: esg ++ ep, t6,
           match ep with
           | [] => None
           | _ => Some (F2R (Float radix10 (signed sg (dval (ip ++ f))) (- Z.of_nat (length f) + signed esg (dval ep))))
           end)
        else (sg ++ ip ++ d' ++ f, tail, Some (F2R (Float radix10 (signed sg (dval (ip ++ f))) (- Z.of_nat (length f)))))
      | [] => (sg ++ ip ++ d' ++ f, tail, Some (F2R (Float radix10 (signed sg (dval (ip ++ f))) (- Z.of_nat (length f)))))
      end
    end = (sg ++ ip ++ d' ++ f ++ ex, r, Some (IZR s * IZR (number (ip ++ f)) * powerRZ 10 (e - Z.of_nat (length f)))%R)).
  { intros f Hf NE d'. destruct (ip ++ f) as [|c0 l0] eqn:EL; [congruence|]. rewrite <- EL. clear c0 l0 EL NE.
    unfold tail. inversion Hex; subst.
    - cbn [app]. rewrite app_nil_r. rewrite (signed_sign sg s) by exact Hs. rewrite F2R_pow, mult_IZR. change (0 - Z.of_nat (length f)) with (- Z.of_nat (length f)).
      destruct r as [|c r]; [reflexivity|]. destruct Hr as (_ & _ & N1 & N2).
      destruct (Ascii.eqb_spec c "e"); [congruence|]. destruct (Ascii.eqb_spec c "E"); [congruence|]. reflexivity.
    - cbn [app]. replace (Ascii.eqb e0 "e" || Ascii.eqb e0 "E")%bool with true by (cbn in H; destruct H as [<-|[<-|[]]]; reflexivity).
      rewrite <- app_assoc. rewrite (take_sign_app sg0 s0) by (first [assumption|
        destruct ds as [|c ds]; [congruence|cbn; apply digits_text_cons in H1; destruct (is_digit_sign c (proj1 H1)); tauto]]).
      rewrite (span_app is_digit ds) by (first [exact (Dig ds H1)|destruct r as [|c r]; [exact I|exact (proj1 Hr)]]).
      rewrite (signed_sign sg s), (signed_sign sg0 s0), F2R_pow, mult_IZR by assumption. change dval with number.
      destruct ds as [|c ds]; [congruence|]. do 2 f_equal. f_equal. f_equal. lia. }
  destruct Hdot as [E|[E F]].
  - subst dot. cbn [app]. change (Ascii.eqb "." ".") with true. cbv iota.
    rewrite (span_app is_digit fp) by (first [exact (Dig fp Hfp)|destruct tail as [|c tl]; [exact I|exact (proj1 Ht)]]).
    exact (Fin fp Hfp Hne ["."]).
  - subst dot fp. cbn [app].
    clearbody tail. destruct tail as [|c tl]; [exact (Fin [] digits_text_nil Hne [])|].
    destruct (Ascii.eqb_spec c "."); [tauto|].
    exact (Fin [] digits_text_nil Hne []).
Qed.

Lemma num_float_sound t tok r v : num_float t = (tok, r, Some v) -> t = tok ++ r /\ numeral tok v.
Proof.
  unfold num_float. pose proof (take_sign_spec t) as TS. destruct (take_sign t) as [sg t1]. destruct TS as (E0 & s & Hs).
  pose proof (span_spec is_digit t1) as S1. destruct (span is_digit t1) as [ip t2]. destruct S1 as (E1 & D1 & N1).
  set (dd := match t2 with c :: r0 => if Ascii.eqb c "." then ([c], r0) else ([], t2) | [] => ([], t2) end).
  assert (HD : exists dot t3, dd = (dot, t3) /\ t2 = dot ++ t3 /\ (dot = ["."] \/ dot = [])).
  { unfold dd. destruct t2 as [|c t2]; [exists [], []; auto|]. destruct (Ascii.eqb_spec c ".") as [->|Q]; [exists ["."], t2; auto|exists [], (c :: t2); auto]. }
  destruct HD as (dot & t3 & -> & E2 & Hdot).
  set (ff := match dot with [] => ([], t3) | _ => span is_digit t3 end).
  assert (HF : exists fp t4, ff = (fp, t4) /\ t3 = fp ++ t4 /\ digits_text fp /\ (dot = ["."] \/ dot = [] /\ fp = [])).
  { unfold ff. destruct Hdot as [->| ->].
    - pose proof (span_spec is_digit t3) as S3. destruct (span is_digit t3) as [fp t4]. destruct S3 as (A & B & _).
      exists fp, t4. repeat split; auto. intros c I. apply digit_in. auto.
    - exists [], t3. repeat split; auto. apply digits_text_nil. }
  destruct HF as (fp & t4 & -> & E3 & Hfp & Hd).
  assert (Hip : digits_text ip) by (intros c I; apply digit_in; auto).
  cbn [fst snd]. destruct (ip ++ fp) as [|c0 l0] eqn:EL; [discriminate|]. rewrite <- EL.
  assert (NE : ip ++ fp <> []) by (rewrite EL; discriminate). clear c0 l0 EL.
  assert (T : t = sg ++ ip ++ dot ++ fp ++ t4) by (rewrite E0, E1, E2, E3; reflexivity).
  assert (Plain : (sg ++ ip ++ dot ++ fp, t4, Some (F2R (Float radix10 (signed sg (dval (ip ++ fp))) (- Z.of_nat (length fp))))) = (tok, r, Some v) ->
    t = tok ++ r /\ numeral tok v).
  { intros Q. injection Q as <- <- <-. split; [rewrite T, <- !app_assoc; reflexivity|].
    exists sg, s, ip, dot, fp, [], 0. rewrite app_nil_r. repeat split; auto; [constructor|].
    rewrite (signed_sign sg s), F2R_pow, mult_IZR by exact Hs. do 2 f_equal. }
  destruct t4 as [|c t4]; [exact Plain|].
  destruct (Ascii.eqb c "e" || Ascii.eqb c "E")%bool eqn:C; [|exact Plain]. clear Plain.
  pose proof (take_sign_spec t4) as TS. destruct (take_sign t4) as [esg t5]. destruct TS as (E5 & s' & Hs').
  pose proof (span_spec is_digit t5) as S5. destruct (span is_digit t5) as [ep t6]. destruct S5 as (E6 & D6 & _).
  destruct ep as [|c1 ep]; [discriminate|]. intros Q. injection Q as <- <- <-. split.
  - rewrite T, E5, E6. rewrite <- !app_assoc. cbn [app]. rewrite <- app_assoc. reflexivity.
  - exists sg, s, ip, dot, fp, (c :: esg ++ c1 :: ep), (s' * number (c1 :: ep)). repeat split; auto.
    + constructor; [|exact Hs'|intros d I; apply digit_in; auto|discriminate].
      apply orb_prop in C. destruct C as [C|C]; apply Ascii.eqb_eq in C; subst c; cbn; tauto.
    + rewrite (signed_sign sg s), (signed_sign esg s'), F2R_pow, mult_IZR by assumption.
      change dval with number. f_equal. f_equal. lia.
Qed.
