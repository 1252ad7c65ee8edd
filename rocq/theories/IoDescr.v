(** Eat(is,descript), letters in either case, and numbers at the end of the text (C55). *)
From Coq Require Import Reals ZArith Ascii String List Bool Lia.
From Flocq Require Import Core.
From Verif Require Import FramesModel PathModel IoModel IoSpec IoNum IoEat IoComplete IoDescrSpec.
Import ListNotations.
Local Open Scope char_scope.
Local Open Scope list_scope.
Local Open Scope Z_scope.

(** ** Letters *)
Definition all_chars : list ascii := map ascii_of_nat (seq 0 256).
Lemma all_chars_in c : In c all_chars.
Proof.
  unfold all_chars. apply in_map_iff. exists (nat_of_ascii c). split; [apply ascii_nat_embedding|].
  apply in_seq. pose proof (nat_ascii_bounded c). lia.
Qed.
Definition pair_in (c d : ascii) (l : list (ascii * ascii)) : bool :=
  existsb (fun x => Ascii.eqb (fst x) c && Ascii.eqb (snd x) d)%bool l.
Lemma pair_in_spec c d l : pair_in c d l = true <-> In (c, d) l.
Proof.
  unfold pair_in. rewrite existsb_exists. split.
  - intros ([x y] & I & E). apply andb_prop in E. cbn in E. destruct E as [E1 E2]. apply Ascii.eqb_eq in E1, E2. subst. exact I.
  - intros I. exists (c, d). split; [exact I|]. cbn. rewrite !Ascii.eqb_refl. reflexivity.
Qed.
Definition same_letterb (c d : ascii) : bool :=
  (Ascii.eqb c d || pair_in c d (combine small_letters capital_letters) || pair_in d c (combine small_letters capital_letters))%bool.
Lemma same_letterb_spec c d : same_letterb c d = true <-> same_letter c d.
Proof.
  unfold same_letterb, same_letter. rewrite !orb_true_iff, !pair_in_spec, Ascii.eqb_eq. tauto.
Qed.
Lemma Upper_all : forallb (fun c => forallb (fun d => Bool.eqb (Ascii.eqb (Upper c) (Upper d)) (same_letterb c d)) all_chars) all_chars = true.
Proof. vm_compute. reflexivity. Qed.
Lemma Upper_same_b c d : Ascii.eqb (Upper c) (Upper d) = same_letterb c d.
Proof.
  pose proof Upper_all as H. rewrite forallb_forall in H. specialize (H c (all_chars_in c)). cbv beta in H.
  rewrite forallb_forall in H. specialize (H d (all_chars_in d)). cbv beta in H. apply Bool.eqb_prop in H. exact H.
Qed.
Lemma Upper_same c d : Upper c = Upper d <-> same_letter c d.
Proof. rewrite <- same_letterb_spec, <- Upper_same_b, Ascii.eqb_eq. tauto. Qed.
Lemma Upper_not_small_all : forallb (fun c => negb (existsb (Ascii.eqb (Upper c)) small_letters)) all_chars = true.
Proof. vm_compute. reflexivity. Qed.
Lemma Upper_not_small c : ~ In (Upper c) small_letters.
Proof.
  intros I. pose proof Upper_not_small_all as H. rewrite forallb_forall in H. specialize (H c (all_chars_in c)). cbv beta in H.
  assert (E : existsb (Ascii.eqb (Upper c)) small_letters = true) by (apply existsb_exists; exists (Upper c); split; [exact I|apply Ascii.eqb_refl]).
  rewrite E in H. discriminate H.
Qed.
Lemma Upper_idem_all : forallb (fun c => Ascii.eqb (Upper (Upper c)) (Upper c)) all_chars = true.
Proof. vm_compute. reflexivity. Qed.
Lemma Upper_letter c : same_letter c (Upper c) /\ ~ In (Upper c) small_letters.
Proof.
  split; [|apply Upper_not_small]. apply Upper_same. pose proof Upper_idem_all as H. rewrite forallb_forall in H.
  specialize (H c (all_chars_in c)). cbv beta in H. apply Ascii.eqb_eq in H. symmetry. exact H.
Qed.
Lemma capital_fixed_all : forallb (fun c => orb (existsb (Ascii.eqb c) small_letters) (Ascii.eqb (Upper c) c)) all_chars = true.
Proof. vm_compute. reflexivity. Qed.
Lemma capital_fixed c : ~ In c small_letters -> Upper c = c.
Proof.
  intros N. pose proof capital_fixed_all as H. rewrite forallb_forall in H. specialize (H c (all_chars_in c)). cbv beta in H.
  apply orb_prop in H. destruct H as [H|H]; [|apply Ascii.eqb_eq; exact H].
  apply existsb_exists in H. destruct H as (x & I & E). apply Ascii.eqb_eq in E. subst x. contradiction.
Qed.
(** a keyword in capitals is recognised in any mixture of cases, and nothing else is *)
Lemma keyword_case w k : (forall c, In c k -> ~ In c small_letters) -> (map Upper w = k <-> Forall2 same_letter w k).
Proof.
  revert k. induction w as [|c w IH]; intros k Hk.
  - split; [intros <-; constructor|intros H; inversion H; reflexivity].
  - split.
    + destruct k as [|d k]; [discriminate|]. intros E. cbn [map] in E. injection E as E1 E2. constructor.
      * apply Upper_same. rewrite E1. symmetry. apply capital_fixed. apply Hk. left. reflexivity.
      * apply IH; [intros x I; apply Hk; right; exact I|exact E2].
    + intros H. inversion H as [|c' d w' k' H1 H2]; subst. cbn [map]. f_equal.
      * apply Upper_same in H1. rewrite H1. apply capital_fixed. apply Hk. left. reflexivity.
      * apply IH; [intros x I; apply Hk; right; exact I|exact H2].
Qed.

(** ** Descriptions *)
Lemma Upper_space d : d <> " " -> Ascii.eqb (Upper d) " " = false.
Proof.
  intros H. destruct (Ascii.eqb_spec (Upper d) " ") as [E|E]; [|reflexivity]. exfalso. apply H.
  change " " with (Upper " ") in E. apply Upper_same in E. destruct E as [E|[E|E]]; [exact E| |];
    cbn in E; repeat (destruct E as [E|E]; [discriminate E|]); contradiction.
Qed.
Lemma descr_loop d m : described d m -> forall more past rest tr,
  Eat_descr_loop (d ++ more) (stream past (m ++ rest) tr) = Eat_descr_loop more (stream (rev m ++ past) rest tr).
Proof.
  induction 1 as [|d p c t Hd S D IH|p b t B NE SV D IH]; intros more past rest tr.
  - reflexivity.
  - cbn [app Eat_descr_loop]. rewrite (Upper_space d Hd), get_cons.
    replace (Ascii.eqb (Upper d) (Upper (char_of (Some c)))) with true by (symmetry; apply Ascii.eqb_eq, Upper_same; exact S).
    cbn [negb]. rewrite IH. cbn [rev]. rewrite <- app_assoc. reflexivity.
  - destruct SV as (c & u & -> & V). cbn [Eat_descr_loop app]. change (Ascii.eqb (Upper " ") " ") with true. cbv iota.
    rewrite <- app_assoc. cbn [app]. rewrite (EatSpace_plain b past c (u ++ rest) tr B V). cbn [ibind fst snd]. rewrite putback_ok.
    replace (Z.of_nat (length b) =? 0) with false by (symmetry; apply Z.eqb_neq; destruct b; [congruence|cbn [length]; lia]).
    change (c :: u ++ rest) with ((c :: u) ++ rest). rewrite IH. rewrite rev_app_distr, <- app_assoc. reflexivity.
Qed.
Lemma descr_start d b m past rest tr : plain b -> starts_visible (m ++ rest) ->
  Eat_descr (stream past (b ++ m ++ rest) tr) d = Eat_descr_loop d (stream (rev b ++ past) (m ++ rest) tr).
Proof.
  intros B (c & u & E & V). unfold Eat_descr. rewrite E, (EatSpace_plain b past c u tr B V). cbn [ibind fst]. rewrite putback_ok. reflexivity.
Qed.
Lemma descr_reads d b m past rest tr : plain b -> described d m -> starts_visible (m ++ rest) ->
  Eat_descr (stream past (b ++ m ++ rest) tr) d = Got tt (stream (rev (b ++ m) ++ past) rest tr).
Proof.
  intros B D V. rewrite (descr_start d b m past rest tr B V).
  rewrite <- (app_nil_r d), (descr_loop d m D). cbn [Eat_descr_loop]. rewrite rev_app_distr, <- app_assoc. reflexivity.
Qed.
Lemma descr_letter d x p b m y past rest tr : plain b -> described d m -> starts_visible (m ++ y :: rest) ->
  x <> " " -> ~ same_letter x y ->
  Eat_descr (stream past (b ++ m ++ y :: rest) tr) (d ++ x :: p) = Threw Error_BasicIO_Unexpected (stream (y :: rev (b ++ m) ++ past) rest tr).
Proof.
  intros B D V X N. rewrite (descr_start _ b m past _ tr B V), (descr_loop d m D).
  cbn [Eat_descr_loop]. rewrite (Upper_space x X), get_cons.
  replace (Ascii.eqb (Upper x) (Upper (char_of (Some y)))) with false by (symmetry; apply Ascii.eqb_neq; intros E; apply Upper_same in E; contradiction).
  cbn [negb]. rewrite rev_app_distr, <- app_assoc. reflexivity.
Qed.
Lemma descr_space d p b m y past rest tr : plain b -> described d m -> starts_visible (m ++ y :: rest) -> visible y ->
  Eat_descr (stream past (b ++ m ++ y :: rest) tr) (d ++ " " :: p) = Threw Error_BasicIO_Not_A_Space (stream (rev (b ++ m) ++ past) (y :: rest) tr).
Proof.
  intros B D V Y. rewrite (descr_start _ b m past _ tr B V), (descr_loop d m D).
  cbn [Eat_descr_loop]. change (Ascii.eqb (Upper " ") " ") with true. cbv iota.
  rewrite (EatSpace_plain [] _ y rest tr plain_nil Y : EatSpace (stream (rev m ++ rev b ++ past) (y :: rest) tr) = _).
  cbn [ibind fst snd length]. rewrite putback_ok. cbn. rewrite rev_app_distr, <- app_assoc. reflexivity.
Qed.
Lemma descr_example past rest tr :
  Eat_descr (stream past (lit "  moVe	 To" ++ rest) tr) (lit "Move to") = Got tt (stream (rev (lit "  moVe	 To") ++ past) rest tr).
Proof.
  change (lit "  moVe	 To") with (lit "  " ++ lit "moVe	 To"). rewrite <- app_assoc. apply descr_reads.
  - intros c I. cbn in I. cbn. tauto.
  - cbn. repeat (apply ds_char; [discriminate|apply same_letterb_spec; reflexivity|]).
    apply (ds_space (lit "to") ["009"; " "] (lit "To")).
    + intros c I. cbn in *. tauto.
    + discriminate.
    + exists "T", ["o"]. split; [reflexivity|]. intros I. cbn in I. decompose [or] I; try discriminate; contradiction.
    + cbn. repeat (apply ds_char; [discriminate|apply same_letterb_spec; reflexivity|]). constructor.
  - exists "m", (lit "oVe	 To" ++ rest). split; [reflexivity|]. intros I. cbn in I. decompose [or] I; try discriminate; contradiction.
Qed.

(** ** Numbers at the end of the text *)
Lemma number_at_end rd w n v past tr old : plain w -> numeral n v ->
  read_double rd (stream past (w ++ n) tr) old = (rd v, mkIs (rev n ++ rev w ++ past) [] true false false tr).
Proof.
  intros Hw Hn. unfold read_double, extract. change (good (stream past (w ++ n) tr)) with true. cbv iota.
  cbn [stream is_rest is_past is_trace].
  destruct (numeral_first n v Hn) as (d & n' & En & Hd).
  assert (Hs : is_space d = false).
  { destruct (is_space d) eqn:E; [|reflexivity]. exfalso. destruct Hn as (sg & s & ip & dot & fp & ex & e & En2 & Hs & Hip & Hfp & Hdot & Hne & _).
    rewrite En2 in En. apply space_white in E. unfold white in E.
    assert (Q : In d ["+"; "-"; "."; "0"; "1"; "2"; "3"; "4"; "5"; "6"; "7"; "8"; "9"]).
    { inversion Hs; subst; cbn [app] in En; try (injection En as <- _; cbn; tauto).
      destruct ip as [|x ip].
      - destruct Hdot as [->|[-> ->]]; [|cbn in Hne; congruence]. cbn [app] in En. injection En as <- _. cbn; tauto.
      - cbn [app] in En. injection En as <- _. specialize (Hip x (or_introl eq_refl)). cbn in Hip |- *. tauto. }
    cbn in Q, E. decompose [or] E; subst; clear E; decompose [or] Q; try discriminate; contradiction. }
  rewrite (span_app is_space w n).
  2:{ intros x I. specialize (Hw x I). apply space_white. unfold white. cbn in *. tauto. }
  2:{ rewrite En. exact Hs. }
  pose proof (num_float_complete n v [] Hn I) as F. rewrite app_nil_r in F. rewrite En at 1. rewrite F. reflexivity.
Qed.
Lemma number_missing rd w past tr old : plain w ->
  read_double rd (stream past w tr) old = (old, mkIs (rev w ++ past) [] true true false tr).
Proof.
  intros Hw. unfold read_double, extract. change (good (stream past w tr)) with true. cbv iota. cbn [stream is_rest is_past is_trace].
  pose proof (span_app is_space w []) as Q. rewrite app_nil_r in Q. rewrite Q; [reflexivity| |exact I].
  intros x J. specialize (Hw x J). apply space_white. unfold white. cbn in *. tauto.
Qed.
