(** The readers of paths, profiles and trajectories take nothing but texts of the grammar. *)
From Coq Require Import Reals ZArith Ascii String List Bool Lia.
From Flocq Require Import Core.
From Verif Require Import FramesModel Outcome ProfModel PathModel IoModel IoSpec IoNum IoEat IoObjects IoFinal MioModel MioSpec MioComplete.
Import ListNotations.
Local Open Scope char_scope.
Local Open Scope list_scope.
Local Open Scope Z_scope.

(** ** Whole numbers *)
Lemma num_int_sound t tk r z : num_int t = (tk, r, Some z) -> t = tk ++ r /\ integer tk z.
Proof.
  unfold num_int. pose proof (take_sign_spec t) as T. destruct (take_sign t) as [sg t1]. destruct T as [-> (s & Hs)].
  pose proof (span_spec is_digit t1) as Sp. destruct (span is_digit t1) as [ip t2]. destruct Sp as (-> & D & _).
  destruct ip as [|c ip]; [discriminate|]. intros Q. injection Q as <- <- <-. split; [rewrite <- app_assoc; reflexivity|].
  exists sg, s, (c :: ip). split; [reflexivity|]. split; [exact Hs|]. split; [intros d I; apply digit_in; auto|]. split; [discriminate|].
  change (number (c :: ip)) with (dval (c :: ip)). apply signed_sign. exact Hs.
Qed.
Lemma extract_int_sound {B : Type} (conv : Z -> B * bool) (dflt : B) s old x s' :
  extract num_int conv dflt s old = (x, s') -> good s' = true ->
  good s = true /\ exists w n z, skipped w /\ integer n z /\ conv z = (x, false) /\ took s (w ++ n) s'.
Proof.
  unfold extract. destruct (good s) eqn:G.
  2:{ intros Q g. injection Q as <- <-. unfold good, set_fail in g. cbn in g. rewrite orb_true_r in g. discriminate g. }
  pose proof (span_spec is_space (is_rest s)) as SP. destruct (span is_space (is_rest s)) as [ws t]. destruct SP as (E & W & _).
  destruct t as [|c t]; [intros Q g; injection Q as <- <-; discriminate g|].
  destruct (num_int (c :: t)) as [[tok0 r] [v|]] eqn:N.
  2:{ intros Q g. injection Q as <- <-. unfold good in g. cbn in g. rewrite orb_true_r in g. discriminate g. }
  apply num_int_sound in N. destruct N as [N1 N2]. destruct (conv v) as [y f] eqn:C. cbn [fst snd]. intros Q g. injection Q as <- <-. split; [reflexivity|].
  assert (f = false) as -> by (unfold good in g; cbn in g; destruct f; [rewrite orb_true_r in g; discriminate g|reflexivity]).
  exists ws, tok0, v. split; [apply skipped_white; intros d I; apply space_white; auto|]. split; [exact N2|]. split; [exact C|].
  repeat split; cbn [is_rest is_past is_trace].
  - rewrite E, N1, <- app_assoc. reflexivity.
  - rewrite rev_app_distr, <- app_assoc. reflexivity.
Qed.
Lemma read_int_sound s old z s' : read_int s old = (z, s') -> good s' = true ->
  good s = true /\ exists t, int skipped t z /\ took s t s'.
Proof.
  intros H G. destruct (extract_int_sound _ _ _ _ _ _ H G) as (G0 & w & n & v & Sw & N & C & T). split; [exact G0|]. exists (w ++ n). split; [|exact T].
  exists w, n. split; [reflexivity|]. split; [exact Sw|].
  unfold int_min, int_max in C. destruct (Z.ltb_spec v (-2147483648)); [discriminate C|]. destruct (Z.ltb_spec 2147483647 v); [discriminate C|].
  injection C as <-. split; [exact N|unfold in_int; lia].
Qed.
Lemma read_bool_sound s old x s' : read_bool s old = (x, s') -> good s' = true ->
  good s = true /\ exists w n z, skipped w /\ integer n z /\ (z = 0 \/ z = 1) /\ x = (z =? 1) /\ took s (w ++ n) s'.
Proof.
  intros H G. destruct (extract_int_sound _ _ _ _ _ _ H G) as (G0 & w & n & v & Sw & N & C & T). split; [exact G0|]. exists w, n, v.
  split; [exact Sw|]. split; [exact N|]. destruct (Z.eqb_spec v 0) as [->|Hv]; [injection C as <-; auto|].
  destruct (Z.eqb_spec v 1) as [->|Hv1]; [injection C as <-; auto|discriminate C].
Qed.

(** ** Steps *)
(** rest and past, whatever the trace *)
Definition moved (s : istr) (t : text) (s' : istr) : Prop := is_rest s = t ++ is_rest s' /\ is_past s' = rev t ++ is_past s.
Lemma took_moved s t s' : took s t s' -> moved s t s'. Proof. intros (A & B & _). split; assumption. Qed.
Lemma moved_trans a s t b u : moved s a t -> moved t b u -> moved s (a ++ b) u.
Proof.
  intros (A1 & A2) (B1 & B2). split; [rewrite A1, B1, app_assoc; reflexivity|]. rewrite B2, A2, rev_app_distr, app_assoc. reflexivity.
Qed.
Lemma moved_nil s : moved s [] s. Proof. split; reflexivity. Qed.

Lemma opening_sound n k s w s1 : read_opening n s = MGot w s1 -> w = lit k -> good s1 = true ->
  good s = true /\ is_trace s1 = is_trace s /\ exists t, opening skipped k t /\ moved s t s1.
Proof.
  unfold read_opening. destruct (EatWord s (lit "[") n) as [w0 s0|e s0| |] eqn:E0; cbn [of_io mbind]; try discriminate.
  destruct (Eat s0 "[") as [u2 s2|e s2| |] eqn:E2; cbn [of_io mbind]; try discriminate. destruct u2. intros Q -> G1. injection Q as -> ->.
  destruct (Eat_sound s0 "[" s1 ltac:(discriminate) E2) as (G0 & T & _). destruct (T G1) as (b & b2 & Sb & Sb2 & T2).
  destruct (EatWord_sound s (lit "[") n (lit k) s0 eq_refl E0) as (G & b0 & raw & u & Sb0 & M & R & Tr & H1 & _).
  destruct (H1 G0) as (a & Sa & T0 & _). split; [exact G|]. split; [destruct T2 as (_ & _ & T2); congruence|].
  exists ((b0 ++ raw ++ a) ++ b ++ ["["] ++ b2). split; [|apply (moved_trans _ _ s0); apply took_moved; assumption].
  exists (b0 ++ raw ++ a ++ b), b2. split; [rewrite <- !app_assoc; reflexivity|]. split; [|exact Sb2].
  exists b0, raw, (a ++ b). split; [reflexivity|]. auto using skipped_app.
Qed.
Lemma opening_live n s w s1 : read_opening n s = MGot w s1 -> good s1 = true \/ dead s1.
Proof.
  unfold read_opening. destruct (EatWord s (lit "[") n) as [w0 s0|e s0| |] eqn:E0; cbn [of_io mbind]; try discriminate.
  destruct (Eat s0 "[") as [u2 s2|e s2| |] eqn:E2; cbn [of_io mbind]; try discriminate. destruct u2. intros Q. injection Q as -> ->.
  destruct (Eat_sound s0 "[" s1 ltac:(discriminate) E2) as (_ & _ & D). exact D.
Qed.
Lemma closing_sound s s' : read_closing s = MGot tt s' ->
  good s = true /\ good s' = true /\ (exists d1 d2, is_trace s = d1 :: d2 :: is_trace s') /\ exists t, closing skipped t /\ moved s t s'.
Proof.
  unfold read_closing. destruct (EatEnd s "]") as [u0 s0|e s0| |] eqn:E0; cbn [of_io mbind]; try discriminate. destruct u0.
  destruct (EatEnd_sound s "]" s0 ltac:(discriminate) E0) as (G & G0 & b & Sb & (T1 & T2 & T3)).
  unfold IOTracePop. destruct (is_trace s0) as [|d1 tr0] eqn:D0; cbn [of_io mbind]; [discriminate|]. cbn [is_trace].
  destruct tr0 as [|d2 tr]; cbn [of_io]; [discriminate|]. intros Q. injection Q as <-. split; [exact G|]. split; [exact G0|].
  split; [exists d1, d2; cbn [is_trace]; congruence|]. exists (b ++ ["]"]). split; [exists b; auto|]. split; [exact T1|exact T2].
Qed.
Lemma interp_sound s o s' : read_Interp s = MGot o s' ->
  o = sa_make /\ good s = true /\ good s' = true /\ is_trace s' = is_trace s /\ exists t, interp skipped t /\ moved s t s'.
Proof.
  unfold read_Interp. destruct (read_opening 64 _) as [w s1|e s1| |] eqn:E1; cbn [mbind]; try discriminate.
  destruct (text_eqb w (lit "SINGLEAXIS")) eqn:K.
  - destruct (read_closing _) as [u s2|e s2| |] eqn:E2; cbn [mbind]; try discriminate. destruct u. intros Q. injection Q as <- <-.
    destruct (closing_sound _ _ E2) as (G1 & G2 & (d1 & d2 & D) & t2 & C2 & M2).
    destruct (opening_sound 64 "SINGLEAXIS" _ _ _ E1 (text_eqb_eq _ _ K) G1) as (G & Tr & t1 & O1 & M1). split; [reflexivity|].
    split; [exact G|]. split; [exact G2|]. split; [cbn in D; injection D as _ D; cbn in Tr; congruence|].
    exists (t1 ++ t2). split; [exists t1, t2; auto|]. exact (moved_trans _ _ _ _ _ M1 M2).
  - destruct (text_eqb w (lit "THREEAXIS")); [discriminate|]. destruct (text_eqb w (lit "TWOAXIS")); discriminate.
Qed.
Lemma num_sound rd s old x s' : read_double rd s old = (x, s') -> good s' = true ->
  good s = true /\ is_trace s' = is_trace s /\ exists t, num skipped rd t x /\ moved s t s'.
Proof.
  intros H G. destruct (read_double_sound rd s old x s' H G) as (G0 & w & n & v & Sw & N & -> & T). split; [exact G0|]. split; [apply T|].
  exists (w ++ n). split; [exists w, n, v; auto|]. exact (took_moved _ _ _ T).
Qed.
Lemma int_sound s old x s' : read_int s old = (x, s') -> good s' = true ->
  good s = true /\ is_trace s' = is_trace s /\ exists t, int skipped t x /\ moved s t s'.
Proof.
  intros H G. destruct (read_int_sound s old x s' H G) as (G0 & t & I & T). split; [exact G0|]. split; [apply T|]. exists t. split; [exact I|exact (took_moved _ _ _ T)].
Qed.
Lemma frame_sound rd s old F s' : read_Frame rd s old = OGot F s' -> good s' = true ->
  good s = true /\ is_trace s' = is_trace s /\ exists t, frame_text skipped rd t F /\ moved s t s'.
Proof.
  intros H G. destruct (read_took _ _ _ _ (only_Frame rd s old F s' H) G) as (G0 & t & M & T). split; [exact G0|]. split; [apply T|].
  exists t. split; [exact M|exact (took_moved _ _ _ T)].
Qed.
Lemma vector_sound rd s old v s' : read_Vector rd s old = OGot v s' -> good s' = true ->
  good s = true /\ is_trace s' = is_trace s /\ exists t, vector_text skipped rd t v /\ moved s t s'.
Proof.
  intros H G. destruct (read_took _ _ _ _ (only_Vector rd s old v s' H) G) as (G0 & t & M & T). split; [exact G0|]. split; [apply T|].
  exists t. split; [exact M|exact (took_moved _ _ _ T)].
Qed.
Lemma rotation_sound rd s old v s' : read_Rotation rd s old = OGot v s' -> good s' = true ->
  good s = true /\ is_trace s' = is_trace s /\ exists t, rotation_text skipped rd t v /\ moved s t s'.
Proof.
  intros H G. destruct (read_took _ _ _ _ (only_Rotation rd s old v s' H) G) as (G0 & t & M & T). split; [exact G0|]. split; [apply T|].
  exists t. split; [exact M|exact (took_moved _ _ _ T)].
Qed.

Tactic Notation "mget" ident(r) ident(s) ident(E) :=
  match goal with |- mbind ?m _ = _ -> _ => destruct m as [r s|? ?| |] eqn:E; cbn [mbind]; [|discriminate|discriminate|discriminate] end.
Lemma of_oio_got {A : Type} (m : oio A) x s : of_oio m = MGot x s -> m = OGot x s.
Proof. destruct m; cbn; try discriminate. intros Q. injection Q as <- <-. reflexivity. Qed.
Lemma of_io_got {A : Type} (m : io A) x s : of_io m = MGot x s -> m = Got x s.
Proof. destruct m; cbn; try discriminate. intros Q. injection Q as <- <-. reflexivity. Qed.
Lemma of_result_got {A : Type} (m : result A) s0 x s : of_result m s0 = MGot x s -> m = Val x /\ s = s0.
Proof. destruct m; cbn; try discriminate. intros Q. injection Q as <- <-. auto. Qed.

Section Sound.
Variable rd : R -> R.
Variable jd : R.
Variable ji : Z.
Variable jb : bool.
Notation apath := (any_path rd).
Notation apaths := (paths skipped skipped rd (vector_text skipped rd) (rotation_text skipped rd) (frame_text skipped rd)).

Lemma points_sound n : forall P s Q s', read_points rd n P s = MGot Q s' -> good s' = true ->
  good s = true /\ is_trace s' = is_trace s /\ exists t Fs, frames (frame_text skipped rd) t Fs /\ length Fs = n /\ add_points P Fs = Val Q /\ moved s t s'.
Proof.
  induction n as [|n IH]; intros P s Q s'; cbn [read_points].
  - intros E G. injection E as <- <-. split; [exact G|]. split; [reflexivity|]. exists [], []. split; [constructor|]. split; [reflexivity|]. split; [reflexivity|apply moved_nil].
  - mget r s1 E. apply of_oio_got in E. destruct (rounded_Add P r) as [P' res] eqn:RA. mget r0 s2 E0. apply of_result_got in E0. destruct E0 as [-> ->]. intros H G.
    destruct (IH _ _ _ _ H G) as (G1 & Tr1 & t & Fs & HF & Len & A & M). destruct (frame_sound rd _ _ _ _ E G1) as (G0 & Tr0 & t0 & F0 & M0).
    split; [exact G0|]. split; [congruence|]. exists (t0 ++ t), (r :: Fs). split; [constructor; assumption|]. split; [cbn; lia|].
    split; [cbn [add_points]; rewrite RA; exact A|]. exact (moved_trans _ _ _ _ _ M0 M).
Qed.

Definition path_read (s : istr) (P : Path) (s' : istr) : Prop :=
  good s = true /\ good s' = true /\ is_trace s' = is_trace s /\ exists t d, apath t d /\ build d = Val P /\ moved s t s'.
Lemma parts_sound k : (forall s P s', read_path rd jd ji k s = MGot P s' -> path_read s P s') ->
  forall n P s Q s', read_parts rd jd ji k n P s = MGot Q s' -> good s' = true ->
  good s = true /\ is_trace s' = is_trace s /\ exists t ds, apaths t ds /\ length ds = n /\ build_all ds P = Val Q /\ moved s t s'.
Proof.
  intros IH. induction n as [|n IHn]; intros P s Q s'; cbn [read_parts].
  - intros E G. injection E as <- <-. split; [exact G|]. split; [reflexivity|]. exists [], []. split; [constructor|]. split; [reflexivity|]. split; [reflexivity|apply moved_nil].
  - mget P1 s1 E. intros H G. destruct (IHn _ _ _ _ H G) as (G1 & Tr1 & t & ds & HP & Len & A & M).
    destruct (IH _ _ _ E) as (G0 & _ & Tr0 & t0 & d & HP0 & B & M0). split; [exact G0|]. split; [congruence|].
    exists (t0 ++ t), (d :: ds). split; [constructor; assumption|]. split; [cbn; lia|]. split; [cbn [build_all]; rewrite B; exact A|]. exact (moved_trans _ _ _ _ _ M0 M).
Qed.

Ltac trace_eq := repeat match goal with H : is_trace (IOTrace _ _) = _ |- _ => cbn [IOTrace is_trace] in H | H : _ = is_trace (IOTrace _ _) |- _ => cbn [IOTrace is_trace] in H end; congruence.
Ltac push G := try (change (good (IOTrace ?d ?x)) with (good x) in G).

Lemma path_sound fuel : forall s P s', read_path rd jd ji fuel s = MGot P s' -> path_read s P s'.
Proof.
  induction fuel as [|k IHk]; intros s P s'; [discriminate|]. cbn [read_path].
  destruct (read_opening 64 (IOTrace "Path::Read" s)) as [w s1|? ?| |] eqn:O; cbn [mbind]; [|discriminate|discriminate|discriminate].
  destruct (text_eqb w (lit "POINT")) eqn:K1; [|destruct (text_eqb w (lit "LINE")) eqn:K2; [|destruct (text_eqb w (lit "CIRCLE")) eqn:K3;
    [|destruct (text_eqb w (lit "ROUNDEDCOMPOSITE")) eqn:K4; [|destruct (text_eqb w (lit "COMPOSITE")) eqn:K5;
    [|destruct (text_eqb w (lit "CYCLIC_CLOSED")) eqn:K6; [|discriminate]]]]]].
  - mget r s2 E. mget r0 s3 E0. intros Q. injection Q as <- <-. destruct r0. apply of_oio_got in E.
    destruct (closing_sound _ _ E0) as (G2 & G3 & (d1 & d2 & D) & t3 & C3 & M3).
    destruct (frame_sound rd _ _ _ _ E G2) as (G1 & Tr2 & t2 & F2 & M2).
    destruct (opening_sound 64 "POINT" _ _ _ O (text_eqb_eq _ _ K1) G1) as (G & Tr1 & t1 & O1 & M1).
    split; [exact G|]. split; [exact G3|]. cbn [IOTrace is_trace] in *. split; [congruence|].
    exists (t1 ++ t2 ++ t3), (DPoint r). split; [constructor; assumption|]. split; [reflexivity|].
    eapply moved_trans; [exact M1|]. eapply moved_trans; [exact M2|exact M3].
  - mget r s2 E. mget r0 s3 E0. mget r1 s4 E1. destruct (read_double rd s4 jd) as [x s5] eqn:Dx. mget r2 s6 E2. intros Q. injection Q as <- <-. destruct r2. apply of_oio_got in E. apply of_oio_got in E0.
    destruct (closing_sound _ _ E2) as (G4 & G5 & (d1 & d2 & D) & t6 & C6 & M6).
    destruct (num_sound rd _ _ _ _ Dx G4) as (G3 & Tr5 & t5 & N5 & M5).
    destruct (interp_sound _ _ _ E1) as (-> & G2 & _ & Tr4 & t4 & I4 & M4).
    destruct (frame_sound rd _ _ _ _ E0 G2) as (G1 & Tr3 & t3 & F3 & M3).
    destruct (frame_sound rd _ _ _ _ E G1) as (G0 & Tr2 & t2 & F2 & M2).
    destruct (opening_sound 64 "LINE" _ _ _ O (text_eqb_eq _ _ K2) G0) as (G & Tr1 & t1 & O1 & M1).
    split; [exact G|]. split; [exact G5|]. cbn [IOTrace is_trace] in *. split; [congruence|].
    exists (t1 ++ t2 ++ t3 ++ t4 ++ t5 ++ t6), (DLine r r0 x). split; [constructor; assumption|]. split; [reflexivity|].
    eapply moved_trans; [exact M1|]. eapply moved_trans; [exact M2|]. eapply moved_trans; [exact M3|]. eapply moved_trans; [exact M4|]. eapply moved_trans; [exact M5|exact M6].
  - mget r s2 E. mget r0 s3 E0. mget r1 s4 E1. mget r2 s5 E2. destruct (read_double rd s5 jd) as [a s6] eqn:Da. mget r3 s7 E3.
    destruct (read_double rd s7 jd) as [x s8] eqn:Dx. mget r4 s9 E4. mget r5 s10 E5. intros Q. injection Q as <- <-. destruct r4. apply of_oio_got in E. apply of_oio_got in E0. apply of_oio_got in E1. apply of_oio_got in E2.
    apply of_result_got in E5. destruct E5 as [CM ->].
    destruct (closing_sound _ _ E4) as (G8 & G9 & (d1 & d2 & D) & t9 & C9 & M9).
    destruct (num_sound rd _ _ _ _ Dx G8) as (G7 & Tr8 & t8 & N8 & M8).
    destruct (interp_sound _ _ _ E3) as (-> & G6 & _ & Tr7 & t7 & I7 & M7).
    destruct (num_sound rd _ _ _ _ Da G6) as (G5 & Tr6 & t6 & N6 & M6).
    destruct (rotation_sound rd _ _ _ _ E2 G5) as (G4 & Tr5 & t5 & F5 & M5).
    destruct (vector_sound rd _ _ _ _ E1 G4) as (G3 & Tr4 & t4 & F4 & M4).
    destruct (vector_sound rd _ _ _ _ E0 G3) as (G2 & Tr3 & t3 & F3 & M3).
    destruct (frame_sound rd _ _ _ _ E G2) as (G1 & Tr2 & t2 & F2 & M2).
    destruct (opening_sound 64 "CIRCLE" _ _ _ O (text_eqb_eq _ _ K3) G1) as (G & Tr1 & t1 & O1 & M1).
    split; [exact G|]. split; [exact G9|]. cbn [IOTrace is_trace] in *. split; [congruence|].
    exists (t1 ++ t2 ++ t3 ++ t4 ++ t5 ++ t6 ++ [] ++ t7 ++ t8 ++ t9), (DCircle r r0 r1 r2 a x).
    split; [apply pt_circle; try assumption; constructor|]. split; [cbn [build]; unfold degrees; change (PI / 180)%R with deg2rad; rewrite CM; reflexivity|].
    eapply moved_trans; [exact M1|]. eapply moved_trans; [exact M2|]. eapply moved_trans; [exact M3|]. eapply moved_trans; [exact M4|].
    eapply moved_trans; [exact M5|]. eapply moved_trans; [exact M6|]. eapply moved_trans; [exact (moved_nil s6)|]. eapply moved_trans; [exact M7|].
    eapply moved_trans; [exact M8|exact M9].
  - destruct (read_double rd (IOTrace "ROUNDEDCOMPOSITE" s1) jd) as [x s2] eqn:Dx. destruct (read_double rd s2 jd) as [y s3] eqn:Dy. mget r s4 E. mget r0 s5 E0.
    apply of_result_got in E0. destruct E0 as [RM ->]. destruct (read_int s4 ji) as [z s6] eqn:Dz. mget r1 s7 E1. mget r2 s8 E2.
    intros Q. injection Q as <- <-. destruct r2.
    destruct (closing_sound _ _ E2) as (G6 & G7 & (d1 & d2 & D) & t7 & C7 & M7).
    destruct (points_sound _ _ _ _ _ E1 G6) as (G5 & Tr6 & t6 & Fs & F6 & Len & AP & M6).
    destruct (int_sound _ _ _ _ Dz G5) as (G4 & Tr5 & t5 & N5 & M5).
    destruct (interp_sound _ _ _ E) as (-> & G3 & _ & Tr4 & t4 & I4 & M4).
    destruct (num_sound rd _ _ _ _ Dy G3) as (G2 & Tr3 & t3 & N3 & M3).
    destruct (num_sound rd _ _ _ _ Dx G2) as (G1 & Tr2 & t2 & N2 & M2).
    destruct (opening_sound 64 "ROUNDEDCOMPOSITE" _ _ _ O (text_eqb_eq _ _ K4) G1) as (G & Tr1 & t1 & O1 & M1).
    split; [exact G|]. split; [exact G7|]. cbn [IOTrace is_trace] in *. split; [congruence|].
    exists (t1 ++ t2 ++ [] ++ t3 ++ [] ++ t4 ++ t5 ++ [] ++ t6 ++ t7), (DRounded x y Fs).
    split; [apply (pt_rounded _ _ _ _ _ _ _ _ _ _ _ _ _ _ _ _ x y z); try assumption; constructor|]. split; [cbn [build]; rewrite RM, AP; reflexivity|].
    cbn [app]. eapply moved_trans; [exact M1|]. eapply moved_trans; [exact M2|]. eapply moved_trans; [exact M3|]. eapply moved_trans; [exact M4|].
    eapply moved_trans; [exact M5|]. eapply moved_trans; [exact M6|exact M7].
  - destruct (read_int (IOTrace "COMPOSITE" s1) ji) as [z s2] eqn:Dz. fold (read_parts rd jd ji k). mget r s3 E. mget r0 s4 E0. intros Q. injection Q as <- <-. destruct r0.
    destruct (closing_sound _ _ E0) as (G3 & G4 & (d1 & d2 & D) & t4 & C4 & M4).
    destruct (parts_sound k IHk _ _ _ _ _ E G3) as (G2 & Tr3 & t3 & ds & P3 & Len & BA & M3).
    destruct (int_sound _ _ _ _ Dz G2) as (G1 & Tr2 & t2 & N2 & M2).
    destruct (opening_sound 64 "COMPOSITE" _ _ _ O (text_eqb_eq _ _ K5) G1) as (G & Tr1 & t1 & O1 & M1).
    split; [exact G|]. split; [exact G4|]. cbn [IOTrace is_trace] in *. split; [congruence|].
    exists (t1 ++ t2 ++ [] ++ t3 ++ t4), (DComposite ds). split; [apply (pt_composite _ _ _ _ _ _ _ _ _ _ _ z); try assumption; constructor|].
    split; [exact BA|]. cbn [app]. eapply moved_trans; [exact M1|]. eapply moved_trans; [exact M2|]. eapply moved_trans; [exact M3|exact M4].
  - mget r s2 E. destruct (read_int s2 ji) as [z s3] eqn:Dz. mget r0 s4 E0. intros Q. injection Q as <- <-. destruct r0.
    destruct (closing_sound _ _ E0) as (G3 & G4 & (d1 & d2 & D) & t4 & C4 & M4).
    destruct (int_sound _ _ _ _ Dz G3) as (G2 & Tr3 & t3 & N3 & M3).
    destruct (IHk _ _ _ E) as (G1 & _ & Tr2 & t2 & d & P2 & B & M2).
    destruct (opening_sound 64 "CYCLIC_CLOSED" _ _ _ O (text_eqb_eq _ _ K6) G1) as (G & Tr1 & t1 & O1 & M1).
    split; [exact G|]. split; [exact G4|]. cbn [IOTrace is_trace] in *. split; [congruence|].
    exists (t1 ++ t2 ++ t3 ++ t4), (DCyclic d z). split; [apply pt_cyclic; assumption|]. split; [cbn [build]; rewrite B; reflexivity|].
    eapply moved_trans; [exact M1|]. eapply moved_trans; [exact M2|]. eapply moved_trans; [exact M3|exact M4].
Qed.

(** the last Eat of a profile may find the end of the text *)
Lemma Eat_text s d s' : d <> "/" -> Eat s d = Got tt s' ->
  good s = true /\ is_trace s' = is_trace s /\ exists b b2 u, skipped b /\ skipped b2 /\ is_rest s = ((b ++ [d]) ++ b2) ++ u /\
    (good s' = true -> u = is_rest s' /\ is_past s' = rev ((b ++ [d]) ++ b2) ++ is_past s).
Proof.
  intros Hd. unfold Eat. destruct (EatSpace s) as [[ch m] s1|e s1| |] eqn:E; cbn [ibind fst]; try discriminate.
  destruct (is_ch ch d) eqn:C; cbn [negb]; [|discriminate]. apply is_ch_eq in C. subst ch.
  destruct (EatSpace s1) as [[ch m2] s2|e2 s2| |] eqn:E2; cbn [ibind fst]; try discriminate. intros Q. injection Q as <-.
  pose proof (EatSpace_char_good _ _ _ _ E) as G. rewrite (good_stream s G) in E. apply EatSpace_sound in E.
  destruct E as (b & Sb & _ & A). split; [exact G|]. inversion A as [c r E1 F1 F3|E1 F1 F3|E1 F1 F3]; subst; [|congruence].
  apply EatSpace_sound in E2. destruct E2 as (b2 & Sb2 & _ & A2).
  inversion A2 as [c r2 K1 K2 K3|K1 K2 K3|K1 K2 K3]; subst.
  - rewrite putback_ok. split; [reflexivity|]. exists b, b2, (c :: r2). split; [exact Sb|]. split; [exact Sb2|]. split; [rewrite E1, <- !app_assoc; reflexivity|].
    intros _. split; [reflexivity|]. cbn [stream is_past]. rewrite !rev_app_distr. cbn. rewrite <- ?app_assoc. reflexivity.
  - split; [reflexivity|]. exists b, b2, ["/"]. split; [exact Sb|]. split; [exact Sb2|]. split; [rewrite E1, <- !app_assoc; reflexivity|]. intros F. discriminate F.
  - split; [reflexivity|]. exists b, b2, []. split; [exact Sb|]. split; [exact Sb2|]. split; [rewrite E1, <- !app_assoc, app_nil_r; reflexivity|]. intros F. discriminate F.
Qed.
Lemma comma_sound s s' : Eat s "," = Got tt s' -> good s' = true ->
  good s = true /\ is_trace s' = is_trace s /\ exists b b2, skipped b /\ skipped b2 /\ moved s (b ++ [","] ++ b2) s'.
Proof.
  intros E G'. destruct (Eat_sound s "," s' ltac:(discriminate) E) as (G & H & _). destruct (H G') as (b & b2 & Sb & Sb2 & T).
  split; [exact G|]. split; [apply T|]. exists b, b2. split; [exact Sb|]. split; [exact Sb2|exact (took_moved _ _ _ T)].
Qed.
Lemma num_skip t x b : skipped b -> num skipped rd t x -> num skipped rd (b ++ t) x.
Proof. intros Sb (b0 & n & v & -> & S0 & N & ->). exists (b ++ b0), n, v. split; [rewrite app_assoc; reflexivity|]. auto using skipped_app. Qed.
Lemma skipped_nil : skipped []. Proof. apply skipped_white. intros c []. Qed.

(** the end of a profile: Eat ']' and one pop; [t] has been taken since the start *)
Lemma prof_end (means : text -> Prof -> Prop) d s s1 t m x s' :
  (forall b b2, skipped b -> skipped b2 -> means (t ++ (b ++ ["]"]) ++ b2) m) ->
  good s = true -> is_trace s1 = d :: is_trace s -> moved s t s1 ->
  mbind (of_io (Eat s1 "]")) (fun _ s => mbind (of_io (IOTracePop s)) (fun _ s => MGot m s)) = MGot x s' -> read_as means s x s'.
Proof.
  intros Hm G Tr M. mget u s2 E. destruct u. apply of_io_got in E. unfold IOTracePop.
  destruct (Eat_text s1 "]" s2 ltac:(discriminate) E) as (G1 & Tr2 & b & b2 & u & Sb & Sb2 & A & H). rewrite Tr2, Tr. cbn [of_io mbind].
  intros Q. injection Q as <- <-. split; [exact G|]. split; [reflexivity|]. exists (t ++ (b ++ ["]"]) ++ b2), u.
  destruct M as [M1 M2]. split; [rewrite M1, A, <- ?app_assoc; reflexivity|]. split; [apply Hm; assumption|].
  change (good (mkIs (is_past s2) (is_rest s2) (is_eof s2) (is_fail s2) (is_bad s2) (is_trace s))) with (good s2). cbn [is_rest is_past]. intros g. destruct (H g) as [-> ->].
  split; [reflexivity|]. rewrite M2, (rev_app_distr t). symmetry. apply app_assoc_reverse.
Qed.
Lemma prof_sound : only_takes (VelocityProfile_Read rd jd jb) (any_prof rd).
Proof.
  intros s x s'. change (VelocityProfile_Read rd jd jb s = MGot x s' -> read_as (any_prof rd) s x s'). unfold VelocityProfile_Read.
  mget w s1 O. destruct (text_eqb w (lit "DIRACVEL")) eqn:K1; [|destruct (text_eqb w (lit "CONSTVEL")) eqn:K2; [|destruct (text_eqb w (lit "TRAPEZOIDAL")) eqn:K3;
    [|destruct (text_eqb w (lit "TRAPEZOIDALHALF")) eqn:K4; [|discriminate]]]].
  - intros H. assert (G1 : good s1 = true).
    { revert H. mget u s2 E. destruct u. apply of_io_got in E. intros _. exact (proj1 (Eat_text s1 "]" s2 ltac:(discriminate) E)). }
    destruct (opening_sound 25 "DIRACVEL" _ _ _ O (text_eqb_eq _ _ K1) G1) as (G & Tr1 & t1 & O1 & M1).
    apply (prof_end _ "VelocityProfile::Read" s s1 t1 (PDirac dirac_make) x s'); try assumption.
    intros b b2 Sb Sb2. constructor; [exact O1|exists b; auto|exact Sb2].
  - destruct (read_double rd s1 jd) as [v s2] eqn:D2. intros H. assert (G2 : good s2 = true).
    { revert H. mget u s3 E. destruct u. apply of_io_got in E. intros _. exact (proj1 (Eat_text s2 "]" s3 ltac:(discriminate) E)). }
    destruct (num_sound rd _ _ _ _ D2 G2) as (G1 & Tr2 & t2 & N2 & M2).
    destruct (opening_sound 25 "CONSTVEL" _ _ _ O (text_eqb_eq _ _ K2) G1) as (G & Tr1 & t1 & O1 & M1).
    apply (prof_end _ "VelocityProfile::Read" s s2 (t1 ++ t2) (PRect (rect_make v)) x s'); try assumption; [|cbn [IOTrace is_trace] in *; congruence|exact (moved_trans _ _ _ _ _ M1 M2)].
    intros b b2 Sb Sb2. rewrite <- app_assoc. apply pr_rect; [exact O1|exact N2|exists b; auto|exact Sb2].
  - destruct (read_double rd s1 jd) as [v s2] eqn:D2. mget u2 s3 E3. destruct u2. apply of_io_got in E3. destruct (read_double rd s3 jd) as [a s4] eqn:D4.
    intros H. assert (G4 : good s4 = true).
    { revert H. mget u s5 E. destruct u. apply of_io_got in E. intros _. exact (proj1 (Eat_text s4 "]" s5 ltac:(discriminate) E)). }
    destruct (num_sound rd _ _ _ _ D4 G4) as (G3 & Tr4 & t4 & N4 & M4). destruct (comma_sound _ _ E3 G3) as (G2 & Tr3 & b3 & b3' & Sb3 & Sb3' & M3).
    destruct (num_sound rd _ _ _ _ D2 G2) as (G1 & Tr2 & t2 & N2 & M2).
    destruct (opening_sound 25 "TRAPEZOIDAL" _ _ _ O (text_eqb_eq _ _ K3) G1) as (G & Tr1 & t1 & O1 & M1).
    apply (prof_end _ "VelocityProfile::Read" s s4 (t1 ++ t2 ++ (b3 ++ [","] ++ b3') ++ t4) (PTrap (trap_make v a)) x s'); try assumption;
      [|cbn [IOTrace is_trace] in *; congruence|exact (moved_trans _ _ _ _ _ M1 (moved_trans _ _ _ _ _ M2 (moved_trans _ _ _ _ _ M3 M4)))].
    intros b b2 Sb Sb2. pose proof (pr_trap skipped rd t1 t2 b3 (b3' ++ t4) (b ++ ["]"]) b2 v a O1 N2 Sb3 (num_skip _ _ _ Sb3' N4) (ex_intro _ b (conj eq_refl Sb)) Sb2) as Q.
    refine (eq_rect _ (fun T => any_prof rd T _) Q _ _). rewrite <- ?app_assoc. cbn [app]. rewrite <- ?app_assoc. reflexivity.
  - destruct (read_double rd s1 jd) as [v s2] eqn:D2. mget u2 s3 E3. destruct u2. apply of_io_got in E3. destruct (read_double rd s3 jd) as [a s4] eqn:D4.
    mget u4 s5 E5. destruct u4. apply of_io_got in E5. destruct (read_bool s5 jb) as [st s6] eqn:D6.
    intros H. assert (G6 : good s6 = true).
    { revert H. mget u s7 E. destruct u. apply of_io_got in E. intros _. exact (proj1 (Eat_text s6 "]" s7 ltac:(discriminate) E)). }
    destruct (read_bool_sound _ _ _ _ D6 G6) as (G5 & w6 & n6 & z & Sw6 & I6 & Hz & -> & T6). destruct (comma_sound _ _ E5 G5) as (G4 & Tr5 & b5 & b5' & Sb5 & Sb5' & M5).
    destruct (num_sound rd _ _ _ _ D4 G4) as (G3 & Tr4 & t4 & N4 & M4). destruct (comma_sound _ _ E3 G3) as (G2 & Tr3 & b3 & b3' & Sb3 & Sb3' & M3).
    destruct (num_sound rd _ _ _ _ D2 G2) as (G1 & Tr2 & t2 & N2 & M2). pose proof (took_moved _ _ _ T6) as M6.
    destruct (opening_sound 25 "TRAPEZOIDALHALF" _ _ _ O (text_eqb_eq _ _ K4) G1) as (G & Tr1 & t1 & O1 & M1).
    apply (prof_end _ "VelocityProfile::Read" s s6 (t1 ++ t2 ++ (b3 ++ [","] ++ b3') ++ t4 ++ (b5 ++ [","] ++ b5') ++ w6 ++ n6) (PHalf (half_make v a (z =? 1))) x s'); try assumption;
      [|destruct T6 as (_ & _ & T6); cbn [IOTrace is_trace] in *; congruence|].
    2:{ exact (moved_trans _ _ _ _ _ M1 (moved_trans _ _ _ _ _ M2 (moved_trans _ _ _ _ _ M3 (moved_trans _ _ _ _ _ M4 (moved_trans _ _ _ _ _ M5 M6))))). }
    intros b b2 Sb Sb2. pose proof (pr_half skipped rd t1 t2 b3 (b3' ++ t4) b5 (b5' ++ w6) n6 z (b ++ ["]"]) b2 v a O1 N2 Sb3 (num_skip _ _ _ Sb3' N4)
      Sb5 (skipped_app _ _ Sb5' Sw6) I6 Hz (ex_intro _ b (conj eq_refl Sb)) Sb2) as Q.
    refine (eq_rect _ (fun T => any_prof rd T _) Q _ _). rewrite <- ?app_assoc. cbn [app]. rewrite <- ?app_assoc. reflexivity.
Qed.
Lemma path_only : only_takes (Path_Read rd jd ji) (path_means rd).
Proof.
  intros s P s' H. destruct (path_sound _ _ _ _ H) as (G & G' & Tr & t & d & A & B & M1 & M2). split; [exact G|]. split; [exact Tr|].
  exists t, (is_rest s'). split; [exact M1|]. split; [exists d; auto|]. auto.
Qed.
Lemma path_good s P s' : Path_Read rd jd ji s = MGot P s' -> good s' = true.
Proof. intros H. destruct (path_sound _ _ _ _ H) as (G & G' & _). exact G'. Qed.
Lemma traj_good s T s' : Trajectory_Read rd jd ji jb s = MGot T s' -> good s' = true.
Proof.
  unfold Trajectory_Read. mget w s1 O. destruct (text_eqb w (lit "SEGMENT")); [|discriminate]. mget g s2 E2. mget m s3 E3. mget u s4 E4. destruct u.
  intros Q. injection Q as _ <-. apply (closing_sound _ _ E4).
Qed.
Lemma traj_only : only_takes (Trajectory_Read rd jd ji jb) (traj_means rd).
Proof.
  intros s T s'. unfold Trajectory_Read. mget w s1 O. destruct (text_eqb w (lit "SEGMENT")) eqn:K; [|discriminate].
  mget g s2 E2. mget m s3 E3. mget u s4 E4. destruct u. intros Q. injection Q as <- <-.
  destruct (closing_sound _ _ E4) as (G3 & G4 & (d1 & d2 & D) & t4 & C4 & M4).
  destruct (prof_sound _ _ _ E3) as (G2 & Tr3 & t3 & u3 & A3 & P3 & H3). destruct (H3 G3) as [-> B3].
  destruct (path_sound _ _ _ _ E2) as (G1 & _ & Tr2 & t2 & d & P2 & Bd & M2).
  destruct (opening_sound 64 "SEGMENT" _ _ _ O (text_eqb_eq _ _ K) G1) as (G & Tr1 & t1 & O1 & M1).
  split; [exact G|]. cbn [IOTrace is_trace] in *. split; [congruence|].
  assert (M : moved s (t1 ++ t2 ++ t3 ++ t4) s4).
  { eapply moved_trans; [exact M1|]. eapply moved_trans; [exact M2|]. eapply moved_trans; [|exact M4]. split; [exact A3|exact B3]. }
  destruct M as [Ma Mb]. exists (t1 ++ t2 ++ t3 ++ t4), (is_rest s4). split; [exact Ma|]. split; [|auto].
  exists d, g, m. split; [constructor; assumption|]. auto.
Qed.
End Sound.
