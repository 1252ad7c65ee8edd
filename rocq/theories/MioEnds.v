(** The readers of paths, profiles and trajectories come to an end on every text. *)
From Coq Require Import Reals ZArith Ascii String List Bool Lia.
From Verif Require Import FramesModel Outcome ProfModel PathModel IoModel IoSpec IoNum IoEat IoObjects IoFinal IoTotal MioModel MioSpec MioComplete MioSound.
Import ListNotations.
Local Open Scope char_scope.
Local Open Scope list_scope.
Local Open Scope nat_scope.

Definition halts {A : Type} (m : mio A) : Prop := match m with MHang => False | _ => True end.
Lemma halts_bind {A B : Type} (m : mio A) (k : A -> istr -> mio B) : halts m -> (forall a s, m = MGot a s -> halts (k a s)) -> halts (mbind m k).
Proof. destruct m; cbn; auto. Qed.
Lemma halts_io {A : Type} (m : io A) : no_hang m -> halts (of_io m). Proof. destruct m; cbn; auto. Qed.
Lemma halts_oio {A : Type} (m : oio A) : ends m -> halts (of_oio m). Proof. destruct m; cbn; auto. Qed.
Lemma halts_result {A : Type} (m : result A) s : halts (of_result m s). Proof. destruct m; cbn; auto. Qed.
Lemma halts_pop s : halts (of_io (IOTracePop s)). Proof. unfold IOTracePop. destruct (is_trace s); exact I. Qed.
Lemma halts_opening n s : halts (read_opening n s).
Proof.
  apply halts_bind; [apply halts_io, no_hang_EatWord|]. intros w s1 _. apply halts_bind; [apply halts_io, fine_no_hang, fine_Eat|]. intros; exact I.
Qed.
Lemma halts_closing s : halts (read_closing s).
Proof.
  apply halts_bind; [apply halts_io, fine_no_hang, fine_EatEnd|]. intros u s1 _. apply halts_bind; [apply halts_pop|]. intros; apply halts_pop.
Qed.
Lemma halts_interp s : halts (read_Interp s).
Proof.
  apply halts_bind; [apply halts_opening|]. intros w s1 _. destruct (text_eqb _ _); [apply halts_bind; [apply halts_closing|intros; exact I]|].
  destruct (text_eqb _ _); [exact I|]. destruct (text_eqb _ _); exact I.
Qed.

(** ** How much is left *)
Definition left_ (s : istr) : nat := length (is_rest s).
Lemma Eat_shorter s d s' : d <> "/" -> Eat s d = Got tt s' -> left_ s' < left_ s.
Proof.
  intros Hd. unfold Eat. destruct (EatSpace s) as [[ch m] s1|e s1| |] eqn:E; cbn [ibind fst]; try discriminate.
  destruct (is_ch ch d) eqn:C; cbn [negb]; [|discriminate]. apply is_ch_eq in C. subst ch.
  destruct (EatSpace s1) as [[ch m2] s2|e2 s2| |] eqn:E2; cbn [ibind fst]; try discriminate. intros Q. injection Q as <-.
  pose proof (EatSpace_char_good _ _ _ _ E) as G. rewrite (good_stream s G) in E. apply EatSpace_sound in E.
  destruct E as (b & Sb & _ & A). inversion A as [c r E1 F1 F3|E1 F1 F3|E1 F1 F3]; subst; [|congruence].
  apply EatSpace_sound in E2. destruct E2 as (b2 & Sb2 & _ & A2). unfold left_. rewrite E1, app_length. cbn [length].
  inversion A2 as [c r2 K1 K2 K3|K1 K2 K3|K1 K2 K3]; subst.
  - rewrite putback_ok. cbn [stream is_rest]. rewrite app_length. cbn [length]. lia.
  - cbn [putback is_rest]. unfold putback. cbn. lia.
  - cbn. lia.
Qed.
Lemma opening_shorter n s w s1 : read_opening n s = MGot w s1 -> left_ s1 < left_ s.
Proof.
  unfold read_opening. destruct (EatWord s (lit "[") n) as [w0 s0|e s0| |] eqn:E0; cbn [of_io mbind]; try discriminate.
  destruct (Eat s0 "[") as [u2 s2|e s2| |] eqn:E2; cbn [of_io mbind]; try discriminate. destruct u2. intros Q. injection Q as -> ->.
  pose proof (Eat_shorter s0 "[" s1 ltac:(discriminate) E2) as L. destruct (Eat_sound s0 "[" s1 ltac:(discriminate) E2) as (G0 & _ & _).
  destruct (EatWord_sound s (lit "[") n w s0 eq_refl E0) as (G & b0 & raw & u & Sb0 & M & R & Tr & H1 & _).
  destruct (H1 G0) as (a & Sa & (T0 & _) & _). unfold left_ in *. rewrite T0, app_length. lia.
Qed.
Lemma extract_shorter {A B : Type} (num_get : text -> text * text * option A) (conv : A -> B * bool) (dflt : B) s old x s' :
  (forall t tk r o, num_get t = (tk, r, o) -> t = tk ++ r) ->
  extract num_get conv dflt s old = (x, s') -> left_ s' <= left_ s.
Proof.
  intros HN. unfold extract. destruct (good s).
  2:{ intros Q. injection Q as _ <-. unfold left_, set_fail. cbn [is_rest]. lia. }
  pose proof (span_spec is_space (is_rest s)) as SP. destruct (span is_space (is_rest s)) as [ws t]. destruct SP as (E & _ & _).
  unfold left_. rewrite E, app_length. destruct t as [|c t]; [intros Q; injection Q as _ <-; cbn; lia|].
  destruct (num_get (c :: t)) as [[tok0 r] [v|]] eqn:N; apply HN in N; rewrite N, app_length.
  - destruct (conv v) as [y f]. intros Q. injection Q as _ <-. cbn [is_rest]. lia.
  - intros Q. injection Q as _ <-. cbn [is_rest]. lia.
Qed.
Lemma num_int_split t tk r o : num_int t = (tk, r, o) -> t = tk ++ r.
Proof.
  unfold num_int. pose proof (take_sign_spec t) as T. destruct (take_sign t) as [sg t1]. destruct T as [-> _].
  pose proof (span_spec is_digit t1) as Sp. destruct (span is_digit t1) as [ip t2]. destruct Sp as (-> & _ & _).
  destruct ip; intros Q; injection Q as <- <- _; rewrite <- app_assoc; reflexivity.
Qed.
Lemma int_shorter s old x s' : read_int s old = (x, s') -> left_ s' <= left_ s.
Proof. apply extract_shorter. exact num_int_split. Qed.

Section Ends.
Variable rd : R -> R.
Variable jd : R.
Variable ji : Z.
Variable jb : bool.

Lemma halts_points n : forall P s, halts (read_points rd n P s).
Proof.
  induction n as [|n IH]; intros P s; [exact I|]. cbn [read_points]. apply halts_bind; [apply halts_oio, Frame_ends|]. intros F s1 _.
  destruct (rounded_Add P F) as [P' r]. apply halts_bind; [apply halts_result|]. intros; apply IH.
Qed.
Lemma path_shorter k s P s' : read_path rd jd ji k s = MGot P s' -> left_ s' <= left_ s.
Proof. intros H. destruct (path_sound rd jd ji k s P s' H) as (_ & _ & _ & t & d & _ & _ & M & _). unfold left_. rewrite M, app_length. lia. Qed.
Lemma halts_parts k : (forall s, left_ s < k -> halts (read_path rd jd ji k s)) -> forall n P s, left_ s < k -> halts (read_parts rd jd ji k n P s).
Proof.
  intros IH. induction n as [|n IHn]; intros P s L; [exact I|]. cbn [read_parts]. apply halts_bind; [apply IH; exact L|]. intros Q s1 E. apply IHn.
  apply path_shorter in E. lia.
Qed.
Lemma halts_path fuel : forall s, left_ s < fuel -> halts (read_path rd jd ji fuel s).
Proof.
  induction fuel as [|k IH]; intros s L; [lia|]. cbn [read_path].
  apply halts_bind; [apply halts_opening|]. intros w s1 E. apply opening_shorter in E. change (left_ (IOTrace "Path::Read" s)) with (left_ s) in E.
  assert (L1 : left_ s1 < k) by lia.
  destruct (text_eqb _ _).
  { apply halts_bind; [apply halts_oio, Frame_ends|]. intros F s2 _. apply halts_bind; [apply halts_closing|]. intros; exact I. }
  destruct (text_eqb _ _).
  { apply halts_bind; [apply halts_oio, Frame_ends|]. intros F s2 _. apply halts_bind; [apply halts_oio, Frame_ends|]. intros G s3 _.
    apply halts_bind; [apply halts_interp|]. intros o s4 _. destruct (read_double _ _ _) as [x s5]. apply halts_bind; [apply halts_closing|]. intros; exact I. }
  destruct (text_eqb _ _).
  { apply halts_bind; [apply halts_oio, Frame_ends|]. intros F s2 _. apply halts_bind; [apply halts_oio, Vector_ends|]. intros G s3 _.
    apply halts_bind; [apply halts_oio, Vector_ends|]. intros H s4 _. apply halts_bind; [apply halts_oio, Rotation_ends|]. intros J s5 _.
    destruct (read_double _ _ _) as [x s6]. apply halts_bind; [apply halts_interp|]. intros o s7 _. destruct (read_double _ _ _) as [y s8].
    apply halts_bind; [apply halts_closing|]. intros u s9 _. apply halts_bind; [apply halts_result|]. intros; exact I. }
  destruct (text_eqb _ _).
  { destruct (read_double _ _ _) as [x s2]. destruct (read_double _ _ _) as [y s3]. apply halts_bind; [apply halts_interp|]. intros o s4 _.
    apply halts_bind; [apply halts_result|]. intros P s5 _. destruct (read_int _ _) as [z s6]. apply halts_bind; [apply halts_points|]. intros Q s7 _.
    apply halts_bind; [apply halts_closing|]. intros; exact I. }
  destruct (text_eqb _ _).
  { destruct (read_int _ _) as [z s2] eqn:D. apply int_shorter in D. change (left_ (IOTrace "COMPOSITE" s1)) with (left_ s1) in D. fold (read_parts rd jd ji k).
    apply halts_bind; [apply halts_parts; [exact IH|lia]|]. intros P s3 _. apply halts_bind; [apply halts_closing|]. intros; exact I. }
  destruct (text_eqb _ _).
  { apply halts_bind; [apply IH; exact L1|]. intros P s2 _. destruct (read_int _ _) as [z s3]. apply halts_bind; [apply halts_closing|]. intros; exact I. }
  exact I.
Qed.
Lemma Path_halts s : Path_Read rd jd ji s <> MHang.
Proof. intros E. pose proof (halts_path (S (length (is_rest s))) s) as H. unfold Path_Read in E. rewrite E in H. apply H. unfold left_. lia. Qed.
Lemma Prof_halts s : VelocityProfile_Read rd jd jb s <> MHang.
Proof.
  enough (H : halts (VelocityProfile_Read rd jd jb s)) by (intros E; rewrite E in H; exact H).
  unfold VelocityProfile_Read. apply halts_bind; [apply halts_opening|]. intros w s1 _.
  assert (EE : forall d s, halts (of_io (Eat s d))) by (intros; apply halts_io, fine_no_hang, fine_Eat).
  repeat (destruct (text_eqb _ _) || destruct (read_double _ _ _) || destruct (read_bool _ _)
    || (apply halts_bind; [first [apply EE|apply halts_pop]|intros]) || exact I).
Qed.
Lemma Traj_halts s : Trajectory_Read rd jd ji jb s <> MHang.
Proof.
  enough (H : halts (Trajectory_Read rd jd ji jb s)) by (intros E; rewrite E in H; exact H).
  unfold Trajectory_Read. apply halts_bind; [apply halts_opening|]. intros w s1 _. destruct (text_eqb _ _); [|exact I].
  apply halts_bind; [apply halts_path; unfold left_; lia|]. intros P s2 _.
  apply halts_bind; [pose proof (Prof_halts s2) as H; destruct (VelocityProfile_Read rd jd jb s2); cbn; auto|]. intros m s3 _.
  apply halts_bind; [apply halts_closing|]. intros; exact I.
Qed.
End Ends.
