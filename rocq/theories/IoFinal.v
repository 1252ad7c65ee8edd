(** The statements about frames_io.cpp, and cases that meet or break them. *)
From Coq Require Import Reals ZArith Ascii String List Bool Lia Lra.
From Flocq Require Import Core.
From Verif Require Import FramesModel PathModel IoModel IoSpec IoNum IoEat IoObjects IoComplete IoRound IoTotal.
Import ListNotations.
Local Open Scope char_scope.
Local Open Scope list_scope.
Local Open Scope Z_scope.

(** ** Nothing but texts of the documented form *)
Lemma only_Vector rd : only_reads (read_Vector rd) (vector_text skipped rd).
Proof. intros s old x s' H. exact (read_Vector_sound rd s old x s' H). Qed.
Lemma only_Twist rd : only_reads (read_Twist rd) (twist_text skipped rd).
Proof. intros s old x s' H. exact (read_Twist_sound rd s old x s' H). Qed.
Lemma only_Wrench rd : only_reads (read_Wrench rd) (wrench_text skipped rd).
Proof. intros s old x s' H. exact (read_Wrench_sound rd s old x s' H). Qed.
Lemma only_Rotation rd : only_reads (read_Rotation rd) (rotation_text skipped rd).
Proof. intros s old x s' H. exact (read_Rotation_sound rd s old x s' H). Qed.
Lemma only_Frame rd : only_reads (read_Frame rd) (frame_text skipped rd).
Proof. intros s old x s' H. exact (read_Frame_sound rd s old x s' H). Qed.
Lemma only_Vector2 rd : only_reads (read_Vector2 rd) (vector2_text skipped rd).
Proof. intros s old x s' H. exact (read_Vector2_sound rd s old x s' H). Qed.

(** ** Every text of the documented form *)
Lemma reads_Vector rd t v : vector_list plain rd t v -> reads (read_Vector rd) t v.
Proof. intros H. apply reads_at_reads. apply read_Vector_at. exact H. Qed.
Lemma reads_Twist rd t v : twist_text plain rd t v -> reads (read_Twist rd) t v.
Proof. intros H. apply reads_at_reads. apply read_Twist_at. exact H. Qed.
Lemma reads_Wrench rd t v : wrench_text plain rd t v -> reads (read_Wrench rd) t v.
Proof. intros H. apply reads_at_reads. apply read_Wrench_at. exact H. Qed.
Lemma reads_Rotation rd t r : closed_rotation plain rd t r -> reads (read_Rotation rd) t r.
Proof. intros H. apply reads_at_reads. apply read_Rotation_at. exact H. Qed.
Lemma reads_Frame rd t F : closed_frame plain rd t F -> reads (read_Frame rd) t F.
Proof. intros H. apply reads_at_reads. apply read_Frame_at. exact H. Qed.
Lemma reads_Vector2 rd t v : vector2_text plain rd t v -> reads (read_Vector2 rd) t v.
Proof. intros H. apply reads_at_reads. apply read_Vector2_at. exact H. Qed.

Lemma word_at {T : Type} (rdr : istr -> T -> oio T) b w a x : plain a -> reads_word_at rdr (b ++ w) x -> reads_word rdr b w a x.
Proof.
  intros Ha H past c rest tr old Hc Hn.
  destruct (H (rev past ++ (b ++ w ++ a) ++ c :: rest) tr a c rest (stream past (b ++ w ++ a ++ c :: rest) tr) old Ha Hc) as (s' & E & P).
  - destruct Hn as [Hn|[Hn|Hn]]; [right; left; exact Hn|left; left; symmetry; exact Hn|left; right; left; symmetry; exact Hn].
  - exists (rev past). rewrite rev_involutive, <- !app_assoc. auto.
  - rewrite E. f_equal. exact (at_end past (b ++ w ++ a) (c :: rest) tr s' P).
Qed.
Lemma reads_ZERO rd b w a : plain b -> plain a -> map Upper w = lit "ZERO" -> reads_word (read_Vector rd) b w a v_zero.
Proof.
  intros Hb Ha M. apply word_at; [exact Ha|]. apply read_Vector_zero. exists b, w, []. rewrite app_nil_r. auto using plain_nil.
Qed.
Lemma reads_IDENTITY rd b w a : plain b -> plain a -> map Upper w = lit "IDENTITY" -> reads_word (read_Rotation rd) b w a r_id.
Proof.
  intros Hb Ha M. apply word_at; [exact Ha|]. apply read_Rotation_identity. exists b, w, []. rewrite app_nil_r. auto using plain_nil.
Qed.

(** ** Written and read back *)
Lemma back_Vector rd p v : 1 <= p -> reads (read_Vector rd) (write_Vector p v) (vmap (fun x => rd (round10 p x)) v).
Proof. intros Hp. apply reads_Vector. apply written_Vector. exact Hp. Qed.
Lemma back_Twist rd p v : 1 <= p ->
  reads (read_Twist rd) (write_Twist p v) (mkT (vmap (fun x => rd (round10 p x)) (tvel v)) (vmap (fun x => rd (round10 p x)) (trot v))).
Proof. intros Hp. apply reads_Twist. apply written_Twist. exact Hp. Qed.
Lemma back_Wrench rd p v : 1 <= p ->
  reads (read_Wrench rd) (write_Wrench p v) (mkW (vmap (fun x => rd (round10 p x)) (wforce v)) (vmap (fun x => rd (round10 p x)) (wtorque v))).
Proof. intros Hp. apply reads_Wrench. apply written_Wrench. exact Hp. Qed.
Lemma back_Rotation rd p r : 1 <= p -> reads (read_Rotation rd) (write_Rotation p r) (rmap (fun x => rd (round10 p x)) r).
Proof. intros Hp. apply reads_Rotation. left. apply written_Rotation. exact Hp. Qed.
Lemma back_Frame rd p T : 1 <= p ->
  reads (read_Frame rd) (write_Frame p T) (mkF (rmap (fun x => rd (round10 p x)) (fM T)) (vmap (fun x => rd (round10 p x)) (fp T))).
Proof. intros Hp. apply reads_Frame. apply written_Frame. exact Hp. Qed.
Lemma back_Vector2 rd p v : 1 <= p -> reads (read_Vector2 rd) (write_Vector2 p v) (mkV2 (rd (round10 p (v2x v))) (rd (round10 p (v2y v)))).
Proof. intros Hp. apply reads_Vector2. apply written_Vector2. exact Hp. Qed.

Lemma vmap_id (f : R -> R) v : (forall x, In x (numbers_Vector v) -> f x = x) -> vmap f v = v.
Proof.
  destruct v as [x y z]. unfold vmap, numbers_Vector. cbn [vx vy vz In]. intros H. rewrite !H by tauto. reflexivity.
Qed.
Lemma rmap_id (f : R -> R) r : (forall x, In x (numbers_Rotation r) -> f x = x) -> rmap f r = r.
Proof.
  destruct r as [a b c d e g h i j]. unfold rmap, numbers_Rotation. cbn [r0 r1 r2 r3 r4 r5 r6 r7 r8 In]. intros H. rewrite !H by tauto. reflexivity.
Qed.
Lemma same_Vector p v : 17 <= p -> (forall x, In x (numbers_Vector v) -> is_double x) -> reads (read_Vector to_double) (write_Vector p v) v.
Proof.
  intros Hp H. rewrite <- (vmap_id (fun x => to_double (round10 p x)) v) at 2 by (intros x I; apply seventeen; auto).
  apply back_Vector. lia.
Qed.
Lemma same_Twist p v : 17 <= p -> (forall x, In x (numbers_Vector (tvel v) ++ numbers_Vector (trot v)) -> is_double x) ->
  reads (read_Twist to_double) (write_Twist p v) v.
Proof.
  intros Hp H. pose proof (back_Twist to_double p v ltac:(lia)) as B.
  rewrite !vmap_id in B by (intros x I; apply seventeen; [exact Hp|apply H; apply in_or_app; auto]). destruct v. exact B.
Qed.
Lemma same_Wrench p v : 17 <= p -> (forall x, In x (numbers_Vector (wforce v) ++ numbers_Vector (wtorque v)) -> is_double x) ->
  reads (read_Wrench to_double) (write_Wrench p v) v.
Proof.
  intros Hp H. pose proof (back_Wrench to_double p v ltac:(lia)) as B.
  rewrite !vmap_id in B by (intros x I; apply seventeen; [exact Hp|apply H; apply in_or_app; auto]). destruct v. exact B.
Qed.
Lemma same_Rotation p r : 17 <= p -> (forall x, In x (numbers_Rotation r) -> is_double x) -> reads (read_Rotation to_double) (write_Rotation p r) r.
Proof.
  intros Hp H. pose proof (back_Rotation to_double p r ltac:(lia)) as B.
  rewrite rmap_id in B by (intros x I; apply seventeen; auto). exact B.
Qed.
Lemma same_Frame p T : 17 <= p -> (forall x, In x (numbers_Rotation (fM T) ++ numbers_Vector (fp T)) -> is_double x) ->
  reads (read_Frame to_double) (write_Frame p T) T.
Proof.
  intros Hp H. pose proof (back_Frame to_double p T ltac:(lia)) as B.
  rewrite rmap_id, vmap_id in B by (intros x I; apply seventeen; [exact Hp|apply H; apply in_or_app; auto]). destruct T. exact B.
Qed.
Lemma same_Vector2 p v : 17 <= p -> is_double (v2x v) -> is_double (v2y v) -> reads (read_Vector2 to_double) (write_Vector2 p v) v.
Proof.
  intros Hp Hx Hy. pose proof (back_Vector2 to_double p v ltac:(lia)) as B. rewrite !seventeen in B by assumption. destruct v. exact B.
Qed.

(** the default precision: five millionths of the value *)
Lemma default_error x : (bpow radix2 (-1021) <= Rabs x)%R -> (Rabs (to_double (round10 6 x) - x) <= 51 / 10000000 * Rabs x)%R.
Proof.
  intros H. apply (Rle_trans _ _ _ (short_error 6 x ltac:(lia) H)). apply Rmult_le_compat_r; [apply Rabs_pos|].
  change (bpow radix10 (1 - 6)) with (/ IZR (Z.pow_pos 10 5))%R. change (bpow radix2 (-52)) with (/ IZR (Z.pow_pos 2 52))%R.
  change (Z.pow_pos 10 5) with 100000. change (Z.pow_pos 2 52) with 4503599627370496. lra.
Qed.

(** ** Cases *)
Lemma int_double z : Z.abs z < 2 ^ 53 -> is_double (IZR z).
Proof.
  intros H. apply generic_format_FLT. exists (Float radix2 z 0); [unfold F2R; cbn; ring|exact H|cbn; lia].
Qed.
(** 1234567 is written as 1.23457e+06 *)
Lemma million : round10 6 1234567 = 1234570%R.
Proof.
  unfold round10, round. assert (M : mag radix10 1234567 = 7 :> Z).
  { apply mag_unique. rewrite Rabs_pos_eq by lra. change (bpow radix10 (7 - 1)) with (IZR 1000000). change (bpow radix10 7) with (IZR 10000000). lra. }
  assert (C : cexp radix10 (FLX_exp 6) 1234567 = 1) by (unfold cexp; rewrite M; reflexivity).
  unfold scaled_mantissa. rewrite C. change (bpow radix10 (- (1))) with (/ 10)%R.
  rewrite (Znearest_imp _ (1234567 * / 10) 123457) by (apply Rabs_lt; lra). unfold F2R. cbn [Fnum Fexp]. change (bpow radix10 1) with 10%R. lra.
Qed.
Lemma default_refuted : exists v, (forall x, In x (numbers_Vector v) -> is_double x) /\ ~ reads (read_Vector to_double) (write_Vector 6 v) v.
Proof.
  exists (mkV 1234567 0 0). split.
  - intros x I. cbn in I. destruct I as [<-|[<-|[<-|[]]]]; apply int_double; reflexivity.
  - intros H. specialize (H [] [] [] v_zero). pose proof (back_Vector to_double 6 (mkV 1234567 0 0) ltac:(lia) [] [] [] v_zero) as B.
    rewrite B in H. assert (E : vx (vmap (fun x => to_double (round10 6 x)) (mkV 1234567 0 0)) = 1234567%R)
      by exact (f_equal (fun o => match o with OGot v _ => vx v | _ => 0%R end) H).
    cbn [vmap vx] in E. rewrite million in E. unfold to_double in E. rewrite round_generic in E; [lra|auto with typeclass_instances|].
    exact (int_double 1234570 eq_refl).
Qed.
(** a rotation that is written and read back is the one the argument held before *)
Lemma Rotation2_kept rd p r : 1 <= p -> forall past rest tr old,
  read_Rotation2 rd (stream past (write_Rotation2 p r ++ rest) tr) old = OGot old (stream (rev (write_Rotation2 p r) ++ past) rest tr).
Proof.
  intros Hp past rest tr old.
  destruct (read_Rotation2_at rd _ _ (written_Rotation2 rd p Hp r) _ _ _ _ old (at_start past (write_Rotation2 p r) rest tr)) as (s' & E & P).
  rewrite E. apply at_end in P. subst s'. reflexivity.
Qed.
Lemma Rotation2_refuted : exists r, forall p, 1 <= p -> ~ reads (read_Rotation2 to_double) (write_Rotation2 p r) r.
Proof.
  exists (mkR2 0 1). intros p Hp H. specialize (H [] [] [] (mkR2 1 0)). rewrite (Rotation2_kept _ _ _ Hp) in H. injection H as E _. lra.
Qed.
Lemma Frame2_kept rd p T : 1 <= p -> forall past rest tr old,
  read_Frame2 rd (stream past (write_Frame2 p T ++ rest) tr) old
  = OGot (mkF2 (f2M old) (mkV2 (rd (round10 p (v2x (f2p T)))) (rd (round10 p (v2y (f2p T)))))) (stream (rev (write_Frame2 p T) ++ past) rest tr).
Proof.
  intros Hp past rest tr old.
  destruct (read_Frame2_at rd _ _ _ _ (written_Rotation2 rd p Hp (f2M T)) (written_Vector2 rd p Hp (f2p T)) _ _ _ _ old
    (at_start past (write_Frame2 p T) rest tr)) as (s' & E & P).
  rewrite E. apply at_end in P. subst s'. reflexivity.
Qed.

(** words of ten characters and texts that stop early *)
Lemma long_word_undefined rd tr old : read_Vector rd (stream [] (lit "ABCDEFGHIJ[1,2,3]") tr) old = OUb.
Proof. vm_compute. reflexivity. Qed.
Lemma slash_undefined rd tr old : read_Vector rd (stream [] (lit "/") tr) old = OUb.
Proof. vm_compute. reflexivity. Qed.
Lemma short_Rotation_undefined rd tr old : read_Rotation rd (stream [] (lit "RPY ") tr) old = OUb.
Proof. vm_compute. reflexivity. Qed.
Lemma short_Frame_undefined rd tr old : read_Frame rd (stream [] (lit "[") tr) old = OUb.
Proof. vm_compute. reflexivity. Qed.
Lemma word_at_end rd tr old : exists s, read_Vector rd (stream [] (lit "ZERO") tr) old = OThrew Error_BasicIO_File old s.
Proof. eexists. vm_compute. reflexivity. Qed.
(** a bad second component: the first has been stored *)
Lemma partly_read : exists e x s, read_Vector to_double (stream [] (lit "[1,a,2]") []) v_zero = OThrew e x s /\ x <> v_zero /\ is_trace s <> [].
Proof.
  assert (N : numeral ["1"] 1).
  { exists [], 1, ["1"], [], [], [], 0. split; [reflexivity|]. split; [constructor|]. split; [intros c [<-|[]]; cbn; tauto|]. split; [intros c []|].
    split; [right; split; reflexivity|]. split; [discriminate|]. split; [constructor|].
    change (number (["1"] ++ [])) with 1. change (0 - Z.of_nat (length (@nil ascii))) with 0. change (powerRZ 10 0) with 1%R. lra. }
  unfold read_Vector. change (stream [] (lit "[1,a,2]") []) with (stream [] ([] ++ "[" :: lit "1,a,2]") []).
  change (IOTrace "Stream input Vector (vector or ZERO)" (stream [] ([] ++ "[" :: lit "1,a,2]") []))
    with (stream [] ([] ++ "[" :: lit "1,a,2]") ["Stream input Vector (vector or ZERO)"%string]).
  rewrite (EatWord_none [] _ (lit "[]") 9 "[" _ _ plain_nil (tokb_tok "[" eq_refl) eq_refl). cbn [lift]. change (text_eqb [] []) with true. cbv iota.
  match goal with |- context [Eat ?s "["] => change s with (stream [] ([] ++ "[" :: [] ++ "1" :: lit ",a,2]") ["Stream input Vector (vector or ZERO)"%string]) end.
  rewrite (Eat_plain [] [] _ "[" "1" _ _ plain_nil plain_nil (tokb_tok "[" eq_refl) (tokb_tok "1" eq_refl)). cbn [lift].
  match goal with |- context [read_double to_double ?s _] => change s with (stream ["["] ([] ++ ["1"] ++ "," :: lit "a,2]") ["Stream input Vector (vector or ZERO)"%string]) end.
  rewrite (read_double_plain to_double [] ["1"] 1 "," _ _ _ _ plain_nil N ltac:(repeat split; discriminate)).
  match goal with |- context [Eat ?s ","] => change s with (stream ["1"; "["] ([] ++ "," :: [] ++ "a" :: lit ",2]") ["Stream input Vector (vector or ZERO)"%string]) end.
  rewrite (Eat_plain [] [] _ "," "a" _ _ plain_nil plain_nil (tokb_tok "," eq_refl) (tokb_tok "a" eq_refl)). cbn [lift vx vy vz].
  match goal with |- context [read_double to_double ?s ?o] => replace (read_double to_double s o)
    with (0%R, mkIs [","; "1"; "["] (lit "a,2]") false true false ["Stream input Vector (vector or ZERO)"%string]) by reflexivity end.
  cbn [vx vy vz]. eexists. eexists. eexists. split; [cbv beta iota; cbn [lift Eat]; reflexivity|]. split; [|discriminate].
  intros E. assert (E1 : to_double 1 = 0%R) by (apply (f_equal vx) in E; exact E).
  unfold to_double in E1. rewrite round_generic in E1; [lra|auto with typeclass_instances|exact (int_double 1 eq_refl)].
Qed.

(** a frame whose numbers are doubles, in the hypotheses of [same_Frame] *)
Lemma frame_case : forall x, In x (numbers_Rotation (fM (mkF (mkR 0 (-1) 0 1 0 0 0 0 1) (mkV (1 / 2) 1234567 (-3))))
  ++ numbers_Vector (fp (mkF (mkR 0 (-1) 0 1 0 0 0 0 1) (mkV (1 / 2) 1234567 (-3))))) -> is_double x.
Proof.
  assert (D : forall z : Z, Z.abs z < 2 ^ 53 -> is_double (IZR z)) by exact int_double.
  intros x I. cbn in I.
  decompose [or] I; subst; try contradiction; try (apply int_double; reflexivity).
  apply generic_format_FLT. exists (Float radix2 1 (-1)); [unfold F2R; cbn; lra|reflexivity|cbn; lia].
Qed.
