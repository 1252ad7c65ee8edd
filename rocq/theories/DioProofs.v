(** Proofs for C82. *)
From Coq Require Import Reals ZArith Ascii String List Bool Permutation Arith Lia Lra.
From Flocq Require Import Core.
From Verif Require Import FramesModel Outcome InertiaModel DualModel IoModel IoSpec IoNum IoRound IoComplete IoFinal KioModel KioSpec KioTree KioText DioModel DioSpec.
Import ListNotations.
Local Open Scope char_scope.
Local Open Scope list_scope.
Local Open Scope Z_scope.

Section Tell.
Variable p : Z.
Hypothesis P : 1 <= p.
Lemma tells_Vector : tells (write_Vector p) numbers_Vector (agree p).
Proof. intros a b x y E. exact (vector_inj p a b x y P E). Qed.
Lemma tells_Rotation : tells (write_Rotation p) numbers_Rotation (agree p).
Proof.
  intros a b x y E. destruct (reads_inj (read_Rotation (fun x => x)) r_id _ _ _ _ _ _ (back_Rotation _ p a P) (back_Rotation _ p b P) E) as [A B].
  injection A as M1 M2 M3 M4 M5 M6 M7 M8 M9. split; [|exact B]. repeat (constructor; [assumption|]). constructor.
Qed.
Ltac peel H := match type of H with
  | ?l ++ _ = ?l ++ _ => apply app_inv_head in H
  | _ => fail
  end.
Ltac go E := rewrite <- ?app_assoc in E.
Lemma tells_VectorVel : tells (write_VectorVel p) numbers_VectorVel (agree p).
Proof.
  intros a b x y E. unfold write_VectorVel in E. go E. peel E. apply tells_Vector in E. destruct E as [A E]. peel E.
  apply tells_Vector in E. destruct E as [B E]. do 2 peel E. split; [apply Forall2_app; assumption|exact E].
Qed.
Lemma tells_RotationVel : tells (write_RotationVel p) numbers_RotationVel (agree p).
Proof.
  intros a b x y E. unfold write_RotationVel in E. go E. do 2 peel E. apply tells_Rotation in E. destruct E as [A E]. do 2 peel E.
  apply tells_Vector in E. destruct E as [B E]. do 3 peel E. split; [apply Forall2_app; assumption|exact E].
Qed.
Lemma tells_FrameVel : tells (write_FrameVel p) numbers_FrameVel (agree p).
Proof.
  intros a b x y E. unfold write_FrameVel in E. go E. do 2 peel E. apply tells_RotationVel in E. destruct E as [A E]. do 2 peel E.
  apply tells_VectorVel in E. destruct E as [B E]. do 3 peel E. split; [apply Forall2_app; assumption|exact E].
Qed.
Lemma tells_TwistVel : tells (write_TwistVel p) numbers_TwistVel (agree p).
Proof.
  intros a b x y E. unfold write_TwistVel in E. go E. do 2 peel E. apply tells_VectorVel in E. destruct E as [A E]. do 2 peel E.
  apply tells_VectorVel in E. destruct E as [B E]. do 3 peel E. split; [apply Forall2_app; assumption|exact E].
Qed.
Lemma tells_VectorAcc : tells (write_VectorAcc p) numbers_VectorAcc (agree p).
Proof.
  intros a b x y E. unfold write_VectorAcc in E. go E. peel E. apply tells_Vector in E. destruct E as [A E]. peel E.
  apply tells_Vector in E. destruct E as [B E]. peel E. apply tells_Vector in E. destruct E as [C E]. do 2 peel E.
  split; [repeat apply Forall2_app; assumption|exact E].
Qed.
Lemma tells_RotationAcc : tells (write_RotationAcc p) numbers_RotationAcc (agree p).
Proof.
  intros a b x y E. unfold write_RotationAcc in E. go E. do 2 peel E. apply tells_Rotation in E. destruct E as [A E]. do 2 peel E.
  apply tells_Vector in E. destruct E as [B E]. do 2 peel E. apply tells_Vector in E. destruct E as [C E]. do 3 peel E.
  split; [repeat apply Forall2_app; assumption|exact E].
Qed.
Lemma tells_FrameAcc : tells (write_FrameAcc p) numbers_FrameAcc (agree p).
Proof.
  intros a b x y E. unfold write_FrameAcc in E. go E. do 2 peel E. apply tells_RotationAcc in E. destruct E as [A E]. do 2 peel E.
  apply tells_VectorAcc in E. destruct E as [B E]. do 2 peel E. split; [apply Forall2_app; assumption|exact E].
Qed.
Lemma tells_TwistAcc : tells (write_TwistAcc p) numbers_TwistAcc (agree p).
Proof.
  intros a b x y E. unfold write_TwistAcc in E. go E. do 2 peel E. apply tells_VectorAcc in E. destruct E as [A E]. do 2 peel E.
  apply tells_VectorAcc in E. destruct E as [B E]. do 3 peel E. split; [apply Forall2_app; assumption|exact E].
Qed.
(** numbers without width *)
Lemma numeral_chars t v : numeral t v -> forall c, In c t -> In c ["0"; "1"; "2"; "3"; "4"; "5"; "6"; "7"; "8"; "9"; "+"; "-"; "."; "e"; "E"].
Proof.
  intros (sg & s & ip & dot & fp & ex & e & -> & Hs & Hi & Hf & Hd & _ & He & _) c H.
  assert (DG : forall u, digits_text u -> In c u -> In c ["0"; "1"; "2"; "3"; "4"; "5"; "6"; "7"; "8"; "9"; "+"; "-"; "."; "e"; "E"]).
  { intros u Hu Hc. specialize (Hu c Hc). cbn in Hu |- *. tauto. }
  assert (SG : forall u k, sign_text u k -> In c u -> In c ["0"; "1"; "2"; "3"; "4"; "5"; "6"; "7"; "8"; "9"; "+"; "-"; "."; "e"; "E"]).
  { intros u k Hu Hc. destruct Hu; cbn in Hc |- *; tauto. }
  rewrite !in_app_iff in H. destruct H as [H|[H|[H|[H|H]]]]; eauto.
  - destruct Hd as [->|[-> _]]; cbn in H |- *; tauto.
  - destruct He; [contradiction|]. cbn in H. destruct H as [H|H]; [destruct H0; subst; cbn; tauto|]. rewrite in_app_iff in H. destruct H; eauto.
Qed.
Lemma fmt_no c x : ~ In c ["0"; "1"; "2"; "3"; "4"; "5"; "6"; "7"; "8"; "9"; "+"; "-"; "."; "e"; "E"] -> ~ In c (fmt_double p x).
Proof. intros N H. apply N. exact (numeral_chars _ _ (fmt_numeral p P x) c H). Qed.
Lemma comma_no x : ~ In "," (fmt_double p x). Proof. apply fmt_no. cbn. intuition discriminate. Qed.
Lemma paren_no x : ~ In ")" (fmt_double p x). Proof. apply fmt_no. cbn. intuition discriminate. Qed.
Lemma fmt_agree x y : fmt_double p x = fmt_double p y -> agree p x y.
Proof. intro E. apply put_agree; auto. unfold put. now rewrite E. Qed.
Lemma tells_Rall1d d : tells (write_Rall1d d p) numbers_dVel (agree p).
Proof.
  intros a b x y E. unfold write_Rall1d in E. go E. do 7 peel E.
  change (lit ",") with [","] in E. change (lit ")") with [")"] in E. cbn [app] in E.
  apply split_at in E; [|apply comma_no..]. destruct E as [A E]. apply split_at in E; [|apply paren_no..]. destruct E as [B E].
  split; [|exact E]. repeat (constructor; [apply fmt_agree; assumption|]). constructor.
Qed.
Lemma tells_Rall2d d : tells (write_Rall2d d p) numbers_dAcc (agree p).
Proof.
  intros a b x y E. unfold write_Rall2d in E. go E. do 7 peel E.
  change (lit ",") with [","] in E. change (lit ")") with [")"] in E. cbn [app] in E.
  apply split_at in E; [|apply comma_no..]. destruct E as [A E]. apply split_at in E; [|apply comma_no..]. destruct E as [B E].
  apply split_at in E; [|apply paren_no..]. destruct E as [C E].
  split; [|exact E]. repeat (constructor; [apply fmt_agree; assumption|]). constructor.
Qed.

(** *** Layout *)
Lemma plain_none : plain []. Proof. intros c []. Qed.
Lemma plain_one : plain [nl]. Proof. intros c [<-|[]]. cbn. auto. Qed.
Lemma braced2 b1 b2 b3 b4 x y : plain b1 -> plain b2 -> plain b3 -> plain b4 ->
  braced (["{"] ++ (b1 ++ x ++ b2 ++ [","] ++ (b3 ++ y ++ b4)) ++ ["}"] ++ [nl]) [x; y].
Proof. intros. eexists. split; [reflexivity|]. apply ps_more; auto. apply ps_last; auto. Qed.
Lemma braced3 b1 b2 b3 b4 b5 b6 x y z : plain b1 -> plain b2 -> plain b3 -> plain b4 -> plain b5 -> plain b6 ->
  braced (["{"] ++ (b1 ++ x ++ b2 ++ [","] ++ (b3 ++ y ++ b4 ++ [","] ++ (b5 ++ z ++ b6))) ++ ["}"] ++ [nl]) [x; y; z].
Proof. intros. eexists. split; [reflexivity|]. apply ps_more; auto. apply ps_more; auto. apply ps_last; auto. Qed.
Let rnd := fun x => round10 p x.
Lemma prints_V v : prints_Vector rnd (write_Vector p v) v.
Proof. exact (written_Vector (fun x => x) p P v). Qed.
Lemma prints_R r : prints_Rotation rnd (write_Rotation p r) r.
Proof. exact (written_Rotation (fun x => x) p P r). Qed.
Ltac lay2 a b b1 b2 b3 b4 := exists a, b; split;
  [match goal with |- braced ?t _ => replace t with (["{"] ++ (b1 ++ a ++ b2 ++ [","] ++ (b3 ++ b ++ b4)) ++ ["}"] ++ [nl]);
     [apply braced2; first [apply plain_none|apply plain_one] | cbn [lit list_ascii_of_string]; rewrite <- ?app_assoc; reflexivity] end|].
Ltac lay3 a b c b1 b2 b3 b4 b5 b6 := exists a, b, c; split;
  [match goal with |- braced ?t _ => replace t with (["{"] ++ (b1 ++ a ++ b2 ++ [","] ++ (b3 ++ b ++ b4 ++ [","] ++ (b5 ++ c ++ b6))) ++ ["}"] ++ [nl]);
     [apply braced3; first [apply plain_none|apply plain_one] | cbn [lit list_ascii_of_string]; rewrite <- ?app_assoc; reflexivity] end|].
Lemma prints_VV r : prints_VectorVel rnd (write_VectorVel p r) r.
Proof. unfold write_VectorVel. lay2 (write_Vector p (vvp r)) (write_Vector p (vvv r)) (@nil ascii) (@nil ascii) (@nil ascii) (@nil ascii). split; apply prints_V. Qed.
Lemma prints_RV r : prints_RotationVel rnd (write_RotationVel p r) r.
Proof. unfold write_RotationVel. lay2 (write_Rotation p (rvR r)) (write_Vector p (rvw r)) [nl] (@nil ascii) [nl] [nl]. split; [apply prints_R|apply prints_V]. Qed.
Lemma prints_FV r : prints_FrameVel rnd (write_FrameVel p r) r.
Proof. unfold write_FrameVel. lay2 (write_RotationVel p (fvM r)) (write_VectorVel p (fvp r)) [nl] (@nil ascii) [nl] [nl]. split; [apply prints_RV|apply prints_VV]. Qed.
Lemma prints_TV r : prints_TwistVel rnd (write_TwistVel p r) r.
Proof. unfold write_TwistVel. lay2 (write_VectorVel p (tvvel r)) (write_VectorVel p (tvrot r)) [nl] (@nil ascii) [nl] [nl]. split; apply prints_VV. Qed.
Lemma prints_VA r : prints_VectorAcc rnd (write_VectorAcc p r) r.
Proof.
  unfold write_VectorAcc. lay3 (write_Vector p (vap r)) (write_Vector p (vav r)) (write_Vector p (vadv r)) (@nil ascii) (@nil ascii) (@nil ascii) (@nil ascii) (@nil ascii) (@nil ascii).
  split; [|split]; apply prints_V.
Qed.
Lemma prints_RA r : prints_RotationAcc rnd (write_RotationAcc p r) r.
Proof.
  unfold write_RotationAcc. lay3 (write_Rotation p (raR r)) (write_Vector p (raw r)) (write_Vector p (radw r)) [nl] (@nil ascii) [nl] (@nil ascii) [nl] [nl].
  split; [apply prints_R|split; apply prints_V].
Qed.
Lemma prints_FA r : prints_FrameAcc rnd (write_FrameAcc p r) r.
Proof. unfold write_FrameAcc. lay2 (write_RotationAcc p (faM r)) (write_VectorAcc p (fap r)) [nl] (@nil ascii) [nl] (@nil ascii). split; [apply prints_RA|apply prints_VA]. Qed.
Lemma prints_TA r : prints_TwistAcc rnd (write_TwistAcc p r) r.
Proof. unfold write_TwistAcc. lay2 (write_VectorAcc p (tavel r)) (write_VectorAcc p (tarot r)) [nl] (@nil ascii) [nl] [nl]. split; apply prints_VA. Qed.
End Tell.
Lemma rall_text d p (a : dVel) (b : dAcc) : 1 <= p ->
  (exists t g, write_Rall1d d p a = lit "Rall1d<" ++ d ++ lit ", " ++ d ++ lit ", " ++ d ++ lit ">(" ++ t ++ [","] ++ g ++ [")"] /\
     numeral t (round10 p (d1t a)) /\ numeral g (round10 p (d1g a))) /\
  (exists t g h, write_Rall2d d p b = lit "Rall2d<" ++ d ++ lit ", " ++ d ++ lit ", " ++ d ++ lit ">(" ++ t ++ [","] ++ g ++ [","] ++ h ++ [")"] /\
     numeral t (round10 p (d2t b)) /\ numeral g (round10 p (d2d b)) /\ numeral h (round10 p (d2dd b))).
Proof.
  intro P. split.
  - exists (fmt_double p (d1t a)), (fmt_double p (d1g a)). split; [reflexivity|]. split; apply fmt_numeral; exact P.
  - exists (fmt_double p (d2t b)), (fmt_double p (d2d b)), (fmt_double p (d2dd b)). split; [reflexivity|]. split; [|split]; apply fmt_numeral; exact P.
Qed.
(** with 17 digits the text tells the doubles *)
Lemma tells_exact {T : Type} (w : T -> text) (n : T -> list R) p a b : 17 <= p -> tells w n (agree p) ->
  (forall x, In x (n a ++ n b) -> is_double x) -> w a = w b -> n a = n b.
Proof.
  intros P H D E. assert (E' : w a ++ [] = w b ++ []) by congruence. destruct (H a b [] [] E') as [F _].
  revert D. induction F as [|x y l l' A F IH]; auto. intro D. f_equal.
  - apply (agree_exact p); auto; apply D; cbn; rewrite ?in_app_iff; cbn; auto.
  - apply IH. intros z Hz. apply D. cbn. rewrite in_app_iff in *. cbn. tauto.
Qed.
Lemma frame_vel_ext a b : numbers_FrameVel a = numbers_FrameVel b -> a = b.
Proof. destruct a as [[[] []] [[] []]], b as [[[] []] [[] []]]. cbn. intro E. injection E. intros. subst. reflexivity. Qed.
Lemma frame_acc_ext a b : numbers_FrameAcc a = numbers_FrameAcc b -> a = b.
Proof. destruct a as [[[] [] []] [[] [] []]], b as [[[] [] []] [[] [] []]]. cbn. intro E. injection E. intros. subst. reflexivity. Qed.
Lemma twist_vel_ext a b : numbers_TwistVel a = numbers_TwistVel b -> a = b.
Proof. destruct a as [[[] []] [[] []]], b as [[[] []] [[] []]]. cbn. intro E. injection E. intros. subst. reflexivity. Qed.
Lemma twist_acc_ext a b : numbers_TwistAcc a = numbers_TwistAcc b -> a = b.
Proof. destruct a as [[[] [] []] [[] [] []]], b as [[[] [] []] [[] [] []]]. cbn. intro E. injection E. intros. subst. reflexivity. Qed.
Lemma exact_texts p : 17 <= p ->
  (forall a b, (forall x, In x (numbers_FrameVel a ++ numbers_FrameVel b) -> is_double x) -> write_FrameVel p a = write_FrameVel p b -> a = b) /\
  (forall a b, (forall x, In x (numbers_TwistVel a ++ numbers_TwistVel b) -> is_double x) -> write_TwistVel p a = write_TwistVel p b -> a = b) /\
  (forall a b, (forall x, In x (numbers_FrameAcc a ++ numbers_FrameAcc b) -> is_double x) -> write_FrameAcc p a = write_FrameAcc p b -> a = b) /\
  (forall a b, (forall x, In x (numbers_TwistAcc a ++ numbers_TwistAcc b) -> is_double x) -> write_TwistAcc p a = write_TwistAcc p b -> a = b) /\
  (forall d a b, (forall x, In x (numbers_dVel a ++ numbers_dVel b) -> is_double x) -> write_Rall1d d p a = write_Rall1d d p b -> a = b) /\
  (forall d a b, (forall x, In x (numbers_dAcc a ++ numbers_dAcc b) -> is_double x) -> write_Rall2d d p a = write_Rall2d d p b -> a = b).
Proof.
  intro P. assert (P1 : 1 <= p) by lia. split; [|split; [|split; [|split; [|split]]]].
  - intros a b D E. apply frame_vel_ext. apply (tells_exact _ _ p a b P (tells_FrameVel p P1) D E).
  - intros a b D E. apply twist_vel_ext. apply (tells_exact _ _ p a b P (tells_TwistVel p P1) D E).
  - intros a b D E. apply frame_acc_ext. apply (tells_exact _ _ p a b P (tells_FrameAcc p P1) D E).
  - intros a b D E. apply twist_acc_ext. apply (tells_exact _ _ p a b P (tells_TwistAcc p P1) D E).
  - intros d a b D E. pose proof (tells_exact _ _ p a b P (tells_Rall1d p P1 d) D E) as X. destruct a, b. cbn in X. injection X. intros. subst. reflexivity.
  - intros d a b D E. pose proof (tells_exact _ _ p a b P (tells_Rall2d p P1 d) D E) as X. destruct a, b. cbn in X. injection X. intros. subst. reflexivity.
Qed.
Lemma layouts : forall p, 1 <= p ->
  (forall r, prints_VectorVel (fun x => round10 p x) (write_VectorVel p r) r) /\
  (forall r, prints_RotationVel (fun x => round10 p x) (write_RotationVel p r) r) /\
  (forall r, prints_FrameVel (fun x => round10 p x) (write_FrameVel p r) r) /\
  (forall r, prints_TwistVel (fun x => round10 p x) (write_TwistVel p r) r) /\
  (forall r, prints_VectorAcc (fun x => round10 p x) (write_VectorAcc p r) r) /\
  (forall r, prints_RotationAcc (fun x => round10 p x) (write_RotationAcc p r) r) /\
  (forall r, prints_FrameAcc (fun x => round10 p x) (write_FrameAcc p r) r) /\
  (forall r, prints_TwistAcc (fun x => round10 p x) (write_TwistAcc p r) r).
Proof.
  intros p P. split; [exact (prints_VV p P)|]. split; [exact (prints_RV p P)|]. split; [exact (prints_FV p P)|]. split; [exact (prints_TV p P)|]. split; [exact (prints_VA p P)|]. split; [exact (prints_RA p P)|]. split; [exact (prints_FA p P)|]. exact (prints_TA p P).
Qed.
Lemma all_tell : forall p, 1 <= p ->
  tells (write_VectorVel p) numbers_VectorVel (agree p) /\
  tells (write_RotationVel p) numbers_RotationVel (agree p) /\
  tells (write_FrameVel p) numbers_FrameVel (agree p) /\
  tells (write_TwistVel p) numbers_TwistVel (agree p) /\
  tells (write_VectorAcc p) numbers_VectorAcc (agree p) /\
  tells (write_RotationAcc p) numbers_RotationAcc (agree p) /\
  tells (write_FrameAcc p) numbers_FrameAcc (agree p) /\
  tells (write_TwistAcc p) numbers_TwistAcc (agree p) /\
  (forall d, tells (write_Rall1d d p) numbers_dVel (agree p)) /\
  (forall d, tells (write_Rall2d d p) numbers_dAcc (agree p)).
Proof.
  intros p P. split; [exact (tells_VectorVel p P)|]. split; [exact (tells_RotationVel p P)|]. split; [exact (tells_FrameVel p P)|]. split; [exact (tells_TwistVel p P)|]. split; [exact (tells_VectorAcc p P)|]. split; [exact (tells_RotationAcc p P)|]. split; [exact (tells_FrameAcc p P)|]. split; [exact (tells_TwistAcc p P)|]. split; [exact (tells_Rall1d p P)|exact (tells_Rall2d p P)].
Qed.
Lemma dec_one x : (x = 1 \/ x = -1)%R -> dec_parts 6 x = (100000, 0).
Proof.
  intros H. assert (A : Rabs x = 1%R) by (destruct H; subst; [apply Rabs_R1|rewrite Rabs_left; lra]).
  assert (M : mag radix10 x = 1 :> Z) by (apply mag_unique; rewrite A; cbn; lra).
  assert (M1 : mag radix10 1 = 1 :> Z) by (apply mag_unique; rewrite Rabs_R1; cbn; lra).
  unfold dec_parts. rewrite A, M.
  assert (S : scaled_mantissa radix10 (FLX_exp 6) 1 = IZR 100000).
  { unfold scaled_mantissa, cexp. rewrite M1. change (- FLX_exp 6 1) with 5. cbn. lra. }
  rewrite S, Zrnd_IZR by typeclasses eauto. reflexivity.
Qed.
Lemma fmt_one : fmt_double 6 1 = ["1"] /\ fmt_double 6 (-1) = ["-"; "1"] /\ fmt_double 6 0 = ["0"].
Proof.
  unfold fmt_double. split; [|split].
  - destruct (Req_EM_T 1 0); [lra|]. destruct (Rlt_dec 1 0); [lra|]. unfold fmt_abs. rewrite dec_one by auto. vm_compute. reflexivity.
  - destruct (Req_EM_T (-1) 0); [lra|]. destruct (Rlt_dec (-1) 0); [|lra]. unfold fmt_abs. rewrite dec_one by auto. vm_compute. reflexivity.
  - destruct (Req_EM_T 0 0); [reflexivity|lra].
Qed.
Lemma double_Z z : Z.abs z < 2 ^ 53 -> is_double (IZR z).
Proof.
  intro H. apply generic_format_FLT. exists (Float radix2 z 0); cbn [Fnum Fexp]; [unfold F2R; cbn; lra|exact H|lia].
Qed.
Lemma dio_example : let r := mkVV (mkV 1 0 0) (mkV 0 (-1) 0) in
  (forall x, In x (numbers_VectorVel r) -> is_double x) /\ write_VectorVel 6 r = lit "{[           1,           0,           0],[           0,          -1,           0]}" ++ [nl].
Proof.
  cbv zeta. destruct fmt_one as [A [B C]]. split.
  - intros x Hx. cbn in Hx. decompose [or] Hx; subst; try contradiction; apply double_Z; reflexivity.
  - unfold write_VectorVel, write_Vector, put. cbn [vvp vvv vx vy vz]. rewrite A, B, C. reflexivity.
Qed.
