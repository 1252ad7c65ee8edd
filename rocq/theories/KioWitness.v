(** Examples and counterexamples for the text of kinematic structures (C75). *)
From Coq Require Import Reals ZArith Ascii String List Bool Permutation Arith Lia Lra.
From Flocq Require Import Core.
From Verif Require Import FramesModel Outcome LoopProofs InertiaModel DualModel KinModel KinSpec PathModel IoModel IoSpec IoNum IoRound IoFinal TreeModel TreeSpec TreeProofs
  TreeWitness MiscModel KioModel KioSpec KioTree KioText.
Import ListNotations.
Local Open Scope char_scope.
Local Open Scope list_scope.
Local Open Scope Z_scope.

(** *** integers *)
Lemma digits_shift n : forall z, digits (S n) (z * 10) = digits n z ++ ["0"].
Proof. intros z. cbn [digits]. rewrite Z.div_mul, Z.mod_mul by lia. reflexivity. Qed.
Lemma digits_shifts k : forall n z, digits (n + k) (z * 10 ^ Z.of_nat k) = digits n z ++ repeat "0" k.
Proof.
  induction k as [|k IH]; intros n z.
  - rewrite Nat.add_0_r, Z.mul_1_r. cbn [repeat]. rewrite app_nil_r. reflexivity.
  - rewrite Nat.add_succ_r, Nat2Z.inj_succ, Z.pow_succ_r by lia. replace (z * (10 * 10 ^ Z.of_nat k)) with (z * 10 ^ Z.of_nat k * 10) by lia.
    rewrite digits_shift, IH, <- app_assoc. f_equal. symmetry. apply (repeat_cons k "0").
Qed.
Lemma strip_zeros k : strip_trailing (repeat "0" k) = [].
Proof. induction k as [|k IH]; [reflexivity|]. cbn [repeat strip_trailing]. rewrite IH. reflexivity. Qed.
Lemma fmt_IZR p k z : 0 < k <= p -> 10 ^ (k - 1) <= z < 10 ^ k -> fmt_double p (IZR z) = digits (Z.to_nat k) z.
Proof.
  intros K B. assert (Pz : 0 < z). { eapply Z.lt_le_trans; [|apply B]. apply Z.pow_pos_nonneg; lia. }
  assert (Rz : (0 < IZR z)%R) by (apply IZR_lt; exact Pz).
  assert (M : mag radix10 (IZR z) = k :> Z).
  { apply mag_unique. rewrite Rabs_pos_eq by lra. rewrite <- !pow10_Z by lia. split; [apply IZR_le|apply IZR_lt]; apply B. }
  unfold fmt_double. destruct (Req_EM_T (IZR z) 0); [lra|]. destruct (Rlt_dec (IZR z) 0); [lra|].
  assert (D : dec_parts p (IZR z) = (z * 10 ^ (p - k), k - 1)).
  { unfold dec_parts. rewrite M. unfold scaled_mantissa, cexp, FLX_exp. rewrite mag_abs, M, Rabs_pos_eq by lra.
    replace (- (k - p)) with (p - k) by lia. rewrite <- pow10_Z, <- mult_IZR by lia. rewrite (Zrnd_IZR ZnearestE).
    destruct (Z.eqb_spec (z * 10 ^ (p - k)) (10 ^ p)) as [E|E]; [|reflexivity].
    exfalso. assert (10 ^ p = 10 ^ k * 10 ^ (p - k)) by (rewrite <- Z.pow_add_r by lia; f_equal; lia).
    assert (0 < 10 ^ (p - k)) by (apply Z.pow_pos_nonneg; lia). nia. }
  unfold fmt_abs. rewrite D. cbn [fst snd].
  replace (-4 <=? k - 1) with true by (symmetry; apply Z.leb_le; lia). replace (k - 1 <? p) with true by (symmetry; apply Z.ltb_lt; lia). cbn [andb].
  replace (0 <=? k - 1) with true by (symmetry; apply Z.leb_le; lia). replace (k - 1 + 1) with k by lia.
  replace (Z.to_nat p) with (Z.to_nat k + Z.to_nat (p - k))%nat by lia.
  replace (z * 10 ^ (p - k)) with (z * 10 ^ Z.of_nat (Z.to_nat (p - k))) by (rewrite Z2Nat.id by lia; reflexivity). rewrite digits_shifts.
  assert (L := digits_len (Z.to_nat k) z). set (ds := digits (Z.to_nat k) z) in *.
  replace (firstn (Z.to_nat k) (ds ++ repeat "0" (Z.to_nat (p - k)))) with ds.
  2:{ rewrite <- L. rewrite firstn_app, Nat.sub_diag, firstn_all, firstn_O, app_nil_r. reflexivity. }
  replace (skipn (Z.to_nat k) (ds ++ repeat "0" (Z.to_nat (p - k)))) with (repeat "0" (Z.to_nat (p - k))).
  2:{ rewrite <- L. rewrite skipn_app, Nat.sub_diag, skipn_all. reflexivity. }
  unfold with_fraction. rewrite strip_zeros. reflexivity.
Qed.
(** the numbers of an array run together when they have 13 digits *)
Definition run_a : list R := [IZR 1234567890121; IZR 234567890123].
Definition run_b : list R := [IZR 123456789012; IZR 1234567890123].
Lemma array_ambiguous p : 13 <= p -> run_a <> run_b /\ (forall x, In x (run_a ++ run_b) -> is_double x) /\ write_JntArray p run_a = write_JntArray p run_b.
Proof.
  intros P. split; [|split].
  - intros E. injection E as E _. apply eq_IZR in E. lia.
  - intros x [<-|[<-|[<-|[<-|[]]]]]; apply int_double; lia.
  - unfold write_JntArray, run_a, run_b, put. cbn [flat_map].
    rewrite (fmt_IZR p 13 1234567890121), (fmt_IZR p 12 234567890123), (fmt_IZR p 12 123456789012), (fmt_IZR p 13 1234567890123) by lia.
    vm_compute. reflexivity.
Qed.
Lemma array_refuted : ~ forall p q1 q2, 1 <= p -> (forall x, In x (q1 ++ q2) -> is_double x) -> write_JntArray p q1 = write_JntArray p q2 ->
  Forall2 (agree p) q1 q2.
Proof.
  intros H. destruct (array_ambiguous 17) as (_ & D & E); [lia|]. specialize (H 17 run_a run_b ltac:(lia) D E).
  inversion H as [|x y l l' A _]; subst. apply agree_exact in A; [apply eq_IZR in A; lia|lia| |]; apply int_double; lia.
Qed.
(** an array that meets the hypotheses of the width theorem *)
Lemma array_case : forall x, In x [(1 / 2)%R; 0%R; (-1000)%R] -> ordinary x.
Proof.
  intros x [<-|[<-|[<-|[]]]].
  - right. rewrite Rabs_pos_eq by lra. split.
    + change (powerRZ 10 (-99)) with (/ (10 ^ 99))%R. rewrite <- (Rinv_inv (1 / 2)). apply Rinv_le_contravar; [lra|].
      replace (/ (1 / 2))%R with 2%R by field. apply Rle_trans with (10 ^ 1)%R; [lra|]. apply Rle_pow; [lra|lia].
    + change (powerRZ 10 99) with (10 ^ 99)%R. apply Rlt_le_trans with (10 ^ 1)%R; [lra|]. apply Rle_pow; [lra|lia].
  - left. reflexivity.
  - right. rewrite Rabs_left by lra. split.
    + change (powerRZ 10 (-99)) with (/ (10 ^ 99))%R. apply Rle_trans with (/ 1)%R; [|lra]. apply Rinv_le_contravar; [lra|]. apply pow_R1_Rle. lra.
    + change (powerRZ 10 99) with (10 ^ 99)%R. apply Rlt_le_trans with (10 ^ 4)%R; [lra|]. apply Rle_pow; [lra|lia].
Qed.

(** *** trees *)
Local Open Scope string_scope.
Definition listing : text :=
  (lit "root(q_nr: 0)" ++ [nl] ++ lit "  a(q_nr: 0)" ++ [nl] ++ lit "    c(q_nr: 2)" ++ [nl] ++ lit "  b(q_nr: 1)" ++ [nl])%list.
Lemma tree_case : reachable w_tree /\ names_without "(" w_tree /\ names_without nl w_tree /\
  (forall n, In n (names w_tree) -> ~ starts_with (lit "  ") (lit n)) /\
  tree2str w_tree (lit "  ") [] = Ret listing.
Proof.
  split; [exact w_reachable|]. split; [|split; [|split]].
  - intros n I. cbn in I. repeat destruct I as [<-|I]; try destruct I; cbn; intuition discriminate.
  - intros n I. cbn in I. repeat destruct I as [<-|I]; try destruct I; cbn; intuition discriminate.
  - intros n I [r E]. cbn in I. repeat destruct I as [<-|I]; try destruct I; discriminate E.
  - reflexivity.
Qed.
(** a name that starts with the separator is taken for a deeper level *)
Definition k_seg (n : string) : Segment := mkS n joint_default rb_zero f_id.
Definition deep : Tree := snd (tree_addSegment (snd (tree_addSegment (tree_make "root") (k_seg "a") "root")) (k_seg "b") "a").
Definition wide : Tree := snd (tree_addSegment (snd (tree_addSegment (tree_make "root") (k_seg "a") "root")) (k_seg "  b") "root").
Lemma deep_reachable : reachable deep.
Proof.
  apply (reach_addSegment (snd (tree_addSegment (tree_make "root") (k_seg "a") "root")) (k_seg "b") "a" true); [|reflexivity].
  apply (reach_addSegment (tree_make "root") (k_seg "a") "root" true); [|reflexivity]. constructor.
Qed.
Lemma wide_reachable : reachable wide.
Proof.
  apply (reach_addSegment (snd (tree_addSegment (tree_make "root") (k_seg "a") "root")) (k_seg "  b") "root" true); [|reflexivity].
  apply (reach_addSegment (tree_make "root") (k_seg "a") "root" true); [|reflexivity]. constructor.
Qed.
Lemma listing_refuted : ~ forall a b s, reachable a -> reachable b -> tree2str a (lit "  ") [] = Ret s -> tree2str b (lit "  ") [] = Ret s -> same_shape a b.
Proof.
  intros H. destruct (H deep wide _ deep_reachable wide_reachable eq_refl eq_refl) as [_ F]. specialize (F "b"). discriminate F.
Qed.

(** *** what the texts leave out *)
Lemma joint_refuted : exists a b, joint_constructed a /\ joint_constructed b /\ (forall p, write_Joint p a = write_Joint p b) /\
  joint_pose a 1 <> joint_pose b 1.
Proof.
  exists (w_slide "j" 1), (w_slide "j" 2). split; [apply w_slide_constructed|]. split; [apply w_slide_constructed|]. split; [reflexivity|].
  cbn. intros E. injection E as E. lra.
Qed.
Lemma joint_case : ~ In ":"%char (lit (jname (w_slide "j" 1))) /\ ~ In ":"%char (lit (sname (w_seg "a" "ja"))).
Proof. split; cbn; intuition discriminate. Qed.

(** *** input *)
Lemma reads_nothing {T : Type} (s : istr) (x : T) : read_nothing s x = OGot x s.
Proof. reflexivity. Qed.
Lemma read_unchanged (s : istr) : (forall x, read_Joint s x = OGot x s) /\ (forall x, read_Segment s x = OGot x s) /\
  (forall x, read_Chain s x = OGot x s) /\ (forall x, read_Tree s x = OGot x s) /\ (forall x, read_JntArray s x = OGot x s) /\
  (forall x, read_Jacobian s x = OGot x s) /\ (forall x, read_JntSpaceInertiaMatrix s x = OGot x s).
Proof. repeat split. Qed.
Lemma read_back_refuted : exists q, (forall x, In x q -> is_double x) /\ forall p, ~ reads read_JntArray (write_JntArray p q) q.
Proof.
  exists [1%R]. split; [intros x [<-|[]]; apply (int_double 1); lia|]. intros p H. specialize (H [] [] [] []). unfold read_JntArray, read_nothing in H.
  injection H as H _. discriminate H.
Qed.
