(** Linear algebra of one Levenberg-Marquardt step on a Jacobian of full row rank. *)
From Coq Require Import Reals List ZArith Bool Arith Lia Lra Psatz.
From Verif Require Import FramesModel FramesSpec FramesProofs Outcome InertiaModel DualModel KinModel KinSpec LinModel LinSpec SumProofs
  JacDotProofs IkSpec LmaModel LmaSpec LmaProofs RotNear LipProofs TaylorProofs.
Import ListNotations.
Local Open Scope R_scope.

Lemma dot6_cs a b : t_dot6 a b * t_dot6 a b <= t_dot6 a a * t_dot6 b b.
Proof.
  set (A := t_dot6 a a). set (B := t_dot6 b b). set (p := t_dot6 a b).
  assert (HB : 0 <= B) by apply t_dot6_pos.
  assert (P : 0 <= B * (A * B - p * p)).
  { pose proof (t_dot6_pos (t_sub (t_scale a B) (t_scale b p))) as Q.
    rewrite t_dot6_sub, (t_dot6_sym (t_scale a B)), (t_dot6_sym (t_scale b p)), !t_dot6_sub, !t_dot6_scale in Q.
    rewrite (t_dot6_sym a (t_scale a B)), (t_dot6_sym a (t_scale b p)), (t_dot6_sym b (t_scale a B)), (t_dot6_sym b (t_scale b p)), !t_dot6_scale in Q.
    rewrite (t_dot6_sym b a) in Q. fold A B p in Q. lra. }
  destruct (Rle_lt_or_eq_dec 0 B HB) as [G|Z].
  - apply Rmult_le_reg_l with B; lra.
  - assert (b = t_zero).
    { unfold B, t_dot6 in Z. destruct b as [[x y z] [u v w]]. cbn [tvel trot vx vy vz] in Z.
      pose proof (Rle_0_sqr x). pose proof (Rle_0_sqr y). pose proof (Rle_0_sqr z). pose proof (Rle_0_sqr u). pose proof (Rle_0_sqr v). pose proof (Rle_0_sqr w).
      unfold Rsqr in *. assert (K : forall t : R, t * t <= 0 -> t = 0) by (intros; nra).
      rewrite (K x), (K y), (K z), (K u), (K v), (K w) by lra. reflexivity. }
    unfold p, A. subst b. rewrite (t_dot6_sym a), t_dot6_zero, <- Z. lra.
Qed.
Lemma norm6_sq a : norm6 a * norm6 a = t_dot6 a a. Proof. apply sqrt_sqrt, t_dot6_pos. Qed.
Lemma norm6_nn a : 0 <= norm6 a. Proof. apply sqrt_pos. Qed.
Lemma dot6_norm a b : Rabs (t_dot6 a b) <= norm6 a * norm6 b.
Proof.
  apply Rsqr_incr_0_var; [|apply Rmult_le_pos; apply norm6_nn]. rewrite <- Rsqr_abs. unfold Rsqr.
  replace (norm6 a * norm6 b * (norm6 a * norm6 b)) with ((norm6 a * norm6 a) * (norm6 b * norm6 b)) by ring.
  rewrite !norm6_sq. apply dot6_cs.
Qed.
Lemma norm6_add a b : norm6 (t_add a b) <= norm6 a + norm6 b.
Proof.
  apply Rsqr_incr_0_var; [|pose proof (norm6_nn a); pose proof (norm6_nn b); lra]. unfold Rsqr. rewrite norm6_sq.
  rewrite t_dot6_add, !(t_dot6_sym _ (t_add a b)), !t_dot6_add, (t_dot6_sym b a).
  pose proof (dot6_norm a b). pose proof (Rle_abs (t_dot6 a b)).
  replace ((norm6 a + norm6 b) * (norm6 a + norm6 b)) with (norm6 a * norm6 a + 2 * (norm6 a * norm6 b) + norm6 b * norm6 b) by ring. rewrite !norm6_sq. lra.
Qed.
Lemma norm6_tn a : norm6 a <= tn a.
Proof.
  apply Rsqr_incr_0_var; [|apply tn_nn]. unfold Rsqr. rewrite norm6_sq. unfold t_dot6, tn.
  pose proof (norm2_vn (tvel a)). pose proof (norm2_vn (trot a)). pose proof (vn_nn (tvel a)). pose proof (vn_nn (trot a)). nra.
Qed.
Lemma abs_le_root x N : 0 <= N -> x * x <= N * N -> Rabs x <= N.
Proof. intros H Q. apply Rsqr_incr_0_var; [|exact H]. rewrite <- Rsqr_abs. exact Q. Qed.
Lemma entries_norm6 a : Rabs (vx (tvel a)) <= norm6 a /\ Rabs (vy (tvel a)) <= norm6 a /\ Rabs (vz (tvel a)) <= norm6 a /\
  Rabs (vx (trot a)) <= norm6 a /\ Rabs (vy (trot a)) <= norm6 a /\ Rabs (vz (trot a)) <= norm6 a.
Proof.
  pose proof (norm6_nn a) as N. pose proof (norm6_sq a) as S. unfold t_dot6 in S.
  pose proof (Rle_0_sqr (vx (tvel a))). pose proof (Rle_0_sqr (vy (tvel a))). pose proof (Rle_0_sqr (vz (tvel a))).
  pose proof (Rle_0_sqr (vx (trot a))). pose proof (Rle_0_sqr (vy (trot a))). pose proof (Rle_0_sqr (vz (trot a))). unfold Rsqr in *.
  repeat split; apply abs_le_root; lra.
Qed.

(** Sizes of joint steps. *)
Lemma s1_max d : s1 d <= INR (length d) * max_norm d.
Proof.
  induction d as [|x d IH].
  - unfold s1. cbn. lra.
  - rewrite s1_cons. cbn [length]. rewrite S_INR. change (max_norm (x :: d)) with (Rmax (Rabs x) (max_norm d)).
    pose proof (Rmax_l (Rabs x) (max_norm d)). pose proof (Rmax_r (Rabs x) (max_norm d)). pose proof (pos_INR (length d)).
    assert (INR (length d) * max_norm d <= INR (length d) * Rmax (Rabs x) (max_norm d)) by (apply Rmult_le_compat_l; assumption). lra.
Qed.
Definition sqn (d : list R) : R := sumn (length d) (fun m => nth m d 0 * nth m d 0).
Lemma sqn_cons x d : sqn (x :: d) = x * x + sqn d.
Proof. unfold sqn. cbn [length]. rewrite sumn_head. reflexivity. Qed.
Lemma sqn_nn d : 0 <= sqn d. Proof. apply sumn_nonneg. intros. apply Rle_0_sqr. Qed.
Lemma s1_root d N : 0 <= N -> sqn d <= N * N -> s1 d <= INR (length d) * N.
Proof.
  intros HN. induction d as [|x d IH]; intros H.
  - unfold s1. cbn. lra.
  - rewrite s1_cons, sqn_cons in *. cbn [length]. rewrite S_INR. pose proof (Rle_0_sqr x) as X. unfold Rsqr in X. pose proof (sqn_nn d).
    assert (Rabs x <= N) by (apply abs_le_root; [exact HN|lra]). specialize (IH ltac:(lra)). lra.
Qed.
Lemma jac_mul_size J d M : 0 <= M -> (forall m, (m < length J)%nat -> tn (nth m J t_zero) <= M) -> tn (jac_mul J d) <= M * s1 d.
Proof.
  intros HM. assert (Z : tn t_zero = 0) by (unfold tn, vn, t_zero, v_zero; cbn [tvel trot vx vy vz]; rewrite Rabs_R0; lra).
  revert d. induction J as [|c J IH]; intros d H.
  - destruct d; cbn [jac_mul]; rewrite Z; apply Rmult_le_pos; [exact HM|apply s1_nn|exact HM|apply s1_nn].
  - destruct d as [|x d]; cbn [jac_mul].
    + rewrite Z. apply Rmult_le_pos; [exact HM|apply s1_nn].
    + rewrite s1_cons.
      assert (A : tn (t_add (t_scale c x) (jac_mul J d)) <= tn (t_scale c x) + tn (jac_mul J d)).
      { unfold tn, t_add; cbn [tvel trot]. pose proof (vn_add (tvel (t_scale c x)) (tvel (jac_mul J d))). pose proof (vn_add (trot (t_scale c x)) (trot (jac_mul J d))). lra. }
      assert (B : tn (t_scale c x) = tn c * Rabs x).
      { unfold tn, vn, t_scale, v_scale; cbn [tvel trot vx vy vz]. rewrite !Rabs_mult. ring. }
      specialize (IH d ltac:(intros m Hm; apply (H (S m)); cbn [length]; lia)). pose proof (H 0%nat ltac:(cbn [length]; lia)) as H0. cbn [nth] in H0.
      assert (tn c * Rabs x <= M * Rabs x) by (apply Rmult_le_compat_r; [apply Rabs_pos|exact H0]). lra.
Qed.

(** ** One damped step *)
Section Step.
Variables (n : nat) (J : list Twist) (e : Twist) (lambda mm : R) (d : list R).
Hypothesis LJ : length J = n.
Hypothesis Ld : length d = n.
Hypothesis POS : 0 < lambda.
Hypothesis Hmm : 0 < mm.
Hypothesis ND : forall m, (m < n)%nat -> t_dot6 (nth m J t_zero) (jac_mul J d) + lambda * nth m d 0 = t_dot6 (nth m J t_zero) e.
Hypothesis ROW : forall y, mm * t_dot6 y y <= sumn n (fun m => t_dot6 (nth m J t_zero) y * t_dot6 (nth m J t_zero) y).

Let V := jac_mul J d.
Let r := t_sub e V.
Lemma cols_rest m : (m < n)%nat -> t_dot6 (nth m J t_zero) r = lambda * nth m d 0.
Proof. intros Hm. unfold r. rewrite t_dot6_sym, t_dot6_sub, !(t_dot6_sym _ (nth m J t_zero)), <- (ND m Hm). fold V. ring. Qed.
Lemma rest_step : t_dot6 V r = lambda * sqn d.
Proof.
  unfold V. rewrite jac_mul_dot by lia. unfold sqn. rewrite <- sumn_scale. apply sumn_ext. intros m Hm. rewrite cols_rest by lia. ring.
Qed.
Lemma e_split : t_dot6 e e = t_dot6 r r + 2 * lambda * sqn d + t_dot6 V V.
Proof.
  pose proof rest_step as Q. unfold r in *. rewrite (t_dot6_sym V), t_dot6_sub in Q.
  rewrite t_dot6_sub, !(t_dot6_sym _ (t_sub e V)), !t_dot6_sub, !(t_dot6_sym V e). lra.
Qed.
Lemma rest_small : (lambda + 2 * mm) * t_dot6 r r <= lambda * t_dot6 e e.
Proof.
  pose proof (ROW r) as Q. rewrite (sumn_ext n _ (fun m => lambda * lambda * (nth m d 0 * nth m d 0))) in Q by (intros m Hm; rewrite cols_rest by exact Hm; ring).
  rewrite sumn_scale in Q. rewrite <- Ld in Q. fold (sqn d) in Q.
  pose proof e_split as S. pose proof (t_dot6_pos V). rewrite S.
  assert (0 <= lambda * t_dot6 V V) by (apply Rmult_le_pos; lra). lra.
Qed.
Lemma step_small : mm * sqn d <= t_dot6 e e.
Proof.
  destruct (Rle_lt_or_eq_dec 0 (sqn d) (sqn_nn d)) as [P|Z]; [|rewrite <- Z, Rmult_0_r; apply t_dot6_pos].
  pose proof (ROW r) as Q. rewrite (sumn_ext n _ (fun m => lambda * lambda * (nth m d 0 * nth m d 0))) in Q by (intros m Hm; rewrite cols_rest by exact Hm; ring).
  rewrite sumn_scale in Q. rewrite <- Ld in Q. fold (sqn d) in Q.
  pose proof (dot6_cs V r) as C. rewrite rest_step in C.
  assert (L2 : 0 < lambda * lambda) by nra.
  assert (K : mm * sqn d <= t_dot6 V V).
  { apply Rmult_le_reg_r with (lambda * lambda * sqn d); [apply Rmult_lt_0_compat; assumption|].
    apply Rle_trans with (mm * (t_dot6 V V * t_dot6 r r)).
    - replace (mm * sqn d * (lambda * lambda * sqn d)) with (mm * (lambda * sqn d * (lambda * sqn d))) by ring. apply Rmult_le_compat_l; lra.
    - replace (mm * (t_dot6 V V * t_dot6 r r)) with (t_dot6 V V * (mm * t_dot6 r r)) by ring. apply Rmult_le_compat_l; [apply t_dot6_pos|exact Q]. }
  pose proof e_split as S. pose proof (t_dot6_pos r). assert (0 <= 2 * lambda * sqn d) by nra. lra.
Qed.
End Step.
