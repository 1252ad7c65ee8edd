(** Calls that do not come back, and calls that answer from old factors. *)
From Coq Require Import Reals List ZArith Lra Lia Bool Arith.
From Verif Require Import FramesModel Outcome LoopProofs DualModel KinModel KinSpec JacDotProofs LinModel LinSpec SumProofs LmaSpec LmaProofs LmaProofs2 SvdModel SvdFinal
  VelIkModel VelIkSpec VelIkLin VelIkProofs GivensModel GivensSpec GivensLin GivensLoop GivensFactor GivensThms.
Import ListNotations.
Local Open Scope list_scope.
Local Open Scope R_scope.

(** Columns that the loop leaves are linearly independent. *)
Lemma alone_injective rows n Bf x : (2 <= n <= 6)%nat -> (forall i j, (i < j < n)%nat -> alone thr15 rows Bf i j) ->
  (forall a, (a < rows)%nat -> mv n Bf x a = 0) -> forall i, (i < n)%nat -> x i = 0.
Proof.
  intros [N2 N6] Al Z i Hi. pose proof (unitary_nearly rows n _ N6 (fresh_unitary rows n Bf N2 Al)) as [St _].
  assert (Q : forall i, (i < n)%nat -> len rows Bf i * x i = 0).
  { apply (stretches_injective rows n (1 - eps6) (unit_columns rows n Bf) ltac:(unfold eps6; lra) St (fun i => len rows Bf i * x i)). intros a Ha. rewrite <- (Z a Ha).
    apply sumn_ext. intros k Hk. rewrite <- (unit_entry rows n Bf N2 Al a k Hk). ring. }
  specialize (Q i Hi). pose proof (len_pos rows n Bf N2 Al i Hi). apply Rmult_integral in Q as [Q|Q]; lra.
Qed.

Lemma accepted_svd fuel c s q v qdot code out s' : chain_ok c -> gv_inv c s -> length q = ch_nj c -> length qdot = ch_nj c ->
  givens_CartToJnt fuel c s q v qdot = Ret (Some (code, out, s')) ->
  exists k, svd_eigen_Macie fuel (gv_m (ch_nj c)) (gv_n (ch_nj c)) (tall_jacobian c q) (gv_U s) (gv_S s) (gv_V s) givens_threshold (negb (gv_toggle s)) =
    Ret (Some (gv_U s', gv_S s', gv_V s', k)) /\ (forall j, (j < ch_nj c)%nat ->
    exists suy, length suy = gv_n (ch_nj c) /\ nth j out 0 = mv (gv_n (ch_nj c)) (if gv_transpose (ch_nj c) then gv_U s' else gv_V s') (fun k => nth k suy 0) j).
Proof.
  intros Hok Inv Hq Hd E. rewrite (givens_now fuel c s q v qdot Hok Inv Hq Hd) in E. apply obind_Ret_inv in E as (r & E & X).
  destruct r as [[[[U Sg] V] k]|]; [|discriminate]. apply obind_Ret_inv in X as (suy & Es & X). injection X as _ <- <-. cbn [gv_U gv_S gv_V]. exists k. split; [exact E|].
  intros j Hj. exists suy. pose proof (entries_length _ _ _ _ Es) as L. split; [exact L|]. rewrite nth_map_seq by exact Hj.
  assert (Ln : (gv_n (ch_nj c) <= ch_nj c)%nat) by (unfold gv_n; lia).
  destruct (gv_transpose (ch_nj c)); rewrite total_sum; apply (sumn_trunc (ch_nj c) (gv_n (ch_nj c)) _ Ln); intros i Hi; rewrite nth_overflow by lia; ring.
Qed.

Theorem dependent_columns c s q v qdot x j : chain_ok c -> (2 <= ch_nj c)%nat -> givens_used c s -> column_call s ->
  length q = ch_nj c -> length qdot = ch_nj c ->
  (forall a, (a < Nat.max 6 (ch_nj c))%nat -> sumn (Nat.min 6 (ch_nj c)) (fun k => tall_jacobian c q a k * x k) = 0) ->
  (j < Nat.min 6 (ch_nj c))%nat -> x j <> 0 ->
  never_finishes c s q v qdot.
Proof.
  intros Hok H2 Us Tg Hq Hd Z Hj Nx fuel code out s' E. pose proof (used_inv c s Hok Us) as Inv.
  destruct (accepted_svd _ _ _ _ _ _ _ _ _ Hok Inv Hq Hd E) as (k & M & _). rewrite Tg in M. cbn [negb] in M.
  destruct (macie_columns _ _ _ _ _ _ _ _ _ _ _ (gv_n6 _) M) as (N1 & _ & Bf & Pr & Al & _). destruct Inv as (_ & _ & _ & HV & _).
  destruct (stretches_onto _ (1 - eps6) _ ltac:(unfold eps6; lra) (proj1 (N1 _ HV)) x) as (y & Hy).
  assert (Y : forall i, (i < gv_n (ch_nj c))%nat -> y i = 0).
  { apply (alone_injective (gv_m (ch_nj c)) (gv_n (ch_nj c)) Bf y); [split; [unfold gv_n; lia|apply gv_n6]|exact Al|].
    intros a Ha. rewrite Pr. rewrite (mv_ext _ _ (tall_jacobian c q) _ x a) by (first [reflexivity | intros; apply Hy; assumption]). apply Z, Ha. }
  apply Nx. rewrite <- (Hy j Hj). apply sumn_zero. intros i Hi. rewrite (Y i Hi). ring.
Qed.
(** A square matrix with a kernel has a transpose with a kernel. *)
Lemma kernel_transposed n A x j : (forall a, (a < n)%nat -> mv n A x a = 0) -> (j < n)%nat -> x j <> 0 ->
  ~ (forall y, (forall a, (a < n)%nat -> mv n (transposed A) y a = 0) -> forall i, (i < n)%nat -> y i = 0).
Proof.
  intros Z Hj Nx Inj. destruct (onto n (transposed A) Inj x) as (y & Hy). apply Nx. apply (sq_zero n x); [|exact Hj].
  apply Req_le. unfold sq. rewrite (sumn_ext n _ (fun k => x k * mv n (transposed A) y k)) by (intros; rewrite Hy by assumption; reflexivity).
  rewrite <- (adjoint n n A x y). apply sumn_zero. intros a Ha. rewrite (Z a Ha). ring.
Qed.
Theorem singular_square c s q v qdot x j : chain_ok c -> ch_nj c = 6%nat -> givens_used c s -> length q = 6%nat -> length qdot = 6%nat ->
  (forall a, (a < 6)%nat -> sumn 6 (fun k => tip_jacobian c q a k * x k) = 0) -> (j < 6)%nat -> x j <> 0 ->
  never_finishes c s q v qdot.
Proof.
  intros Hok H6 Us Hq Hd Z Hj Nx. destruct (gv_toggle s) eqn:Tg.
  - intros fuel code out s' E. pose proof (used_inv c s Hok Us) as Inv. destruct (small_sizes c ltac:(lia)) as (Em & En & _).
    destruct (accepted_svd fuel c s q v qdot code out s' Hok Inv) as (k & M & _); [congruence|congruence|exact E|]. rewrite Tg, Em, En, H6 in M. cbn [negb] in M.
    destruct (macie_rows _ _ _ _ _ _ _ _ _ _ _ (le_n 6) M) as (N1 & _ & Bf & Pr & Al & _). destruct Inv as (_ & _ & _ & _ & HU). rewrite Em, En, H6 in HU.
    apply (kernel_transposed 6 (tip_jacobian c q) x j Z Hj Nx). intros y Ky.
    destruct (stretches_onto _ (1 - eps6) _ ltac:(unfold eps6; lra) (proj1 (N1 _ HU)) y) as (z & Hz).
    assert (Zz : forall i, (i < 6)%nat -> z i = 0).
    { apply (alone_injective 6 6 Bf z); [lia|exact Al|]. intros a Ha. rewrite Pr, (tall_small c q) by lia.
      rewrite (mv_ext _ _ (transposed (tip_jacobian c q)) _ y a) by (first [reflexivity | intros; apply Hz; assumption]). apply Ky, Ha. }
    intros i Hi. rewrite <- (Hz i Hi). apply sumn_zero. intros b Hb. rewrite (Zz b Hb). ring.
  - apply (dependent_columns c s q v qdot x j Hok); try lia; try congruence; auto.
    rewrite H6. cbn [Nat.max Nat.min]. rewrite (tall_small c q) by lia. exact Z.
Qed.

(** ** Calls that find nothing to rotate *)
Lemma unskewed_alone rows n B : ~ skewed rows n B -> forall i j, (i < j < n)%nat -> alone thr15 rows B i j.
Proof. intros H i j Hij. unfold alone, thr15. apply Rnot_le_lt. intros L. apply H. exists i, j. split; [exact Hij|]. lra. Qed.
Lemma alone_ext rows B C i j : (forall a b, B a b = C a b) -> alone thr15 rows B i j -> alone thr15 rows C i j.
Proof.
  intros H. unfold alone. assert (G : forall a b, gram rows B a b = gram rows C a b) by (intros; apply sumn_ext; intros; rewrite !H; reflexivity). rewrite !G. auto. Qed.
Lemma idle_svd fuel c s q : chain_ok c -> start_is_orthogonal c s q ->
  svd_eigen_Macie (S fuel) (gv_m (ch_nj c)) (gv_n (ch_nj c)) (tall_jacobian c q) (gv_U s) (gv_S s) (gv_V s) givens_threshold (negb (gv_toggle s)) =
  Ret (Some (gv_U s, gv_S s, gv_V s, 0%nat)).
Proof.
  intros Hok H. unfold start_is_orthogonal in H. unfold svd_eigen_Macie. change givens_threshold with thr15. destruct (gv_toggle s); cbn [negb]; cbv zeta.
  - rewrite (jacobi_idle thr15 _ _ thr15_pos); [reflexivity|]. intros i j Hij. apply (alone_ext _ (row_start c s q)); [|apply unskewed_alone with (n := gv_n (ch_nj c)); assumption].
    intros a b. symmetry. apply total_sum.
  - rewrite (jacobi_idle thr15 _ _ thr15_pos); [reflexivity|]. intros i j Hij. apply (alone_ext _ (column_start c s q)); [|apply unskewed_alone with (n := gv_n (ch_nj c)); assumption].
    intros a b. symmetry. apply total_sum.
Qed.
(** A new object reads the uninitialised S. *)
Theorem orthogonal_start_undefined c q v qdot fuel : chain_ok c -> (0 < ch_nj c)%nat -> length q = ch_nj c -> length qdot = ch_nj c ->
  ~ skewed (Nat.min 6 (ch_nj c)) (Nat.min 6 (ch_nj c)) (row_start c (givens_make c) q) ->
  givens_CartToJnt (S fuel) c (givens_make c) q v qdot = Undef.
Proof.
  intros Hok H0 Hq Hd H. rewrite (givens_now (S fuel) c (givens_make c) q v qdot Hok (make_inv c) Hq Hd), (idle_svd fuel c (givens_make c) q Hok H). cbn [obind].
  rewrite (entries_undef _ (gv_n (ch_nj c)) 0%nat 0%nat); [reflexivity|unfold gv_n; lia|reflexivity].
Qed.
Theorem one_joint_undefined c q v qdot fuel : chain_ok c -> ch_nj c = 1%nat -> length q = 1%nat -> length qdot = 1%nat ->
  givens_CartToJnt (S fuel) c (givens_make c) q v qdot = Undef.
Proof. intros Hok H1 Hq Hd. apply orthogonal_start_undefined; try lia; auto. intros (i & j & Hij & _). rewrite H1 in Hij. lia. Qed.
(** Later calls answer with the old U, S and V, whatever the Jacobian is. *)
Theorem orthogonal_start_keeps c s q v qdot sv fuel : chain_ok c -> givens_used c s -> length q = ch_nj c -> length qdot = ch_nj c ->
  start_is_orthogonal c s q -> (forall i, (i < Nat.min 6 (ch_nj c))%nat -> gv_S s i = Some (sv i) /\ 0 < sv i) ->
  givens_CartToJnt (S fuel) c s q v qdot = Ret (Some (E_NOERROR, result_velocity (ch_nj c) (gv_n (ch_nj c)) (gv_transpose (ch_nj c)) (gv_U s) (gv_V s) sv v,
    mkGV (ch_nj c) (gv_locked s) (jacobian_at c (-1) q) (negb (gv_toggle s)) (gv_U s) (gv_S s) (gv_V s) E_NOERROR)).
Proof. intros Hok Us Hq Hd H Hs. apply (accepted (S fuel) c s q v qdot (gv_U s) (gv_S s) (gv_V s) 0%nat sv Hok (used_inv c s Hok Us) Hq Hd (idle_svd fuel c s q Hok H) Hs). Qed.

Theorem blind_calls c s q1 q2 v qdot : chain_ok c -> givens_used c s -> length q1 = ch_nj c -> length q2 = ch_nj c -> length qdot = ch_nj c ->
  start_is_orthogonal c s q1 -> start_is_orthogonal c s q2 -> (forall i, (i < Nat.min 6 (ch_nj c))%nat -> exists x, gv_S s i = Some x /\ 0 < x) ->
  exists out s1 s2, finishes c s q1 v qdot out s1 /\ finishes c s q2 v qdot out s2.
Proof.
  intros Hok Us H1 H2 Hd O1 O2 HS.
  set (sv := fun i => match gv_S s i with Some x => x | None => 0 end).
  assert (HS' : forall i, (i < Nat.min 6 (ch_nj c))%nat -> gv_S s i = Some (sv i) /\ 0 < sv i) by (intros i Hi; destruct (HS i Hi) as (x & E & P); unfold sv; rewrite E; split; [reflexivity|exact P]).
  do 3 eexists. split; exists 1%nat; intros fuel Hf; (destruct fuel as [|fuel]; [lia|]); apply (orthogonal_start_keeps c s _ v qdot sv fuel); assumption.
Qed.

(** ** The first call looks at the leading square block of the Jacobian only *)
Lemma first_rows fuel m n A Sg V U' Sg' V' k i a : (n <= 6)%nat -> svd_eigen_Macie fuel m n A eye Sg V givens_threshold false = Ret (Some (U', Sg', V', k)) ->
  (i < n)%nat -> (n <= a)%nat -> U' a i = 0.
Proof.
  intros Hn E Hi Ha. destruct (macie_rows _ _ _ _ _ _ _ _ _ _ _ Hn E) as (_ & _ & _ & _ & _ & (Q & F) & _).
  rewrite <- (mv_basis n U' i a Hi), F. apply sumn_zero. intros l Hl. unfold eye. eqbs. ring.
Qed.
Lemma first_start c q b i : chain_ok c -> (b < Nat.min 6 (ch_nj c))%nat -> (i < Nat.min 6 (ch_nj c))%nat -> row_start c (givens_make c) q b i = tall_jacobian c q i b.
Proof.
  intros Hok Hb Hi. unfold row_start. cbn [givens_make gv_U]. rewrite (sumn_ext _ _ (fun k => delta i k * tall_jacobian c q k b)).
  - apply (sumn_delta' (Nat.max 6 (ch_nj c)) i (fun k => tall_jacobian c q k b)). lia.
  - intros k _. unfold eye, delta. rewrite Nat.eqb_sym. reflexivity.
Qed.
Lemma stretches_ext rows n low A B : (forall a i, (a < rows)%nat -> (i < n)%nat -> A a i = B a i) -> stretches rows n low A -> stretches rows n low B.
Proof. intros H St x. eapply Rle_trans; [apply St|]. apply Req_le, sq_ext. intros a Ha. apply mv_ext; [intros; apply H; assumption|reflexivity]. Qed.
Lemma first_regular c q low : chain_ok c -> 0 < low -> stretches (Nat.min 6 (ch_nj c)) (Nat.min 6 (ch_nj c)) low (tip_jacobian c q) ->
  stretches (Nat.min 6 (ch_nj c)) (Nat.min 6 (ch_nj c)) low (row_start c (givens_make c) q).
Proof.
  intros Hok L St. destruct (le_lt_dec (ch_nj c) 6) as [H|H].
  - apply (stretches_ext _ _ low (transposed (tip_jacobian c q))); [|apply stretches_transposed; assumption].
    intros a i Ha Hi. rewrite (first_start c q a i Hok Ha Hi), (tall_small c q H). reflexivity.
  - apply (stretches_ext _ _ low (tip_jacobian c q)); [|exact St]. intros a i Ha Hi. rewrite (first_start c q a i Hok Ha Hi), (tall_wide c q H). reflexivity.
Qed.
Lemma first_end c q low : chain_ok c -> 0 < low -> stretches (Nat.min 6 (ch_nj c)) (Nat.min 6 (ch_nj c)) low (tip_jacobian c q) ->
  exists enough r, forall fuel, (enough <= fuel)%nat ->
    svd_eigen_Macie fuel (gv_m (ch_nj c)) (gv_n (ch_nj c)) (tall_jacobian c q) eye (fun _ => None) eye givens_threshold false = Ret (Some r).
Proof.
  intros Hok L St. set (m := gv_m (ch_nj c)). set (n := gv_n (ch_nj c)).
  destruct (jacobi_terminates thr15 n n thr15_pos low (fun b i => total m (fun k => eye k i * tall_jacobian c q k b)) eye eye (fun _ => None) 0%nat L) as (N & [[[W F] S1] k] & H).
  - apply (stretches_ext _ _ low (row_start c (givens_make c) q)); [|apply first_regular; assumption]. intros a i _ _. symmetry. apply total_sum.
  - exists N, (W, S1, F, k). intros fuel Hf. unfold svd_eigen_Macie. change givens_threshold with thr15. cbv zeta. rewrite (H fuel Hf). reflexivity.
Qed.
Theorem first_call c q v qdot low high : chain_ok c -> length q = ch_nj c -> length qdot = ch_nj c -> 0 < low ->
  stretches (Nat.min 6 (ch_nj c)) (Nat.min 6 (ch_nj c)) low (tip_jacobian c q) -> stretched_at_most (Nat.min 6 (ch_nj c)) (Nat.min 6 (ch_nj c)) high (tip_jacobian c q) ->
  skewed (Nat.min 6 (ch_nj c)) (Nat.min 6 (ch_nj c)) (row_start c (givens_make c) q) ->
  exists out s', finishes c (givens_make c) q v qdot out s' /\ length out = ch_nj c /\ column_call s' /\
  low * sq (Nat.min 6 (ch_nj c)) (fun a => sumn (Nat.min 6 (ch_nj c)) (fun j => tip_jacobian c q a j * nth j out 0) - t_at v a) <=
    1 / 10 ^ 13 * (high * sq (Nat.min 6 (ch_nj c)) (t_at v)) /\
  forall j, (6 <= j < ch_nj c)%nat -> nth j out 0 = 0.
Proof.
  intros Hok Hq Hd L St Am Sk. destruct (first_end c q low Hok L St) as (N & [[[U Sg] V] k] & E).
  pose proof (E N (le_n N)) as EN. destruct (macie_rows _ _ _ _ _ _ _ _ _ _ _ (gv_n6 _) EN) as (N1 & _ & _ & _ & _ & _ & C).
  destruct C as (N2 & Hu & sv & Hs & He); [exact Sk|]. specialize (N1 _ (nearly_eye _ _ (le_n _))).
  assert (Zr : forall a i, (i < gv_n (ch_nj c))%nat -> (gv_n (ch_nj c) <= a)%nat -> U a i = 0) by (intros a i Hi Ha; apply (first_rows _ _ _ _ _ _ _ _ _ _ _ _ (gv_n6 _) EN Hi Ha)).
  assert (G : forall fuel, (N <= fuel)%nat -> givens_CartToJnt fuel c (givens_make c) q v qdot =
    Ret (Some (E_NOERROR, result_velocity (ch_nj c) (gv_n (ch_nj c)) (gv_transpose (ch_nj c)) U V sv v, mkGV (ch_nj c) (gv_locked (givens_make c)) (jacobian_at c (-1) q) (negb (gv_toggle (givens_make c))) U Sg V E_NOERROR))).
  { intros fuel Hf. apply (accepted fuel c (givens_make c) q v qdot U Sg V k sv Hok (make_inv c) Hq Hd (E fuel Hf) Hs). }
  exists (result_velocity (ch_nj c) (gv_n (ch_nj c)) (gv_transpose (ch_nj c)) U V sv v). eexists. split; [exists N; exact G|].
  split; [apply vlist_length|]. split; [reflexivity|].
  destruct (le_lt_dec (ch_nj c) 6) as [H6|H6].
  - destruct (small_sizes c H6) as (Em & En & Et). rewrite En in *. rewrite Em, Et in *. rewrite (tall_small c q H6) in He.
    replace (Nat.min 6 (ch_nj c)) with (ch_nj c) in * by lia. split; [|intros; lia].
    pose proof (row_residual (ch_nj c) (ch_nj c) (tip_jacobian c q) U V sv (t_at v) low high ltac:(lia) N1 Hu (fun i Hi => proj2 (Hs i Hi))) as B. cbv zeta in B.
    assert (Hp : 0 <= high). { pose proof (Am (delta 0)) as A1. rewrite sq_basis in A1 by lia. pose proof (sq_nn (ch_nj c) (mv (ch_nj c) (tip_jacobian c q) (delta 0))). lra. }
    refine (Rle_trans _ _ _ _ (B _ L (stretches_transposed _ low _ L St) (at_most_transposed _ _ high _ Hp Am))).
    + apply Req_le. apply Rmult_eq_compat_l. apply sq_ext. intros a Ha. apply (f_equal (fun z => z - t_at v a)). apply mv_ext; [reflexivity|]. intros j Hj. rewrite (velocity_nth (ch_nj c) (ch_nj c) false) by exact Hj.
      apply mv_ext; [reflexivity|]. intros i Hi. apply Rmult_eq_compat_l. unfold mv, transposed. apply (sumn_trunc 6 (ch_nj c) _ H6). intros r Hr. rewrite (Zr r i Hi) by lia. ring.
    + intros i j Hi Hj. rewrite <- (He j i Hi). symmetry. apply (sumn_trunc 6 (ch_nj c) _ H6). intros r Hr. rewrite (Zr r i Hi) by lia. ring.
  - destruct (wide_sizes c H6) as (Em & En & Et). rewrite En in *. rewrite Em, Et in *. rewrite (tall_wide c q H6) in He.
    replace (Nat.min 6 (ch_nj c)) with 6%nat in * by lia.
    assert (Z : forall j, (6 <= j < ch_nj c)%nat -> nth j (result_velocity (ch_nj c) 6 true U V sv v) 0 = 0).
    { intros j Hj. rewrite velocity_nth by lia. apply sumn_zero. intros i Hi. rewrite (Zr j i Hi) by lia. ring. }
    split; [|exact Z]. destruct (stretches_onto 6 low _ L St (t_at v)) as (y & Hy).
    pose proof (column_least_squares 6 (tip_jacobian c q) U V sv (t_at v) y (le_n 6) N1 Hu (fun i Hi => proj2 (Hs i Hi))) as B. cbv zeta in B.
    assert (HJ : forall a i, (a < 6)%nat -> (i < 6)%nat -> sumn 6 (fun k => tip_jacobian c q a k * U k i) = V a i * sv i).
    { intros a i _ Hi. rewrite Rmult_comm, <- (He a i Hi). rewrite (sumn_trunc (ch_nj c) 6 (fun k => U k i * transposed (tip_jacobian c q) k a)).
      - apply sumn_ext. intros k0 _. unfold transposed. ring.
      - lia.
      - intros r Hr. rewrite (Zr r i Hi) by lia. ring. }
    specialize (B HJ). rename B into B'.
    rewrite (sq_zero_of 6 (fun a => mv 6 (tip_jacobian c q) y a - t_at v a)) in B' by (intros a Ha; rewrite (Hy a Ha); ring).
    assert (Lh : low <= high). { pose proof (Am (delta 0)) as A1. pose proof (St (delta 0)) as A2. rewrite sq_basis in A1, A2 by lia. lra. }
    match goal with |- low * sq 6 ?f <= _ => assert (Q : sq 6 f <= 1 / 10 ^ 13 * sq 6 (t_at v)) end.
    { eapply Rle_trans; [|eapply Rle_trans; [exact B'|lra]]. apply Req_le, sq_ext. intros a Ha. apply (f_equal (fun z => z - t_at v a)). apply sumn_ext. intros j Hj. apply Rmult_eq_compat_l. apply (velocity_nth (ch_nj c) 6 true). lia. }
    pose proof (sq_nn 6 (t_at v)). apply Rle_trans with (low * (1 / 10 ^ 13 * sq 6 (t_at v))); [apply Rmult_le_compat_l; lra|].
    replace (low * (1 / 10 ^ 13 * sq 6 (t_at v))) with (1 / 10 ^ 13 * (low * sq 6 (t_at v))) by ring. apply Rmult_le_compat_l; [lra|]. apply Rmult_le_compat_r; lra.
Qed.
Theorem first_call_singular c q v qdot x j : chain_ok c -> (2 <= ch_nj c)%nat -> length q = ch_nj c -> length qdot = ch_nj c ->
  (forall r, (r < Nat.min 6 (ch_nj c))%nat -> sumn (Nat.min 6 (ch_nj c)) (fun k => tip_jacobian c q r k * x k) = 0) ->
  (j < Nat.min 6 (ch_nj c))%nat -> x j <> 0 ->
  never_finishes c (givens_make c) q v qdot.
Proof.
  intros Hok H2 Hq Hd Z Hj Nx fuel code out s' E. destruct (accepted_svd _ _ _ _ _ _ _ _ _ Hok (make_inv c) Hq Hd E) as (k & M & _).
  cbn [givens_make gv_toggle negb gv_U gv_S gv_V] in M.
  destruct (macie_rows _ _ _ _ _ _ _ _ _ _ _ (gv_n6 _) M) as (N1 & _ & Bf & Pr & Al & _). specialize (N1 _ (nearly_eye _ _ (le_n _))).
  assert (K : forall y, (forall b, (b < gv_n (ch_nj c))%nat -> mv (gv_n (ch_nj c)) (fun b i => tall_jacobian c q i b) y b = 0) -> forall i, (i < gv_n (ch_nj c))%nat -> y i = 0).
  { intros y Ky. destruct (stretches_onto _ (1 - eps6) (gv_U s') ltac:(unfold eps6; lra) (proj1 N1) y) as (z & Hz).
    assert (Y : forall i, (i < gv_n (ch_nj c))%nat -> z i = 0).
    { apply (alone_injective (gv_n (ch_nj c)) (gv_n (ch_nj c)) Bf z); [split; [unfold gv_n; lia|apply gv_n6]|exact Al|]. intros b Hb. rewrite Pr. unfold mv at 1.
      rewrite (sumn_trunc (gv_m (ch_nj c)) (gv_n (ch_nj c)) _ (gv_nm _)).
      - rewrite <- (Ky b Hb). apply sumn_ext. intros a Ha. rewrite (Hz a Ha). reflexivity.
      - intros a Ha. unfold mv. rewrite sumn_zero; [ring|]. intros l Hl. rewrite (first_rows _ _ _ _ _ _ _ _ _ _ _ _ (gv_n6 _) M Hl) by lia. ring. }
    intros i Hi. rewrite <- (Hz i Hi). apply sumn_zero. intros b Hb. rewrite (Y b Hb). ring. }
  destruct (le_lt_dec (ch_nj c) 6) as [H6|H6].
  - apply (kernel_transposed (gv_n (ch_nj c)) (tip_jacobian c q) x j Z Hj Nx). intros y Ky. apply K. rewrite (tall_small c q H6). exact Ky.
  - apply Nx. apply K; [|exact Hj]. rewrite (tall_wide c q H6). exact Z.
Qed.

(** A component of the velocity that no joint can produce, among as many leading
    components as there are joints. *)
Theorem first_call_zero_row c q v qdot r : chain_ok c -> (2 <= ch_nj c <= 6)%nat -> length q = ch_nj c -> length qdot = ch_nj c ->
  (r < ch_nj c)%nat -> (forall k, (k < ch_nj c)%nat -> tip_jacobian c q r k = 0) ->
  never_finishes c (givens_make c) q v qdot.
Proof.
  intros Hok [H2 H6] Hq Hd Hr Z. destruct (small_sizes c H6) as (_ & En & _).
  assert (D : ~ (forall x, (forall a, (a < ch_nj c)%nat -> mv (ch_nj c) (tip_jacobian c q) x a = 0) -> forall i, (i < ch_nj c)%nat -> x i = 0)).
  { apply (kernel_transposed (ch_nj c) (transposed (tip_jacobian c q)) (delta r) r); [|exact Hr|unfold delta; rewrite Nat.eqb_refl; lra].
    intros k Hk. rewrite mv_basis by exact Hr. apply Z, Hk. }
  intros fuel code out s' E. apply D. intros x Kx j Hj. destruct (Req_EM_T (x j) 0) as [|Nx]; [assumption|]. exfalso.
  refine (first_call_singular c q v qdot x j Hok H2 Hq Hd _ _ Nx fuel code out s' E); replace (Nat.min 6 (ch_nj c)) with (ch_nj c) by lia; [exact Kx|exact Hj].
Qed.

(** ** Codes *)
Theorem codes fuel c s q v qdot : gv_nj s <> ch_nj c \/ length q <> ch_nj c \/ length qdot <> ch_nj c ->
  exists s', givens_CartToJnt fuel c s q v qdot =
    Ret (Some (if Nat.eqb (gv_nj s) (ch_nj c) then E_SIZE_MISMATCH else E_NOT_UP_TO_DATE, qdot, s')) /\
  gv_error s' = (if Nat.eqb (gv_nj s) (ch_nj c) then E_SIZE_MISMATCH else E_NOT_UP_TO_DATE) /\
  gv_toggle s' = gv_toggle s /\ gv_U s' = gv_U s /\ gv_S s' = gv_S s /\ gv_V s' = gv_V s /\ gv_jac s' = gv_jac s /\ gv_nj s' = gv_nj s.
Proof.
  intros H. unfold givens_CartToJnt. destruct (Nat.eqb_spec (gv_nj s) (ch_nj c)) as [E|N].
  - cbn [negb]. replace (negb (Nat.eqb (gv_nj s) (length q)) || negb (Nat.eqb (gv_nj s) (length qdot))) with true.
    + eexists. split; [reflexivity|]. cbn. auto 10.
    + rewrite E. destruct (Nat.eqb_spec (ch_nj c) (length q)); [|reflexivity]. destruct (Nat.eqb_spec (ch_nj c) (length qdot)); [|reflexivity].
      destruct H as [H|[H|H]]; congruence.
  - cbn [negb]. eexists. split; [reflexivity|]. cbn. auto 10.
Qed.

(** ** The stored singular values are positive *)
Definition pos_sv (Sg : nat -> option R) : Prop := forall i x, Sg i = Some x -> 0 < x.
Lemma jacobi_pos rows n fuel B W F Sg W' F' Sg' k' : jacobi fuel thr15 rows n B W F Sg 0 = Ret (Some (W', F', Sg', k')) -> pos_sv Sg -> pos_sv Sg'.
Proof.
  intros E P. destruct (jacobi_result thr15 rows n thr15_pos _ _ _ _ _ _ _ _ _ _ E) as (Bf & _ & Al & Hi & C).
  destruct C as [(_ & _ & _ & _ & ->) | (K & _ & Ls)]; [exact P|]. intros i x Ex. destruct (Nat.lt_ge_cases i n) as [L|L].
  - rewrite (Ls i L) in Ex. injection Ex as <-. exact (len_pos rows n Bf (moved_two _ _ _ _ _ _ _ _ _ _ _ E K) Al i L).
  - rewrite (Hi i L) in Ex. exact (P i x Ex).
Qed.
Lemma macie_pos fuel m n A U Sg V toggle U' Sg' V' k : svd_eigen_Macie fuel m n A U Sg V givens_threshold toggle = Ret (Some (U', Sg', V', k)) -> pos_sv Sg -> pos_sv Sg'.
Proof.
  unfold svd_eigen_Macie. change givens_threshold with thr15. destruct toggle; intros E P; apply obind_Ret_inv in E as (r & E & X);
    destruct r as [[[[W1 F1] S1] k1]|]; try discriminate; injection X as <- <- <- <-; exact (jacobi_pos _ _ _ _ _ _ _ _ _ _ _ E P).
Qed.
Theorem used_positive c s : givens_used c s -> forall i x, gv_S s i = Some x -> 0 < x.
Proof.
  induction 1 as [|s _ IH|s fuel q v qdot code out s' _ IH E].
  - intros i x H. discriminate H.
  - intros i x. cbn [givens_update gv_S]. destruct (Nat.ltb i (gv_n (gv_nj s))); [apply IH|discriminate].
  - unfold givens_CartToJnt in E. destruct (negb (Nat.eqb (gv_nj s) (ch_nj c))); [injection E as _ _ <-; exact IH|].
    destruct (negb (Nat.eqb (gv_nj s) (length q)) || negb (Nat.eqb (gv_nj s) (length qdot))); [injection E as _ _ <-; exact IH|].
    apply obind_Ret_inv in E as ([e jac] & _ & E). destruct (e <? 0)%Z; [injection E as _ _ <-; exact IH|].
    apply obind_Ret_inv in E as (r & E & X). destruct r as [[[[U Sg] V] k]|]; [|discriminate]. apply obind_Ret_inv in X as (suy & _ & X). injection X as _ _ <-.
    exact (macie_pos _ _ _ _ _ _ _ _ _ _ _ _ E IH).
Qed.
