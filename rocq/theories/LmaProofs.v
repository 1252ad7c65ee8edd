(** Proofs about the Levenberg-Marquardt step: forward kinematics, Jacobian, and
    the linear algebra of the step. *)
From Coq Require Import Reals List ZArith Bool Arith Lia Lra.
From Verif Require Import FramesModel FramesSpec FramesProofs RotationProofs FrameOpsProofs Outcome LoopProofs
  InertiaModel DualModel KinModel KinSpec KinProofs JacProofs LinModel LinSpec SumProofs IkSpec LmaModel LmaSpec.
Import ListNotations.
Local Open Scope R_scope.

Local Arguments segment_pose : simpl never.
Local Arguments segment_twist : simpl never.
Local Arguments f_mul : simpl never.

(** * Forward kinematics *)

Definition fwd_inv (c : Chain) (q : list R) (k : nat) (st : nat * Frame * list Frame * list Frame) : Prop :=
  let '(j, head, roots, tips) := st in
  j = count_moving (firstn k (ch_segs c)) /\ head = tip_frame c q k /\ length roots = ch_nj c /\ length tips = ch_nj c /\
  forall k' s, (k' < k)%nat -> nth_error (ch_segs c) k' = Some s -> moving s = true ->
    nth_error roots (count_moving (firstn k' (ch_segs c))) = Some (tip_frame c q k') /\
    nth_error tips (count_moving (firstn k' (ch_segs c))) = Some (tip_frame c q (S k')).

Lemma count_mono segs k k' s : (k' < k)%nat -> nth_error segs k' = Some s -> moving s = true ->
  (count_moving (firstn k' segs) < count_moving (firstn k segs))%nat.
Proof.
  intros L E M. pose proof (count_snoc k' segs s E) as C. rewrite M in C.
  assert (count_moving (firstn (S k') segs) <= count_moving (firstn k segs))%nat; [|lia].
  rewrite <- (firstn_skipn (S k') (firstn k segs)), count_moving_app, firstn_firstn.
  replace (Nat.min (S k') k) with (S k') by lia. lia.
Qed.

Lemma lma_fwd c q roots tips : chain_wf c -> length q = ch_nj c -> length roots = ch_nj c -> length tips = ch_nj c ->
  exists roots' tips', lma_fwdpos c q roots tips = Ret (tip_frame c q (length (ch_segs c)), roots', tips') /\
    length roots' = ch_nj c /\ length tips' = ch_nj c /\
    forall k s, nth_error (ch_segs c) k = Some s -> moving s = true ->
      nth_error roots' (count_moving (firstn k (ch_segs c))) = Some (tip_frame c q k) /\
      nth_error tips' (count_moving (firstn k (ch_segs c))) = Some (tip_frame c q (S k)).
Proof.
  intros Hw Hq Hr Ht. pose proof Hw as [Hs Hj].
  destruct (for_loop_inv (fwd_inv c q) (lma_fwd_body c q) (ch_ns c) 0 (0%nat, f_id, roots, tips)) as ([[[j head] r] t] & E & H).
  - intros k [[[j head] r] t] Hk (I1 & I2 & I3 & I4 & I5).
    destruct (chain_lookup c q k Hw Hq) as (s & x & En & Es & Hle & Hx & Ha & Hc); [lia|].
    unfold lma_fwd_body. rewrite Es. cbn [obind]. pose proof (tip_frame_S c q k s x Hle En Hx) as TS.
    destruct (moving s) eqn:M.
    + pose proof (mover_index _ _ _ En M) as MI.
      rewrite aset_ret by (subst j; lia). cbn [obind]. rewrite I1, (Ha eq_refl). cbn [obind].
      rewrite aset_ret by lia. cbn [obind]. eexists. split; [reflexivity|].
      split; [rewrite Hc; lia|]. split; [rewrite TS, I2; reflexivity|]. rewrite !upd_length. split; [exact I3|]. split; [exact I4|].
      intros k' s' Hk' En' M'. destruct (Nat.eq_dec k' k) as [->|N].
      * rewrite !nth_error_upd_same by lia. rewrite I2, TS. auto.
      * assert (LT : (k' < k)%nat) by lia. pose proof (count_mono _ _ _ _ LT En' M') as CM.
        rewrite !nth_error_upd_other by lia. apply (I5 k' s'); auto.
    + subst x. eexists. split; [reflexivity|]. split; [rewrite Hc; lia|]. split; [rewrite TS, I2; reflexivity|].
      split; [exact I3|]. split; [exact I4|]. intros k' s' Hk' En' M'.
      destruct (Nat.eq_dec k' k) as [->|N]; [congruence|]. apply (I5 k' s'); auto; lia.
  - split; [reflexivity|]. split; [reflexivity|]. split; [exact Hr|]. split; [exact Ht|]. intros; lia.
  - destruct H as (I1 & I2 & I3 & I4 & I5). unfold lma_fwdpos. rewrite E. cbn [obind].
    exists r, t. rewrite I2, Hs. split; [reflexivity|]. split; [exact I3|]. split; [exact I4|].
    intros k s En M. apply (I5 k s); auto. assert (k < length (ch_segs c))%nat by (apply nth_error_Some; congruence). lia.
Qed.

(** * Jacobian *)

Lemma lma_jac c q roots tips jac : chain_ok c -> length q = ch_nj c -> length jac = ch_nj c ->
  (forall k s, nth_error (ch_segs c) k = Some s -> moving s = true ->
      nth_error roots (count_moving (firstn k (ch_segs c))) = Some (tip_frame c q k) /\
      nth_error tips (count_moving (firstn k (ch_segs c))) = Some (tip_frame c q (S k))) ->
  lma_jacobian c q (tip_frame c q (length (ch_segs c))) roots tips jac = Ret (jacobian_at c (-1) q).
Proof.
  intros Hok Hq Hjac HF. pose proof Hok as [Hw Hseg]. pose proof Hw as [Hs Hj].
  set (head := tip_frame c q (length (ch_segs c))).
  assert (JA : jacobian_at c (-1) q = jacl (ch_segs c) q).
  { unfold jacobian_at. rewrite (jac_result c (jacsolver_make c) q (jac_make (ch_nj c)) (-1) (length (ch_segs c)) Hok) by (left; split; [lia|reflexivity]).
    unfold jacsolver_make, jac_make. rewrite !repeat_length, Hq, Nat.eqb_refl. cbn [negb andb].
    rewrite Nat.leb_refl. unfold jac_closed. rewrite firstn_all.
    assert (JL : length (jacl (ch_segs c) q) = ch_nj c) by (rewrite jacl_length; lia).
    rewrite unlocked_all by lia. rewrite JL, Nat.sub_diag. apply app_nil_r. }
  pose (shift := fun k J => map (fun t => t_RefPoint t (v_sub (fp head) (fp (tip_frame c q k)))) J).
  destruct (for_loop_inv (fun k (st : nat * list Twist) => fst st = count_moving (firstn k (ch_segs c)) /\
      snd st = shift k (jacl (firstn k (ch_segs c)) q) ++ skipn (count_moving (firstn k (ch_segs c))) jac)
      (lma_jac_body c q head roots tips) (ch_ns c) 0 (0%nat, jac)) as ([j J] & E & H1 & H2).
  - intros k [j J] Hk (I1 & I2). cbn [fst snd] in I1, I2.
    destruct (chain_lookup c q k Hw Hq) as (s & x & En & Es & Hle & Hx & Ha & Hc); [lia|].
    pose proof (tip_frame_S c q k s x Hle En Hx) as TS.
    pose proof (jacl_snoc _ s (Forall_firstn' _ k _ Hseg) q Hle x Hx) as Hsn.
    rewrite <- (firstn_snoc _ _ _ En) in Hsn. fold (tip_frame c q k) in Hsn.
    assert (JL : length (jacl (firstn k (ch_segs c)) q) = count_moving (firstn k (ch_segs c))) by (apply jacl_length; exact Hle).
    assert (D : r_app (fM (tip_frame c q k)) (fp (segment_pose s x)) = v_sub (fp (tip_frame c q (S k))) (fp (tip_frame c q k)))
      by (rewrite TS; geo).
    assert (SH : shift (S k) (jacl (firstn (S k) (ch_segs c)) q) = shift k (jacl (firstn k (ch_segs c)) q) ++
       (if moving s then [t_RefPoint (r_app_t (fM (tip_frame c q k)) (segment_twist s x 1)) (v_sub (fp head) (fp (tip_frame c q (S k))))] else [])).
    { unfold shift. rewrite Hsn, map_app, map_map. f_equal.
      - apply map_ext. intros t. rewrite t_RefPoint_RefPoint, D. f_equal. geo.
      - destruct (moving s); reflexivity. }
    unfold lma_jac_body. rewrite Es. cbn [obind]. destruct (moving s) eqn:M.
    + pose proof (mover_index _ _ _ En M) as MI. destruct (HF k s En M) as (F1 & F2).
      rewrite I1, (aget_nth_error _ _ _ F1). cbn [obind]. rewrite (Ha eq_refl). cbn [obind].
      rewrite (aget_nth_error _ _ _ F2). cbn [obind].
      assert (LS : length (shift k (jacl (firstn k (ch_segs c)) q)) = count_moving (firstn k (ch_segs c)))
        by (unfold shift; rewrite map_length; exact JL).
      destruct (skipn (count_moving (firstn k (ch_segs c))) jac) as [|y rest] eqn:SK.
      { assert (LN : length (skipn (count_moving (firstn k (ch_segs c))) jac) = 0%nat) by (rewrite SK; reflexivity).
        rewrite skipn_length in LN. lia. }
      rewrite I2, (aset_mid' _ _ _ _ _ LS). cbn [obind]. eexists. split; [reflexivity|]. cbn [fst snd].
      split; [rewrite Hc; lia|]. rewrite SH, <- app_assoc. f_equal. cbn [app]. f_equal.
      rewrite Hc, Nat.add_1_r.
      replace rest with (skipn 1 (skipn (count_moving (firstn k (ch_segs c))) jac)) by (rewrite SK; reflexivity).
      generalize (count_moving (firstn k (ch_segs c))). clear. intros n. revert jac.
      induction n as [|n IH]; intros [|a l]; try reflexivity. cbn [skipn] in *. apply IH.
    + eexists. split; [reflexivity|]. cbn [fst snd]. split; [rewrite Hc; lia|].
      rewrite SH, app_nil_r, Hc, Nat.add_0_r. exact I2.
  - cbn [fst snd firstn]. split; reflexivity.
  - cbn [fst snd] in *. unfold lma_jacobian. rewrite E. cbn [obind]. rewrite JA. f_equal. rewrite H2. rewrite Nat.add_0_l, Hs, firstn_all.
    rewrite skipn_all2 by lia. rewrite app_nil_r. unfold shift. fold head.
    rewrite <- (map_id (jacl (ch_segs c) q)) at 2. apply map_ext. intros t. geo.
Qed.

(** * Sums *)

Lemma vdot_sum a b : length a = length b -> vdot a b = sumn (length a) (fun i => nth i a 0 * nth i b 0).
Proof.
  revert b; induction a as [|x a IH]; intros [|y b] H; cbn [length] in H; try discriminate; [reflexivity|].
  cbn [length]. rewrite sumn_head. unfold vdot in *. cbn. rewrite IH by lia. reflexivity.
Qed.
Lemma vplus_length a b : length a = length b -> length (vplus a b) = length a.
Proof. intros H. unfold vplus. rewrite map_length, combine_length. lia. Qed.
Lemma vplus_nth a b i : length a = length b -> nth i (vplus a b) 0 = nth i a 0 + nth i b 0.
Proof.
  revert b i; induction a as [|x a IH]; intros [|y b] [|i] H; cbn in H; try discriminate; cbn; try lra; try reflexivity.
  apply IH. lia.
Qed.
Lemma cols_length n V x : length (cols_times n V x) = n.
Proof. unfold cols_times. rewrite map_length, seq_length. reflexivity. Qed.
Lemma nth_map_seq (f : nat -> R) n j : (j < n)%nat -> nth j (map f (seq 0 n)) 0 = f j.
Proof.
  intros H. rewrite (nth_indep _ 0 (f 0%nat)) by (rewrite map_length, seq_length; exact H).
  rewrite map_nth, seq_nth by exact H. reflexivity.
Qed.
Lemma cols_nth n V x j : (j < n)%nat -> length V = length x ->
  nth j (cols_times n V x) 0 = sumn (length x) (fun i => nth j (nth i V []) 0 * nth i x 0).
Proof.
  intros Hj. unfold cols_times. rewrite nth_map_seq by exact Hj.
  revert x. induction V as [|v V IH]; intros [|y x] L; cbn [length] in L; try discriminate; [reflexivity|].
  cbn [length]. rewrite sumn_head. cbn. rewrite IH by lia. reflexivity.
Qed.
Lemma t_dot6_sym a b : t_dot6 a b = t_dot6 b a. Proof. unfold t_dot6. ring. Qed.
Lemma t_dot6_add a b c : t_dot6 (t_add a b) c = t_dot6 a c + t_dot6 b c. Proof. unfold t_dot6, t_add, v_add; cbn. ring. Qed.
Lemma t_dot6_sub a b c : t_dot6 (t_sub a b) c = t_dot6 a c - t_dot6 b c. Proof. unfold t_dot6, t_sub, v_sub; cbn. ring. Qed.
Lemma t_dot6_scale a x c : t_dot6 (t_scale a x) c = t_dot6 a c * x. Proof. unfold t_dot6, t_scale, v_scale; cbn. ring. Qed.
Lemma t_dot6_zero c : t_dot6 t_zero c = 0. Proof. unfold t_dot6, t_zero, v_zero; cbn. ring. Qed.
Lemma t_dot6_pos a : 0 <= t_dot6 a a.
Proof.
  unfold t_dot6. pose proof (Rle_0_sqr (vx (tvel a))). pose proof (Rle_0_sqr (vy (tvel a))). pose proof (Rle_0_sqr (vz (tvel a))).
  pose proof (Rle_0_sqr (vx (trot a))). pose proof (Rle_0_sqr (vy (trot a))). pose proof (Rle_0_sqr (vz (trot a))). unfold Rsqr in *. lra.
Qed.
Lemma jac_mul_dot J d e : length J = length d ->
  t_dot6 (jac_mul J d) e = sumn (length d) (fun m => t_dot6 (nth m J t_zero) e * nth m d 0).
Proof.
  revert d; induction J as [|c J IH]; intros [|x d] L; cbn [length] in L; try discriminate; [apply t_dot6_zero|].
  cbn [length]. rewrite sumn_head. cbn [jac_mul nth]. rewrite t_dot6_add, t_dot6_scale, IH by lia. reflexivity.
Qed.

(** * The step *)

Lemma damped_ok U S lambda e : length U = length S -> 0 < lambda -> exists tmp, lma_damped U S lambda e = Ret tmp /\
  length tmp = length S /\ forall i, (i < length S)%nat ->
    (nth i S 0 * nth i S 0 + lambda) * nth i tmp 0 = nth i S 0 * t_dot6 (nth i U t_zero) e.
Proof.
  intros L P. revert U L. induction S as [|s S IH]; intros [|u U] L; cbn [length] in L; try discriminate.
  - exists []. split; [reflexivity|]. split; [reflexivity|]. intros; cbn in *; lia.
  - destruct (IH U ltac:(lia)) as (tmp & E & LT & V). cbn [lma_damped].
    assert (D : 0 < s * s + lambda) by (pose proof (Rle_0_sqr s); unfold Rsqr in *; lra).
    unfold rdiv at 1. destruct (Req_EM_T (s * s + lambda) 0) as [Z|Z]; [lra|]. cbn [obind]. rewrite E. cbn [obind].
    eexists. split; [reflexivity|]. split; [cbn; lia|]. intros [|i] Hi; cbn [nth].
    + field. lra.
    + apply V. cbn in Hi. lia.
Qed.

Lemma sumn_delta k i f : (i < k)%nat -> sumn k (fun j => f j * delta i j) = f i.
Proof.
  intros H. rewrite (sumn_one k i) by (auto; intros j Hj N; unfold delta; replace (Nat.eqb i j) with false by (symmetry; apply Nat.eqb_neq; auto); ring).
  unfold delta. rewrite Nat.eqb_refl. ring.
Qed.

Section Step.
Variable svd : list Twist -> Svd.
Variables (n : nat) (J : list Twist) (e : Twist) (lambda : R).
Hypothesis LJ : length J = n.
Hypothesis SV : is_svd n J (svd J).
Hypothesis POS : 0 < lambda.

Lemma step_normal : exists d, lma_step svd n J lambda e = Ret d /\ length d = n /\
  forall m, (m < n)%nat -> t_dot6 (nth m J t_zero) (jac_mul J d) + lambda * nth m d 0 = t_dot6 (nth m J t_zero) e.
Proof.
  destruct SV as (LU & LV & LVi & DEC & ORT & NN). set (k := length (svd_S (svd J))) in *.
  unfold lma_step. destruct (damped_ok (svd_U (svd J)) (svd_S (svd J)) lambda e LU POS) as (t & -> & LT & VT). cbn [obind].
  fold k in LT, VT. set (S := fun i => nth i (svd_S (svd J)) 0) in *. set (U := fun i => nth i (svd_U (svd J)) t_zero) in *.
  set (V := fun i m => nth m (nth i (svd_V (svd J)) []) 0) in *.
  eexists. split; [reflexivity|]. split; [apply cols_length|].
  set (d := cols_times n (svd_V (svd J)) t).
  assert (LD : length d = n) by apply cols_length.
  assert (DM : forall m, (m < n)%nat -> nth m d 0 = sumn k (fun i => V i m * nth i t 0)).
  { intros m Hm. unfold d. rewrite cols_nth by (auto; lia). rewrite LT. reflexivity. }
  (* <J d, e'> *)
  assert (JD : forall e', t_dot6 (jac_mul J d) e' = sumn k (fun i => S i * t_dot6 (U i) e' * nth i t 0)).
  { intros e'. rewrite jac_mul_dot by lia. rewrite LD.
    rewrite (sumn_ext n _ (fun m => sumn k (fun i => sumn k (fun l => S i * t_dot6 (U i) e' * nth l t 0 * (V i m * V l m))))).
    2:{ intros m Hm. rewrite (DEC m e' Hm), (DM m Hm), <- sumn_scale_r. apply sumn_ext. intros i Hi.
        rewrite <- sumn_scale. apply sumn_ext. intros l Hl. unfold S, V, U. ring. }
    rewrite sumn_swap. apply sumn_ext. intros i Hi. rewrite sumn_swap.
    rewrite (sumn_ext k _ (fun l => (S i * t_dot6 (U i) e' * nth l t 0) * delta i l)).
    2:{ intros l Hl. rewrite sumn_scale. f_equal. apply (ORT i l Hi Hl). }
    rewrite (sumn_delta k i (fun l => S i * t_dot6 (U i) e' * nth l t 0) Hi). reflexivity. }
  intros m Hm. rewrite (DEC m (jac_mul J d) Hm), (DM m Hm), (DEC m e Hm), <- sumn_scale, <- sumn_add.
  apply sumn_ext. intros i Hi. fold (S i) (V i m) (U i).
  rewrite (t_dot6_sym (U i)), JD.
  rewrite (sumn_ext k _ (fun l => S l * nth l t 0 * delta i l)).
  2:{ intros l Hl. rewrite (t_dot6_sym (U l)). unfold U. rewrite (proj1 (ORT i l Hi Hl)). ring. }
  rewrite (sumn_delta k i (fun l => S l * nth l t 0) Hi).
  specialize (VT i Hi). fold (S i) (U i) in VT.
  replace (S i * V i m * t_dot6 (U i) e) with (V i m * (S i * t_dot6 (U i) e)) by ring. rewrite <- VT. ring.
Qed.

(** The step minimises the damped cost. *)
Lemma normal_minimum d : length d = n ->
  (forall m, (m < n)%nat -> t_dot6 (nth m J t_zero) (jac_mul J d) + lambda * nth m d 0 = t_dot6 (nth m J t_zero) e) ->
  damped_minimum n J e lambda d.
Proof.
  intros LD N. split; [exact LD|]. intros d' LD'. unfold damped_cost.
  set (a := jac_mul J d). set (b := jac_mul J d'). fold a in N.
  assert (CROSS : t_dot6 (t_sub b a) (t_sub a e) + lambda * sumn n (fun m => (nth m d' 0 - nth m d 0) * nth m d 0) = 0).
  { assert (A : forall x, t_dot6 a x = sumn n (fun m => t_dot6 (nth m J t_zero) x * nth m d 0)) by (intros; unfold a; rewrite jac_mul_dot by lia; rewrite LD; reflexivity).
    assert (B : forall x, t_dot6 b x = sumn n (fun m => t_dot6 (nth m J t_zero) x * nth m d' 0)) by (intros; unfold b; rewrite jac_mul_dot by lia; rewrite LD'; reflexivity).
    rewrite t_dot6_sub, A, B, <- sumn_sub, <- sumn_scale, <- sumn_add. apply sumn_zero. intros m Hm.
    specialize (N m Hm). rewrite (t_dot6_sym _ (t_sub a e)), t_dot6_sub, (t_dot6_sym a), (t_dot6_sym e).
    replace (t_dot6 (nth m J t_zero) e) with (t_dot6 (nth m J t_zero) a + lambda * nth m d 0) by exact N. ring. }
  assert (E1 : t_dot6 (t_sub b e) (t_sub b e) = t_dot6 (t_sub a e) (t_sub a e) + 2 * t_dot6 (t_sub b a) (t_sub a e) + t_dot6 (t_sub b a) (t_sub b a)).
  { unfold t_dot6, t_sub, v_sub; cbn. ring. }
  assert (E2 : sumn n (fun m => nth m d' 0 * nth m d' 0) = sumn n (fun m => nth m d 0 * nth m d 0) +
     2 * sumn n (fun m => (nth m d' 0 - nth m d 0) * nth m d 0) + sumn n (fun m => (nth m d' 0 - nth m d 0) * (nth m d' 0 - nth m d 0))).
  { rewrite <- sumn_scale, <- !sumn_add. apply sumn_ext. intros; ring. }
  rewrite E1, E2. pose proof (t_dot6_pos (t_sub b a)).
  assert (SP : 0 <= lambda * sumn n (fun m => (nth m d' 0 - nth m d 0) * (nth m d' 0 - nth m d 0))).
  { apply Rmult_le_pos; [lra|]. apply sumn_nonneg. intros. apply Rle_0_sqr. }
  lra.
Qed.

(** The divisor of the gain ratio. *)
Lemma normal_gain d : length d = n ->
  (forall m, (m < n)%nat -> t_dot6 (nth m J t_zero) (jac_mul J d) + lambda * nth m d 0 = t_dot6 (nth m J t_zero) e) ->
  vdot d (vplus (map (fun x => lambda * x) d) (map (fun col => t_dot6 col e) J)) =
    t_dot6 (jac_mul J d) (jac_mul J d) + 2 * lambda * sumn n (fun m => nth m d 0 * nth m d 0).
Proof.
  intros LD N.
  assert (L2 : length (map (fun x => lambda * x) d) = length (map (fun col => t_dot6 col e) J)) by (rewrite !map_length; lia).
  rewrite vdot_sum by (rewrite vplus_length by exact L2; rewrite map_length; reflexivity).
  rewrite LD. rewrite jac_mul_dot by lia. rewrite LD, <- sumn_scale, <- sumn_add. apply sumn_ext. intros m Hm.
  rewrite vplus_nth by exact L2.
  assert (M1 : nth m (map (fun x => lambda * x) d) 0 = lambda * nth m d 0).
  { rewrite (nth_indep _ 0 (lambda * 0)) by (rewrite map_length; lia). apply (map_nth (fun x => lambda * x)). }
  assert (M2 : nth m (map (fun col => t_dot6 col e) J) 0 = t_dot6 (nth m J t_zero) e).
  { rewrite (nth_indep _ 0 (t_dot6 t_zero e)) by (rewrite map_length; lia). apply (map_nth (fun col => t_dot6 col e)). }
  rewrite M1, M2, <- (N m Hm). ring.
Qed.
Lemma gain_nonneg d : 0 <= t_dot6 (jac_mul J d) (jac_mul J d) + 2 * lambda * sumn n (fun m => nth m d 0 * nth m d 0).
Proof.
  pose proof (t_dot6_pos (jac_mul J d)).
  assert (0 <= 2 * lambda * sumn n (fun m => nth m d 0 * nth m d 0)).
  { apply Rmult_le_pos; [lra|]. apply sumn_nonneg. intros. apply Rle_0_sqr. }
  lra.
Qed.
Lemma gain_pos d : length d = n -> 0 < max_norm d ->
  0 < t_dot6 (jac_mul J d) (jac_mul J d) + 2 * lambda * sumn n (fun m => nth m d 0 * nth m d 0).
Proof.
  intros LD M. pose proof (t_dot6_pos (jac_mul J d)).
  assert (0 < sumn n (fun m => nth m d 0 * nth m d 0)); [|assert (0 < 2 * lambda * sumn n (fun m => nth m d 0 * nth m d 0)) by (apply Rmult_lt_0_compat; lra); lra].
  clear -LD M. subst n. induction d as [|x d IH]; cbn in M; [lra|].
  cbn [length]. rewrite sumn_head. cbn [nth].
  assert (SN : 0 <= sumn (length d) (fun m => nth m d 0 * nth m d 0)) by (apply sumn_nonneg; intros; apply Rle_0_sqr).
  destruct (Req_dec x 0) as [->|X].
  - rewrite Rabs_R0 in M. assert (0 < max_norm d).
    { unfold max_norm in *. destruct (Rle_or_lt (fold_right (fun x m => Rmax (Rabs x) m) 0 d) 0) as [A|A]; [|exact A].
      rewrite Rmax_left in M by exact A. lra. }
    specialize (IH H). lra.
  - pose proof (Rsqr_pos_lt x X). unfold Rsqr in *. lra.
Qed.
End Step.
