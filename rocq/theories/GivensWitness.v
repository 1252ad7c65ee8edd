(** Concrete chains for the solver with plane rotations. *)
From Coq Require Import Reals String List ZArith Lra Lia Bool Arith.
From Verif Require Import FramesModel FramesSpec FramesProofs FrameOpsProofs Outcome LoopProofs InertiaModel DualModel KinModel KinSpec KinProofs JacProofs JacDotProofs LinModel LinSpec SumProofs LmaModel LmaSpec LmaProofs LmaProofs2 SvdModel SvdFinal
  VelIkModel VelIkSpec VelIkLin VelIkProofs VelIkWitness GivensModel GivensSpec GivensLin GivensLoop GivensFactor GivensThms GivensThms2.
Import ListNotations.
Local Open Scope list_scope.
Local Open Scope R_scope.

(** ** One rotation *)
Lemma loop_idle thr rows n B W k i : 0 < thr -> (forall a b, (a < b < n)%nat -> alone thr rows B a b) -> forall m j, (i < j)%nat -> (m + j <= n)%nat ->
  for_loop m j (jacobi_pair thr rows i) (B, W, k) = Ret (B, W, k).
Proof.
  intros Thr H. induction m as [|m IH]; intros j Hj Hm; [reflexivity|]. cbn [for_loop]. unfold jacobi_pair at 1.
  rewrite (proj2 (alone_iff thr rows Thr B i j) (H i j ltac:(lia))). cbn [obind]. apply IH; lia.
Qed.
Lemma loops_idle thr rows n B W k : 0 < thr -> (forall a b, (a < b < n)%nat -> alone thr rows B a b) -> forall m i, (m + i <= n)%nat ->
  for_loop m i (fun i => for_loop (n - S i) (S i) (jacobi_pair thr rows i)) (B, W, k) = Ret (B, W, k).
Proof.
  intros Thr H. induction m as [|m IH]; intros i Hm; [reflexivity|]. cbn [for_loop]. rewrite (loop_idle thr rows n B W k i Thr H) by lia. cbn [obind]. apply IH; lia.
Qed.
Lemma jacobi_one thr rows n B W F Sg cs sn fuel : 0 < thr -> (2 <= n)%nat -> ~ alone thr rows B 0 1 ->
  plane (gram rows B 0 1) (gram rows B 0 0 - gram rows B 1 1) = Ret (cs, sn) ->
  (forall a b, (a < b < n)%nat -> alone thr rows (turn 0 1 cs sn B) a b) ->
  jacobi (S (S fuel)) thr rows n B W F Sg 0 =
  Ret (Some (turn 0 1 cs sn W, unit_columns rows n (turn 0 1 cs sn B), column_lengths rows n (turn 0 1 cs sn B) Sg, 1%nat)).
Proof.
  intros Thr Hn Na Pl Al.
  assert (E : jacobi_sweep thr rows n B W = Ret (turn 0 1 cs sn B, turn 0 1 cs sn W, 1%nat)).
  { assert (P : jacobi_pair thr rows 0 1 (B, W, 0%nat) = Ret (turn 0 1 cs sn B, turn 0 1 cs sn W, 1%nat)).
    { unfold jacobi_pair. destruct (left_alone thr _ _ _) eqn:L; [exfalso; apply Na, (alone_iff thr rows Thr), L|].
      rewrite (cdot_gram rows B 0 1), (cdot_gram rows B 0 0), (cdot_gram rows B 1 1), Pl. reflexivity. }
    unfold jacobi_sweep. destruct n as [|[|n]]; [lia|lia|]. cbn [for_loop]. replace (S (S n) - 1)%nat with (S n) by lia. cbn [for_loop]. rewrite P. cbn [obind].
    rewrite (loop_idle thr rows (S (S n)) _ _ _ 0 Thr Al) by lia. cbn [obind].
    rewrite (loop_idle thr rows (S (S n)) _ _ _ 1 Thr Al) by lia. cbn [obind].
    apply (loops_idle thr rows (S (S n)) _ _ _ Thr Al). lia. }
  cbn [jacobi]. rewrite E. cbn [obind Nat.eqb]. rewrite (sweep_idle thr rows n Thr _ _ Al). reflexivity.
Qed.
(** The plane of two columns with squared lengths 73 and 52 and product -36. *)
Lemma plane_75 : plane (-36) (73 - 52) = Ret (4/5, -3/5).
Proof.
  unfold plane. replace (4 * (-36 * -36) + (73 - 52) * (73 - 52)) with (75 * 75) by ring. rewrite sqrt_square by lra.
  destruct (Req_EM_T 75 0); [lra|]. destruct (Rle_dec 0 (73 - 52)); [|lra].
  replace ((75 + (73 - 52)) / (2 * 75)) with (4/5 * (4/5)) by field. rewrite sqrt_square by lra. do 2 f_equal. field.
Qed.

(** ** Chains *)
Definition rail (x y z k : R) : Segment := mkS "slide"%string (mkJ "axis"%string TransAxis k 0 0 0 0 (mkV x y z) v_zero) rb_zero f_id.
Lemma rail_ok x y z k : segment_ok (rail x y z k).
Proof. split; [intros X; discriminate|apply is_rotation_id]. Qed.
Lemma ax_ok ty k : ty <> RotAxis -> segment_ok (ax ty k).
Proof. intros N. split; [intros X; contradiction|apply is_rotation_id]. Qed.
(** A turntable that carries two slides at right angles, of gain 5 and 10, a lift and
    two rotations. *)
Definition cart : Chain := mkCh 6 6 [ax RotZ 1; rail (3/5) (4/5) 0 5; rail (-4/5) (3/5) 0 10; ax TransZ 1; ax RotX 1; ax RotY 1].
Lemma cart_ok : chain_ok cart.
Proof. split; [split; reflexivity|]. repeat (constructor; [first [apply rail_ok | apply ax_ok; discriminate]|]). constructor. Qed.
Definition cart_at (th d : R) : list R := [th; 0; d; 0; 0; 0].
Lemma rail_pose x y z k q : segment_pose (rail x y z k) q = f_of_vec (mkV (x * (k * q)) (y * (k * q)) (z * (k * q))).
Proof. unfold segment_pose, joint_pose, rail. cbn [sjoint jtype jscale joffset jaxis jorigin sf_tip]. geo. Qed.
Lemma rail_twist x y z k q : segment_twist (rail x y z k) q 1 = mkT (mkV (x * k) (y * k) (z * k)) v_zero.
Proof. unfold segment_twist, joint_twist, joint_pose, rail. cbn [sjoint jtype jscale joffset jaxis jorigin sf_tip]. geo. Qed.
Lemma table_pose q : segment_pose (ax RotZ 1) q = f_of_rot (r_RotZ q).
Proof. unfold segment_pose, joint_pose, ax. cbn [sjoint jtype jscale joffset jaxis jorigin sf_tip]. rewrite Rmult_1_l, Rplus_0_r. unfold r_RotZ. geo. Qed.
Lemma table_twist q : segment_twist (ax RotZ 1) q 1 = mkT v_zero (mkV 0 0 1).
Proof. unfold segment_twist, joint_twist, joint_pose, ax. cbn [sjoint jtype jscale joffset jaxis jorigin sf_tip]. unfold r_RotZ. geo. Qed.
Lemma jacl_moving s l x q : moving s = true -> jacl (s :: l) (x :: q) =
  t_RefPoint (segment_twist s x 1) (r_app (fM (segment_pose s x)) (fp (pose_product (assign l q)))) :: map (r_app_t (fM (segment_pose s x))) (jacl l q).
Proof. intros H. cbn [jacl]. rewrite H. reflexivity. Qed.
Lemma pose_moving s l x q : moving s = true -> pose_product (assign (s :: l) (x :: q)) = f_mul (segment_pose s x) (pose_product (assign l q)).
Proof. intros H. cbn [assign]. rewrite H. reflexivity. Qed.
Lemma map_rail x l : map (r_app_t (fM (f_of_vec x))) l = l.
Proof. apply rot_zero. Qed.
Lemma cart_jac th d : jacobian_at cart (-1) (cart_at th d) =
  let C := cos th in let Sn := sin th in
  [mkT (mkV (- d * (6 * C - 8 * Sn)) (- d * (8 * C + 6 * Sn)) 0) (mkV 0 0 1);
   mkT (mkV (3 * C - 4 * Sn) (3 * Sn + 4 * C) 0) v_zero; mkT (mkV (- 8 * C - 6 * Sn) (- 8 * Sn + 6 * C) 0) v_zero; mkT (mkV 0 0 1) v_zero;
   mkT v_zero (mkV C Sn 0); mkT v_zero (mkV (- Sn) C 0)].
Proof.
  rewrite jac_is_jacl by (first [apply cart_ok | reflexivity]). cbv zeta.
  destruct (ax_jacl [(TransZ, 1); (RotX, 1); (RotY, 1)]) as [E1 E2]; [repeat constructor; cbn; tauto|]. cbn [map length repeat fst snd] in E1, E2.
  unfold cart, cart_at. cbn [ch_segs]. set (tl := [ax TransZ 1; ax RotX 1; ax RotY 1]) in *. set (tq := [0; 0; 0]) in *. rewrite !jacl_moving, !pose_moving by reflexivity. rewrite !E2, !E1.
  rewrite !rail_pose, !rail_twist, table_pose, table_twist. rewrite !map_rail. cbn [map axis_of axis6].
  assert (P : f_mul (f_of_vec (mkV (- 4 / 5 * (10 * d)) (3 / 5 * (10 * d)) (0 * (10 * d)))) f_id = f_of_vec (mkV (- 8 * d) (6 * d) 0)) by (geo; field).
  rewrite P. clear P.
  assert (P : f_mul (f_of_vec (mkV (3 / 5 * (5 * 0)) (4 / 5 * (5 * 0)) (0 * (5 * 0)))) (f_of_vec (mkV (- 8 * d) (6 * d) 0)) = f_of_vec (mkV (- 8 * d) (6 * d) 0)) by (geo; field).
  rewrite P. clear P. unfold r_RotZ.
  repeat match goal with |- _ :: _ = _ :: _ => apply f_equal2 end; try reflexivity; geo_split; geo_unfold; try field.
Qed.

(** ** A first call that needs one rotation *)
Lemma gram_perm n (perm : nat -> nat) (sc : nat -> R) (T : mat) i j : (forall b i, (b < n)%nat -> (i < n)%nat -> T b i = if Nat.eqb b (perm i) then sc i else 0) ->
  (perm i < n)%nat -> (i < n)%nat -> (j < n)%nat -> gram n T i j = if Nat.eqb (perm i) (perm j) then sc i * sc j else 0.
Proof.
  intros HT Hp Hi Hj. unfold gram. rewrite (sumn_ext n _ (fun b => delta (perm i) b * (sc i * (if Nat.eqb b (perm j) then sc j else 0)))).
  - rewrite (sumn_delta' n (perm i) (fun b => sc i * (if Nat.eqb b (perm j) then sc j else 0)) Hp). destruct (Nat.eqb (perm i) (perm j)); ring.
  - intros b Hb. rewrite !HT by assumption. unfold delta. rewrite (Nat.eqb_sym (perm i) b). destruct (Nat.eqb b (perm i)); ring.
Qed.
Section One.
Variables (c : Chain) (q : list R) (perm : nat -> nat) (sc : nat -> R).
Hypotheses (Hok : chain_ok c) (Hq : length q = ch_nj c) (Hn : (6 <= ch_nj c)%nat).
Hypotheses (P6 : forall i, (i < 6)%nat -> (perm i < 6)%nat) (Inj : forall i j, (i < j < 6)%nat -> perm i <> perm j) (Sc : forall i, (i < 6)%nat -> 0 < sc i * sc i).
Hypotheses (G01 : gram 6 (row_start c (givens_make c) q) 0 1 = -36) (G00 : gram 6 (row_start c (givens_make c) q) 0 0 = 73) (G11 : gram 6 (row_start c (givens_make c) q) 1 1 = 52).
Hypothesis HT : forall b i, (b < 6)%nat -> (i < 6)%nat -> turn 0 1 (4/5) (-3/5) (row_start c (givens_make c) q) b i = if Nat.eqb b (perm i) then sc i else 0.
Lemma gram_ext rows B C i j : (forall a b, B a b = C a b) -> gram rows B i j = gram rows C i j.
Proof. intros H. apply sumn_ext. intros; rewrite !H; reflexivity. Qed.
Lemma turn_ext i j cs sn B C : (forall a b, B a b = C a b) -> forall a b, turn i j cs sn B a b = turn i j cs sn C a b.
Proof. intros H a b. unfold turn. rewrite !H. reflexivity. Qed.
Lemma one_call : exists V Sg, (forall b i, (b < 6)%nat -> (i < 6)%nat -> V b i = if Nat.eqb b (perm i) then sc i / Rabs (sc i) else 0) /\
  (forall i, (i < 6)%nat -> Sg i = Some (Rabs (sc i)) /\ 0 < Rabs (sc i)) /\
  forall fuel v qdot, length qdot = ch_nj c -> givens_CartToJnt (S (S fuel)) c (givens_make c) q v qdot =
  Ret (Some (E_NOERROR, result_velocity (ch_nj c) 6 (gv_transpose (ch_nj c)) (turn 0 1 (4/5) (-3/5) eye) V (fun i => Rabs (sc i)) v,
    mkGV (ch_nj c) (gv_locked (givens_make c)) (jacobian_at c (-1) q) false (turn 0 1 (4/5) (-3/5) eye) Sg V E_NOERROR)).
Proof.
  assert (En : gv_n (ch_nj c) = 6%nat) by (unfold gv_n; lia).
  set (Bt := fun b i => total (gv_m (ch_nj c)) (fun k => eye k i * tall_jacobian c q k b)).
  assert (EB : forall a b, Bt a b = row_start c (givens_make c) q a b) by (intros; apply total_sum).
  set (T := turn 0 1 (4/5) (-3/5) Bt).
  assert (ET : forall b i, (b < 6)%nat -> (i < 6)%nat -> T b i = if Nat.eqb b (perm i) then sc i else 0) by (intros b i Hb Hi; unfold T; rewrite (turn_ext 0 1 _ _ _ _ EB); apply HT; assumption).
  assert (Gd : forall i, (i < 6)%nat -> gram 6 T i i = sc i * sc i) by (intros i Hi; rewrite (gram_perm 6 perm sc T i i ET (P6 i Hi) Hi Hi), Nat.eqb_refl; reflexivity).
  assert (Al : forall a b, (a < b < 6)%nat -> alone thr15 6 T a b).
  { intros a b Hab. unfold alone. rewrite (gram_perm 6 perm sc T a b ET (P6 a ltac:(lia)) ltac:(lia) ltac:(lia)).
    destruct (Nat.eqb_spec (perm a) (perm b)) as [X|_]; [exfalso; apply (Inj a b Hab X)|]. rewrite !Gd by lia. rewrite Rmult_0_r.
    apply Rmult_lt_0_compat; [apply thr15_pos|]. apply Rmult_lt_0_compat; apply Sc; lia. }
  assert (Ln : forall i, (i < 6)%nat -> sqrt (cdot 6 T i i) = Rabs (sc i)) by (intros i Hi; rewrite cdot_gram, Gd by exact Hi; apply sqrt_Rsqr_abs).
  assert (Ps : forall i, (i < 6)%nat -> 0 < Rabs (sc i)) by (intros i Hi; apply Rabs_pos_lt; intros X; pose proof (Sc i Hi); rewrite X in *; lra).
  exists (unit_columns 6 6 T), (column_lengths 6 6 T (fun _ => None)). split; [|split].
  - intros b i Hb Hi. unfold unit_columns. rewrite (proj2 (Nat.ltb_lt i 6) Hi), (Ln i Hi), (ET b i Hb Hi). cbv zeta. pose proof (Ps i Hi).
    destruct (Req_EM_T (Rabs (sc i)) 0); [lra|]. destruct (Nat.eqb b (perm i)); [reflexivity|]. unfold Rdiv. ring.
  - intros i Hi. unfold column_lengths. rewrite (proj2 (Nat.ltb_lt i 6) Hi), (Ln i Hi). split; [reflexivity|apply Ps, Hi].
  - intros fuel v qdot Hd. pose proof (accepted (S (S fuel)) c (givens_make c) q v qdot (turn 0 1 (4/5) (-3/5) eye) (column_lengths 6 6 T (fun _ => None)) (unit_columns 6 6 T) 1%nat
      (fun i => Rabs (sc i)) Hok (make_inv c) Hq Hd) as A. rewrite En in A. apply A.
    + cbn [givens_make gv_toggle negb gv_U gv_S gv_V]. unfold svd_eigen_Macie. change givens_threshold with thr15. cbv zeta. fold Bt.
      rewrite (jacobi_one thr15 6 6 Bt eye eye (fun _ => None) (4/5) (-3/5) fuel thr15_pos); [reflexivity|lia| | |exact Al].
      * unfold alone. rewrite (gram_ext 6 Bt _ 0 1 EB), (gram_ext 6 Bt _ 0 0 EB), (gram_ext 6 Bt _ 1 1 EB), G01, G00, G11. unfold thr15. lra.
      * rewrite (gram_ext 6 Bt _ 0 1 EB), (gram_ext 6 Bt _ 0 0 EB), (gram_ext 6 Bt _ 1 1 EB), G01, G00, G11. exact plane_75.
    + intros i Hi. unfold column_lengths. rewrite (proj2 (Nat.ltb_lt i 6) Hi), (Ln i Hi). split; [reflexivity|apply Ps, Hi].
Qed.
End One.

(** ** The cart *)
Ltac six x := destruct x as [|[|[|[|[|[|?]]]]]]; [..|exfalso; lia].
Lemma cart_row b i : (b < 6)%nat -> (i < 6)%nat -> row_start cart (givens_make cart) (cart_at 0 0) b i = tip_jacobian cart (cart_at 0 0) i b.
Proof. intros Hb Hi. rewrite (first_start cart (cart_at 0 0) b i cart_ok Hb Hi), (tall_small cart (cart_at 0 0)) by (cbn; lia). reflexivity. Qed.
Lemma cart_entry th d r j : tip_jacobian cart (cart_at th d) r j = t_at (nth j
  [mkT (mkV (- d * (6 * cos th - 8 * sin th)) (- d * (8 * cos th + 6 * sin th)) 0) (mkV 0 0 1);
   mkT (mkV (3 * cos th - 4 * sin th) (3 * sin th + 4 * cos th) 0) v_zero; mkT (mkV (- 8 * cos th - 6 * sin th) (- 8 * sin th + 6 * cos th) 0) v_zero; mkT (mkV 0 0 1) v_zero;
   mkT v_zero (mkV (cos th) (sin th) 0); mkT v_zero (mkV (- sin th) (cos th) 0)] t_zero) r.
Proof. unfold tip_jacobian. rewrite cart_jac. reflexivity. Qed.
Definition cart_perm (i : nat) : nat := nth i [2; 1; 3; 4; 5; 0]%nat 0%nat.
Definition cart_sc (i : nat) : R := nth i [-10; 5; 1; 1; 1; 1] 0.
Definition cart_sv (i : nat) : R := nth i [10; 5; 1; 1; 1; 1] 0.
Definition cart_sg (i : nat) : R := nth i [-1; 1; 1; 1; 1; 1] 0.
Lemma cart_abs i : (i < 6)%nat -> Rabs (cart_sc i) = cart_sv i /\ cart_sc i / Rabs (cart_sc i) = cart_sg i /\ 0 < cart_sc i * cart_sc i.
Proof.
  intros Hi. assert (E : Rabs (cart_sc i) = cart_sv i).
  { six i; unfold cart_sc, cart_sv; cbn [nth]; first [rewrite Rabs_right by lra; reflexivity | rewrite Rabs_left by lra; lra]. }
  split; [exact E|]. rewrite E. six i; unfold cart_sc, cart_sv, cart_sg; cbn [nth]; split; first [field | lra].
Qed.
Lemma cart_first : exists V Sg, (forall b i, (b < 6)%nat -> (i < 6)%nat -> V b i = if Nat.eqb b (cart_perm i) then cart_sg i else 0) /\
  (forall i, (i < 6)%nat -> Sg i = Some (cart_sv i) /\ 0 < cart_sv i) /\
  forall fuel v qdot, length qdot = 6%nat -> givens_CartToJnt (S (S fuel)) cart (givens_make cart) (cart_at 0 0) v qdot =
  Ret (Some (E_NOERROR, result_velocity 6 6 false (turn 0 1 (4/5) (-3/5) eye) V (fun i => Rabs (cart_sc i)) v,
    mkGV 6 (gv_locked (givens_make cart)) (jacobian_at cart (-1) (cart_at 0 0)) false (turn 0 1 (4/5) (-3/5) eye) Sg V E_NOERROR)).
Proof.
  assert (G : forall i j, (i < 6)%nat -> (j < 6)%nat -> gram 6 (row_start cart (givens_make cart) (cart_at 0 0)) i j =
    sumn 6 (fun b => tip_jacobian cart (cart_at 0 0) i b * tip_jacobian cart (cart_at 0 0) j b)).
  { intros i j Hi Hj. apply sumn_ext. intros b Hb. rewrite !cart_row by assumption. reflexivity. }
  destruct (one_call cart (cart_at 0 0) cart_perm cart_sc cart_ok eq_refl (le_n 6)) as (V & Sg & HV & HS & H).
  - intros i Hi. six i; cbn; lia.
  - intros i j Hij. assert (Hi : (i < 6)%nat) by lia. assert (Hj : (j < 6)%nat) by lia. six i; six j; cbn; lia.
  - intros i Hi. apply cart_abs, Hi.
  - rewrite G by lia. cbn [sumn]. rewrite !cart_entry. cbn. rewrite cos_0, sin_0. ring.
  - rewrite G by lia. cbn [sumn]. rewrite !cart_entry. cbn. rewrite cos_0, sin_0. ring.
  - rewrite G by lia. cbn [sumn]. rewrite !cart_entry. cbn. rewrite cos_0, sin_0. ring.
  - intros b i Hb Hi. unfold turn. destruct (Nat.eqb_spec i 0) as [->|N0]; [|destruct (Nat.eqb_spec i 1) as [->|N1]].
    + rewrite !cart_row by lia. rewrite !cart_entry, cos_0, sin_0. six b; cbn; lra.
    + rewrite !cart_row by lia. rewrite !cart_entry, cos_0, sin_0. six b; cbn; lra.
    + rewrite cart_row by lia. rewrite cart_entry, cos_0, sin_0. six i; try congruence; six b; cbn; lra.
  - exists V, Sg. split; [|split].
    + intros b i Hb Hi. rewrite (HV b i Hb Hi). destruct (cart_abs i Hi) as (_ & E & _). rewrite E. reflexivity.
    + intros i Hi. destruct (cart_abs i Hi) as (E & _). rewrite <- E. apply HS, Hi.
    + exact H.
Qed.
Ltac polys := unfold sq, mv, transposed; cbn [sumn]; rewrite ?cart_entry; cbn; rewrite ?cos_0, ?sin_0, ?cos_PI, ?sin_PI.
Lemma sqr_nn (a : R) : 0 <= a * a. Proof. apply Rle_0_sqr. Qed.
Lemma cart_regular_turned : stretches 6 6 1 (tip_jacobian cart (cart_at PI 0)).
Proof.
  intros x. polys. apply Rminus_le.
  match goal with |- ?a <= 0 => replace a with (- (24 * (x 1%nat * x 1%nat) + 99 * (x 2%nat * x 2%nat))) by ring end.
  pose proof (sqr_nn (x 1%nat)). pose proof (sqr_nn (x 2%nat)). lra.
Qed.
Lemma cart_rows_regular : stretches 6 6 1 (transposed (tip_jacobian cart (cart_at 0 0))).
Proof.
  intros x. polys. apply Rminus_le.
  match goal with |- ?a <= 0 => replace a with (- (72 * ((x 0%nat - x 1%nat / 2) * (x 0%nat - x 1%nat / 2)) + 33 * (x 1%nat * x 1%nat))) by field end.
  pose proof (sqr_nn (x 0%nat - x 1%nat / 2)). pose proof (sqr_nn (x 1%nat)). lra.
Qed.
Lemma cart_rows_bounded : stretched_at_most 6 6 100 (transposed (tip_jacobian cart (cart_at 0 0))).
Proof.
  intros x. polys. apply Rminus_le.
  match goal with |- ?a <= 0 => replace a with (- (27 * ((x 0%nat + 4 * x 1%nat / 3) * (x 0%nat + 4 * x 1%nat / 3)) + 99 * (x 2%nat * x 2%nat + x 3%nat * x 3%nat + x 4%nat * x 4%nat + x 5%nat * x 5%nat))) by field end.
  pose proof (sqr_nn (x 0%nat + 4 * x 1%nat / 3)). pose proof (sqr_nn (x 2%nat)). pose proof (sqr_nn (x 3%nat)). pose proof (sqr_nn (x 4%nat)). pose proof (sqr_nn (x 5%nat)). lra.
Qed.
Lemma cart_rows_skewed : skewed 6 6 (row_start cart (givens_make cart) (cart_at 0 0)).
Proof.
  exists 0%nat, 1%nat. split; [lia|]. unfold gram. cbn [sumn]. rewrite !cart_row by lia. rewrite !cart_entry. cbn. rewrite cos_0, sin_0. lra.
Qed.
Lemma cart_out_regular : stretches 6 6 (1/16) (tip_jacobian cart (cart_at 0 1)).
Proof.
  intros x. polys. apply Rminus_le. set (y := x 1%nat - 2 * x 0%nat).
  match goal with |- ?a <= 0 => replace a with (- ((1 - 9 / 16) * (x 0%nat * x 0%nat) + (25 - 2/16) * (y * y) + 1/16 * ((x 1%nat - 4 * x 0%nat) * (x 1%nat - 4 * x 0%nat))  + (100 - 1/16) * (x 2%nat * x 2%nat) + (1 - 1/16) * (x 3%nat * x 3%nat + x 4%nat * x 4%nat + x 5%nat * x 5%nat))) by (unfold y; field) end.
  pose proof (sqr_nn (x 0%nat)). pose proof (sqr_nn y). pose proof (sqr_nn (x 1%nat - 4 * x 0%nat)). pose proof (sqr_nn (x 2%nat)). pose proof (sqr_nn (x 3%nat)). pose proof (sqr_nn (x 4%nat)). pose proof (sqr_nn (x 5%nat)). lra.
Qed.
(** The state after the first call. *)
Lemma cart_second : exists s, givens_used cart s /\ column_call s /\ (forall i, (i < 6)%nat -> gv_S s i = Some (cart_sv i) /\ 0 < cart_sv i) /\
  gv_U s = turn 0 1 (4/5) (-3/5) eye /\
  (forall b i, (b < 6)%nat -> (i < 6)%nat -> gv_V s b i = if Nat.eqb b (cart_perm i) then cart_sg i else 0) /\
  forall q a i, (i < 6)%nat -> column_start cart s q a i = tip_jacobian cart q a (cart_perm i) * cart_sg i.
Proof.
  destruct cart_first as (V & Sg & HV & HS & H). eexists. split; [eapply used_call; [apply used_new|apply (H 0%nat t_zero home); reflexivity]|]. split; [reflexivity|].
  cbn [gv_S gv_U gv_V]. split; [exact HS|]. split; [reflexivity|]. split; [exact HV|]. intros q a i Hi. unfold column_start. cbn [gv_V]. rewrite (tall_small cart q) by (cbn; lia).
  rewrite (sumn_ext _ _ (fun k => delta (cart_perm i) k * (tip_jacobian cart q a k * cart_sg i))).
  - apply (sumn_delta' 6 (cart_perm i) (fun k => tip_jacobian cart q a k * cart_sg i)). six i; cbn; lia.
  - intros k Hk. rewrite HV by assumption. unfold delta. rewrite (Nat.eqb_sym (cart_perm i) k). destruct (Nat.eqb k (cart_perm i)); ring.
Qed.
(** The turntable turns by pi between two calls: the second call does not see it. *)
Theorem stale_answer : exists c s q v qdot out s', chain_ok c /\ ch_nj c = 6%nat /\ givens_used c s /\ column_call s /\ length q = 6%nat /\ length qdot = 6%nat /\
  stretches 6 6 1 (tip_jacobian c q) /\ sq 6 (t_at v) = 1 /\ finishes c s q v qdot out s' /\
  forall r, (r < 6)%nat -> sumn 6 (fun j => tip_jacobian c q r j * nth j out 0) = - t_at v r.
Proof.
  destruct cart_second as (s & Us & Tg & HS & HU & HV & HB).
  exists cart, s, (cart_at PI 0), (mkT (mkV 1 0 0) v_zero), home.
  assert (A : start_is_orthogonal cart s (cart_at PI 0)).
  { unfold start_is_orthogonal. rewrite Tg. intros (i & j & Hij & Na). change (i < j < 6)%nat in Hij. apply Na. unfold gram. rewrite !(sumn_ext _ _ (fun a => column_start cart s (cart_at PI 0) a _ * column_start cart s (cart_at PI 0) a _)) by reflexivity.
    change (Nat.max 6 (ch_nj cart)) with 6%nat. cbn [sumn]. rewrite !HB by lia. rewrite !cart_entry, cos_PI, sin_PI.
    assert (Hi : (i < 6)%nat) by lia. assert (Hj : (j < 6)%nat) by lia. six i; six j; try lia; cbn; lra. }
  eexists. eexists. split; [apply cart_ok|]. split; [reflexivity|]. split; [exact Us|]. split; [exact Tg|]. split; [reflexivity|]. split; [reflexivity|].
  split; [apply cart_regular_turned|]. split; [unfold sq; cbn; ring|]. split.
  - exists 1%nat. intros fuel Hf. destruct fuel as [|fuel]; [lia|].
    apply (orthogonal_start_keeps cart s (cart_at PI 0) (mkT (mkV 1 0 0) v_zero) home cart_sv fuel cart_ok Us eq_refl eq_refl A HS).
  - intros r Hr. change (ch_nj cart) with 6%nat. change (gv_n 6) with 6%nat. change (gv_transpose 6) with false.
    assert (O : forall j, (j < 6)%nat -> nth j (result_velocity 6 6 false (gv_U s) (gv_V s) cart_sv (mkT (mkV 1 0 0) v_zero)) 0 = nth j [0; 3/25; -2/25; 0; 0; 0] 0).
    { intros j Hj. rewrite velocity_nth by exact Hj. unfold mv, transposed. cbn [sumn]. rewrite HU, !HV by lia. six j; cbn; unfold turn, eye; cbn; field. }
    cbn [sumn]. rewrite !O by lia. rewrite !cart_entry, cos_PI, sin_PI. six r; cbn; field.
Qed.
Lemma cart_out_skewed s : (forall q a i, (i < 6)%nat -> column_start cart s q a i = tip_jacobian cart q a (cart_perm i) * cart_sg i) -> skewed 6 6 (column_start cart s (cart_at 0 1)).
Proof.
  intros HB. exists 1%nat, 5%nat. split; [lia|]. unfold gram. cbn [sumn]. rewrite !HB by lia. rewrite !cart_entry, cos_0, sin_0. cbn. lra.
Qed.

(** ** Chains whose links all have the identity pose at zero *)
Lemma jacl_zero l : Forall (fun s => moving s = true /\ segment_pose s 0 = f_id) l ->
  jacl l (repeat 0 (length l)) = map (fun s => segment_twist s 0 1) l /\ pose_product (assign l (repeat 0 (length l))) = f_id.
Proof.
  induction 1 as [|s l [M P] _ [IH1 IH2]]; [split; reflexivity|]. cbn [length repeat]. rewrite jacl_moving, pose_moving by exact M. rewrite IH1, IH2, P, ref_zero, rot_zero. split; [reflexivity|apply f_mul_id_l].
Qed.
Lemma rail_home x y z k : segment_pose (rail x y z k) 0 = f_id.
Proof. rewrite rail_pose. geo. Qed.
Lemma jac_zero c : chain_ok c -> ch_nj c = length (ch_segs c) -> Forall (fun s => moving s = true /\ segment_pose s 0 = f_id) (ch_segs c) ->
  jacobian_at c (-1) (repeat 0 (ch_nj c)) = map (fun s => segment_twist s 0 1) (ch_segs c).
Proof. intros Hok L F. rewrite jac_is_jacl by (first [exact Hok | apply repeat_length]). rewrite L. apply jacl_zero, F. Qed.
(** Two slides, one of them inclined. *)
Definition slides : Chain := mkCh 2 2 [rail (3/5) (4/5) 0 1; rail 0 (3/5) (4/5) 1].
Lemma slides_ok : chain_ok slides.
Proof. split; [split; reflexivity|]. repeat (constructor; [apply rail_ok|]). constructor. Qed.
Lemma slides_entry r j : tip_jacobian slides [0; 0] r j = t_at (nth j [mkT (mkV (3/5) (4/5) 0) v_zero; mkT (mkV 0 (3/5) (4/5)) v_zero] t_zero) r.
Proof.
  unfold tip_jacobian. change [0; 0] with (repeat 0 (ch_nj slides)). rewrite (jac_zero slides slides_ok eq_refl).
  - cbn [slides ch_segs map]. rewrite !rail_twist. rewrite !Rmult_1_r. reflexivity.
  - repeat (constructor; [split; [reflexivity|apply rail_home]|]). constructor.
Qed.
Theorem first_answer : exists c q v qdot out s' y, chain_ok c /\ ch_nj c = 2%nat /\ length q = 2%nat /\ length qdot = 2%nat /\ length y = 2%nat /\
  stretches 6 2 (1/5) (tip_jacobian c q) /\ finishes c (givens_make c) q v qdot out s' /\
  misfit 6 2 (tip_jacobian c q) (t_at v) out = 1 /\ misfit 6 2 (tip_jacobian c q) (t_at v) y = 9/25.
Proof.
  exists slides, [0; 0], (mkT (mkV 0 0 1) v_zero), [0; 0].
  destruct (first_call slides [0; 0] (mkT (mkV 0 0 1) v_zero) [0; 0] (1/10) 2 slides_ok eq_refl eq_refl ltac:(lra)) as (out & s' & Fi & Lo & _ & B & _).
  - change (Nat.min 6 (ch_nj slides)) with 2%nat. intros x. unfold sq, mv. cbn [sumn]. rewrite !slides_entry. cbn. apply Rminus_le.
    match goal with |- ?a <= 0 => replace a with (- (9/10 * ((x 0%nat + 8/15 * x 1%nat) * (x 0%nat + 8/15 * x 1%nat)) + 1/250 * (x 1%nat * x 1%nat))) by field end.
    pose proof (sqr_nn (x 0%nat + 8/15 * x 1%nat)). pose proof (sqr_nn (x 1%nat)). lra.
  - change (Nat.min 6 (ch_nj slides)) with 2%nat. intros x. unfold sq, mv. cbn [sumn]. rewrite !slides_entry. cbn. apply Rminus_le.
    match goal with |- ?a <= 0 => replace a with (- ((x 0%nat - 12/25 * x 1%nat) * (x 0%nat - 12/25 * x 1%nat) + (2 - 9/25 - 144/625) * (x 1%nat * x 1%nat))) by field end.
    pose proof (sqr_nn (x 0%nat - 12/25 * x 1%nat)). pose proof (sqr_nn (x 1%nat)). lra.
  - exists 0%nat, 1%nat. split; [cbn; lia|]. change (Nat.min 6 (ch_nj slides)) with 2%nat. unfold gram. cbn [sumn].
    rewrite !(first_start slides [0; 0] _ _ slides_ok) by (cbn; lia). rewrite (tall_small slides [0; 0]) by (cbn; lia). rewrite !slides_entry. cbn. lra.
  - change (Nat.min 6 (ch_nj slides)) with 2%nat in B. exists out, s', [0; 4/5]. split; [apply slides_ok|]. do 4 (split; [reflexivity|]). split.
    { intros x. unfold sq, mv. cbn [sumn]. rewrite !slides_entry. cbn. apply Rminus_le.
      match goal with |- ?a <= 0 => replace a with (- (4/5 * ((x 0%nat + 3/5 * x 1%nat) * (x 0%nat + 3/5 * x 1%nat)) + (4/5 - 36/125) * (x 1%nat * x 1%nat))) by field end.
      pose proof (sqr_nn (x 0%nat + 3/5 * x 1%nat)). pose proof (sqr_nn (x 1%nat)). lra. }
    split; [exact Fi|].
    unfold sq in B. cbn [sumn] in B. rewrite !slides_entry in B. cbn in B. set (a := nth 0 out 0) in *. set (b := nth 1 out 0) in *.
    assert (Q : (3/5 * a) * (3/5 * a) + (4/5 * a + 3/5 * b) * (4/5 * a + 3/5 * b) <= 0) by (clear -B; nra).
    pose proof (sqr_nn (3/5 * a)) as Q1. pose proof (sqr_nn (4/5 * a + 3/5 * b)) as Q2.
    assert (A0 : a = 0) by (assert (X : (3/5 * a) * (3/5 * a) = 0) by lra; apply Rmult_integral in X; lra).
    assert (B0 : b = 0) by (assert (X : (4/5 * a + 3/5 * b) * (4/5 * a + 3/5 * b) = 0) by lra; apply Rmult_integral in X; lra).
    unfold misfit, image. cbn [sumn]. rewrite !slides_entry. fold a b. rewrite A0, B0. cbn. split; field.
Qed.

(** ** Undefined: axes at right angles *)
Theorem gantry_undefined v qdot fuel : length qdot = 6%nat -> givens_CartToJnt (S fuel) (gantry 1) (givens_make (gantry 1)) home v qdot = Undef.
Proof.
  intros Hd. apply orthogonal_start_undefined; [apply gantry_ok|cbn; lia|reflexivity|exact Hd|]. intros (i & j & Hij & Na). change (i < j < 6)%nat in Hij. apply Na.
  assert (G : forall i j, (i < 6)%nat -> (j < 6)%nat -> gram 6 (row_start (gantry 1) (givens_make (gantry 1)) home) i j = delta i j).
  { intros a b Ha Hb. unfold gram. rewrite (sumn_ext 6 _ (fun k => delta a k * delta k b)).
    - apply (sumn_delta' 6 a (fun k => delta k b) Ha).
    - intros k Hk. rewrite !(first_start (gantry 1) home _ _ (gantry_ok 1)) by assumption. rewrite (tall_small (gantry 1) home) by (cbn; lia). rewrite !gantry_jac_entry by assumption.
      unfold delta. rewrite (Nat.eqb_sym b k). destruct (Nat.eqb k 5); ring. }
  change (Nat.min 6 (ch_nj (gantry 1))) with 6%nat. rewrite !G by lia. unfold delta. rewrite !Nat.eqb_refl. destruct (Nat.eqb_spec i j); [lia|]. lra.
Qed.

(** ** Planar arms *)
Definition arm_link (l : R) : Segment := mkS "link"%string (mkJ "axis"%string RotZ 1 0 0 0 0 v_zero v_zero) rb_zero (f_of_vec (mkV l 0 0)).
Lemma arm_pose l q : segment_pose (arm_link l) q = mkF (r_RotZ q) (mkV (cos q * l) (sin q * l) 0).
Proof. unfold segment_pose, joint_pose, arm_link. cbn [sjoint jtype jscale joffset sf_tip]. rewrite Rmult_1_l, Rplus_0_r. unfold r_RotZ. geo. Qed.
Lemma arm_twist l q : segment_twist (arm_link l) q 1 = mkT (mkV (- sin q * l) (cos q * l) 0) (mkV 0 0 1).
Proof. unfold segment_twist, joint_twist, joint_pose, arm_link. cbn [sjoint jtype jscale joffset sf_tip]. rewrite !Rmult_1_l, Rplus_0_r. unfold r_RotZ. geo. Qed.
Lemma arm_planar ls : forall q, length q = length ls ->
  vz (fp (pose_product (assign (map arm_link ls) q))) = 0 /\ Forall (fun t => vz (tvel t) = 0) (jacl (map arm_link ls) q).
Proof.
  induction ls as [|l ls IH]; intros q Hq; [split; [reflexivity|constructor]|]. destruct q as [|x q]; [discriminate|]. injection Hq as Hq. destruct (IH q Hq) as [IH1 IH2].
  cbn [map]. rewrite jacl_moving, pose_moving by reflexivity. rewrite arm_pose, arm_twist. destruct (pose_product (assign (map arm_link ls) q)) as [M [a b z]]. cbn in IH1. subst z. split.
  - unfold r_RotZ, f_mul, r_app, v_add. cbn. ring.
  - constructor; [unfold r_RotZ, t_RefPoint, r_app, v_add, v_cross; cbn; ring|]. clear IH. induction IH2 as [|[[a1 b1 c1] w] t H _ IHt]; cbn [map]; constructor; [|exact IHt].
    cbn in H. subst c1. unfold r_RotZ, r_app_t, r_app. cbn. ring.
Qed.
Definition arm (ls : list R) : Chain := mkCh (length ls) (length ls) (map arm_link ls).
Lemma arm_ok ls : chain_ok (arm ls).
Proof.
  split; [|induction ls; constructor; [split; [intros X; discriminate|apply is_rotation_id]|assumption]].
  split; cbn [arm ch_ns ch_nj ch_segs]; [rewrite map_length; reflexivity|]. induction ls as [|l ls IH]; [reflexivity|]. cbn. f_equal. exact IH.
Qed.
Theorem planar_arm_never ls q v qdot : (3 <= length ls <= 6)%nat -> length q = length ls -> length qdot = length ls ->
  never_finishes (arm ls) (givens_make (arm ls)) q v qdot.
Proof.
  intros H3 Hq Hd. apply (first_call_zero_row (arm ls) q v qdot 2 (arm_ok ls)); cbn [arm ch_nj]; try lia; try assumption.
  intros k Hk. unfold tip_jacobian. rewrite jac_is_jacl by (first [apply arm_ok | exact Hq]). cbn [arm ch_segs].
  assert (X := proj2 (arm_planar ls q Hq)). destruct (nth_in_or_default k (jacl (map arm_link ls) q) t_zero) as [I|E]; [|rewrite E; reflexivity].
  rewrite Forall_forall in X. exact (X _ I).
Qed.

(** ** Seven joints *)
Definition portal : Chain := mkCh 7 7 [rail (3 / sqrt 73) (-8 / sqrt 73) 0 (sqrt 73); rail (4 / sqrt 52) (6 / sqrt 52) 0 (sqrt 52); ax TransZ 1; ax RotX 1; ax RotY 1; ax RotZ 1; rail (3/5) (4/5) 0 1].
Lemma portal_ok : chain_ok portal.
Proof. split; [split; reflexivity|]. repeat (constructor; [first [apply rail_ok | apply ax_ok; discriminate]|]). constructor. Qed.
Definition home7 : list R := [0; 0; 0; 0; 0; 0; 0].
Lemma portal_entry r j : tip_jacobian portal home7 r j = t_at (nth j [mkT (mkV 3 (-8) 0) v_zero; mkT (mkV 4 6 0) v_zero; axis6 2 1; axis6 3 1; axis6 4 1; axis6 5 1; mkT (mkV (3/5) (4/5) 0) v_zero] t_zero) r.
Proof.
  unfold tip_jacobian. change home7 with (repeat 0 (ch_nj portal)). rewrite (jac_zero portal portal_ok eq_refl).
  - cbn [portal ch_segs map]. rewrite !rail_twist, !ax_twist by (cbn; tauto).
    assert (0 < sqrt 73) by (apply sqrt_lt_R0; lra). assert (0 < sqrt 52) by (apply sqrt_lt_R0; lra).
    replace (3 / sqrt 73 * sqrt 73) with 3 by (field; lra). replace (-8 / sqrt 73 * sqrt 73) with (-8) by (field; lra).
    replace (4 / sqrt 52 * sqrt 52) with 4 by (field; lra). replace (6 / sqrt 52 * sqrt 52) with 6 by (field; lra). rewrite !Rmult_0_l, !Rmult_1_r. reflexivity.
  - repeat (constructor; [split; [reflexivity|first [apply rail_home | apply ax_pose; discriminate]]|]). constructor.
Qed.
Definition portal_perm (i : nat) : nat := nth i [1; 0; 2; 3; 4; 5]%nat 0%nat.
Lemma portal_row b i : (b < 6)%nat -> (i < 6)%nat -> row_start portal (givens_make portal) home7 b i = tip_jacobian portal home7 b i.
Proof. intros Hb Hi. rewrite (first_start portal home7 b i portal_ok Hb Hi), (tall_wide portal home7) by (cbn; lia). reflexivity. Qed.
Lemma portal_second : exists s, givens_used portal s /\ column_call s /\ skewed 7 6 (column_start portal s home7).
Proof.
  assert (G : forall i j, (i < 6)%nat -> (j < 6)%nat -> gram 6 (row_start portal (givens_make portal) home7) i j =
    sumn 6 (fun b => tip_jacobian portal home7 b i * tip_jacobian portal home7 b j)).
  { intros i j Hi Hj. apply sumn_ext. intros b Hb. rewrite !portal_row by assumption. reflexivity. }
  destruct (one_call portal home7 portal_perm cart_sc portal_ok eq_refl) as (V & Sg & HV & HS & H).
  - cbn. lia.
  - intros i Hi. six i; cbn; lia.
  - intros i j Hij. assert (Hi : (i < 6)%nat) by lia. assert (Hj : (j < 6)%nat) by lia. six i; six j; cbn; lia.
  - intros i Hi. apply cart_abs, Hi.
  - rewrite G by lia. cbn [sumn]. rewrite !portal_entry. cbn. ring.
  - rewrite G by lia. cbn [sumn]. rewrite !portal_entry. cbn. ring.
  - rewrite G by lia. cbn [sumn]. rewrite !portal_entry. cbn. ring.
  - intros b i Hb Hi. unfold turn. destruct (Nat.eqb_spec i 0) as [->|N0]; [|destruct (Nat.eqb_spec i 1) as [->|N1]].
    + rewrite !portal_row by lia. rewrite !portal_entry. six b; cbn; lra.
    + rewrite !portal_row by lia. rewrite !portal_entry. six b; cbn; lra.
    + rewrite portal_row by lia. rewrite portal_entry. six i; try congruence; six b; cbn; lra.
  - eexists. split; [eapply used_call; [apply used_new|apply (H 0%nat t_zero home7); reflexivity]|]. split; [reflexivity|].
    match goal with |- skewed 7 6 (column_start portal ?st home7) => set (s1 := st) end.
    assert (C : forall a i, (i < 2)%nat -> column_start portal s1 home7 a i = tip_jacobian portal home7 (portal_perm i) a * cart_sg i).
    { intros a i Hi. unfold column_start. change (Nat.min 6 (ch_nj portal)) with 6%nat. rewrite (tall_wide portal home7) by (cbn; lia).
      rewrite (sumn_ext _ _ (fun k => delta (portal_perm i) k * (tip_jacobian portal home7 k a * cart_sg i))).
      - apply (sumn_delta' 6 (portal_perm i) (fun k => tip_jacobian portal home7 k a * cart_sg i)). destruct i as [|[|i]]; cbn; lia.
      - intros k Hk. unfold transposed, s1. cbn [gv_V]. rewrite HV by lia. destruct (cart_abs i ltac:(lia)) as (_ & E & _). rewrite E. unfold delta. rewrite (Nat.eqb_sym (portal_perm i) k). destruct (Nat.eqb k (portal_perm i)); ring. }
    clearbody s1. exists 0%nat, 1%nat. split; [lia|]. unfold gram. cbn [sumn]. rewrite !C by lia. rewrite !portal_entry. cbn. lra.
Qed.
Lemma portal_regular : stretches 7 6 1 (transposed (tip_jacobian portal home7)).
Proof.
  intros x. unfold sq, mv, transposed. cbn [sumn]. rewrite !portal_entry. cbn. apply Rminus_le.
  match goal with |- ?a <= 0 => replace a with (- (24 * (x 0%nat * x 0%nat) + 99 * (x 1%nat * x 1%nat) + (3/5 * x 0%nat + 4/5 * x 1%nat) * (3/5 * x 0%nat + 4/5 * x 1%nat))) by field end.
  pose proof (sqr_nn (x 0%nat)). pose proof (sqr_nn (x 1%nat)). pose proof (sqr_nn (3/5 * x 0%nat + 4/5 * x 1%nat)). lra.
Qed.
Lemma portal_bounded : stretched_at_most 7 6 102 (transposed (tip_jacobian portal home7)).
Proof.
  intros x. unfold sq, mv, transposed. cbn [sumn]. rewrite !portal_entry. cbn. apply Rminus_le.
  match goal with |- ?a <= 0 => replace a with (- (76 * (x 0%nat * x 0%nat) + (x 1%nat * x 1%nat) + (4/5 * x 0%nat - 3/5 * x 1%nat) * (4/5 * x 0%nat - 3/5 * x 1%nat) +
    101 * (x 2%nat * x 2%nat + x 3%nat * x 3%nat + x 4%nat * x 4%nat + x 5%nat * x 5%nat))) by field end.
  pose proof (sqr_nn (x 0%nat)). pose proof (sqr_nn (x 1%nat)). pose proof (sqr_nn (4/5 * x 0%nat - 3/5 * x 1%nat)).
  pose proof (sqr_nn (x 2%nat)). pose proof (sqr_nn (x 3%nat)). pose proof (sqr_nn (x 4%nat)). pose proof (sqr_nn (x 5%nat)). lra.
Qed.
Lemma portal_leading : stretches 6 6 1 (tip_jacobian portal home7) /\ stretched_at_most 6 6 100 (tip_jacobian portal home7) /\ skewed 6 6 (row_start portal (givens_make portal) home7).
Proof.
  split; [|split].
  - intros x. unfold sq, mv. cbn [sumn]. rewrite !portal_entry. cbn. apply Rminus_le.
    match goal with |- ?a <= 0 => replace a with (- (72 * ((x 0%nat - x 1%nat / 2) * (x 0%nat - x 1%nat / 2)) + 33 * (x 1%nat * x 1%nat))) by field end.
    pose proof (sqr_nn (x 0%nat - x 1%nat / 2)). pose proof (sqr_nn (x 1%nat)). lra.
  - intros x. unfold sq, mv. cbn [sumn]. rewrite !portal_entry. cbn. apply Rminus_le.
    match goal with |- ?a <= 0 => replace a with (- (27 * ((x 0%nat + 4 * x 1%nat / 3) * (x 0%nat + 4 * x 1%nat / 3)) + 99 * (x 2%nat * x 2%nat + x 3%nat * x 3%nat + x 4%nat * x 4%nat + x 5%nat * x 5%nat))) by field end.
    pose proof (sqr_nn (x 0%nat + 4 * x 1%nat / 3)). pose proof (sqr_nn (x 2%nat)). pose proof (sqr_nn (x 3%nat)). pose proof (sqr_nn (x 4%nat)). pose proof (sqr_nn (x 5%nat)). lra.
  - exists 0%nat, 1%nat. split; [lia|]. unfold gram. cbn [sumn]. rewrite !portal_row by lia. rewrite !portal_entry. cbn. lra.
Qed.

(** ** The cart with its first wrist axis at pi/2 *)
Definition cart_wrist : list R := [0; 0; 0; 0; PI / 2; 0].
Lemma wrist_entry r : tip_jacobian cart cart_wrist r 0 = tip_jacobian cart cart_wrist r 5.
Proof.
  unfold tip_jacobian. rewrite jac_is_jacl by (first [apply cart_ok | reflexivity]). unfold cart, cart_wrist. cbn [ch_segs].
  rewrite !jacl_moving, !pose_moving by reflexivity.
  assert (PX : segment_pose (ax RotX 1) (PI / 2) = f_of_rot (mkR 1 0 0 0 0 (-1) 0 1 0)).
  { unfold segment_pose, joint_pose, ax. cbn [sjoint jtype jscale joffset sf_tip]. rewrite Rmult_1_l, Rplus_0_r. unfold r_RotX. rewrite cos_PI2, sin_PI2. geo. }
  rewrite PX, !rail_home, !(ax_pose RotY), !(ax_pose TransZ), !(ax_pose RotZ) by discriminate. rewrite !ax_twist by (cbn; tauto). cbn [assign pose_product jacl map nth axis_of axis6].
  f_equal. geo_split; geo_unfold; ring.
Qed.
Lemma wrist_singular r : (r < 6)%nat -> sumn 6 (fun k => tip_jacobian cart cart_wrist r k * nth k [1; 0; 0; 0; 0; -1] 0) = 0.
Proof. intros Hr. cbn [sumn nth]. rewrite wrist_entry. ring. Qed.

(** ** Every hypothesis is met *)
Lemma givens_nonvacuous :
  (exists c s q (qdot : list R), chain_ok c /\ ch_nj c = 6%nat /\ givens_used c s /\ column_call s /\ length q = 6%nat /\ length qdot = 6%nat /\
    stretches 6 6 (1/16) (tip_jacobian c q) /\ skewed 6 6 (column_start c s q)) /\
  (exists c s q (qdot : list R), chain_ok c /\ ch_nj c = 6%nat /\ givens_used c s /\ row_call s /\ length q = 6%nat /\ length qdot = 6%nat /\
    stretches 6 6 1 (transposed (tip_jacobian c q)) /\ stretched_at_most 6 6 100 (transposed (tip_jacobian c q)) /\ skewed 6 6 (row_start c s q)) /\
  (exists c s q (qdot : list R), chain_ok c /\ ch_nj c = 7%nat /\ givens_used c s /\ column_call s /\ length q = 7%nat /\ length qdot = 7%nat /\
    stretches 7 6 1 (transposed (tip_jacobian c q)) /\ stretched_at_most 7 6 102 (transposed (tip_jacobian c q)) /\ skewed 7 6 (column_start c s q)) /\
  (exists c q (qdot : list R), chain_ok c /\ ch_nj c = 7%nat /\ length q = 7%nat /\ length qdot = 7%nat /\
    stretches 6 6 1 (tip_jacobian c q) /\ stretched_at_most 6 6 100 (tip_jacobian c q) /\ skewed 6 6 (row_start c (givens_make c) q)) /\
  (exists c s q (qdot : list R) x, chain_ok c /\ ch_nj c = 6%nat /\ givens_used c s /\ column_call s /\ length q = 6%nat /\ length qdot = 6%nat /\
    (forall r, (r < 6)%nat -> sumn 6 (fun k => tip_jacobian c q r k * x k) = 0) /\ x 0%nat <> 0).
Proof.
  destruct cart_second as (s & Us & Tg & _ & _ & _ & HB). destruct portal_second as (s7 & U7 & T7 & K7). destruct portal_leading as (L1 & L2 & L3).
  split; [|split; [|split; [|split]]].
  - exists cart, s, (cart_at 0 1), home. repeat (split; [first [apply cart_ok | reflexivity | assumption]|]). split; [apply cart_out_regular|apply (cart_out_skewed s HB)].
  - exists cart, (givens_make cart), (cart_at 0 0), home. split; [apply cart_ok|]. split; [reflexivity|]. split; [apply used_new|]. repeat (split; [reflexivity|]).
    split; [apply cart_rows_regular|]. split; [apply cart_rows_bounded|apply cart_rows_skewed].
  - exists portal, s7, home7, home7. repeat (split; [first [apply portal_ok | reflexivity | assumption]|]). split; [apply portal_regular|]. split; [apply portal_bounded|exact K7].
  - exists portal, home7, home7. repeat (split; [first [apply portal_ok | reflexivity]|]). split; [exact L1|]. split; [exact L2|exact L3].
  - exists cart, s, cart_wrist, home, (fun k => nth k [1; 0; 0; 0; 0; -1] 0). repeat (split; [first [apply cart_ok | reflexivity | assumption]|]).
    split; [intros r Hr; apply (wrist_singular r Hr)|]. cbn. lra.
Qed.
