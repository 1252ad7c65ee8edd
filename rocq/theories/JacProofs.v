(** Proofs about velocity kinematics and Jacobians. *)
From Coq Require Import Reals List ZArith Bool Arith Lia Lra.
From Verif Require Import FramesModel FramesSpec FramesProofs RotationProofs FrameOpsProofs
  Outcome LoopProofs InertiaModel DualModel KinModel KinSpec DerivProofs KinProofs.
Import ListNotations.
Local Open Scope R_scope.

Local Arguments segment_pose : simpl never.
Local Arguments segment_twist : simpl never.
Local Arguments f_mul : simpl never.
Local Arguments fM : simpl never.
Local Arguments fp : simpl never.

Lemma fM_mul a b : fM (f_mul a b) = r_mul (fM a) (fM b). Proof. reflexivity. Qed.

(** * Twist algebra *)
Lemma t_add_0_l a : t_add t_zero a = a. Proof. geo. Qed.
Lemma t_add_0_r a : t_add a t_zero = a. Proof. geo. Qed.
Lemma t_add_assoc a b c : t_add (t_add a b) c = t_add a (t_add b c). Proof. geo. Qed.
Lemma t_add_comm a b : t_add a b = t_add b a. Proof. geo. Qed.
Lemma t_scale_zero x : t_scale t_zero x = t_zero. Proof. geo. Qed.
Lemma t_scale_0 a : t_scale a 0 = t_zero. Proof. geo. Qed.
Lemma t_scale_1 a : t_scale a 1 = a. Proof. geo. Qed.
Lemma t_RefPoint_RefPoint t a b : t_RefPoint (t_RefPoint t a) b = t_RefPoint t (v_add a b). Proof. geo. Qed.
Lemma r_app_t_RefPoint r t d : is_rotation r -> r_app_t r (t_RefPoint t d) = t_RefPoint (r_app_t r t) (r_app r d).
Proof.
  intros H. unfold r_app_t, t_RefPoint. cbn [tvel trot]. rewrite r_app_add, r_app_cross by auto. reflexivity.
Qed.
Lemma r_mul_app_t a b t : r_app_t (r_mul a b) t = r_app_t a (r_app_t b t). Proof. geo. Qed.
Lemma r_app_t_id t : r_app_t r_id t = t. Proof. geo. Qed.

(** Linear maps on twists. *)
Definition t_linear (g : Twist -> Twist) : Prop :=
  g t_zero = t_zero /\ forall a b x, g (t_add (t_scale a x) b) = t_add (t_scale (g a) x) (g b).
Lemma RefPoint_linear d : t_linear (fun t => t_RefPoint t d). Proof. split; geo. Qed.
Lemma r_app_t_linear r : t_linear (r_app_t r). Proof. split; geo. Qed.
Lemma f_app_t_linear f : t_linear (f_app_t f). Proof. split; geo. Qed.

Lemma jac_mul_map g J qd : t_linear g -> jac_mul (map g J) qd = g (jac_mul J qd).
Proof.
  intros [H0 H]. revert qd; induction J as [|c J IH]; intros [|x qd]; simpl; auto.
  rewrite IH, H. reflexivity.
Qed.
Lemma jac_mul_app J K qd : jac_mul (J ++ K) qd = t_add (jac_mul J qd) (jac_mul K (skipn (length J) qd)).
Proof.
  revert qd; induction J as [|c J IH]; intros qd; simpl.
  - rewrite t_add_0_l. reflexivity.
  - destruct qd as [|x qd]; simpl.
    + rewrite t_add_0_l. destruct K; reflexivity.
    + rewrite IH, t_add_assoc. reflexivity.
Qed.
Lemma jac_mul_nil_r J : jac_mul J [] = t_zero. Proof. destruct J; reflexivity. Qed.
Lemma jac_mul_zeros n qd : jac_mul (repeat t_zero n) qd = t_zero.
Proof.
  revert qd; induction n as [|n IH]; intros [|x qd]; simpl; auto.
  rewrite IH, t_scale_zero, t_add_0_l. reflexivity.
Qed.
Lemma jac_mul_snoc J c qd x : nth_error qd (length J) = Some x ->
  jac_mul (J ++ [c]) qd = t_add (jac_mul J qd) (t_scale c x).
Proof.
  intros E. rewrite jac_mul_app. f_equal.
  destruct (nth_error_split3 _ _ _ E) as [E1 E2].
  assert (Es : skipn (length J) qd = x :: skipn (S (length J)) qd).
  { rewrite E1 at 1. rewrite skipn_app, E2, Nat.sub_diag, skipn_all2 by lia. reflexivity. }
  rewrite Es. simpl. rewrite t_add_0_r. reflexivity.
Qed.

(** * The Jacobian in closed form: one column per moving segment *)
Fixpoint jacl (segs : list Segment) (q : list R) : list Twist :=
  match segs with
  | [] => []
  | s :: rest =>
      if moving s then
        match q with
        | x :: q' =>
            let P := segment_pose s x in
            t_RefPoint (segment_twist s x 1) (r_app (fM P) (fp (pose_product (assign rest q'))))
            :: map (r_app_t (fM P)) (jacl rest q')
        | [] => []
        end
      else map (r_app_t (fM (segment_pose s 0))) (jacl rest q)
  end.

Lemma jacl_length segs : forall q, (count_moving segs <= length q)%nat -> length (jacl segs q) = count_moving segs.
Proof.
  induction segs as [|s l IH]; intros q H; simpl; auto.
  unfold count_moving in *. simpl in *. destruct (moving s); simpl in *.
  - destruct q as [|x q]; simpl in *; [lia|]. rewrite map_length, IH by lia. reflexivity.
  - rewrite map_length. apply IH; auto.
Qed.

Lemma map_r_id J : map (r_app_t r_id) J = J.
Proof. induction J; simpl; auto. rewrite r_app_t_id, IHJ. reflexivity. Qed.

Lemma jacl_snoc segs s : Forall segment_ok segs -> forall q, (count_moving segs <= length q)%nat ->
  forall x, (if moving s then nth_error q (count_moving segs) = Some x else x = 0) ->
  jacl (segs ++ [s]) q =
    map (fun t => t_RefPoint t (r_app (fM (pose_product (assign segs q))) (fp (segment_pose s x)))) (jacl segs q)
    ++ (if moving s then [r_app_t (fM (pose_product (assign segs q))) (segment_twist s x 1)] else []).
Proof.
  intros Hok. induction Hok as [|a l Ha Hl IH]; intros q Hq x Hx.
  - unfold count_moving in Hx. simpl in *. destruct (moving s).
    + destruct q as [|x' q]; simpl in Hx; [discriminate|]. injection Hx as ->.
      simpl. f_equal. rewrite r_app_t_id. geo.
    + reflexivity.
  - unfold count_moving in *. simpl in *. destruct (moving a) eqn:Ema.
    + destruct q as [|y q]; simpl in Hq; [lia|]. simpl in Hx.
      assert (Hrot : is_rotation (fM (segment_pose a y))) by (apply segment_pose_rigid; auto).
      rewrite (IH q) with (x := x) by (try lia; auto). simpl.
      f_equal.
      * rewrite t_RefPoint_RefPoint. f_equal.
        assert (Hp : fp (pose_product (assign (l ++ [s]) q)) =
          v_add (fp (pose_product (assign l q))) (r_app (fM (pose_product (assign l q))) (fp (segment_pose s x)))).
        { rewrite assign_snoc by (unfold count_moving; lia). unfold count_moving.
          destruct (moving s); [rewrite Hx|subst x]; rewrite pose_product_app; cbn [pose_product];
            rewrite f_mul_id_r; apply v_add_comm. }
        rewrite Hp, r_app_add. f_equal. rewrite fM_mul, r_mul_app. reflexivity.
      * rewrite map_app. rewrite !map_map. f_equal.
        -- apply map_ext. intros t. rewrite r_app_t_RefPoint by auto. rewrite fM_mul, r_mul_app. reflexivity.
        -- destruct (moving s); simpl; auto. rewrite fM_mul, r_mul_app_t. reflexivity.
    + assert (Hrot : is_rotation (fM (segment_pose a 0))) by (apply segment_pose_rigid; auto).
      rewrite (IH q) with (x := x) by (try lia; auto). simpl.
      rewrite map_app, !map_map. f_equal.
      * apply map_ext. intros t. rewrite r_app_t_RefPoint by auto. rewrite fM_mul, r_mul_app. reflexivity.
      * destruct (moving s); simpl; auto. rewrite fM_mul, r_mul_app_t. reflexivity.
Qed.

(** * In-place column operations *)
Lemma jac_inplace_map g J : jac_inplace g J = Ret (map g J).
Proof.
  unfold jac_inplace.
  destruct (for_loop_inv (fun k J' => J' = map g (firstn k J) ++ skipn k J)
    (fun i J' => let! t := jac_getColumn J' i in jac_setColumn J' i (g t)) (length J) 0 J) as (J' & E & H).
  - intros k st Hk ->. unfold jac_getColumn, jac_setColumn.
    destruct (aget_ret J k) as (c & _ & En); [lia|].
    destruct (nth_error_split3 _ _ _ En) as [E1 E2].
    assert (Es : skipn k J = c :: skipn (S k) J).
    { rewrite E1 at 1. rewrite skipn_app, E2, Nat.sub_diag, skipn_all2 by lia. reflexivity. }
    assert (L : length (map g (firstn k J)) = k) by (rewrite map_length; auto).
    rewrite Es, (aget_app' _ _ _ _ L). cbn [obind]. rewrite (aset_mid' _ _ _ _ _ L).
    eexists; split; [reflexivity|]. rewrite (firstn_snoc _ _ _ En), map_app, <- app_assoc. reflexivity.
  - reflexivity.
  - rewrite E, H. simpl. rewrite firstn_all, skipn_all, app_nil_r. reflexivity.
Qed.

Lemma jac_copying_map g src dest :
  jac_copying g src dest =
  Ret (if Nat.eqb (length src) (length dest) then (true, map g src) else (false, dest)).
Proof.
  unfold jac_copying. destruct (Nat.eqb_spec (length src) (length dest)) as [L|]; auto.
  destruct (for_loop_inv (fun k d => d = map g (firstn k src) ++ skipn k dest)
    (fun i d => let! t := jac_getColumn src i in jac_setColumn d i (g t)) (length src) 0 dest) as (J' & E & H).
  - intros k st Hk ->. unfold jac_getColumn, jac_setColumn.
    destruct (aget_ret src k) as (c & Ec & En); [lia|]. rewrite Ec. cbn [obind].
    destruct (aget_ret dest k) as (c' & _ & En'); [lia|].
    destruct (nth_error_split3 _ _ _ En') as [E1 E2].
    assert (Es : skipn k dest = c' :: skipn (S k) dest).
    { rewrite E1 at 1. rewrite skipn_app, E2, Nat.sub_diag, skipn_all2 by lia. reflexivity. }
    assert (L' : length (map g (firstn k src)) = k) by (rewrite map_length, firstn_length; lia).
    rewrite Es, (aset_mid' _ _ _ _ _ L').
    eexists; split; [reflexivity|]. rewrite (firstn_snoc _ _ _ En), map_app, <- app_assoc. reflexivity.
  - reflexivity.
  - rewrite E. cbn [obind]. rewrite H. simpl. rewrite firstn_all, skipn_all2, app_nil_r by lia. reflexivity.
Qed.

(** * The Jacobian loop *)
Lemma unlocked_map {A B} (g : A -> B) mask l : unlocked mask (map g l) = map g (unlocked mask l).
Proof. revert l; induction mask as [|m mask IH]; intros [|x l]; simpl; auto. destruct m; simpl; rewrite IH; auto. Qed.
Lemma unlocked_nil_r {A} mask : @unlocked A mask [] = [].
Proof. destruct mask; reflexivity. Qed.
Lemma unlocked_snoc {A} mask : forall (l : list A) x m, nth_error mask (length l) = Some m ->
  unlocked mask (l ++ [x]) = unlocked mask l ++ (if m then [] else [x]).
Proof.
  induction mask as [|m' mask IH]; intros [|y l] x m H; simpl in *; try discriminate.
  - injection H as ->. destruct m; rewrite ?unlocked_nil_r; reflexivity.
  - destruct m'; rewrite (IH l x m H); reflexivity.
Qed.
Lemma unlocked_length_le {A} mask (l : list A) : (length (unlocked mask l) <= length l)%nat.
Proof. revert l; induction mask as [|m mask IH]; intros [|x l]; simpl; try lia. specialize (IH l). destruct m; simpl; lia. Qed.
Lemma unlocked_app_repeat {A} (d : A) mask : forall l,
  exists n, unlocked mask (l ++ repeat d (length mask - length l)) = unlocked mask l ++ repeat d n.
Proof.
  induction mask as [|m mask IH]; intros l; simpl.
  - exists 0%nat. destruct l; reflexivity.
  - destruct l as [|x l]; simpl.
    + destruct (IH []) as [n E]. simpl in E. rewrite Nat.sub_0_r, unlocked_nil_r in E. simpl in E.
      destruct m.
      * exists n. exact E.
      * exists (S n). rewrite E. reflexivity.
    + destruct (IH l) as [n E]. exists n. rewrite E. destruct m; reflexivity.
Qed.
Lemma unlocked_all {A} n (l : list A) : (length l <= n)%nat -> unlocked (repeat false n) l = l.
Proof.
  revert n; induction l as [|x l IH]; intros n H; [apply unlocked_nil_r|].
  destruct n as [|n]; simpl in H; [lia|]. simpl. rewrite IH by lia. reflexivity.
Qed.

Lemma repeat_zero_map g n : g t_zero = t_zero -> map g (repeat t_zero n) = repeat t_zero n.
Proof. intros H. induction n; simpl; auto. rewrite H, IHn. reflexivity. Qed.
Lemma jac_zero_repeat J : jac_zero J = repeat t_zero (length J).
Proof. unfold jac_zero. induction J; simpl; auto. rewrite IHJ. reflexivity. Qed.

Definition jac_closed (c : Chain) (mask : list bool) (q : list R) (k : nat) : list Twist :=
  let cols := unlocked mask (jacl (firstn k (ch_segs c)) q) in
  cols ++ repeat t_zero (ch_nj c - length cols).

Lemma jac_loop c mask q n : chain_ok c -> length q = ch_nj c -> length mask = ch_nj c -> (n <= ch_ns c)%nat ->
  exists st, for_loop n 0 (jac_body c mask q) (mkJS 0 0 f_id t_zero (repeat t_zero (ch_nj c))) = Ret st /\
    js_jac st = jac_closed c mask q n.
Proof.
  intros [Hw Hok] Hq Hm Hn.
  pose (Inv := fun k st => js_j st = count_moving (firstn k (ch_segs c)) /\
     js_k st = length (unlocked mask (jacl (firstn k (ch_segs c)) q)) /\
     js_T st = tip_frame c q k /\ js_jac st = jac_closed c mask q k).
  destruct (for_loop_inv Inv (jac_body c mask q) n 0
     (mkJS 0 0 f_id t_zero (repeat t_zero (ch_nj c)))) as (st & E & HI).
  - intros k [j k' T t J] Hk (Hj & Hk' & HT & HJ). cbn [js_j js_k js_T js_jac] in *.
    destruct (chain_lookup c q k Hw Hq) as (s & x & En & Es & Hle & Hx & Ha & Hc); [lia|].
    pose proof (tip_frame_S c q k s x Hle En Hx) as Htip.
    pose proof (jacl_snoc _ s (Forall_firstn' _ k _ Hok) q Hle x Hx) as Hsn.
    rewrite <- (firstn_snoc _ _ _ En) in Hsn.
    fold (tip_frame c q k) in Hsn.
    assert (Hd : v_sub (fp (tip_frame c q (S k))) (fp (tip_frame c q k)) =
                 r_app (fM (tip_frame c q k)) (fp (segment_pose s x))) by (rewrite Htip; geo).
    assert (Hjl : length (jacl (firstn k (ch_segs c)) q) = count_moving (firstn k (ch_segs c)))
      by (apply jacl_length; auto).
    unfold jac_body. rewrite Es. cbn [obind js_j js_k js_T js_t js_jac].
    subst j T J.
    assert (Hmap : forall d, map (fun u => t_RefPoint u d) (jac_closed c mask q k) =
       map (fun u => t_RefPoint u d) (unlocked mask (jacl (firstn k (ch_segs c)) q)) ++
       repeat t_zero (ch_nj c - k')).
    { intros d. unfold jac_closed. rewrite map_app, repeat_zero_map by apply t_RefPoint_zero.
      rewrite Hk'. reflexivity. }
    destruct (moving s) eqn:Em.
    + rewrite (Ha eq_refl). cbn [obind].
      destruct (aget_ret mask (count_moving (firstn k (ch_segs c)))) as (m & Em1 & Em2).
      { rewrite Hm. destruct Hw as [_ Hnj]. rewrite Hnj. eapply mover_index; eauto. }
      rewrite Em1. cbn [obind]. rewrite <- Htip, Hd, jac_inplace_map. cbn [obind].
      rewrite Hmap.
      assert (Hsn' : unlocked mask (jacl (firstn (S k) (ch_segs c)) q) =
        map (fun u => t_RefPoint u (r_app (fM (tip_frame c q k)) (fp (segment_pose s x))))
          (unlocked mask (jacl (firstn k (ch_segs c)) q)) ++
        (if m then [] else [r_app_t (fM (tip_frame c q k)) (segment_twist s x 1)])).
      { rewrite Hsn. rewrite (unlocked_snoc _ _ _ m) by (rewrite map_length, Hjl; auto).
        rewrite unlocked_map. reflexivity. }
      destruct m; cbn [negb].
      * eexists; split; [reflexivity|]. unfold Inv; cbn [js_j js_k js_T js_jac].
        rewrite app_nil_r in Hsn'. unfold jac_closed. rewrite Hsn', map_length.
        repeat split; auto; [lia|]. rewrite Hk'. reflexivity.
      * assert (Hlt : (k' < ch_nj c)%nat).
        { rewrite Hk'. pose proof (unlocked_length_le mask (jacl (firstn k (ch_segs c)) q)) as Hul.
          rewrite Hjl in Hul. destruct Hw as [_ Hnj]. pose proof (mover_index _ _ _ En Em). lia. }
        destruct (ch_nj c - k')%nat as [|r] eqn:Er; [lia|]. simpl repeat.
        unfold jac_setColumn. rewrite aset_mid' by (rewrite map_length; auto). cbn [obind].
        eexists; split; [reflexivity|]. unfold Inv; cbn [js_j js_k js_T js_jac].
        unfold jac_closed. rewrite Hsn', app_length, map_length. simpl length.
        repeat split; auto; try lia. rewrite <- app_assoc. f_equal. simpl. f_equal. f_equal. lia.
    + subst x. cbn [obind]. rewrite <- Htip, Hd, jac_inplace_map. cbn [obind].
      eexists; split; [reflexivity|]. unfold Inv; cbn [js_j js_k js_T js_jac].
      rewrite app_nil_r in Hsn. rewrite Hmap. unfold jac_closed. rewrite Hsn, unlocked_map, map_length.
      repeat split; auto; try lia. rewrite Hk'. reflexivity.
  - unfold Inv; cbn [js_j js_k js_T js_jac]. unfold jac_closed. simpl firstn. simpl jacl.
    rewrite unlocked_nil_r. simpl. rewrite Nat.sub_0_r. repeat split; reflexivity.
  - destruct HI as (_ & _ & _ & H). eauto.
Qed.

Lemma jac_result c mask q jac z k : chain_ok c -> denotes c z k ->
  jac_JntToJac c mask q jac z = Ret
    (if negb (Nat.eqb (length mask) (ch_nj c)) then (E_NOT_UP_TO_DATE, jac)
     else if negb (Nat.eqb (length q) (ch_nj c) && Nat.eqb (length jac) (ch_nj c))
     then (E_SIZE_MISMATCH, map (fun _ => t_zero) jac)
     else if Nat.leb k (length (ch_segs c)) then (E_NOERROR, jac_closed c mask q k)
     else (E_OUT_OF_RANGE, map (fun _ => t_zero) jac)).
Proof.
  intros Hok Hd. pose proof Hok as [Hw _]. apply (denotes_segment_nr _ _ _ Hw) in Hd.
  unfold jac_JntToJac. rewrite Hd. cbn zeta.
  destruct (Nat.eqb_spec (length mask) (ch_nj c)) as [Em|]; simpl; auto.
  rewrite <- negb_andb.
  destruct (Nat.eqb_spec (length q) (ch_nj c)) as [Eq|]; simpl; auto.
  destruct (Nat.eqb_spec (length jac) (ch_nj c)) as [Ej|]; simpl; auto.
  rewrite Nat.ltb_antisym. pose proof Hw as [Hs Hj]. rewrite Hs.
  destruct (Nat.leb k (length (ch_segs c))) eqn:El; simpl; auto.
  apply Nat.leb_le in El. rewrite jac_zero_repeat, Ej.
  destruct (jac_loop c mask q k) as (st & E & HJ); auto; [lia|].
  rewrite E. cbn [obind]. rewrite HJ. reflexivity.
Qed.

(** * Velocity kinematics *)
Lemma fv_ext a b : fv_GetFrame a = fv_GetFrame b -> fv_GetTwist a = fv_GetTwist b -> a = b.
Proof.
  destruct a as [[r w] [p v]], b as [[r' w'] [p' v']]. unfold fv_GetFrame, fv_GetTwist. cbn.
  intros H1 H2. injection H1 as -> ->. injection H2 as -> ->. reflexivity.
Qed.
Lemma fv_mul_frame a b : fv_GetFrame (fv_mul a b) = f_mul (fv_GetFrame a) (fv_GetFrame b).
Proof. destruct a as [[ra wa] [pa va]], b as [[rb wb] [pb vb]]. unfold fv_GetFrame, fv_mul, rv_mul, vv_add, rv_app. cbn. reflexivity. Qed.
Lemma fv_mul_twist a b : fv_GetTwist (fv_mul a b) =
  t_add (t_RefPoint (fv_GetTwist a) (r_app (fM (fv_GetFrame a)) (fp (fv_GetFrame b))))
        (r_app_t (fM (fv_GetFrame a)) (fv_GetTwist b)).
Proof.
  destruct a as [[ra wa] [pa va]], b as [[rb wb] [pb vb]]. unfold fv_GetFrame, fv_GetTwist, fv_mul, rv_mul, vv_add, rv_app.
  cbn [fvM fvp rvR rvw vvp vvv fM fp]. geo.
Qed.

Lemma fv_make_twist f t : fv_GetTwist (fv_make f t) = t. Proof. destruct t; reflexivity. Qed.
Lemma fv_make_frame f t : fv_GetFrame (fv_make f t) = f. Proof. destruct f; reflexivity. Qed.

Definition tip_vel (c : Chain) (q qd : list R) (k : nat) : FrameVel :=
  fv_make (tip_frame c q k) (jac_mul (jacl (firstn k (ch_segs c)) q) qd).

Lemma tip_vel_S c q qd k s x xd : chain_ok c -> (count_moving (firstn k (ch_segs c)) <= length q)%nat ->
  nth_error (ch_segs c) k = Some s ->
  (if moving s then nth_error q (count_moving (firstn k (ch_segs c))) = Some x else x = 0) ->
  (if moving s then nth_error qd (count_moving (firstn k (ch_segs c))) = Some xd else xd = 0) ->
  tip_vel c q qd (S k) = fv_mul (tip_vel c q qd k) (fv_make (segment_pose s x) (segment_twist s x xd)).
Proof.
  intros [Hw Hok] Hle En Hx Hxd. apply fv_ext.
  - rewrite fv_mul_frame. unfold tip_vel. rewrite !fv_make_frame. apply tip_frame_S; auto.
  - rewrite fv_mul_twist. unfold tip_vel. rewrite !fv_make_frame, !fv_make_twist.
    pose proof (jacl_snoc _ s (Forall_firstn' _ k _ Hok) q Hle x Hx) as Hsn.
    rewrite <- (firstn_snoc _ _ _ En) in Hsn. fold (tip_frame c q k) in Hsn. rewrite Hsn.
    rewrite <- (jacl_length (firstn k (ch_segs c)) q Hle) in Hxd.
    rewrite (segment_twist_scale s x xd).
    destruct (moving s) eqn:Em.
    + rewrite (jac_mul_snoc _ _ _ xd) by (rewrite map_length; auto).
      rewrite jac_mul_map by apply RefPoint_linear. f_equal. geo.
    + rewrite app_nil_r, jac_mul_map by apply RefPoint_linear. subst xd.
      rewrite t_scale_0, r_app_t_zero, t_add_0_r. reflexivity.
Qed.

Lemma fkvel_loop c q qd n : chain_ok c -> length q = ch_nj c -> length qd = ch_nj c -> (n <= ch_ns c)%nat ->
  for_loop n 0 (fkvel_body c q qd) (0%nat, fv_id) = Ret (count_moving (firstn n (ch_segs c)), tip_vel c q qd n).
Proof.
  intros Hok Hq Hqd Hn. pose proof Hok as [Hw _].
  destruct (for_loop_inv (fun k st => st = (count_moving (firstn k (ch_segs c)), tip_vel c q qd k))
              (fkvel_body c q qd) n 0 (0%nat, fv_id)) as (s' & E & H).
  - intros k st Hk ->. unfold fkvel_body.
    destruct (chain_lookup c q k Hw Hq) as (s & x & En & Es & Hle & Hx & Ha & Hc); [lia|].
    destruct (chain_lookup c qd k Hw Hqd) as (s' & xd & En' & _ & Hle' & Hxd & Had & _); [lia|].
    assert (s' = s) by congruence. subst s'.
    rewrite Es. cbn [obind]. rewrite Hc, (tip_vel_S c q qd k s x xd Hok Hle En Hx Hxd).
    destruct (moving s).
    + rewrite (Ha eq_refl), (Had eq_refl). cbn [obind]. eexists; split; [reflexivity|]. f_equal. lia.
    + subst x xd. eexists; split; [reflexivity|]. f_equal. lia.
  - reflexivity.
  - rewrite E, H. reflexivity.
Qed.

Lemma fkvel_result c q qd z k : chain_ok c -> denotes c z k ->
  fkvel_JntToCart c q qd z = Ret
    (if Nat.eqb (length q) (ch_nj c) && Nat.eqb (length qd) (ch_nj c)
     then if Nat.leb k (length (ch_segs c)) then (E_NOERROR, tip_vel c q qd k) else (E_OUT_OF_RANGE, fv_id)
     else (E_SIZE_MISMATCH, fv_id)).
Proof.
  intros Hok Hd. pose proof Hok as [Hw _]. apply (denotes_segment_nr _ _ _ Hw) in Hd.
  unfold fkvel_JntToCart. rewrite Hd. cbn zeta.
  destruct (Nat.eqb_spec (length q) (ch_nj c)) as [Eq|]; simpl; auto.
  destruct (Nat.eqb_spec (length qd) (ch_nj c)) as [Eqd|]; simpl; auto.
  rewrite Nat.ltb_antisym. pose proof Hw as [Hs Hj]. rewrite Hs.
  destruct (Nat.leb k (length (ch_segs c))) eqn:El; simpl; auto.
  apply Nat.leb_le in El. rewrite fkvel_loop by (auto; lia). reflexivity.
Qed.

(** * Derivative of the tip frame *)
Lemma motion_tail n q t qd : joint_motion (S n) q t qd ->
  exists x q' xd qd', (forall s, q s = x s :: q' s) /\ qd = xd :: qd' /\
    derivable_pt_lim x t xd /\ joint_motion n q' t qd'.
Proof.
  intros (Hl & Hld & Hd). exists (fun s => nth 0 (q s) 0), (fun s => tl (q s)), (nth 0 qd 0), (tl qd).
  repeat split.
  - intros s. specialize (Hl s). destruct (q s); [discriminate|reflexivity].
  - destruct qd; [discriminate|reflexivity].
  - apply Hd. lia.
  - intros s. specialize (Hl s). destruct (q s); simpl in *; [discriminate|]. lia.
  - destruct qd; simpl in *; [discriminate|]. lia.
  - intros i Hi. eapply dl_eq; [eapply dl_ext; [|apply (Hd (S i)); lia]|].
    + intros s. cbv beta. specialize (Hl s). destruct (q s); [discriminate|reflexivity].
    + destruct qd; [discriminate|reflexivity].
Qed.

Lemma tip_velocity segs : Forall segment_ok segs -> forall n q t qd,
  (count_moving segs <= n)%nat -> joint_motion n q t qd ->
  frame_velocity (fun s => pose_product (assign segs (q s))) t (jac_mul (jacl segs (q t)) qd).
Proof.
  induction 1 as [|a l Ha Hl IH]; intros n q t qd Hn Hq; simpl.
  - apply frame_velocity_const.
  - unfold count_moving in Hn. simpl in Hn. destruct (moving a) eqn:Em; simpl in Hn.
    + destruct n as [|n]; [lia|].
      destruct (motion_tail _ _ _ _ Hq) as (x & q' & xd & qd' & Eq & -> & Hx & Hq').
      eapply frame_velocity_eq.
      * eapply frame_velocity_ext;
          [|apply (frame_velocity_mul (fun s => segment_pose a (x s)) (fun s => pose_product (assign l (q' s))) t)].
        -- intros s. cbv beta. rewrite Eq. reflexivity.
        -- apply segment_pose_rigid; auto.
        -- apply (segment_velocity a x t xd Ha Hx).
        -- apply (IH n q' t qd'); auto. unfold count_moving; lia.
      * cbv beta. rewrite Eq. simpl. rewrite jac_mul_map by apply r_app_t_linear.
        f_equal. rewrite (segment_twist_scale a (x t) xd). geo.
    + eapply frame_velocity_eq.
      * eapply frame_velocity_ext;
          [|apply (frame_velocity_mul (fun s => segment_pose a 0) (fun s => pose_product (assign l (q s))) t)].
        -- intros s. reflexivity.
        -- apply segment_pose_rigid; auto.
        -- apply frame_velocity_const.
        -- apply (IH n q t qd); auto.
      * cbv beta. rewrite jac_mul_map by apply r_app_t_linear. rewrite t_RefPoint_zero, t_add_0_l. reflexivity.
Qed.

Lemma fkvel_derivative c z k q t qd : chain_ok c -> denotes c z k -> (k <= length (ch_segs c))%nat ->
  joint_motion (ch_nj c) q t qd ->
  exists V p, fkvel_JntToCart c (q t) qd z = Ret (E_NOERROR, V) /\
    fk_JntToCart c (q t) z = Ret (E_NOERROR, p) /\ fv_GetFrame V = p /\
    frame_velocity (fun s => match fk_JntToCart c (q s) z with Ret (_, f) => f | Undef => f_id end)
      t (fv_GetTwist V).
Proof.
  intros Hok Hd Hk Hm. pose proof Hok as [Hw Hsegs]. pose proof Hm as (Hl & Hld & _).
  apply Nat.leb_le in Hk.
  exists (tip_vel c (q t) qd k), (tip_frame c (q t) k).
  rewrite (fkvel_result _ _ _ _ _ Hok Hd), (fk_result _ _ _ _ Hw Hd), Hl, Hld, Nat.eqb_refl, Hk.
  split; [reflexivity|]. split; [reflexivity|]. split.
  - apply fv_make_frame.
  - eapply frame_velocity_eq; [eapply frame_velocity_ext; [|
      apply (tip_velocity (firstn k (ch_segs c)) (Forall_firstn' _ _ _ Hsegs) (ch_nj c) q t qd); auto]|].
    + intros s. cbv beta. rewrite (fk_result _ _ _ _ Hw Hd), Hl, Nat.eqb_refl, Hk. reflexivity.
    + destruct Hw as [_ ->]. apply count_moving_firstn.
    + symmetry. apply fv_make_twist.
Qed.

(** * Jacobian times joint velocities *)

Lemma jac_mul_pad cols n qd : jac_mul (cols ++ repeat t_zero n) qd = jac_mul cols qd.
Proof. rewrite jac_mul_app, jac_mul_zeros, t_add_0_r. reflexivity. Qed.

Lemma jac_closed_nolock c q k : chain_wf c -> length q = ch_nj c ->
  jac_closed c (repeat false (ch_nj c)) q k =
  jacl (firstn k (ch_segs c)) q ++ repeat t_zero (ch_nj c - count_moving (firstn k (ch_segs c))).
Proof.
  intros [Hs Hj] Hq. pose proof (count_moving_firstn k (ch_segs c)).
  unfold jac_closed. rewrite unlocked_all by (rewrite jacl_length; lia).
  rewrite jacl_length by lia. reflexivity.
Qed.

Lemma jac_closed_length c mask q k : chain_wf c -> length q = ch_nj c -> length (jac_closed c mask q k) = ch_nj c.
Proof.
  intros [Hs Hj] Hq. pose proof (count_moving_firstn k (ch_segs c)).
  unfold jac_closed. rewrite app_length, repeat_length.
  pose proof (unlocked_length_le mask (jacl (firstn k (ch_segs c)) q)) as Hul.
  rewrite jacl_length in Hul by lia. lia.
Qed.

Lemma jac_times_velocity c z k q qd jac : chain_ok c -> denotes c z k -> (k <= length (ch_segs c))%nat ->
  length q = ch_nj c -> length qd = ch_nj c -> length jac = ch_nj c ->
  exists J V, jac_JntToJac c (jacsolver_make c) q jac z = Ret (E_NOERROR, J) /\
    length J = ch_nj c /\
    fkvel_JntToCart c q qd z = Ret (E_NOERROR, V) /\
    MultiplyJacobian J qd = Ret (fv_GetTwist V).
Proof.
  intros Hok Hd Hk Hq Hqd Hj. pose proof Hok as [Hw _]. apply Nat.leb_le in Hk.
  exists (jac_closed c (repeat false (ch_nj c)) q k), (tip_vel c q qd k).
  rewrite (jac_result _ _ _ _ _ _ Hok Hd), (fkvel_result _ _ _ _ _ Hok Hd).
  unfold jacsolver_make. rewrite repeat_length, Hq, Hqd, Hj, Nat.eqb_refl, Hk. cbn [negb andb].
  repeat split.
  - apply jac_closed_length; auto.
  - unfold MultiplyJacobian. rewrite jac_closed_length by auto. rewrite Hqd, Nat.eqb_refl.
    unfold tip_vel. rewrite fv_make_twist, jac_closed_nolock by auto. rewrite jac_mul_pad. reflexivity.
Qed.

(** Column [j] is the partial derivative with respect to joint [j]. *)
Definition unit_rate (n j : nat) : list R := map (fun i => if Nat.eqb i j then 1 else 0) (seq 0 n).

Lemma unit_rate_nth n j i : (i < n)%nat -> nth i (unit_rate n j) 0 = if Nat.eqb i j then 1 else 0.
Proof.
  intros H. apply nth_error_nth. unfold unit_rate.
  apply (map_nth_error (fun i => if Nat.eqb i j then 1 else 0)).
  rewrite (nth_error_nth' _ 0%nat) by (rewrite seq_length; auto). rewrite seq_nth by auto. reflexivity.
Qed.

Lemma jac_mul_ones J : forall qd, (forall i, nth i qd 0 = 0) -> jac_mul J qd = t_zero.
Proof.
  induction J as [|c J IH]; intros [|x qd] H; simpl; auto.
  rewrite IH by (intros i; apply (H (S i))). pose proof (H 0%nat) as H0. simpl in H0. subst x.
  rewrite t_scale_0, t_add_0_r. reflexivity.
Qed.

Lemma jac_mul_unit J : forall qd j, length qd = length J -> (j < length J)%nat ->
  (forall i, (i < length J)%nat -> nth i qd 0 = if Nat.eqb i j then 1 else 0) ->
  jac_mul J qd = nth j J t_zero.
Proof.
  induction J as [|c J IH]; intros [|x qd] j Hl Hj H; simpl in *; try lia.
  destruct j as [|j].
  - pose proof (H 0%nat ltac:(lia)) as H0. simpl in H0. subst x.
    rewrite t_scale_1, jac_mul_ones, t_add_0_r; auto.
    intros i. destruct (lt_dec i (length J)) as [Hi|Hi].
    + apply (H (S i)). lia.
    + apply nth_overflow. lia.
  - pose proof (H 0%nat ltac:(lia)) as H0. simpl in H0. subst x.
    rewrite t_scale_0, t_add_0_l. apply IH; try lia.
    intros i Hi. apply (H (S i)). lia.
Qed.

Lemma nth_upd_eq l j (x : R) i : (j < length l)%nat -> nth i (upd l j x) 0 = if Nat.eqb i j then x else nth i l 0.
Proof.
  revert j i; induction l as [|a l IH]; intros [|j] [|i] H; simpl in *; try lia; auto.
  apply IH. lia.
Qed.

Lemma jac_partial c z k q j jac : chain_ok c -> denotes c z k -> (k <= length (ch_segs c))%nat ->
  length q = ch_nj c -> length jac = ch_nj c -> (j < ch_nj c)%nat ->
  exists J col, jac_JntToJac c (jacsolver_make c) q jac z = Ret (E_NOERROR, J) /\
    nth_error J j = Some col /\
    frame_velocity (fun u => match fk_JntToCart c (upd q j u) z with Ret (_, f) => f | Undef => f_id end)
      (nth j q 0) col.
Proof.
  intros Hok Hd Hk Hq Hjac Hj. pose proof Hok as [Hw Hsegs].
  destruct (jac_times_velocity c z k q (unit_rate (ch_nj c) j) jac) as (J & V & EJ & LJ & EV & EM); auto.
  { unfold unit_rate. rewrite map_length, seq_length. reflexivity. }
  assert (LU : length (unit_rate (ch_nj c) j) = ch_nj c)
    by (unfold unit_rate; rewrite map_length, seq_length; reflexivity).
  exists J, (nth j J t_zero). split; auto. split.
  { apply nth_error_nth'. lia. }
  assert (Hm : joint_motion (ch_nj c) (fun u => upd q j u) (nth j q 0) (unit_rate (ch_nj c) j)).
  { repeat split; auto.
    - intros s. rewrite upd_length. auto.
    - intros i Hi. rewrite unit_rate_nth by auto.
      eapply dl_ext; [intros s; symmetry; apply (nth_upd_eq q j s i); lia|].
      destruct (Nat.eqb i j); [apply derivable_pt_lim_id | apply derivable_pt_lim_const]. }
  destruct (fkvel_derivative c z k _ _ _ Hok Hd Hk Hm) as (V' & p & EV' & Ep & EF & Hfv).
  assert (Eq : upd q j (nth j q 0) = q).
  { apply nth_ext with (d := 0) (d' := 0); [apply upd_length|].
    intros i _. rewrite nth_upd_eq by lia. destruct (Nat.eqb_spec i j); subst; auto. }
  rewrite Eq in EV'. rewrite EV in EV'. injection EV' as <-.
  eapply frame_velocity_eq; [exact Hfv|].
  unfold MultiplyJacobian in EM. rewrite LJ, LU, Nat.eqb_refl in EM. injection EM as <-.
  apply jac_mul_unit; rewrite ?LJ; auto. intros i Hi. apply unit_rate_nth; auto.
Qed.

(** * Locked joints *)
Lemma freeze_mul mask : forall J qd, length J = length mask -> length qd = length mask ->
  jac_mul J (freeze mask qd) = jac_mul (unlocked mask J) (unlocked mask qd).
Proof.
  induction mask as [|m mask IH]; intros [|c J] [|x qd] H1 H2; simpl in *; try lia; auto.
  destruct m; simpl; rewrite IH by lia; auto.
  rewrite t_scale_0, t_add_0_l. reflexivity.
Qed.
Lemma freeze_length mask qd : length qd = length mask -> length (freeze mask qd) = length mask.
Proof. revert qd; induction mask as [|m mask IH]; intros [|x qd] H; simpl in *; try lia. rewrite IH; lia. Qed.
Lemma unlocked_length_same {A B} mask : forall (l : list A) (m : list B), length l = length m ->
  length (unlocked mask l) = length (unlocked mask m).
Proof. induction mask as [|b mask IH]; intros [|x l] [|y m] H; simpl in *; try lia. destruct b; simpl; rewrite (IH l m); lia. Qed.
Lemma jac_mul_app_same J : forall K qd rd, length J = length qd ->
  jac_mul (J ++ K) (qd ++ rd) = t_add (jac_mul J qd) (jac_mul K rd).
Proof.
  intros K qd rd H. rewrite jac_mul_app. f_equal.
  - revert qd H; induction J as [|c J IH]; intros [|x qd] H; simpl in *; try lia; auto. rewrite IH by lia. reflexivity.
  - rewrite skipn_app, skipn_all2, H, Nat.sub_diag by lia. reflexivity.
Qed.
Lemma locked_count mask n : length mask = n ->
  (length (unlocked mask (repeat t_zero n)) + length (filter (fun b => b) mask) = n)%nat.
Proof.
  revert n; induction mask as [|m mask IH]; intros [|n] H; simpl in *; try lia.
  specialize (IH n). destruct m; simpl; lia.
Qed.

Lemma jac_locked c z k q mask jac m0 : chain_ok c -> denotes c z k -> (k <= length (ch_segs c))%nat ->
  length q = ch_nj c -> length jac = ch_nj c -> length m0 = ch_nj c -> length mask = ch_nj c ->
  jacsolver_setLocked c m0 mask = (E_NOERROR, mask) /\
  exists J, jac_JntToJac c (jacsolver_make c) q jac z = Ret (E_NOERROR, J) /\
    jac_JntToJac c mask q jac z =
      Ret (E_NOERROR, unlocked mask J ++ repeat t_zero (length (filter (fun b => b) mask))) /\
    forall qd rd, length qd = ch_nj c ->
      exists V, fkvel_JntToCart c q (freeze mask qd) z = Ret (E_NOERROR, V) /\
        jac_mul (unlocked mask J ++ repeat t_zero (length (filter (fun b => b) mask))) (unlocked mask qd ++ rd)
          = fv_GetTwist V.
Proof.
  intros Hok Hd Hk Hq Hjac Hm0 Hm. pose proof Hok as [Hw _].
  split. { unfold jacsolver_setLocked. rewrite Hm, Hm0, Nat.eqb_refl. reflexivity. }
  exists (jac_closed c (repeat false (ch_nj c)) q k).
  pose proof Hk as Hk'. apply Nat.leb_le in Hk'.
  assert (HJl : length (jac_closed c (repeat false (ch_nj c)) q k) = ch_nj c) by (apply jac_closed_length; auto).
  assert (Hu : unlocked mask (jac_closed c (repeat false (ch_nj c)) q k) ++
            repeat t_zero (length (filter (fun b => b) mask)) = jac_closed c mask q k).
  { rewrite jac_closed_nolock by auto. unfold jac_closed.
    pose proof (count_moving_firstn k (ch_segs c)) as Hcm. destruct Hw as [Hs Hnj].
    assert (Hjl : length (jacl (firstn k (ch_segs c)) q) = count_moving (firstn k (ch_segs c)))
      by (apply jacl_length; lia).
    destruct (unlocked_app_repeat t_zero mask (jacl (firstn k (ch_segs c)) q)) as [n En].
    rewrite Hm, Hjl in En. rewrite En, <- app_assoc, <- repeat_app. f_equal. f_equal.
    pose proof (locked_count mask (ch_nj c) Hm) as Hlc.
    assert (Hsame : length (unlocked mask (repeat t_zero (ch_nj c))) =
             length (unlocked mask (jacl (firstn k (ch_segs c)) q ++
               repeat t_zero (ch_nj c - count_moving (firstn k (ch_segs c)))))).
    { apply unlocked_length_same. rewrite app_length, !repeat_length, Hjl. lia. }
    rewrite En, app_length, repeat_length in Hsame. lia. }
  repeat split.
  - rewrite (jac_result _ _ _ _ _ _ Hok Hd). unfold jacsolver_make.
    rewrite repeat_length, Hq, Hjac, Nat.eqb_refl, Hk'. reflexivity.
  - rewrite (jac_result _ _ _ _ _ _ Hok Hd).
    rewrite Hm, Hq, Hjac, Nat.eqb_refl, Hk'. cbn [negb andb]. rewrite Hu. reflexivity.
  - intros qd rd Hqd.
    exists (tip_vel c q (freeze mask qd) k).
    rewrite (fkvel_result _ _ _ _ _ Hok Hd), Hq, freeze_length, Hm, Nat.eqb_refl, Hk' by lia.
    split; auto.
    rewrite jac_mul_app_same.
    + rewrite jac_mul_zeros, t_add_0_r. unfold tip_vel. rewrite fv_make_twist.
      rewrite <- freeze_mul by lia. rewrite jac_closed_nolock by auto. rewrite jac_mul_pad. reflexivity.
    + apply unlocked_length_same. lia.
Qed.

Lemma setLocked_reject c m0 mask : length mask <> ch_nj c ->
  fst (jacsolver_setLocked c m0 mask) <> E_NOERROR /\ snd (jacsolver_setLocked c m0 mask) = m0.
Proof.
  intros H. unfold jacsolver_setLocked.
  destruct (Nat.eqb_spec (length m0) (ch_nj c)); simpl.
  - destruct (Nat.eqb_spec (length mask) (length m0)); simpl; [lia|]. split; [discriminate|auto].
  - split; [discriminate|auto].
Qed.

(** * Changing reference *)
Lemma inplace_commutes g J qd : t_linear g -> length J = length qd ->
  exists J', jac_inplace g J = Ret J' /\
    exists t, MultiplyJacobian J qd = Ret t /\ MultiplyJacobian J' qd = Ret (g t).
Proof.
  intros Hg Hl. exists (map g J). rewrite jac_inplace_map. split; auto.
  exists (jac_mul J qd). unfold MultiplyJacobian. rewrite map_length, Hl, Nat.eqb_refl.
  rewrite jac_mul_map by auto. auto.
Qed.

Lemma copying_commutes g J dest qd : t_linear g -> length J = length qd -> length dest = length J ->
  exists J', jac_copying g J dest = Ret (true, J') /\
    exists t, MultiplyJacobian J qd = Ret t /\ MultiplyJacobian J' qd = Ret (g t).
Proof.
  intros Hg Hl Hd. exists (map g J). rewrite jac_copying_map, Hd, Nat.eqb_refl. split; auto.
  exists (jac_mul J qd). unfold MultiplyJacobian. rewrite map_length, Hl, Nat.eqb_refl.
  rewrite jac_mul_map by auto. auto.
Qed.
Lemma copying_reject g J dest : length dest <> length J -> jac_copying g J dest = Ret (false, dest).
Proof. intros H. rewrite jac_copying_map. destruct (Nat.eqb_spec (length J) (length dest)); auto; lia. Qed.
