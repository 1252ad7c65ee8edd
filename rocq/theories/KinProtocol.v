(** Proofs: multi-output velocity kinematics (C21) and the not-up-to-date
    protocol of the Jacobian solvers (C26). *)
From Coq Require Import String Reals List Bool ZArith Lia Lra.
From Verif Require Import FramesModel FramesSpec FramesProofs RotationProofs FrameOpsProofs Outcome InertiaModel DualModel KinModel KinSpec
  LoopProofs DerivProofs KinProofs JacProofs JacDotProofs.
Import ListNotations.
Local Open Scope R_scope.
Local Arguments segment_pose : simpl never.
Local Arguments segment_twist : simpl never.
Local Arguments f_mul : simpl never.

Lemma segment_nr_of_nat c k : segment_nr c (Z.of_nat k) = k.
Proof.
  unfold segment_nr. replace (Z.of_nat k <? 0)%Z with false by (symmetry; apply Z.ltb_ge; lia). apply Nat2Z.id.
Qed.

Lemma fv_mul_id_l v : fv_mul fv_id v = v.
Proof.
  apply fv_ext.
  - rewrite fv_mul_frame. change (fv_GetFrame fv_id) with f_id. apply f_mul_id_l.
  - rewrite fv_mul_twist. change (fv_GetFrame fv_id) with f_id. change (fv_GetTwist fv_id) with t_zero.
    rewrite t_RefPoint_zero, t_add_0_l. change (fM f_id) with r_id.
    destruct (fv_GetTwist v) as [[a b c] [d e f]]. geo.
Qed.

Lemma fkvel_vec_loop c q qd n : chain_ok c -> length q = ch_nj c -> length qd = ch_nj c ->
  (n <= ch_ns c)%nat -> (0 < n)%nat ->
  forall (ps : list FrameVel), length ps = n ->
  exists out, length out = n /\
    fkvel_JntToCart_vec c q qd ps (Z.of_nat n) = Ret (0%Z, out) /\
    forall i, (i < n)%nat -> nth_error out i = Some (tip_vel c q qd (S i)).
Proof.
  intros Hok Hq Hqd Hn Hn0 ps Hps. pose proof Hok as [Hw _]. pose proof Hw as [Hs Hj].
  unfold fkvel_JntToCart_vec. rewrite segment_nr_of_nat.
  rewrite Hq, Hqd, Nat.eqb_refl. simpl negb.
  replace (Nat.ltb (ch_ns c) n) with false by (symmetry; apply Nat.ltb_ge; lia).
  rewrite Hps, Nat.eqb_refl. simpl negb. replace (Nat.eqb n 0) with false by (symmetry; apply Nat.eqb_neq; lia).
  cbv iota.
  pose (Inv := fun k (st : nat * list FrameVel) =>
    fst st = count_moving (firstn k (ch_segs c)) /\ length (snd st) = n /\
    forall i, (i < k)%nat -> nth_error (snd st) i = Some (tip_vel c q qd (S i))).
  destruct (chain_lookup c q 0 Hw Hq) as (s0 & x0 & En0 & Es0 & Hle0 & Hx0 & Ha0 & Hc0); [lia|].
  destruct (chain_lookup c qd 0 Hw Hqd) as (s0' & xd0 & En0' & _ & Hle0' & Hxd0 & Had0 & _); [lia|].
  assert (s0' = s0) by congruence. subst s0'.
  rewrite Es0. cbn [obind].
  pose proof (tip_vel_S c q qd 0 s0 x0 xd0 Hok Hle0 En0 Hx0 Hxd0) as Htip0.
  assert (E0 : tip_vel c q qd 0 = fv_id).
  { apply fv_ext; unfold tip_vel; [rewrite fv_make_frame|rewrite fv_make_twist]; reflexivity. }
  rewrite E0, fv_mul_id_l in Htip0. clear E0.
  change (count_moving (firstn 0 (ch_segs c))) with 0%nat in *.
  match goal with |- context [obind ?e _] =>
    assert (H0 : exists st0, e = Ret st0 /\ Inv 1%nat st0) end.
  { destruct (moving s0).
    - rewrite (Ha0 eq_refl), (Had0 eq_refl). cbn [obind]. rewrite aset_ret by lia. cbn [obind].
      eexists; split; [reflexivity|]. unfold Inv; cbn [fst snd].
      split; [lia|]. split; [rewrite upd_length; auto|]. intros i Hi. assert (i = 0)%nat by lia. subst i.
      rewrite nth_error_upd_same by lia. rewrite Htip0. reflexivity.
    - subst x0 xd0. rewrite aset_ret by lia. cbn [obind].
      eexists; split; [reflexivity|]. unfold Inv; cbn [fst snd].
      split; [lia|]. split; [rewrite upd_length; auto|]. intros i Hi. assert (i = 0)%nat by lia. subst i.
      rewrite nth_error_upd_same by lia. rewrite Htip0. reflexivity. }
  destruct H0 as (st0 & Est0 & HI0). rewrite Est0. cbn [obind].
  destruct (for_loop_inv Inv (fkvel_vec_body c q qd) (n - 1) 1 st0) as (st' & E' & (Hfst & Hlen & Hall)); auto.
  - intros k [j out] Hk (Hf & Hl & Hall). simpl in Hf, Hl, Hall. unfold fkvel_vec_body.
    destruct (chain_lookup c q k Hw Hq) as (s & x & En & Es & Hle & Hx & Ha & Hc); [lia|].
    destruct (chain_lookup c qd k Hw Hqd) as (s' & xd & En' & _ & Hle' & Hxd & Had & _); [lia|].
    assert (s' = s) by congruence. subst s'.
    rewrite Es. cbn [obind].
    rewrite (aget_nth_error out (k - 1) (tip_vel c q qd k)); [|
      replace (tip_vel c q qd k) with (tip_vel c q qd (S (k - 1))) by (f_equal; lia); apply Hall; lia].
    cbn [obind]. pose proof (tip_vel_S c q qd k s x xd Hok Hle En Hx Hxd) as Htip. subst j.
    destruct (moving s).
    + rewrite (Ha eq_refl), (Had eq_refl). cbn [obind]. rewrite aset_ret by lia. cbn [obind].
      eexists; split; [reflexivity|].
      unfold Inv; cbn [fst snd]. split; [lia|]. split; [rewrite upd_length; auto|].
      intros i Hi. destruct (Nat.eq_dec i k) as [->|Hne].
      * rewrite nth_error_upd_same by lia. rewrite Htip. reflexivity.
      * rewrite nth_error_upd_other by lia. apply Hall; lia.
    + subst x xd. rewrite aset_ret by lia. cbn [obind]. eexists; split; [reflexivity|].
      unfold Inv; cbn [fst snd]. split; [lia|]. split; [rewrite upd_length; auto|].
      intros i Hi. destruct (Nat.eq_dec i k) as [->|Hne].
      * rewrite nth_error_upd_same by lia. rewrite Htip. reflexivity.
      * rewrite nth_error_upd_other by lia. apply Hall; lia.
  - rewrite E'. cbn [obind]. exists (snd st'). split; auto. split; auto.
    intros i Hi. apply Hall. lia.
Qed.

Lemma fkvel_vec_correct c q qd z k (ps : list FrameVel) : chain_ok c -> denotes c z k ->
  (length q = ch_nj c /\ length qd = ch_nj c /\ (k <= length (ch_segs c))%nat /\ length ps = k /\ (0 < k)%nat ->
   exists out, length out = k /\ fkvel_JntToCart_vec c q qd ps z = Ret (0%Z, out) /\
     forall i, (i < k)%nat -> exists p,
       fkvel_JntToCart c q qd (Z.of_nat (S i)) = Ret (E_NOERROR, p) /\ nth_error out i = Some p) /\
  (~ (length q = ch_nj c /\ length qd = ch_nj c /\ (k <= length (ch_segs c))%nat /\ length ps = k /\ (0 < k)%nat) ->
   fkvel_JntToCart_vec c q qd ps z = Ret ((-1)%Z, ps)).
Proof.
  intros Hok Hd. pose proof Hok as [Hw _].
  assert (Hz : fkvel_JntToCart_vec c q qd ps z = fkvel_JntToCart_vec c q qd ps (Z.of_nat k)).
  { apply (denotes_segment_nr _ _ _ Hw) in Hd. unfold fkvel_JntToCart_vec. rewrite segment_nr_of_nat, Hd. reflexivity. }
  rewrite Hz. split.
  - intros (Hq & Hqd & Hk & Hp & H0).
    destruct (fkvel_vec_loop c q qd k Hok Hq Hqd) with (ps := ps) as (out & L & E & Ha); auto; [destruct Hw; lia|].
    exists out. repeat split; auto. intros i Hi. exists (tip_vel c q qd (S i)). split; auto.
    rewrite (fkvel_result c q qd _ (S i)); auto; [|right; split; lia].
    rewrite Hq, Hqd, Nat.eqb_refl. cbn [andb].
    replace (Nat.leb (S i) (length (ch_segs c))) with true by (symmetry; apply Nat.leb_le; lia). reflexivity.
  - intros Hn. unfold fkvel_JntToCart_vec. rewrite segment_nr_of_nat. destruct Hw as [Hs _].
    destruct (Nat.eqb_spec (length q) (ch_nj c)); simpl; auto.
    destruct (Nat.eqb_spec (length qd) (ch_nj c)); simpl; auto.
    destruct (Nat.ltb_spec (ch_ns c) k); simpl; auto.
    destruct (Nat.eqb_spec (length ps) k); simpl; auto.
    destruct (Nat.eqb_spec k 0); simpl; auto.
    exfalso. apply Hn. repeat split; auto; lia.
Qed.

(** * The protocol *)
Definition in_step (pending : bool) (n nj : nat) : Prop :=
  if pending then (n < nj)%nat else n = nj.

Lemma in_step_add pending n c s : in_step pending n (ch_nj c) ->
  in_step (pending || moving s) n (ch_nj (chain_addSegment c s)).
Proof.
  unfold in_step, chain_addSegment. cbn [ch_nj]. unfold moving. destruct pending, (isFixed (jtype (sjoint s))); simpl; lia.
Qed.

Lemma jac_run_in_step h : forall pending c m c' m', in_step pending (length m) (ch_nj c) ->
  jac_run (c, m) h = Ret (c', m') -> in_step (stale pending h) (length m') (ch_nj c').
Proof.
  induction h as [|e h IH]; intros pending c m c' m' Hin E; cbn [jac_run stale] in *.
  - injection E as <- <-. auto.
  - destruct e; cbn [jac_step obind] in E.
    + eapply IH; [apply in_step_add; eauto|exact E].
    + eapply IH; [|exact E]. unfold jacsolver_update. apply vec_resize_length.
    + eapply IH; [|exact E]. unfold jacsolver_setLocked.
      destruct (Nat.eqb_spec (length m) (ch_nj c)); cbn [negb snd]; auto.
      destruct (Nat.eqb_spec (length mask) (length m)) as [Em|]; cbn [negb snd]; auto. rewrite Em. auto.
    + apply obind_Ret_inv in E. destruct E as (w & Ew & E).
      apply obind_Ret_inv in Ew. destruct Ew as (r & _ & Ew). injection Ew as <-. eapply IH; eauto.
Qed.

Definition no_lock (e : solver_event) : Prop := match e with EvSetLocked _ => False | _ => True end.

Lemma jac_run_clean h : forall n c m c' m', m = repeat false n -> Forall no_lock h ->
  jac_run (c, m) h = Ret (c', m') -> exists n', m' = repeat false n'.
Proof.
  induction h as [|e h IH]; intros n c m c' m' Hm Hh E; cbn [jac_run] in *.
  - injection E as <- <-. eauto.
  - inversion Hh as [|? ? He Hh']; subst. destruct e; cbn [jac_step obind] in E.
    + eapply IH; eauto.
    + eapply IH; [|auto|exact E]. unfold jacsolver_update. apply vec_resize_repeat.
    + destruct He.
    + apply obind_Ret_inv in E. destruct E as (w & Ew & E).
      apply obind_Ret_inv in Ew. destruct Ew as (r & _ & Ew). injection Ew as <-. eapply IH; eauto.
Qed.

Lemma jac_run_total h : forall c m, chain_ok c ->
  Forall (fun e => match e with EvAddSegment s => segment_ok s | _ => True end) h ->
  exists c' m', jac_run (c, m) h = Ret (c', m') /\ chain_ok c'.
Proof.
  induction h as [|e h IH]; intros c m Hc Hh; cbn [jac_run]; [eauto|].
  inversion Hh as [|? ? He Hh']; subst. destruct e; cbn [jac_step obind]; auto.
  - apply IH; auto. apply chain_ok_add; auto.
  - rewrite (jac_result c m q jac seg_nr (segment_nr c seg_nr) Hc)
      by (apply denotes_segment_nr; [apply Hc|reflexivity]). cbn [obind]. apply IH; auto.
Qed.

Lemma jac_stale c m q jac z : length m <> ch_nj c ->
  jac_JntToJac c m q jac z = Ret (E_NOT_UP_TO_DATE, jac).
Proof.
  intros H. unfold jac_JntToJac. apply Nat.eqb_neq in H. rewrite H. reflexivity.
Qed.
Lemma jac_fresh_code c m q jac z code J : chain_ok c -> length m = ch_nj c ->
  jac_JntToJac c m q jac z = Ret (code, J) -> code <> E_NOT_UP_TO_DATE.
Proof.
  intros Hok Hm E. rewrite (jac_result c m q jac z (segment_nr c z) Hok) in E
    by (apply denotes_segment_nr; [apply Hok|reflexivity]).
  rewrite Hm, Nat.eqb_refl in E. cbn [negb] in E.
  destruct (negb _); [injection E as <- <-; discriminate|].
  destruct (Nat.leb _ _); injection E as <- <-; discriminate.
Qed.

Lemma jac_protocol c0 h : chain_ok c0 ->
  Forall (fun e => match e with EvAddSegment s => segment_ok s | _ => True end) h ->
  exists c m, jac_run (c0, jacsolver_make c0) h = Ret (c, m) /\ chain_ok c /\
  (stale false h = true ->
     (forall q jac z, jac_JntToJac c m q jac z = Ret (E_NOT_UP_TO_DATE, jac)) /\
     (forall mask, jacsolver_setLocked c m mask = (E_NOT_UP_TO_DATE, m))) /\
  (stale false h = false ->
     (forall q jac z code J, jac_JntToJac c m q jac z = Ret (code, J) -> code <> E_NOT_UP_TO_DATE) /\
     (Forall no_lock h -> m = jacsolver_make c)).
Proof.
  intros Hc Hh. destruct (jac_run_total h c0 (jacsolver_make c0) Hc Hh) as (c & m & E & Hok).
  exists c, m. split; auto. split; auto.
  pose proof (jac_run_in_step h false c0 _ c m (repeat_length _ _) E) as Hin.
  split; intros Hst; rewrite Hst in Hin; unfold in_step in Hin.
  - split; [intros; apply jac_stale; lia|]. intros mask. unfold jacsolver_setLocked.
    replace (Nat.eqb (length m) (ch_nj c)) with false by (symmetry; apply Nat.eqb_neq; lia). reflexivity.
  - split; [intros q jac z code J; apply jac_fresh_code; auto|].
    intros Hnl. destruct (jac_run_clean h _ _ _ _ _ eq_refl Hnl E) as [n' ->].
    rewrite repeat_length in Hin. subst n'. reflexivity.
Qed.

(** JacDot solver *)
Lemma jd_call_locked c st q qd jdot z code out st' :
  jd_JntToJacDot c st q qd jdot z = Ret (code, out, st') -> jd_locked st' = jd_locked st.
Proof.
  intros E. unfold jd_JntToJacDot in E. cbn zeta in E.
  repeat first
   [ match type of E with (if ?b then _ else _) = _ => destruct b end
   | apply obind_Ret_inv in E; let a := fresh "a" in let Ea := fresh "Ea" in destruct E as (a & Ea & E);
     try (destruct a as [? ?]); try (match type of E with (let '(_,_) := ?p in _) = _ => destruct p end) ];
  try (injection E as <- <- <-; reflexivity).
Qed.

Lemma jd_run_in_step h : forall pending c st c' st', in_step pending (length (jd_locked st)) (ch_nj c) ->
  jd_run (c, st) h = Ret (c', st') -> in_step (stale pending h) (length (jd_locked st')) (ch_nj c').
Proof.
  induction h as [|e h IH]; intros pending c st c' st' Hin E; cbn [jd_run stale] in *.
  - injection E as <- <-. auto.
  - destruct e; cbn [jd_step obind] in E.
    + eapply IH; [apply in_step_add; eauto|exact E].
    + eapply IH; [|exact E]. unfold jdsolver_update. cbn [jd_locked]. apply vec_resize_length.
    + eapply IH; [|exact E]. unfold jdsolver_setLocked.
      destruct (Nat.eqb_spec (length mask) (length (jd_locked st))) as [Em|]; cbn [negb snd]; auto.
      cbn [jd_locked]. rewrite Em. auto.
    + apply obind_Ret_inv in E. destruct E as (w & Ew & E).
      apply obind_Ret_inv in Ew. destruct Ew as ([[cd o] s2] & Er & Ew). injection Ew as <-. cbn [snd] in E.
      apply jd_call_locked in Er. eapply IH; [|exact E]. rewrite Er. auto.
Qed.

Lemma jd_stale c st q qd jdot z : length (jd_locked st) <> ch_nj c ->
  jd_JntToJacDot c st q qd jdot z = Ret (E_NOT_UP_TO_DATE, jdot, st).
Proof. intros H. unfold jd_JntToJacDot. apply Nat.eqb_neq in H. rewrite H. reflexivity. Qed.

Lemma jd_protocol c0 h c st : jd_run (c0, jdsolver_make c0) h = Ret (c, st) ->
  (stale false h = true -> forall q qd jdot z,
     jd_JntToJacDot c st q qd jdot z = Ret (E_NOT_UP_TO_DATE, jdot, st)) /\
  (stale false h = false -> length (jd_locked st) = ch_nj c /\
     forall q qd jdot z code out st', jd_JntToJacDot c st q qd jdot z = Ret (code, out, st') ->
       code <> E_NOT_UP_TO_DATE).
Proof.
  intros E. pose proof (jd_run_in_step h false c0 (jdsolver_make c0) c st (repeat_length _ _) E) as Hin.
  split; intros Hst; rewrite Hst in Hin; unfold in_step in Hin.
  - intros. apply jd_stale. lia.
  - split; auto. intros q qd jdot z code out st' Er. unfold jd_JntToJacDot in Er.
    rewrite Hin, Nat.eqb_refl in Er. cbn [negb] in Er. cbn zeta in Er.
    repeat first
     [ match type of Er with (if ?b then _ else _) = _ => destruct b end
     | apply obind_Ret_inv in Er; let a := fresh "a" in let Ea := fresh "Ea" in destruct Er as (a & Ea & Er);
       try (destruct a as [? ?]); try (match type of Er with (let '(_,_) := ?p in _) = _ => destruct p end) ];
    try (injection Er as <- <- <-; discriminate).
Qed.

(** * Statements assembled for KinProps.v *)
Lemma frame_velocity_unique F t tw tw' : is_rotation (fM (F t)) ->
  frame_velocity F t tw -> frame_velocity F t tw' -> tw = tw'.
Proof.
  intros HR H1 H2.
  assert (H : forall x, v_add (tvel tw) (v_cross (trot tw) (r_app (fM (F t)) x)) =
                        v_add (tvel tw') (v_cross (trot tw') (r_app (fM (F t)) x))).
  { intros x. eapply v_derive_unique; [apply H1|apply H2]. }
  assert (Ht : tvel tw = tvel tw').
  { pose proof (H v_zero) as H0. assert (E : r_app (fM (F t)) v_zero = v_zero) by (generalize (fM (F t)); intros r; geo).
    rewrite E in H0. destruct (tvel tw) as [a b c], (tvel tw') as [a' b' c'].
    revert H0. unfold v_zero. geo_unfold. psimp. intros H0. injection H0 as E1 E2 E3. f_equal; lra. }
  assert (Hc : forall y, v_cross (trot tw) y = v_cross (trot tw') y).
  { intros y. pose proof (H (r_app (r_inv (fM (F t))) y)) as H0.
    assert (E : r_app (fM (F t)) (r_app (r_inv (fM (F t))) y) = y) by (rewrite <- r_invapp_inv; apply r_app_invapp; auto).
    rewrite E, Ht in H0. destruct (tvel tw') as [a b c]. revert H0.
    generalize (v_cross (trot tw) y) (v_cross (trot tw') y). intros [x1 y1 z1] [x2 y2 z2].
    unfold v_add; psimp. intros H0. injection H0 as E1 E2 E3. f_equal; lra. }
  destruct tw as [v w], tw' as [v' w']. cbn [tvel trot] in *. subst v'. f_equal.
  pose proof (Hc (mkV 1 0 0)) as C1. pose proof (Hc (mkV 0 1 0)) as C2.
  destruct w as [a b c], w' as [a' b' c']. unfold v_cross in C1, C2; psimp.
  injection C1 as _ C1b C1c. injection C2 as C2a _ C2c. f_equal; lra.
Qed.

Lemma self_assign_refuted :
  (forall c, chain_assign_self c = Ret chain_empty) /\
  (exists c l, built c l /\ chain_assign_self c <> Ret c).
Proof.
  split; [apply chain_self_assign|].
  pose (s := segment_make "s" (mkJ "j" RotX 1 0 0 0 0 v_zero v_zero) f_id rb_zero).
  exists (chain_addSegment chain_empty s), ([] ++ [s]). split; [constructor; constructor|].
  rewrite chain_self_assign. discriminate.
Qed.
Lemma self_append_diverges fuel c l : built c l -> (0 < length l)%nat -> chain_addChain_self fuel 0 c = None.
Proof.
  intros H Hl. apply built_chain_of in H. subst c.
  apply chain_addChain_self_diverges; [apply chain_of_wf|exact Hl].
Qed.
Lemma built_ok c l : built c l -> chain_wf c /\ (Forall segment_ok l -> chain_ok c).
Proof.
  intros H. apply built_chain_of in H. subst c. split; [apply chain_of_wf|].
  intros Hl. split; [apply chain_of_wf|exact Hl].
Qed.
Lemma fkvel_codes c q qd z k : chain_ok c -> denotes c z k ->
  exists code V, fkvel_JntToCart c q qd z = Ret (code, V) /\
  (code = E_SIZE_MISMATCH <-> ~ (length q = ch_nj c /\ length qd = ch_nj c)) /\
  (code = E_OUT_OF_RANGE <-> (length q = ch_nj c /\ length qd = ch_nj c) /\ (length (ch_segs c) < k)%nat) /\
  (code = E_NOERROR <-> (length q = ch_nj c /\ length qd = ch_nj c) /\ (k <= length (ch_segs c))%nat).
Proof.
  intros Hok Hd. rewrite (fkvel_result _ _ _ _ _ Hok Hd).
  destruct (Nat.eqb_spec (length q) (ch_nj c)) as [E1|E1]; cbn [andb].
  - destruct (Nat.eqb_spec (length qd) (ch_nj c)) as [E2|E2].
    + destruct (Nat.leb_spec k (length (ch_segs c))) as [E3|E3].
      * exists E_NOERROR, (tip_vel c q qd k). split; [reflexivity|]. split; [|split].
        -- split; [discriminate|intros H; exfalso; apply H; auto].
        -- split; [discriminate|intros [_ H]; lia].
        -- split; auto.
      * exists E_OUT_OF_RANGE, fv_id. split; [reflexivity|]. split; [|split].
        -- split; [discriminate|intros H; exfalso; apply H; auto].
        -- split; auto.
        -- split; [discriminate|intros [_ H]; lia].
    + exists E_SIZE_MISMATCH, fv_id. split; [reflexivity|]. split; [|split]; split; auto; try discriminate;
        try (intros [[_ H] _]; contradiction). intros _ [_ H]; contradiction.
  - exists E_SIZE_MISMATCH, fv_id. split; [reflexivity|]. split; [|split]; split; auto; try discriminate;
      try (intros [[H _] _]; contradiction). intros _ [H _]; contradiction.
Qed.
Lemma jac_transforms_inplace J qd p r f : length J = length qd ->
  exists t, MultiplyJacobian J qd = Ret t /\
  (exists J1, jac_changeRefPoint J p = Ret J1 /\ MultiplyJacobian J1 qd = Ret (t_RefPoint t p)) /\
  (exists J2, jac_changeBase J r = Ret J2 /\ MultiplyJacobian J2 qd = Ret (r_app_t r t)) /\
  (exists J3, jac_changeRefFrame J f = Ret J3 /\ MultiplyJacobian J3 qd = Ret (f_app_t f t)).
Proof.
  intros Hl.
  destruct (inplace_commutes _ J qd (RefPoint_linear p) Hl) as (J1 & E1 & t & Et & M1).
  destruct (inplace_commutes _ J qd (r_app_t_linear r) Hl) as (J2 & E2 & t2 & Et2 & M2).
  destruct (inplace_commutes _ J qd (f_app_t_linear f) Hl) as (J3 & E3 & t3 & Et3 & M3).
  rewrite Et in Et2, Et3. injection Et2 as <-. injection Et3 as <-.
  exists t. split; auto. repeat split; eauto.
Qed.
Lemma jac_transforms_copying J dest qd p r f : length J = length qd ->
  (length dest = length J ->
   exists t, MultiplyJacobian J qd = Ret t /\
   (exists J1, changeRefPoint J p dest = Ret (true, J1) /\ MultiplyJacobian J1 qd = Ret (t_RefPoint t p)) /\
   (exists J2, changeBase J r dest = Ret (true, J2) /\ MultiplyJacobian J2 qd = Ret (r_app_t r t)) /\
   (exists J3, changeRefFrame J f dest = Ret (true, J3) /\ MultiplyJacobian J3 qd = Ret (f_app_t f t))) /\
  (length dest <> length J ->
   changeRefPoint J p dest = Ret (false, dest) /\ changeBase J r dest = Ret (false, dest) /\
   changeRefFrame J f dest = Ret (false, dest)).
Proof.
  intros Hl. split.
  - intros Hd.
    destruct (copying_commutes _ J dest qd (RefPoint_linear p) Hl Hd) as (J1 & E1 & t & Et & M1).
    destruct (copying_commutes _ J dest qd (r_app_t_linear r) Hl Hd) as (J2 & E2 & t2 & Et2 & M2).
    destruct (copying_commutes _ J dest qd (f_app_t_linear f) Hl Hd) as (J3 & E3 & t3 & Et3 & M3).
    rewrite Et in Et2, Et3. injection Et2 as <-. injection Et3 as <-.
    exists t. split; auto. repeat split; eauto.
  - intros Hd. repeat split; apply copying_reject; auto.
Qed.
Lemma joint_exceptions name o a ty sc off i d st :
  (joint_make name ty sc off i d st = Throws <-> ty = RotAxis \/ ty = TransAxis) /\
  (joint_make_axis name o a ty sc off i d st = Throws <-> ~ (ty = RotAxis \/ ty = TransAxis)).
Proof.
  destruct ty; simpl; split; split; try discriminate; auto;
    try (intros [H|H]; discriminate); try (intros H; exfalso; apply H; auto); intros _ [H|H]; discriminate.
Qed.
