(** Proofs about the hybrid dynamics solver, part 6: the result does not depend on the object's past; return codes. *)
From Coq Require Import String Reals List Arith Lia Lra ZArith Bool.
From Verif Require Import FramesModel FramesSpec FramesProofs FrameOpsProofs RotationProofs Outcome LoopProofs InertiaModel InertiaSpec
  InertiaProofs DualModel KinModel KinSpec KinProofs JacProofs LinModel LinSpec SumProofs DynModel DynSpec SpatialProofs RneProofs DynProofs DerivProofs
  LmaModel VelIkModel VelIkSpec VelIkLin HdModel HdSpec HdAbs HdLoops HdBridge HdProofs HdMotion HdThms.
Import ListNotations.
Local Open Scope R_scope.

Lemma swept_same c nc alfa ff a b Ft r1 r2 : (forall m, (m < ch_ns c)%nat -> a (S m) = b (S m)) ->
  swept c nc alfa ff a Ft 0 r1 -> swept c nc alfa ff b Ft 0 r2 ->
  (forall m, (m < ch_ns c)%nat -> si_a (rget r1 (S m)) = si_a (rget r2 (S m)) /\ si_t (rget r1 (S m)) = si_t (rget r2 (S m)) /\ si_r (rget r1 (S m)) = si_r (rget r2 (S m))) /\
  st_E (si_t (rget r1 0)) = st_E (si_t (rget r2 0)) /\ st_M (si_t (rget r1 0)) = st_M (si_t (rget r2 0)) /\ st_G (si_t (rget r1 0)) = st_G (si_t (rget r2 0)).
Proof.
  intros Hab (A1 & L1 & I1 & R1) (A2 & L2 & I2 & R2).
  assert (Sa : forall m, (m < ch_ns c)%nat -> si_a (rget r1 (S m)) = si_a (rget r2 (S m))) by (intros m Hm; rewrite A1, A2 by lia; apply Hab, Hm).
  assert (Sr : forall m, (m < ch_ns c)%nat -> si_t (rget r1 (S m)) = si_t (rget r2 (S m)) -> si_r (rget r1 (S m)) = si_r (rget r2 (S m))).
  { intros m Hm E. rewrite (R1 m) by lia. rewrite (R2 m) by lia. rewrite E, Hab by exact Hm. reflexivity. }
  assert (St : forall t, (t < ch_ns c)%nat -> si_t (rget r1 (ch_ns c - t)) = si_t (rget r2 (ch_ns c - t))).
  { induction t as [|t IH]; intros Ht.
    - rewrite Nat.sub_0_r, L1, L2 by lia. replace (ch_ns c) with (S (ch_ns c - 1)) by lia. rewrite Hab by lia. reflexivity.
    - set (k := (ch_ns c - S t)%nat). specialize (IH ltac:(lia)). replace (ch_ns c - t)%nat with (S k) in IH by lia.
      pose proof (I1 k ltac:(lia) ltac:(lia)) as K1. pose proof (I2 k ltac:(lia) ltac:(lia)) as K2.
      assert (Eab : a k = b k) by (replace k with (S (k - 1)) by lia; apply Hab; lia). rewrite Eab in K1.
      unfold hd_inner in K1, K2. cbv zeta in K1, K2. rewrite (Sr k ltac:(lia) IH), IH, (Sa k) in K1 by lia. rewrite K1 in K2. injection K2 as K2. exact K2. }
  assert (Full : forall m, (m < ch_ns c)%nat -> si_t (rget r1 (S m)) = si_t (rget r2 (S m))).
  { intros m Hm. replace (S m) with (ch_ns c - (ch_ns c - S m))%nat by lia. apply St. lia. }
  split; [intros m Hm; split; [apply Sa, Hm|]; split; [apply Full, Hm|apply Sr; auto]|].
  destruct (Nat.eq_dec (ch_ns c) 0) as [Z|Z].
  - rewrite Z in L1, L2. rewrite L1, L2 by lia. unfold hd_leaf. cbv zeta. cbn [st_E st_M st_G]. auto.
  - pose proof (I1 0%nat ltac:(lia) ltac:(lia)) as K1. pose proof (I2 0%nat ltac:(lia) ltac:(lia)) as K2.
    unfold hd_inner in K1, K2. cbv zeta in K1, K2. rewrite (Sr 0%nat ltac:(lia) (Full 0%nat ltac:(lia))), (Full 0%nat), (Sa 0%nat) in K1 by lia.
    destruct (Req_EM_T (sr_D (si_r (rget r2 1))) 0); [discriminate K1|].
    assert (E1 : forall x y : siT, Ret x = Ret y -> x = y) by (intros x y E; injection E as ->; reflexivity).
    apply E1 in K1, K2. rewrite <- K1, <- K2. cbn [st_E st_M st_G]. auto.
Qed.
Theorem hd_history svd acc nc c s1 s2 q qd qdd1 qdd2 alfa beta fext ff ct1 ct2 q1 c1 s1' q2 c2 s2' : chain_ok c ->
  hd_reach svd acc nc c s1 -> hd_current c s1 -> hd_reach svd acc nc c s2 -> hd_current c s2 ->
  hd_CartToJnt svd c s1 q qd qdd1 alfa beta fext ff ct1 = Ret (E_NOERROR, q1, c1, s1') ->
  hd_CartToJnt svd c s2 q qd qdd2 alfa beta fext ff ct2 = Ret (E_NOERROR, q2, c2, s2') ->
  q1 = q2 /\ c1 = c2 /\ (forall x, hd_getTransformedLinkAcceleration s1' x = hd_getTransformedLinkAcceleration s2' x) /\
  (forall x, hd_getTotalTorque s1' x = hd_getTotalTorque s2' x) /\ (forall x, hd_getContraintForceMagnitude s1' x = hd_getContraintForceMagnitude s2' x).
Proof.
  intros Hok Hr1 Hc1 Hr2 Hc2 HE1 HE2.
  pose proof (run_moving _ _ _ _ _ _ _ _ _ _ _ _ _ _ Hok HE1) as Hmv. pose proof (nj_moving c (proj1 Hok) Hmv) as Nj.
  destruct (run_facts _ _ _ _ _ _ _ _ _ _ _ _ _ _ _ _ Hok Hr1 Hc1 HE1) as (a & r1 & HF1).
  destruct (run_facts _ _ _ _ _ _ _ _ _ _ _ _ _ _ _ _ Hok Hr2 Hc2 HE2) as (b & r2 & HF2).
  destruct HF1 as (Ha1 & Sw1 & En1 & _ & Ac1 & Nu1 & Lr1 & Lq1 & Lc1 & Lt1 & Sm1 & F1). destruct HF2 as (Ha2 & Sw2 & En2 & _ & Ac2 & Nu2 & Lr2 & Lq2 & Lc2 & Lt2 & Sm2 & F2).
  destruct (swept_same c nc alfa ff a b _ r1 r2 ltac:(intros m Hm; rewrite Ha1, Ha2 by exact Hm; reflexivity) Sw1 Sw2) as (Sm & E0 & M0 & G0).
  assert (Nu : hd_nu s1' = hd_nu s2') by (rewrite Nu1, Nu2; unfold hd_constraint; rewrite E0, M0, G0; reflexivity).
  assert (SA3 : forall m, (m < ch_ns c)%nat -> si_a (rget (hd_res s1') (S m)) = si_a (rget (hd_res s2') (S m)) /\ si_r (rget (hd_res s1') (S m)) = si_r (rget (hd_res s2') (S m))).
  { intros m Hm. destruct (Sm1 (S m) ltac:(lia)) as [-> ->]. destruct (Sm2 (S m) ltac:(lia)) as [-> ->]. destruct (Sm m Hm) as (-> & _ & ->). auto. }
  assert (All : forall m, (m <= ch_ns c)%nat -> fin_acc acc (hd_res s1') m = fin_acc acc (hd_res s2') m /\
     forall i, (i < m)%nat -> nth i q1 0 = nth i q2 0 /\ nth i c1 0 = nth i c2 0 /\ nth i (hd_total s1') 0 = nth i (hd_total s2') 0).
  { induction m as [|m IH]; intros Hm; [split; [reflexivity|intros; lia]|]. destruct (IH ltac:(lia)) as [IA IB].
    pose proof (F1 m ltac:(lia)) as K1. pose proof (F2 m ltac:(lia)) as K2. unfold fin_step in K1, K2. cbv zeta in K1, K2.
    destruct (SA3 m ltac:(lia)) as [Ea Er]. rewrite Ea, Er, IA, Nu in K1. destruct K1 as (K11 & K12 & K13 & K14), K2 as (K21 & K22 & K23 & K24).
    split; [rewrite K14, K24, K11, K21; reflexivity|]. intros i Hi. destruct (Nat.eq_dec i m) as [->|]; [|apply IB; lia]. rewrite K11, K12, K13, K21, K22, K23. auto. }
  destruct (All (ch_ns c) (le_n _)) as [_ B].
  split; [apply nth_ext_R; [congruence|]; intros i Hi; apply B; lia|]. split; [apply nth_ext_R; [congruence|]; intros i Hi; apply B; lia|].
  assert (T : hd_total s1' = hd_total s2') by (apply nth_ext_R; [congruence|]; intros i Hi; apply B; lia).
  split; [|split; intros x; unfold hd_getTotalTorque, hd_getContraintForceMagnitude; rewrite ?T, ?Nu; reflexivity].
  intros x. unfold hd_getTransformedLinkAcceleration. rewrite En1, En2, Ac1, Ac2. destruct (negb _); [reflexivity|]. f_equal. f_equal.
  set (f := fun p : seginfo => r_app_t (fM (sa_Fb (si_a p))) (sx_acc (si_x p))).
  assert (T1 : length (tl (hd_res s1')) = ch_ns c) by (destruct (hd_res s1'); cbn [tl length] in *; lia).
  assert (T2 : length (tl (hd_res s2')) = ch_ns c) by (destruct (hd_res s2'); cbn [tl length] in *; lia).
  apply (nth_ext _ _ (f si0) (f si0)); [rewrite !map_length, !firstn_length; lia|]. intros k Hk. rewrite map_length, firstn_length in Hk.
  rewrite !map_nth, !firstn_all2 by lia.
  assert (EN : forall rs : list seginfo, nth k (tl rs) si0 = rget rs (S k)) by (intros rs; unfold rget; destruct rs; [destruct k|]; reflexivity).
  rewrite !EN. unfold f. destruct (SA3 k ltac:(lia)) as [-> _]. f_equal. destruct (All (S k) ltac:(lia)) as [A _]. exact A.
Qed.
Theorem hd_return_codes svd acc nc c s q qd qdd alfa beta fext ff ct : hd_reach svd acc nc c s ->
  (hd_ns s <> ch_ns c -> hd_CartToJnt svd c s q qd qdd alfa beta fext ff ct = Ret (E_NOT_UP_TO_DATE, qdd, ct, s)) /\
  (hd_ns s = ch_ns c -> ~ hd_sizes c nc q qd qdd alfa beta fext ff ct ->
     hd_CartToJnt svd c s q qd qdd alfa beta fext ff ct = Ret (E_SIZE_MISMATCH, qdd, ct, s)) /\
  (hd_sizes c nc q qd qdd alfa beta fext ff ct -> forall code qdd' ct' s', hd_CartToJnt svd c s q qd qdd alfa beta fext ff ct = Ret (code, qdd', ct', s') ->
     code = if Nat.eqb (hd_ns s) (ch_ns c) then E_NOERROR else E_NOT_UP_TO_DATE) /\
  hd_current c (hd_update c s) /\ hd_current c (hd_make c acc nc).
Proof.
  intros Hr. destruct (hd_reach_inv _ _ _ _ _ Hr) as (_ & Enc & _). pose proof (hd_codes svd c s q qd qdd alfa beta fext ff ct) as K. cbv zeta in K. rewrite Enc in K.
  split; [apply K|]. split; [apply K|]. split; [|split; split; try reflexivity; apply repeat_length].
  intros Hs code qdd' ct' s' E. destruct (Nat.eqb_spec (hd_ns s) (ch_ns c)) as [En|Ne].
  - rewrite <- Enc in Hs. rewrite (hd_sized svd c s q qd qdd alfa beta fext ff ct En Hs) in E.
    apply obind_Ret_inv in E. destruct E as ([[j1 Ft] res1] & _ & E). apply obind_Ret_inv in E. destruct E as ([j2 res2] & _ & E).
    apply obind_Ret_inv in E. destruct E as (s0 & _ & E). cbv zeta in E. apply obind_Ret_inv in E. destruct E as ([[[[j3 res3] q3] c3] t3] & _ & E).
    injection E as <- _ _ _. reflexivity.
  - rewrite (proj1 K Ne) in E. injection E as <- _ _ _. reflexivity.
Qed.

(** The getters before the first call of CartToJnt. *)
Lemma hd_getters_first c acc nc tau nu x : length tau = ch_nj c ->
  hd_getTotalTorque (hd_make c acc nc) tau = Ret (repeat 0 (ch_nj c)) /\
  (forall s, hd_getTotalTorque (hd_update c s) tau = Ret (repeat 0 (ch_nj c))) /\
  (nu <> [] -> hd_getContraintForceMagnitude (hd_make c acc nc) nu = Undef) /\
  (length x = (ch_ns c + 1)%nat -> hd_getTransformedLinkAcceleration (hd_make c acc nc) x = Ret (acc :: repeat t_zero (ch_ns c))).
Proof.
  intros L. split; [|split; [|split]].
  - unfold hd_getTotalTorque, hd_make; cbn [hd_total]. rewrite repeat_length, L, Nat.eqb_refl. reflexivity.
  - intros s. unfold hd_getTotalTorque, hd_update; cbn [hd_total]. rewrite repeat_length, L, Nat.eqb_refl. reflexivity.
  - intros N. unfold hd_getContraintForceMagnitude, hd_make; cbn [hd_nu]. destruct nu; [congruence|]. reflexivity.
  - intros Lx. unfold hd_getTransformedLinkAcceleration, hd_make; cbn [hd_ns hd_acc hd_res]. rewrite Lx, Nat.eqb_refl; cbn [negb].
    f_equal. f_equal. rewrite Nat.add_1_r. cbn [repeat tl].
    assert (E : forall n, map (fun p => r_app_t (fM (sa_Fb (si_a p))) (sx_acc (si_x p))) (firstn n (repeat (si_new nc) n)) = repeat t_zero n).
    { induction n as [|n IH]; [reflexivity|]. cbn [repeat firstn map]. rewrite IH. f_equal.
      unfold r_app_t, si_new, t_zero, v_zero, r_app, f_id, r_id; cbn. f_equal; f_equal; ring. }
    apply E.
Qed.
