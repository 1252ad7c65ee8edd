(** More about the Newton-Raphson solvers: what success means for a chain,
    totality, the default limits (C47); ChainIkSolverPos_NR (C48). *)
From Coq Require Import Reals String List ZArith Bool Arith Lia Lra.
From Verif Require Import FramesModel FramesSpec FramesProofs Outcome LoopProofs InertiaModel DualModel KinModel KinSpec JntModel
  LinModel LinSpec SumProofs IkModel IkSpec IkGeoProofs KinProofs PathProofs3 IkProofs.
Import ListNotations.
Local Open Scope list_scope.
Local Open Scope R_scope.

(** * Recording does not change the behaviour *)
Section Erase.
Context {W : Type}.
Variable fk : W -> list R -> outcome (Z * Frame * W).
Variable ikv : W -> list R -> Twist -> list R -> outcome (Z * list R * W).
Lemma nrjl_loop_erase n s p : forall w q d,
  erase4 (nrjl_loop (record_fk fk) (record_ik ikv) n s p w q d) = nrjl_loop fk ikv n s p (fst w) q d.
Proof.
  induction n as [|n IH]; intros [w tr] q d; cbn [nrjl_loop fst]; [reflexivity|].
  unfold record_fk at 1. cbn [fst snd]. destruct (fk w q) as [[[rc f] w1]|]; cbn [obind]; [|reflexivity].
  destruct (rc <? 0)%Z; [reflexivity|]. destruct (t_Equal _ _ _); [reflexivity|].
  unfold record_ik at 1. cbn [fst snd]. destruct (ikv w1 q _ d) as [[[rc2 dq] w2]|]; cbn [obind]; [|reflexivity].
  destruct (rc2 <? 0)%Z; [reflexivity|]. destruct (jnt_plus q dq); cbn [obind]; [|reflexivity].
  destruct (clamp_low _ _); cbn [obind]; [|reflexivity]. destruct (clamp_high _ _); cbn [obind]; [|reflexivity].
  rewrite IH. reflexivity.
Qed.
Lemma nrjl_erase c s w q0 p qo :
  erase4 (nrjl_CartToJnt (record_fk fk) (record_ik ikv) c s w q0 p qo) = nrjl_CartToJnt fk ikv c s (fst w) q0 p qo.
Proof.
  unfold nrjl_CartToJnt. destruct (negb _); [reflexivity|]. destruct (_ || _); [reflexivity|].
  rewrite <- nrjl_loop_erase. destruct (nrjl_loop (record_fk fk) (record_ik ikv) _ s p w q0 _) as [[[[e q] d] w1]|]; reflexivity.
Qed.
Lemma nr_loop_erase n eps p : forall w q d,
  erase4 (nr_loop (record_fk fk) (record_ik ikv) n eps p w q d) = nr_loop fk ikv n eps p (fst w) q d.
Proof.
  induction n as [|n IH]; intros [w tr] q d; cbn [nr_loop fst]; [reflexivity|].
  unfold record_fk at 1. cbn [fst snd]. destruct (fk w q) as [[[rc f] w1]|]; cbn [obind]; [|reflexivity].
  destruct (rc <? E_NOERROR)%Z; [reflexivity|].
  unfold record_ik at 1. cbn [fst snd]. destruct (ikv w1 q _ d) as [[[rc2 dq] w2]|]; cbn [obind]; [|reflexivity].
  destruct (rc2 <? E_NOERROR)%Z; [reflexivity|]. destruct (jnt_plus q dq); cbn [obind]; [|reflexivity].
  destruct (t_Equal _ _ _); [reflexivity|].
  rewrite IH. reflexivity.
Qed.
Lemma nr_erase c s w q0 p qo :
  erase4 (nr_CartToJnt (record_fk fk) (record_ik ikv) c s w q0 p qo) = nr_CartToJnt fk ikv c s (fst w) q0 p qo.
Proof.
  unfold nr_CartToJnt. destruct (negb _); [reflexivity|]. destruct (_ || _); [reflexivity|].
  rewrite <- nr_loop_erase. destruct (nr_loop (record_fk fk) (record_ik ikv) _ _ p w q0 _) as [[[[e q] d] w1]|]; [|reflexivity].
  destruct e as [b| |]; try destruct b; reflexivity.
Qed.

Lemma erase4_inv {A B C} (r : outcome (A * B * C * (W * list call))) a b c w :
  erase4 r = Ret (a, b, c, w) -> exists tr, r = Ret (a, b, c, (w, tr)).
Proof.
  unfold erase4. destruct r as [[[[a' b'] c'] [w' tr]]|]; cbn [obind fst]; [|discriminate].
  intros H; injection H as <- <- <- <-. eauto.
Qed.

(** * Success means the pose has been reached *)
Lemma nrjl_success c s w q0 p qo q s' w' :
  chain_ok c -> rigid p -> nj_eps s <= / 2 -> fk_correct c fk ->
  nrjl_CartToJnt fk ikv c s w q0 p qo = Ret (E_NOERROR, q, s', w') ->
  length q = ch_nj c /\ pose_within (nj_eps s) (tip_frame c q (length (ch_segs c))) p /\
  (q = q0 \/ within (nj_min s) (nj_max s) q) /\ nj_error s' = E_NOERROR.
Proof.
  intros Hc Hp He Hf H.
  pose proof (nrjl_erase c s (w, []) q0 p qo) as E. cbn [fst] in E. rewrite H in E.
  apply erase4_inv in E. destruct E as (tr & E).
  pose proof E as X. apply nrjl_call in X. destruct X as (X0 & _ & _ & _ & _ & _ & _ & _ & X & _).
  destruct (X eq_refl) as (L & Q0 & Q1 & tr0 & rc & f & T & P & D & _).
  split; [exact L|].
  (* the last recorded FK call really happened *)
  assert (F : exists w1 w2, fk w1 q = Ret (rc, f, w2)).
  { clear - E T.
    unfold nrjl_CartToJnt in E. destruct (negb _); [discriminate|]. destruct (_ || _); [discriminate|].
    destruct (nrjl_loop (record_fk fk) (record_ik ikv) (nj_maxiter s) s p (w, []) q0 (nj_delta s)) as [[[[e q1] d1] w1]|] eqn:LL;
      cbn [obind] in E; [|discriminate].
    injection E as _ -> _ ->.
    assert (G : forall n (v : W * list call) a b e' q' d' w1' tr', nrjl_loop (record_fk fk) (record_ik ikv) n s p v a b = Ret (e', q', d', (w1', tr')) ->
       (forall x r g, In (FkCall x r g) (snd v) -> exists w1 w2, fk w1 x = Ret (r, g, w2)) ->
       forall x r g, In (FkCall x r g) tr' -> exists w1 w2, fk w1 x = Ret (r, g, w2)).
    { clear. induction n as [|n IH]; intros [v t] a b e' q' d' w1' tr' H K; cbn [nrjl_loop] in H.
      - injection H as _ _ _ <- <-. exact K.
      - destruct (record_fk fk (v, t) a) as [[[rc f] v1]|] eqn:F; cbn [obind] in H; [|discriminate].
        apply record_fk_inv in F. destruct F as [F T1]. cbn [fst snd] in *.
        assert (K1 : forall x r g, In (FkCall x r g) (snd v1) -> exists w1 w2, fk w1 x = Ret (r, g, w2)).
        { intros x r g I. rewrite T1 in I. apply in_app_or in I. destruct I as [I|[I|[]]]; [auto|].
          injection I as <- <- <-. eauto. }
        destruct (rc <? 0)%Z; [injection H as _ _ _ ->; cbn in K1; exact K1|].
        destruct (t_Equal _ _ _); [injection H as _ _ _ ->; cbn in K1; exact K1|].
        destruct (record_ik ikv v1 a (f_diff f p 1) b) as [[[rc2 dq] v2]|] eqn:I; cbn [obind] in H; [|discriminate].
        apply record_ik_inv in I. destruct I as [I T2].
        assert (K2 : forall x r g, In (FkCall x r g) (snd v2) -> exists w1 w2, fk w1 x = Ret (r, g, w2)).
        { intros x r g J. rewrite T2 in J. apply in_app_or in J. destruct J as [J|[J|[]]]; [auto|discriminate]. }
        destruct (rc2 <? 0)%Z; [injection H as _ _ _ ->; cbn in K2; exact K2|].
        destruct (jnt_plus a dq); cbn [obind] in H; [|discriminate].
        destruct (clamp_low _ _); cbn [obind] in H; [|discriminate]. destruct (clamp_high _ _); cbn [obind] in H; [|discriminate].
        exact (IH _ _ _ _ _ _ _ _ H K2). }
    apply (G _ _ _ _ _ _ _ _ _ LL); [intros x r g []|]. rewrite T. apply in_or_app. right. left. reflexivity. }
  destruct F as (w1 & w2 & F). rewrite <- (Hf _ _ _ _ _ F P L). split; [|split; [|exact X0]].
  - apply diff_small; auto. rewrite (Hf _ _ _ _ _ F P L). apply tip_frame_rigid. exact Hc.
  - destruct (Nat.eq_dec (ik_calls tr) 0) as [Z|N]; [left; auto|right; apply Q1; lia].
Qed.

(** * No undefined behaviour with well-behaved inner solvers *)
Lemma nrjl_total c s w q0 p qo : inner_total (nj_nj s) fk ikv ->
  exists r, nrjl_CartToJnt fk ikv c s w q0 p qo = Ret r.
Proof.
  intros [TF TI]. unfold nrjl_CartToJnt. destruct (negb _); [eauto|].
  destruct (Nat.eqb_spec (nj_nj s) (length q0)) as [E1|E1]; [|cbn [negb orb]; eauto].
  destruct (Nat.eqb_spec (nj_nj s) (length qo)) as [E2|E2]; [|cbn [negb orb]; eauto].
  destruct (Nat.eqb_spec (nj_nj s) (length (nj_min s))) as [E3|E3]; [|cbn [negb orb]; eauto].
  destruct (Nat.eqb_spec (nj_nj s) (length (nj_max s))) as [E4|E4]; [|cbn [negb orb]; eauto]. cbn [negb orb].
  assert (G : forall n w q d, length q = nj_nj s -> exists r, nrjl_loop fk ikv n s p w q d = Ret r).
  { induction n as [|n IH]; intros w1 q d L; cbn [nrjl_loop]; [eauto|].
    destruct (TF w1 q) as ([[rc f] w2] & ->). cbn [obind]. destruct (rc <? 0)%Z; [eauto|].
    destruct (t_Equal _ _ _); [eauto|]. destruct (TI w2 q (f_diff f p 1) d) as (rc2 & dq & w3 & -> & LD).
    cbn [obind]. destruct (rc2 <? 0)%Z; [eauto|].
    destruct (jnt_plus_ok q dq) as (qp & EP); [lia|]. rewrite EP. cbn [obind]. apply jnt_plus_inv, array_sum_length in EP.
    destruct (clamp_within (nj_min s) (nj_max s) qp) as (a & b & -> & R2 & _ & LB); [lia|lia|]. cbn [obind].
    rewrite R2. cbn [obind]. apply IH. lia. }
  destruct (G (nj_maxiter s) w q0 (nj_delta s)) as ([[[e q] d] w1] & ->); [lia|]. cbn [obind]. eauto.
Qed.

(** * A larger iteration limit never loses a solution *)
Lemma nrjl_monotone c s s2 w q0 p qo q s' w' :
  nj_nj s2 = nj_nj s -> nj_min s2 = nj_min s -> nj_max s2 = nj_max s -> nj_delta s2 = nj_delta s -> nj_eps s2 = nj_eps s ->
  (nj_maxiter s <= nj_maxiter s2)%nat ->
  nrjl_CartToJnt fk ikv c s w q0 p qo = Ret (E_NOERROR, q, s', w') ->
  exists s2', nrjl_CartToJnt fk ikv c s2 w q0 p qo = Ret (E_NOERROR, q, s2', w').
Proof.
  intros A1 A2 A3 A4 A5 A6. unfold nrjl_CartToJnt. rewrite A1, A2, A3, A4.
  destruct (negb _); [discriminate|]. destruct (_ || _); [discriminate|].
  assert (G : forall n m w q d r, (n <= m)%nat -> nrjl_loop fk ikv n s p w q d = Ret r -> fst (fst (fst r)) = Broke ->
     nrjl_loop fk ikv m s2 p w q d = Ret r).
  { induction n as [|n IH]; intros m w1 q1 d r L H B; cbn [nrjl_loop] in H.
    - injection H as <-. discriminate.
    - destruct m as [|m]; [lia|]. cbn [nrjl_loop]. rewrite A2, A3, A5.
      destruct (fk w1 q1) as [[[rc f] w2]|]; cbn [obind] in *; [|discriminate].
      destruct (rc <? 0)%Z; [exact H|]. destruct (t_Equal _ _ _); [exact H|].
      destruct (ikv w2 q1 _ d) as [[[rc2 dq] w3]|]; cbn [obind] in *; [|discriminate].
      destruct (rc2 <? 0)%Z; [exact H|]. destruct (jnt_plus q1 dq); cbn [obind] in *; [|discriminate].
      destruct (clamp_low _ _); cbn [obind] in *; [|discriminate]. destruct (clamp_high _ _); cbn [obind] in *; [|discriminate].
      apply IH; [lia|exact H|exact B]. }
  destruct (nrjl_loop fk ikv (nj_maxiter s) s p w q0 (nj_delta s)) as [[[[e q1] d1] w1]|] eqn:LL; cbn [obind]; [|discriminate].
  intros H. injection H as HC -> HS ->.
  assert (e = Broke) as ->.
  { destruct e as [| |code]; [reflexivity|discriminate|]. cbn in HC. subst code.
    (* the loop itself only returns negative codes *)
    exfalso. clear - LL.
    assert (K : forall n w q d q' d' w', nrjl_loop fk ikv n s p w q d = Ret (Returned E_NOERROR, q', d', w') -> False).
    { induction n as [|n IH]; intros w2 q2 d2 q9 d9 w9 H; cbn [nrjl_loop] in H; [discriminate|].
      destruct (fk w2 q2) as [[[rc f] w3]|]; cbn [obind] in *; [|discriminate].
      destruct (rc <? 0)%Z; [discriminate|]. destruct (t_Equal _ _ _); [discriminate|].
      destruct (ikv w3 q2 _ d2) as [[[rc2 dq] w4]|]; cbn [obind] in *; [|discriminate].
      destruct (rc2 <? 0)%Z; [discriminate|]. destruct (jnt_plus q2 dq); cbn [obind] in *; [|discriminate].
      destruct (clamp_low _ _); cbn [obind] in *; [|discriminate]. destruct (clamp_high _ _); cbn [obind] in *; [|discriminate].
      exact (IH _ _ _ _ _ _ H). }
    exact (K _ _ _ _ _ _ _ LL). }
  apply (G _ (nj_maxiter s2)) in LL; [|exact A6|reflexivity]. rewrite LL. cbn [obind]. eauto.
Qed.

(** * ChainIkSolverPos_NR *)
Lemma nr_trace n eps p : forall w q d e q' d' w',
  nr_loop (record_fk fk) (record_ik ikv) n eps p w q d = Ret (e, q', d', w') ->
  exists tr, snd w' = snd w ++ tr /\ length q' = length q /\
    (ik_calls tr <= n)%nat /\ (fk_calls tr <= n)%nat /\
    match e with
    | Converged deg => exists tr0 qp rc f rc2 dq,
        tr = tr0 ++ [FkCall qp rc f; IkCall qp (f_diff f p 1) rc2 dq] /\ (0 <= rc)%Z /\ (0 <= rc2)%Z /\
        t_Equal (f_diff f p 1) t_zero eps = true /\ array_sum qp dq q' /\ (deg = true <-> (0 < rc2)%Z) /\
        Forall (off_target eps p) tr0
    | NrExhausted => ik_calls tr = n /\ fk_calls tr = n /\ Forall (off_target eps p) tr
    | NrReturned code =>
        (code = E_IK_FKSOLVERPOS_FAILED /\ exists tr0 rc f, tr = tr0 ++ [FkCall q' rc f] /\ (rc < 0)%Z) \/
        (code = E_IKSOLVER_FAILED /\ exists tr0 t rc dq, tr = tr0 ++ [IkCall q' t rc dq] /\ (rc < 0)%Z)
    end.
Proof.
  unfold E_NOERROR.
  induction n as [|n IH]; intros w q d e q' d' w' H; cbn [nr_loop] in H.
  - injection H as <- <- <- <-. exists []. rewrite app_nil_r.
    split; [reflexivity|]. split; [reflexivity|]. cbn. repeat split; auto; lia.
  - destruct (record_fk fk w q) as [[[rc f] w1]|] eqn:F; cbn [obind] in H; [|discriminate].
    apply record_fk_inv in F. destruct F as [F T1]. unfold E_NOERROR in H.
    destruct (Z.ltb_spec rc 0) as [N|N].
    { injection H as <- <- <- <-. exists [FkCall q rc f]. split; [exact T1|]. split; [reflexivity|].
      cbn. split; [lia|]. split; [lia|]. left. split; [reflexivity|].
      exists [], rc, f. auto. }
    destruct (record_ik ikv w1 q (f_diff f p 1) d) as [[[rc2 dq] w2]|] eqn:K; cbn [obind] in H; [|discriminate].
    apply record_ik_inv in K. destruct K as [K T2].
    assert (T : snd w2 = snd w ++ [FkCall q rc f; IkCall q (f_diff f p 1) rc2 dq]).
    { rewrite T2, T1, <- app_assoc. reflexivity. }
    destruct (Z.ltb_spec rc2 0) as [N2|N2].
    { injection H as <- <- <- <-. eexists. split; [exact T|]. split; [reflexivity|].
      cbn. split; [lia|]. split; [lia|]. right. split; [reflexivity|].
      exists [FkCall q rc f], (f_diff f p 1), rc2, dq. auto. }
    destruct (jnt_plus q dq) as [qp|] eqn:P; cbn [obind] in H; [|discriminate].
    apply jnt_plus_inv in P. pose proof (array_sum_length _ _ _ P) as LP.
    destruct (t_Equal (f_diff f p 1) t_zero eps) eqn:Q.
    { injection H as <- <- <- <-. eexists. split; [exact T|]. split; [exact LP|].
      cbn. split; [lia|]. split; [lia|].
      exists [], q, rc, f, rc2, dq. cbn. repeat split; auto; try (apply P); try apply Z.ltb_lt. }
    apply IH in H.
    destruct H as (tr & HT & HL & HI & HF & HE).
    exists ([FkCall q rc f; IkCall q (f_diff f p 1) rc2 dq] ++ tr).
    split; [rewrite HT, T, <- app_assoc; reflexivity|]. split; [lia|].
    rewrite ik_calls_app, fk_calls_app.
    change (ik_calls [FkCall q rc f; IkCall q (f_diff f p 1) rc2 dq]) with 1%nat.
    change (fk_calls [FkCall q rc f; IkCall q (f_diff f p 1) rc2 dq]) with 1%nat.
    split; [lia|]. split; [lia|].
    assert (O : Forall (off_target eps p) [FkCall q rc f; IkCall q (f_diff f p 1) rc2 dq]).
    { constructor; [intros _; exact Q|]. constructor; [exact I|constructor]. }
    destruct e as [b| |code].
    + destruct HE as (tr0 & qq & rc0 & f0 & rc3 & dq3 & -> & E1 & E2 & E3 & E4 & E5 & E6).
      eexists (_ :: _ :: tr0), qq, rc0, f0, rc3, dq3. split; [reflexivity|].
      do 5 (split; [assumption|]). apply (Forall_app _ [_; _]). auto.
    + destruct HE as (E1 & E2 & E3). split; [lia|]. split; [lia|]. apply Forall_app. auto.
    + destruct HE as [(E1 & tr0 & rc0 & f0 & -> & E2)|(E1 & tr0 & t0 & rc0 & dq0 & -> & E2)]; [left|right];
        (split; [exact E1|]); [eexists (_ :: _ :: tr0), rc0, f0|eexists (_ :: _ :: tr0), t0, rc0, dq0];
        (split; [reflexivity|exact E2]).
Qed.

Lemma nr_call c s w q0 p qo code q s' w' tr :
  nr_CartToJnt (record_fk fk) (record_ik ikv) c s (w, []) q0 p qo = Ret (code, q, s', (w', tr)) ->
  (ik_calls tr <= nr_maxiter s)%nat /\ (fk_calls tr <= nr_maxiter s)%nat /\
  ((0 <= code)%Z -> exists tr0 qp rc f rc2 dq,
        tr = tr0 ++ [FkCall qp rc f; IkCall qp (f_diff f p 1) rc2 dq] /\ (0 <= rc)%Z /\ (0 <= rc2)%Z /\
        t_Equal (f_diff f p 1) t_zero (nr_eps s) = true /\ array_sum qp dq q /\
        code = (if (0 <? rc2)%Z then E_DEGRADED else E_NOERROR) /\ Forall (off_target (nr_eps s) p) tr0) /\
  (code = E_MAX_ITERATIONS_EXCEEDED -> ik_calls tr = nr_maxiter s /\ Forall (off_target (nr_eps s) p) tr) /\
  (code = E_NOT_UP_TO_DATE <-> nr_nj s <> ch_nj c) /\
  (code = E_SIZE_MISMATCH <-> nr_nj s = ch_nj c /\ ~ (length q0 = nr_nj s /\ length qo = nr_nj s)) /\
  (code = E_NOT_UP_TO_DATE \/ code = E_SIZE_MISMATCH -> tr = [] /\ q = qo) /\
  ((code < 0)%Z -> nr_error s' = code) /\ ((0 <= code)%Z -> nr_error s' = nr_error s) /\
  In code [E_NOERROR; E_DEGRADED; E_MAX_ITERATIONS_EXCEEDED; E_NOT_UP_TO_DATE; E_SIZE_MISMATCH; E_IK_FKSOLVERPOS_FAILED; E_IKSOLVER_FAILED].
Proof.
  unfold nr_CartToJnt.
  Local Ltac codes := unfold E_DEGRADED, E_NOT_UP_TO_DATE, E_NOERROR, E_MAX_ITERATIONS_EXCEEDED, E_SIZE_MISMATCH, E_IK_FKSOLVERPOS_FAILED, E_IKSOLVER_FAILED in *.
  destruct (Nat.eqb_spec (nr_nj s) (ch_nj c)) as [E0|E0]; cbn [negb].
  2:{ intros H; injection H as <- <- <- <- <-. cbn. codes.
      repeat split; try discriminate; try lia; try tauto; auto. }
  destruct (Nat.eqb_spec (length q0) (nr_nj s)) as [E1|E1];
  [destruct (Nat.eqb_spec (length qo) (nr_nj s)) as [E2|E2]|]; cbn [negb orb].
  2-3: intros H; injection H as <- <- <- <- <-; cbn; codes; repeat split; try discriminate; try lia; try tauto; auto.
  destruct (nr_loop (record_fk fk) (record_ik ikv) (nr_maxiter s) (nr_eps s) p (w, []) q0 (nr_delta s)) as [[[[e q1] d1] w1]|] eqn:L;
    cbn [obind]; [|discriminate].
  apply nr_trace in L. cbn [fst snd app] in L. destruct L as (tr1 & LT & LL & LI & LF & LE).
  destruct e as [b| |code1]; intros H; injection H as <- <- <- ->; cbn [snd] in LT; subst tr1; codes;
    (split; [exact LI|]); (split; [exact LF|]); cbn [nr_error].
  - destruct LE as (tr0 & qp & rc & f & rc2 & dq & -> & H1 & H2 & H3 & H4 & H5 & H6).
    split; [intros _; exists tr0, qp, rc, f, rc2, dq; do 5 (split; [auto|]); split; [|exact H6]|].
    { destruct (Z.ltb_spec 0 rc2) as [G|G]; destruct b; try reflexivity; exfalso.
      - destruct H5 as [_ H5]. specialize (H5 G). discriminate.
      - destruct H5 as [H5 _]. specialize (H5 eq_refl). lia. }
    destruct b; repeat split; try discriminate; try (intros; lia); try tauto; try (simpl; tauto);
      try (intros [? ?]; exfalso; intuition lia).
  - destruct LE as (H1 & H2 & H3). repeat split; try discriminate; try (intros; lia); try tauto; try (simpl; tauto);
      try (intros [? ?]; exfalso; intuition lia).
  - destruct LE as [(-> & H)|(-> & H)]; repeat split; try discriminate; try (intros; lia); try tauto; try (simpl; tauto);
      try (intros [? ?]; exfalso; intuition lia).
Qed.
End Erase.

(** ChainFkSolverPos_recursive is a correct inner FK solver. *)
Lemma kdl_fk_correct c : chain_wf c -> fk_correct c (kdl_fk c).
Proof.
  intros Hc w q rc f w' H P L. unfold kdl_fk in H.
  rewrite (fk_result c q (-1) (length (ch_segs c)) Hc) in H by (left; split; [lia|reflexivity]).
  rewrite L, Nat.eqb_refl, Nat.leb_refl in H. cbn [obind] in H. injection H as <- <- <-. reflexivity.
Qed.
