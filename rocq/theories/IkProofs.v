(** Proofs about the Newton-Raphson position solvers (C47, first half of C48). *)
From Coq Require Import Reals String List ZArith Bool Arith Lia Lra.
From Verif Require Import FramesModel FramesSpec Outcome LoopProofs InertiaModel DualModel KinModel KinSpec JntModel
  LinModel LinSpec SumProofs IkModel IkSpec IkGeoProofs KinProofs.
Import ListNotations.
Local Open Scope list_scope.
Local Open Scope R_scope.

(** * Arrays *)

Lemma jnt_plus_inv a b c : jnt_plus a b = Ret c -> array_sum a b c.
Proof.
  unfold jnt_plus. destruct (Nat.eqb_spec (length a) (length b)) as [E|E]; [|discriminate].
  intros H; injection H as <-. split; [exact E|]. split; [rewrite map_length, combine_length; lia|].
  revert b E. induction a as [|x a IH]; intros [|y b] E i Hi; cbn in *; try lia.
  destruct i as [|i]; [reflexivity|]. apply IH; lia.
Qed.
Lemma jnt_plus_ok a b : length a = length b -> exists c, jnt_plus a b = Ret c.
Proof. intros E. unfold jnt_plus. rewrite E, Nat.eqb_refl. eauto. Qed.
Lemma array_sum_length a b c : array_sum a b c -> length c = length a.
Proof. intros (_ & H & _). exact H. Qed.

Lemma clamp_low_ok m q : length m = length q -> exists q', clamp_low m q = Ret q' /\ length q' = length q /\
  forall i, (i < length q)%nat -> nth i q' 0 = Rmax (nth i q 0) (nth i m 0).
Proof.
  intros E. unfold clamp_low.
  destruct (for_loop_inv (fun k q' => length q' = length q /\
     forall i, (i < length q)%nat -> nth i q' 0 = if Nat.ltb i k then Rmax (nth i q 0) (nth i m 0) else nth i q 0)
     (fun j q => let! x := aget q j in let! m := aget m j in if Rlt_dec x m then aset q j m else Ret q)
     (length m) 0 q) as (q' & R & L & V).
  - intros k st Hk (L & V). rewrite (agetR st) by lia. cbn [obind]. rewrite (agetR m) by lia. cbn [obind].
    assert (Vk : nth k st 0 = nth k q 0) by (rewrite V by lia; rewrite Nat.ltb_irrefl; reflexivity).
    destruct (Rlt_dec (nth k st 0) (nth k m 0)) as [H|H].
    + rewrite aset_ret by lia. eexists; split; [reflexivity|]. split; [rewrite upd_length; exact L|].
      intros i Hi. destruct (Nat.eq_dec i k) as [->|N].
      * rewrite nth_upd_same by lia. replace (Nat.ltb k (S k)) with true by (symmetry; apply Nat.ltb_lt; lia).
        rewrite Rmax_right; lra.
      * rewrite nth_upd_other by auto. rewrite V by lia.
        destruct (Nat.ltb_spec i k), (Nat.ltb_spec i (S k)); try lia; reflexivity.
    + eexists; split; [reflexivity|]. split; [exact L|]. intros i Hi. rewrite V by lia.
      destruct (Nat.ltb_spec i k), (Nat.ltb_spec i (S k)); try lia; try reflexivity.
      assert (i = k) by lia. subst i. rewrite Rmax_left; lra.
  - split; [reflexivity|]. intros i Hi. reflexivity.
  - exists q'. split; [exact R|]. split; [exact L|]. intros i Hi. rewrite V by lia.
    replace (Nat.ltb i (0 + length m)) with true by (symmetry; apply Nat.ltb_lt; lia). reflexivity.
Qed.

Lemma clamp_high_ok m q : length m = length q -> exists q', clamp_high m q = Ret q' /\ length q' = length q /\
  forall i, (i < length q)%nat -> nth i q' 0 = Rmin (nth i q 0) (nth i m 0).
Proof.
  intros E. unfold clamp_high.
  destruct (for_loop_inv (fun k q' => length q' = length q /\
     forall i, (i < length q)%nat -> nth i q' 0 = if Nat.ltb i k then Rmin (nth i q 0) (nth i m 0) else nth i q 0)
     (fun j q => let! x := aget q j in let! m := aget m j in if Rgt_dec x m then aset q j m else Ret q)
     (length m) 0 q) as (q' & R & L & V).
  - intros k st Hk (L & V). rewrite (agetR st) by lia. cbn [obind]. rewrite (agetR m) by lia. cbn [obind].
    assert (Vk : nth k st 0 = nth k q 0) by (rewrite V by lia; rewrite Nat.ltb_irrefl; reflexivity).
    destruct (Rgt_dec (nth k st 0) (nth k m 0)) as [H|H].
    + rewrite aset_ret by lia. eexists; split; [reflexivity|]. split; [rewrite upd_length; exact L|].
      intros i Hi. destruct (Nat.eq_dec i k) as [->|N].
      * rewrite nth_upd_same by lia. replace (Nat.ltb k (S k)) with true by (symmetry; apply Nat.ltb_lt; lia).
        rewrite Rmin_right; lra.
      * rewrite nth_upd_other by auto. rewrite V by lia.
        destruct (Nat.ltb_spec i k), (Nat.ltb_spec i (S k)); try lia; reflexivity.
    + eexists; split; [reflexivity|]. split; [exact L|]. intros i Hi. rewrite V by lia.
      destruct (Nat.ltb_spec i k), (Nat.ltb_spec i (S k)); try lia; try reflexivity.
      assert (i = k) by lia. subst i. rewrite Rmin_left; lra.
  - split; [reflexivity|]. intros i Hi. reflexivity.
  - exists q'. split; [exact R|]. split; [exact L|]. intros i Hi. rewrite V by lia.
    replace (Nat.ltb i (0 + length m)) with true by (symmetry; apply Nat.ltb_lt; lia). reflexivity.
Qed.

Lemma clamp_within lo hi q : length lo = length q -> length hi = length q ->
  exists q1 q2, clamp_low lo q = Ret q1 /\ clamp_high hi q1 = Ret q2 /\ within lo hi q2 /\ length q2 = length q.
Proof.
  intros E1 E2. destruct (clamp_low_ok lo q E1) as (q1 & R1 & L1 & V1).
  destruct (clamp_high_ok hi q1) as (q2 & R2 & L2 & V2); [lia|].
  exists q1, q2. split; [exact R1|]. split; [exact R2|]. split; [|lia].
  split; [lia|]. split; [lia|]. intros i Hi. rewrite V2, V1 by lia. split.
  - apply Rmin_r.
  - intros H. apply Rmin_glb; [apply Rmax_r|exact H].
Qed.

(** * The traces *)

Lemma fk_calls_app a b : fk_calls (a ++ b) = (fk_calls a + fk_calls b)%nat.
Proof. unfold fk_calls. rewrite filter_app, app_length. reflexivity. Qed.
Lemma ik_calls_app a b : ik_calls (a ++ b) = (ik_calls a + ik_calls b)%nat.
Proof. unfold ik_calls. rewrite filter_app, app_length. reflexivity. Qed.

Section NRJL.
Context {W : Type}.
Variable fk : W -> list R -> outcome (Z * Frame * W).
Variable ikv : W -> list R -> Twist -> list R -> outcome (Z * list R * W).

Lemma record_fk_inv w q rc f w' : record_fk fk w q = Ret (rc, f, w') ->
  fk (fst w) q = Ret (rc, f, fst w') /\ snd w' = snd w ++ [FkCall q rc f].
Proof.
  unfold record_fk. destruct (fk (fst w) q) as [[[r g] v]|] eqn:E; cbn [obind]; [|discriminate].
  intros H; injection H as <- <- <-. auto.
Qed.
Lemma record_ik_inv w q t d rc dq w' : record_ik ikv w q t d = Ret (rc, dq, w') ->
  ikv (fst w) q t d = Ret (rc, dq, fst w') /\ snd w' = snd w ++ [IkCall q t rc dq].
Proof.
  unfold record_ik. destruct (ikv (fst w) q t d) as [[[r g] v]|] eqn:E; cbn [obind]; [|discriminate].
  intros H; injection H as <- <- <-. auto.
Qed.

Lemma nrjl_trace n s p : forall w q d e q' d' w',
  length q = length (nj_min s) -> length q = length (nj_max s) ->
  nrjl_loop (record_fk fk) (record_ik ikv) n s p w q d = Ret (e, q', d', w') ->
  exists tr, snd w' = snd w ++ tr /\ length q' = length q /\
    (ik_calls tr <= n)%nat /\ (fk_calls tr <= n)%nat /\
    (q' = q \/ within (nj_min s) (nj_max s) q') /\
    match e with
    | Broke => fk_calls tr = S (ik_calls tr) /\ (ik_calls tr = 0%nat -> q' = q) /\
               ((0 < ik_calls tr)%nat -> within (nj_min s) (nj_max s) q') /\
               exists tr0 rc f, tr = tr0 ++ [FkCall q' rc f] /\ (0 <= rc)%Z /\
                 t_Equal (f_diff f p 1) t_zero (nj_eps s) = true /\ Forall (off_target (nj_eps s) p) tr0
    | Exhausted => ik_calls tr = n /\ fk_calls tr = n /\ Forall (off_target (nj_eps s) p) tr /\
               ((0 < n)%nat -> within (nj_min s) (nj_max s) q')
    | Returned code =>
        (code = E_IK_FKSOLVERPOS_FAILED /\ exists tr0 rc f, tr = tr0 ++ [FkCall q' rc f] /\ (rc < 0)%Z) \/
        (code = E_IKSOLVERVEL_FAILED /\ exists tr0 t rc dq, tr = tr0 ++ [IkCall q' t rc dq] /\ (rc < 0)%Z)
    end.
Proof.
  induction n as [|n IH]; intros w q d e q' d' w' L1 L2 H; cbn [nrjl_loop] in H.
  - injection H as <- <- <- <-. exists []. rewrite app_nil_r.
    split; [reflexivity|]. split; [reflexivity|]. cbn. repeat split; auto; lia.
  - destruct (record_fk fk w q) as [[[rc f] w1]|] eqn:F; cbn [obind] in H; [|discriminate].
    apply record_fk_inv in F. destruct F as [F T1].
    destruct (Z.ltb_spec rc 0) as [N|N].
    { injection H as <- <- <- <-. exists [FkCall q rc f]. split; [exact T1|]. split; [reflexivity|].
      cbn. split; [lia|]. split; [lia|]. split; [auto|]. left. split; [reflexivity|].
      exists [], rc, f. auto. }
    destruct (t_Equal (f_diff f p 1) t_zero (nj_eps s)) eqn:Q.
    { injection H as <- <- <- <-. exists [FkCall q rc f]. split; [exact T1|]. split; [reflexivity|].
      cbn. split; [lia|]. split; [lia|]. split; [auto|]. split; [reflexivity|]. split; [auto|]. split; [lia|].
      exists [], rc, f. auto. }
    destruct (record_ik ikv w1 q (f_diff f p 1) d) as [[[rc2 dq] w2]|] eqn:K; cbn [obind] in H; [|discriminate].
    apply record_ik_inv in K. destruct K as [K T2].
    assert (T : snd w2 = snd w ++ [FkCall q rc f; IkCall q (f_diff f p 1) rc2 dq]).
    { rewrite T2, T1, <- app_assoc. reflexivity. }
    destruct (Z.ltb_spec rc2 0) as [N2|N2].
    { injection H as <- <- <- <-. eexists. split; [exact T|]. split; [reflexivity|].
      cbn. split; [lia|]. split; [lia|]. split; [auto|]. right. split; [reflexivity|].
      exists [FkCall q rc f], (f_diff f p 1), rc2, dq. auto. }
    destruct (jnt_plus q dq) as [qp|] eqn:P; cbn [obind] in H; [|discriminate].
    apply jnt_plus_inv in P. pose proof (array_sum_length _ _ _ P) as LP.
    destruct (clamp_within (nj_min s) (nj_max s) qp) as (q1 & q2 & R1 & R2 & WI & L); [lia|lia|].
    rewrite R1 in H; cbn [obind] in H. rewrite R2 in H; cbn [obind] in H.
    apply IH in H; [|lia|lia].
    destruct H as (tr & HT & HL & HI & HF & HQ & HE).
    exists ([FkCall q rc f; IkCall q (f_diff f p 1) rc2 dq] ++ tr).
    split; [rewrite HT, T, <- app_assoc; reflexivity|]. split; [lia|].
    rewrite ik_calls_app, fk_calls_app. cbn [ik_calls fk_calls filter is_ik is_fk length].
    change (ik_calls [FkCall q rc f; IkCall q (f_diff f p 1) rc2 dq]) with 1%nat.
    change (fk_calls [FkCall q rc f; IkCall q (f_diff f p 1) rc2 dq]) with 1%nat.
    assert (WI' : within (nj_min s) (nj_max s) q') by (destruct HQ as [->|HQ]; assumption).
    split; [lia|]. split; [lia|]. split; [auto|].
    assert (O : Forall (off_target (nj_eps s) p) [FkCall q rc f; IkCall q (f_diff f p 1) rc2 dq]).
    { constructor; [intros _; exact Q|]. constructor; [exact I|constructor]. }
    destruct e as [| |code].
    + destruct HE as (E1 & E2 & E3 & tr0 & rc0 & f0 & -> & E4 & E5 & E6).
      split; [lia|]. split; [lia|]. split; [auto|].
      eexists (_ :: _ :: tr0), rc0, f0. split; [reflexivity|]. split; [exact E4|]. split; [exact E5|].
      apply (Forall_app _ [_; _]). auto.
    + destruct HE as (E1 & E2 & E3 & E4). split; [lia|]. split; [lia|]. split; [|auto]. apply Forall_app. auto.
    + destruct HE as [(E1 & tr0 & rc0 & f0 & -> & E2)|(E1 & tr0 & t0 & rc0 & dq0 & -> & E2)]; [left|right];
        (split; [exact E1|]); [eexists (_ :: _ :: tr0), rc0, f0|eexists (_ :: _ :: tr0), t0, rc0, dq0];
        (split; [reflexivity|exact E2]).
Qed.

(** The whole call. *)
Lemma nrjl_call c s w q0 p qo code q s' w' tr :
  nrjl_CartToJnt (record_fk fk) (record_ik ikv) c s (w, []) q0 p qo = Ret (code, q, s', (w', tr)) ->
  nj_error s' = code /\ nj_nj s' = nj_nj s /\ nj_min s' = nj_min s /\ nj_max s' = nj_max s /\
  nj_maxiter s' = nj_maxiter s /\ nj_eps s' = nj_eps s /\
  (ik_calls tr <= nj_maxiter s)%nat /\ (fk_calls tr <= nj_maxiter s)%nat /\
  (code = E_NOERROR ->
     length q = ch_nj c /\
     (ik_calls tr = 0%nat -> q = q0) /\ ((0 < ik_calls tr)%nat -> within (nj_min s) (nj_max s) q) /\
     exists tr0 rc f, tr = tr0 ++ [FkCall q rc f] /\ (0 <= rc)%Z /\
       t_Equal (f_diff f p 1) t_zero (nj_eps s) = true /\ Forall (off_target (nj_eps s) p) tr0) /\
  (code = E_MAX_ITERATIONS_EXCEEDED ->
     ik_calls tr = nj_maxiter s /\ Forall (off_target (nj_eps s) p) tr /\
     ((0 < nj_maxiter s)%nat -> within (nj_min s) (nj_max s) q)) /\
  (code = E_NOT_UP_TO_DATE <-> nj_nj s <> ch_nj c) /\
  (code = E_SIZE_MISMATCH <-> nj_nj s = ch_nj c /\
     ~ (length q0 = nj_nj s /\ length qo = nj_nj s /\ length (nj_min s) = nj_nj s /\ length (nj_max s) = nj_nj s)) /\
  (code = E_NOT_UP_TO_DATE \/ code = E_SIZE_MISMATCH -> tr = [] /\ q = qo) /\
  (code = E_IK_FKSOLVERPOS_FAILED -> exists tr0 rc f, tr = tr0 ++ [FkCall q rc f] /\ (rc < 0)%Z) /\
  (code = E_IKSOLVERVEL_FAILED -> exists tr0 t rc dq, tr = tr0 ++ [IkCall q t rc dq] /\ (rc < 0)%Z) /\
  In code [E_NOERROR; E_MAX_ITERATIONS_EXCEEDED; E_NOT_UP_TO_DATE; E_SIZE_MISMATCH; E_IK_FKSOLVERPOS_FAILED; E_IKSOLVERVEL_FAILED].
Proof.
  unfold nrjl_CartToJnt.
  destruct (Nat.eqb_spec (nj_nj s) (ch_nj c)) as [E0|E0]; cbn [negb].
  2:{ intros H; injection H as <- <- <- <- <-. cbn. unfold E_NOT_UP_TO_DATE, E_NOERROR, E_MAX_ITERATIONS_EXCEEDED, E_SIZE_MISMATCH, E_IK_FKSOLVERPOS_FAILED, E_IKSOLVERVEL_FAILED.
      repeat split; try discriminate; try lia; try tauto; auto. }
  destruct (Nat.eqb_spec (nj_nj s) (length q0)) as [E1|E1];
  [destruct (Nat.eqb_spec (nj_nj s) (length qo)) as [E2|E2];
   [destruct (Nat.eqb_spec (nj_nj s) (length (nj_min s))) as [E3|E3];
    [destruct (Nat.eqb_spec (nj_nj s) (length (nj_max s))) as [E4|E4]|]|]|]; cbn [negb orb].
  2-5: intros H; injection H as <- <- <- <- <-; cbn; unfold E_NOT_UP_TO_DATE, E_NOERROR, E_MAX_ITERATIONS_EXCEEDED, E_SIZE_MISMATCH, E_IK_FKSOLVERPOS_FAILED, E_IKSOLVERVEL_FAILED;
      repeat split; try discriminate; try lia; try tauto; auto.
  destruct (nrjl_loop (record_fk fk) (record_ik ikv) (nj_maxiter s) s p (w, []) q0 (nj_delta s)) as [[[[e q1] d1] w1]|] eqn:L;
    cbn [obind]; [|discriminate].
  intros H; injection H as <- <- <- ->.
  apply nrjl_trace in L; [|lia|lia]. cbn [fst snd app] in L.
  destruct L as (tr1 & -> & LL & LI & LF & LQ & LE).
  cbn [nj_error nj_set_error nj_nj nj_min nj_max nj_maxiter nj_eps nj_set_delta nj_delta].
  unfold E_NOT_UP_TO_DATE, E_NOERROR, E_MAX_ITERATIONS_EXCEEDED, E_SIZE_MISMATCH, E_IK_FKSOLVERPOS_FAILED, E_IKSOLVERVEL_FAILED in *.
  do 6 (split; [reflexivity|]). split; [exact LI|]. split; [exact LF|].
  destruct e as [| |code].
  - destruct LE as (H1 & H2 & H3 & H4). split; [intros _; split; [lia|]; auto|].
    repeat split; try discriminate; try (intros; lia); try tauto; try (simpl; tauto); 
      try (intros [? ?]; exfalso; intuition lia).
  - destruct LE as (H1 & H2 & H3 & H4). split; [discriminate|]. split; [intros _; auto|].
    repeat split; try discriminate; try (intros; lia); try tauto; try (simpl; tauto); 
      try (intros [? ?]; exfalso; intuition lia).
  - destruct LE as [(-> & H)|(-> & H)].
    + repeat split; try discriminate; try (intros; lia); try tauto; try (simpl; tauto); try (intros; exact H);
      try (intros [? ?]; exfalso; intuition lia).
    + repeat split; try discriminate; try (intros; lia); try tauto; try (simpl; tauto); try (intros; exact H);
      try (intros [? ?]; exfalso; intuition lia).
Qed.
End NRJL.
