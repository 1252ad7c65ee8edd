(** Whole calls of the position solvers for trees. *)
From Coq Require Import Reals String List ZArith Bool Arith Lia Lra.
From Verif Require Import FramesModel FramesSpec Outcome LoopProofs InertiaModel DualModel KinModel KinSpec JntModel
  LinModel LinSpec SumProofs IkModel IkSpec IkProofs IkTreeProofs.
Import ListNotations.
Local Open Scope list_scope.
Local Open Scope R_scope.

Lemma tfk_calls_app a b : tfk_calls (a ++ b) = (tfk_calls a + tfk_calls b)%nat.
Proof. unfold tfk_calls. rewrite filter_app, app_length. reflexivity. Qed.
Lemma tik_calls_app a b : tik_calls (a ++ b) = (tik_calls a + tik_calls b)%nat.
Proof. unfold tik_calls. rewrite filter_app, app_length. reflexivity. Qed.

Section TreeIk.
Context {W : Type}.
Variable tfk : W -> list R -> string -> Frame -> outcome (Frame * W).
Variable tikv : W -> list R -> dict Twist -> list R -> outcome (R * list R * W).

Lemma errors_trace P nj pose g (FK : tfk_correct P nj pose tfk) q (LQ : length q = nj) : forall p w frames twists frames' twists' w',
  NoDup (map fst p) -> (forall k, In k (map fst p) -> P k) -> same_keys frames twists ->
  endpoint_errors (record_tfk tfk) g p w q frames twists = Ret (frames', twists', w') ->
  exists tr, snd w' = snd w ++ tr /\ tik_calls tr = 0%nat /\ tfk_calls tr = length p /\
    Forall2 (fun e c => exists f, c = TFkCall q (fst e) f) p tr /\
    same_keys frames' twists' /\ (forall k, dict_find frames' k = None <-> dict_find frames k = None) /\
    asked g pose q p twists twists'.
Proof.
  induction p as [|[k fd] p IH]; intros w frames twists frames' twists' w' ND PK SK H; cbn [endpoint_errors] in H.
  - injection H as <- <- <-. exists []. rewrite app_nil_r. split; [reflexivity|]. split; [reflexivity|]. split; [reflexivity|].
    split; [constructor|]. split; [exact SK|]. split; [tauto|]. split; [intros k f []|reflexivity].
  - destruct (dict_find frames k) as [f0|] eqn:F0; [|discriminate].
    destruct (dict_find twists k) as [t0|] eqn:T0; [|discriminate].
    unfold record_tfk at 1 in H. destruct (tfk (fst w) q k f0) as [[f w1]|] eqn:E; cbn [obind] in H; [|discriminate].
    assert (EF : f = pose q k) by (apply (FK _ _ _ _ _ _ (PK k (or_introl eq_refl)) LQ E)).
    cbn [map fst] in ND. inversion ND as [|? ? NI ND' EQ]; subst.
    apply IH in H; [|exact ND'|intros k' I; apply PK; right; exact I|].
    2:{ intros k'. rewrite !find_put_none. apply SK. }
    cbn [snd] in H. destruct H as (tr & HT & HI & HF & HO & HS & HK & HA1 & HA2).
    exists (TFkCall q k (pose q k) :: tr). split; [rewrite HT, <- app_assoc; reflexivity|].
    split; [exact HI|]. split; [cbn [length]; rewrite <- HF; reflexivity|].
    split; [constructor; [cbn; eauto|exact HO]|]. split; [exact HS|].
    split; [intros k'; rewrite HK, find_put_none; tauto|].
    split.
    + intros k' f' [Q|I].
      * injection Q as <- <-. rewrite HA2 by exact NI. apply find_put_same with t0. exact T0.
      * apply HA1. exact I.
    + intros k' NI'. cbn [map fst In] in NI'. rewrite HA2 by tauto. apply find_put_other. tauto.
Qed.

Lemma asked_trans g pose q p a b c : (forall k, ~ In k (map fst p) -> dict_find b k = dict_find a k) ->
  asked g pose q p b c -> asked g pose q p a c.
Proof. intros H (A1 & A2). split; [exact A1|]. intros k N. rewrite A2, H by exact N. reflexivity. Qed.

Lemma record_tik_inv w q t d res dq w' : record_tik tikv w q t d = Ret (res, dq, w') ->
  tikv (fst w) q t d = Ret (res, dq, fst w') /\ snd w' = snd w ++ [TIkCall q t res dq].
Proof.
  unfold record_tik. destruct (tikv (fst w) q t d) as [[[r g] v]|] eqn:E; cbn [obind]; [|discriminate].
  intros H; injection H as <- <- <-. auto.
Qed.

Lemma above_fks eps p q tr : Forall2 (fun (e : string * Frame) c => exists f, c = TFkCall q (fst e) f) p tr -> Forall (above eps) tr.
Proof. induction 1 as [|e c p' tr' (f & ->) _ IH]; constructor; [exact I|exact IH]. Qed.

Lemma tnrjl_trace P nj pose (FK : tfk_correct P nj pose tfk) s p (ND : NoDup (map fst p)) (PK : forall k, In k (map fst p) -> P k) :
  length (tn_min s) = nj -> length (tn_max s) = nj -> forall n w q frames twists d r q' frames' twists' d' w',
  length q = nj -> same_keys frames twists ->
  tnrjl_loop (record_tfk tfk) (record_tik tikv) n s p w q frames twists d = Ret (r, q', frames', twists', d', w') ->
  exists tr, snd w' = snd w ++ tr /\ same_keys frames' twists' /\ (forall k, dict_find frames' k = None <-> dict_find frames k = None) /\
    (forall k, ~ In k (map fst p) -> dict_find twists' k = dict_find twists k) /\
    (tik_calls tr <= n)%nat /\ tfk_calls tr = (length p * tik_calls tr)%nat /\ length q' = nj /\
    (q' = q /\ (tik_calls tr <= 1)%nat \/ in_box (tn_min s) (tn_max s) q') /\
    match r with
    | Some res => (1 <= tik_calls tr)%nat /\ res < tn_eps s /\ exists tr0 ts dq, tr = tr0 ++ [TIkCall q' ts res dq] /\
        asked (fun t => t) pose q' p twists ts /\ Forall (above (tn_eps s)) tr0
    | None => tik_calls tr = n /\ Forall (above (tn_eps s)) tr /\ (n = 0%nat \/ in_box (tn_min s) (tn_max s) q')
    end.
Proof.
  intros L1 L2. induction n as [|n IH]; intros w q frames twists d r q' frames' twists' d' w' LQ SK H; cbn [tnrjl_loop] in H.
  - injection H as <- <- <- <- <- <-. exists []. rewrite app_nil_r. split; [reflexivity|]. split; [exact SK|].
    split; [tauto|]. split; [reflexivity|]. cbn. repeat split; auto; lia.
  - destruct (endpoint_errors (record_tfk tfk) (fun t => t) p w q frames twists) as [[[fr1 tw1] w1]|] eqn:E; cbn [obind] in H; [|discriminate].
    apply (errors_trace P nj pose _ FK q LQ) in E; [|exact ND|exact PK|exact SK].
    destruct E as (tr1 & T1 & I1 & F1 & O1 & S1 & K1 & A1).
    destruct (record_tik tikv w1 q tw1 d) as [[[res dq] w2]|] eqn:E; cbn [obind] in H; [|discriminate].
    apply record_tik_inv in E. destruct E as (E & T2).
    assert (T : snd w2 = snd w ++ (tr1 ++ [TIkCall q tw1 res dq])) by (rewrite T2, T1, <- app_assoc; reflexivity).
    assert (C1 : tik_calls (tr1 ++ [TIkCall q tw1 res dq]) = 1%nat) by (rewrite tik_calls_app, I1; reflexivity).
    assert (C2 : tfk_calls (tr1 ++ [TIkCall q tw1 res dq]) = length p).
    { rewrite tfk_calls_app, F1. unfold tfk_calls. cbn. lia. }
    destruct (Rlt_dec res (tn_eps s)) as [Q|Q].
    { injection H as <- <- <- <- <- <-. exists (tr1 ++ [TIkCall q tw1 res dq]). split; [exact T|]. split; [exact S1|]. split; [exact K1|].
      split; [apply (proj2 A1)|]. rewrite C1, C2. split; [lia|]. split; [lia|]. split; [exact LQ|]. split; [left; auto|].
      split; [lia|]. split; [exact Q|]. exists tr1, tw1, dq. split; [reflexivity|]. split; [exact A1|]. apply (above_fks _ _ _ _ O1). }
    destruct (jnt_plus q dq) as [qs|] eqn:E1; cbn [obind] in H; [|discriminate].
    apply jnt_plus_inv in E1. pose proof (array_sum_length _ _ _ E1) as LS.
    destruct (clamp_both_nearest (tn_min s) (tn_max s) qs) as (q1 & R1 & B1 & LB & _); [lia|lia|].
    rewrite R1 in H; cbn [obind] in H. apply IH in H; [|lia|exact S1].
    destruct H as (tr & HT & HS & HK & HO & HI & HF & HL & HQ & HR).
    exists ((tr1 ++ [TIkCall q tw1 res dq]) ++ tr). split; [rewrite HT, T, <- app_assoc; reflexivity|].
    split; [exact HS|]. split; [intros k; rewrite HK; apply K1|].
    split; [intros k N; rewrite HO by exact N; apply (proj2 A1); exact N|].
    rewrite tik_calls_app, tfk_calls_app, C1, C2, HF. split; [lia|]. split; [lia|]. split; [exact HL|].
    assert (HB : in_box (tn_min s) (tn_max s) q') by (destruct HQ as [[-> _]|HQ]; assumption).
    split; [right; exact HB|].
    assert (AB : Forall (above (tn_eps s)) (tr1 ++ [TIkCall q tw1 res dq])).
    { apply Forall_app. split; [apply (above_fks _ _ _ _ O1)|]. constructor; [cbn; lra|constructor]. }
    destruct r as [rr|].
    + destruct HR as (G1 & G2 & tr0 & ts & dq0 & -> & G3 & G4). split; [lia|]. split; [exact G2|].
      exists ((tr1 ++ [TIkCall q tw1 res dq]) ++ tr0), ts, dq0. split; [rewrite <- !app_assoc; reflexivity|].
      split; [|apply Forall_app; auto]. apply (asked_trans _ _ _ _ twists tw1); [apply (proj2 A1)|exact G3].
    + destruct HR as (G1 & G2 & G3). split; [lia|]. split; [apply Forall_app; auto|]. right; exact HB.
Qed.

Lemma unknown_or p (m : dict Frame) : (all_known p m /\ endpoints_known p m = true) \/
  ((exists k, In k (map fst p) /\ dict_find m k = None) /\ endpoints_known p m = false).
Proof.
  destruct (endpoints_known p m) eqn:E; [left; split; [apply known_spec; exact E|reflexivity]|right; split; [|reflexivity]].
  unfold endpoints_known in E. induction p as [|e p IH]; cbn in E; [discriminate|].
  destruct (dict_find m (fst e)) eqn:F; cbn in E.
  - destruct (IH E) as (k & I & N). exists k. split; [right; exact I|exact N].
  - exists (fst e). split; [left; reflexivity|exact F].
Qed.

(** TreeIkSolverPos_NR_JL *)
Lemma tnrjl_call P nj pose s w q0 p code q s' w' tr :
  tfk_correct P nj pose tfk -> NoDup (map fst p) -> (forall k, In k (map fst p) -> P k) ->
  length q0 = nj -> length (tn_min s) = nj -> length (tn_max s) = nj -> same_keys (tn_frames s) (tn_twists s) ->
  tnrjl_CartToJnt (record_tfk tfk) (record_tik tikv) s (w, []) q0 p = Ret (code, q, s', (w', tr)) ->
  same_keys (tn_frames s') (tn_twists s') /\ (forall k, dict_find (tn_frames s') k = None <-> dict_find (tn_frames s) k = None) /\
  (tik_calls tr <= tn_maxiter s)%nat /\ tfk_calls tr = (length p * tik_calls tr)%nat /\
  (~ all_known p (tn_frames s) -> code = -2 /\ q = q0 /\ tr = [] /\ s' = s) /\
  (all_known p (tn_frames s) ->
     (q = q0 /\ (tik_calls tr <= 1)%nat \/ in_box (tn_min s) (tn_max s) q) /\
     ((code < tn_eps s /\ exists tr0 ts dq, tr = tr0 ++ [TIkCall q ts code dq] /\ asked (fun t => t) pose q p (tn_twists s) ts /\
         Forall (above (tn_eps s)) tr0) \/
      (code = -3 /\ tik_calls tr = tn_maxiter s /\ Forall (above (tn_eps s)) tr))).
Proof.
  intros FK ND PK L0 L1 L2 SK. unfold tnrjl_CartToJnt.
  destruct (unknown_or p (tn_frames s)) as [(KN & ->)|((k & I & N) & ->)]; cbn [negb].
  2:{ intros H; injection H as <- <- <- <- <-. split; [exact SK|]. split; [tauto|]. cbn. split; [lia|]. split; [lia|].
      split; [auto|]. intros A. exfalso. apply (A k I N). }
  destruct (tnrjl_loop _ _ _ _ _ _ _ _ _ _) as [[[[[[r q1] f1] t1] d1] w1]|] eqn:E; cbn [obind]; [|discriminate].
  intros H; injection H as <- <- <- ->.
  apply (tnrjl_trace P nj pose FK s p ND PK L1 L2) in E; [|exact L0|exact SK].
  cbn [snd app] in E. destruct E as (tr1 & -> & HS & HK & HO & HI & HF & HL & HQ & HR).
  cbn [tn_frames tn_twists]. split; [exact HS|]. split; [exact HK|]. split; [exact HI|]. split; [exact HF|].
  split; [intros A; exfalso; apply A; exact KN|]. intros _. split; [exact HQ|].
  destruct r as [res|].
  - left. destruct HR as (_ & G). exact G.
  - right. destruct HR as (G1 & G2 & _). auto.
Qed.

(** TreeIkSolverPos_Online *)
Lemma online_call P nj pose s w q0 p code q s' w' tr :
  tfk_correct P nj pose tfk -> NoDup (map fst p) -> (forall k, In k (map fst p) -> P k) ->
  length q0 = nj -> same_keys (on_frames s) (on_twists s) -> (forall d, In d (on_dmax s) -> 0 < d) ->
  online_CartToJnt (record_tfk tfk) (record_tik tikv) s (w, []) q0 p = Ret (code, q, s', (w', tr)) ->
  same_keys (on_frames s') (on_twists s') /\ (forall k, dict_find (on_frames s') k = None <-> dict_find (on_frames s) k = None) /\
  (~ all_known p (on_frames s) -> code = -2 /\ q = q0 /\ tr = [] /\ s' = s) /\
  (all_known p (on_frames s) ->
     exists fks ts res qd, tr = fks ++ [TIkCall q0 ts res qd] /\
       Forall2 (fun e c => exists f, c = TFkCall q0 (fst e) f) p fks /\
       asked (enforceCartVelLimits (on_trans s) (on_rot s)) pose q0 p (on_twists s) ts /\
       (res < 0 -> code = res /\ q = q0) /\
       (0 <= res -> ~ (length (on_min s) = nj /\ length (on_max s) = nj /\ length (on_dmax s) = nj) -> code = -1 /\ q = q0) /\
       (0 <= res -> length (on_min s) = nj /\ length (on_max s) = nj /\ length (on_dmax s) = nj ->
          code = res /\ exists qd' qs, slowed (on_dmax s) qd qd' /\ array_sum q0 qd' qs /\
            nearest_in_box (on_min s) (on_max s) qs q)).
Proof.
  intros FK ND PK L0 SK DP. unfold online_CartToJnt.
  destruct (unknown_or p (on_frames s)) as [(KN & ->)|((k & I & N) & ->)]; cbn [negb].
  2:{ intros H; injection H as <- <- <- <- <-. split; [exact SK|]. split; [tauto|].
      split; [auto|]. intros A. exfalso. apply (A k I N). }
  destruct (endpoint_errors _ _ _ _ _ _ _) as [[[f1 t1] w1]|] eqn:E; cbn [obind]; [|discriminate].
  apply (errors_trace P nj pose _ FK q0 L0) in E; [|exact ND|exact PK|exact SK].
  cbn [snd app] in E. destruct E as (tr1 & T1 & I1 & F1 & O1 & S1 & K1 & A1).
  destruct (record_tik tikv w1 q0 t1 (on_qdot s)) as [[[res qd] w2]|] eqn:E; cbn [obind]; [|discriminate].
  apply record_tik_inv in E. destruct E as (E & T2). rewrite T1 in T2.
  assert (FIN : forall x, w2 = (w', tr) -> x = s' -> on_frames x = f1 -> on_twists x = t1 ->
    same_keys (on_frames s') (on_twists s') /\ (forall k, dict_find (on_frames s') k = None <-> dict_find (on_frames s) k = None) /\
    tr = tr1 ++ [TIkCall q0 t1 res qd]).
  { intros x -> <- -> ->. cbn [snd] in T2. auto. }
  assert (NK : ~ all_known p (on_frames s) -> code = -2 /\ q = q0 /\ tr = [] /\ s' = s) by (intros A; exfalso; apply A; exact KN).
  destruct (Rlt_dec res 0) as [N|N].
  { intros H; injection H as <- <- H1 H2. destruct (FIN _ H2 H1 eq_refl eq_refl) as (G1 & G2 & G3).
    split; [exact G1|]. split; [exact G2|]. split; [exact NK|]. intros _. exists tr1, t1, res, qd. split; [exact G3|]. split; [exact O1|].
    split; [exact A1|]. split; [auto|]. split; intros; exfalso; lra. }
  destruct (Nat.eqb_spec (length q0) (length (on_min s))) as [E1|E1];
  [destruct (Nat.eqb_spec (length q0) (length (on_max s))) as [E2|E2];
   [destruct (Nat.eqb_spec (length q0) (length (on_dmax s))) as [E3|E3]|]|]; cbn [negb orb].
  2-4: intros H; injection H as <- <- H1 H2; destruct (FIN _ H2 H1 eq_refl eq_refl) as (G1 & G2 & G3);
       (split; [exact G1|]); (split; [exact G2|]); (split; [exact NK|]); intros _; exists tr1, t1, res, qd; (split; [exact G3|]);
       (split; [exact O1|]); (split; [exact A1|]); (split; [intros; exfalso; lra|]); (split; [auto|]); intros; exfalso; lia.
  destruct (enforceJointVelLimits qd (on_dmax s)) as [qd'|] eqn:EN; cbn [obind]; [|discriminate].
  destruct (jnt_plus q0 qd') as [qs|] eqn:EP; cbn [obind]; [|discriminate].
  apply jnt_plus_inv in EP. pose proof (array_sum_length _ _ _ EP) as LS.
  destruct (clamp_both_nearest (on_min s) (on_max s) qs) as (q1 & R1 & NB); [lia|lia|]. rewrite R1; cbn [obind].
  intros H; injection H as <- <- H1 H2; destruct (FIN _ H2 H1 eq_refl eq_refl) as (G1 & G2 & G3).
  split; [exact G1|]. split; [exact G2|]. split; [exact NK|]. intros _. exists tr1, t1, res, qd. split; [exact G3|]. split; [exact O1|].
  split; [exact A1|]. split; [intros; exfalso; lra|]. split; [intros _ A; exfalso; apply A; lia|].
  intros _ _. split; [reflexivity|]. exists qd', qs.
  assert (LD : length qd = length qd').
  { unfold enforceJointVelLimits in EN. destruct (overshoot qd (on_dmax s)) as [[ex m]|]; cbn [obind] in EN; [|discriminate].
    injection EN as <-. destruct ex; [rewrite map_length|]; reflexivity. }
  destruct EP as (LA & LB & EP).
  destruct (enforce_slowed qd (on_dmax s)) as (qd2 & R2 & SL).
  - lia.
  - intros i Hi. apply DP. apply nth_In. lia.
  - rewrite R2 in EN. injection EN as ->. split; [exact SL|]. split; [split; auto|exact NB].
Qed.

(** Consequences for the joints: never outside the box, and, from inside, never
    faster than the limits. *)
Lemma online_limits s w q0 p code q s' w' nj :
  length q0 = nj -> length (on_min s) = nj -> length (on_max s) = nj -> length (on_dmax s) = nj ->
  (forall d, In d (on_dmax s) -> 0 < d) ->
  online_CartToJnt tfk tikv s w q0 p = Ret (code, q, s', w') ->
  q = q0 \/ in_box (on_min s) (on_max s) q /\
    forall i, (i < nj)%nat -> nth i (on_min s) 0 <= nth i q0 0 <= nth i (on_max s) 0 ->
      Rabs (nth i q 0 - nth i q0 0) <= nth i (on_dmax s) 0.
Proof.
  intros L0 L1 L2 L3 DP. unfold online_CartToJnt.
  destruct (negb (endpoints_known p (on_frames s))); [intros H; injection H as _ <- _ _; auto|].
  destruct (endpoint_errors _ _ _ _ _ _ _) as [[[f1 t1] w1]|] eqn:E; cbn [obind]; [|discriminate].
  destruct (tikv w1 q0 t1 (on_qdot s)) as [[[res qd] w2]|] eqn:E1; cbn [obind]; [|discriminate].
  destruct (Rlt_dec res 0); [intros H; injection H as _ <- _ _; auto|].
  destruct (_ || _ || _); [intros H; injection H as _ <- _ _; auto|].
  destruct (enforceJointVelLimits qd (on_dmax s)) as [qd'|] eqn:EN; cbn [obind]; [|discriminate].
  destruct (jnt_plus q0 qd') as [qs|] eqn:EP; cbn [obind]; [|discriminate].
  apply jnt_plus_inv in EP. pose proof (array_sum_length _ _ _ EP) as LS.
  destruct (clamp_both_nearest (on_min s) (on_max s) qs) as (q1 & R1 & NB & LB & NN); [lia|lia|]. rewrite R1; cbn [obind].
  intros H; injection H as <- <- _ _. right. split; [exact NB|]. intros i Hi B.
  assert (LD : length qd = length qd').
  { unfold enforceJointVelLimits in EN. destruct (overshoot qd (on_dmax s)) as [[ex m]|]; cbn [obind] in EN; [|discriminate].
    injection EN as <-. destruct ex; [rewrite map_length|]; reflexivity. }
  destruct EP as (LA & LB' & EP).
  destruct (enforce_slowed qd (on_dmax s)) as (qd2 & R2 & SL); [lia| |].
  { intros j Hj. apply DP. apply nth_In. lia. }
  rewrite R2 in EN. injection EN as ->. destruct SL as (_ & k & _ & S & _).
  specialize (S i ltac:(lia)). destruct S as (_ & S). specialize (EP i ltac:(lia)).
  destruct NB as (_ & _ & NB). specialize (NB i ltac:(lia) ltac:(lra)).
  assert (NL := NN i (nth i (on_min s) 0) ltac:(lia) ltac:(lra) ltac:(lra)).
  assert (NH := NN i (nth i (on_max s) 0) ltac:(lia) ltac:(lra) ltac:(lra)).
  assert (NQ : nth i (on_min s) 0 <= nth i qs 0 <= nth i (on_max s) 0 -> Rabs (nth i q1 0 - nth i qs 0) <= 0).
  { intros Q. specialize (NN i (nth i qs 0) ltac:(lia) ltac:(lra) Q). unfold Rminus in NN at 2.
    rewrite Rplus_opp_r, Rabs_R0 in NN. exact NN. }
  clear NN. apply Rabs_le.
  assert (SQ : - nth i (on_dmax s) 0 <= nth i qs 0 - nth i q0 0 <= nth i (on_dmax s) 0).
  { rewrite EP. revert S. unfold Rabs. destruct Rcase_abs; lra. }
  destruct (Rlt_or_le (nth i qs 0) (nth i (on_min s) 0)) as [C|C]; [|destruct (Rlt_or_le (nth i (on_max s) 0) (nth i qs 0)) as [C'|C']].
  - rewrite !Rabs_right in NL by lra. lra.
  - rewrite !Rabs_left1 in NH by lra. lra.
  - specialize (NQ (conj C C')). pose proof (Rabs_pos (nth i q1 0 - nth i qs 0)).
    assert (Z : nth i q1 0 - nth i qs 0 = 0) by (destruct (Req_dec (nth i q1 0 - nth i qs 0) 0) as [Z|Z]; [exact Z|apply Rabs_pos_lt in Z; lra]).
    lra.
Qed.

(** * Forgetting the record *)
Lemma errors_forget g p : forall w q frames twists,
  endpoint_errors tfk g p (fst w) q frames twists =
  forget (endpoint_errors (record_tfk tfk) g p w q frames twists).
Proof.
  induction p as [|[k fd] p IH]; intros w q frames twists; cbn [endpoint_errors]; [reflexivity|].
  destruct (dict_find frames k) as [f0|]; [|reflexivity]. destruct (dict_find twists k); [|reflexivity].
  unfold record_tfk at 1. destruct (tfk (fst w) q k f0) as [[f w1]|]; cbn [obind]; [|reflexivity].
  rewrite <- IH. reflexivity.
Qed.
Lemma tnrjl_loop_forget n s p : forall w q frames twists d,
  tnrjl_loop tfk tikv n s p (fst w) q frames twists d =
  forget (tnrjl_loop (record_tfk tfk) (record_tik tikv) n s p w q frames twists d).
Proof.
  induction n as [|n IH]; intros w q frames twists d; cbn [tnrjl_loop]; [reflexivity|].
  rewrite errors_forget. destruct (endpoint_errors (record_tfk tfk) (fun t => t) p w q frames twists) as [[[fr1 tw1] w1]|]; cbn [obind forget]; [|reflexivity].
  unfold record_tik at 1. destruct (tikv (fst w1) q tw1 d) as [[[res dq] w2]|]; cbn [obind]; [|reflexivity].
  destruct (Rlt_dec res (tn_eps s)); [reflexivity|].
  destruct (jnt_plus q dq) as [q1|]; cbn [obind]; [|reflexivity].
  destruct (clamp_both (tn_min s) (tn_max s) q1) as [q2|]; cbn [obind]; [|reflexivity].
  rewrite <- IH. reflexivity.
Qed.
Lemma tnrjl_forget s w q0 p :
  tnrjl_CartToJnt tfk tikv s (fst w) q0 p = forget (tnrjl_CartToJnt (record_tfk tfk) (record_tik tikv) s w q0 p).
Proof.
  unfold tnrjl_CartToJnt. destruct (negb (endpoints_known p (tn_frames s))); [reflexivity|].
  rewrite tnrjl_loop_forget. destruct (tnrjl_loop (record_tfk tfk) (record_tik tikv) _ _ _ _ _ _ _ _) as [[[[[[r q1] f1] t1] d1] w1]|]; reflexivity.
Qed.
Lemma online_forget s w q0 p :
  online_CartToJnt tfk tikv s (fst w) q0 p = forget (online_CartToJnt (record_tfk tfk) (record_tik tikv) s w q0 p).
Proof.
  unfold online_CartToJnt. destruct (negb (endpoints_known p (on_frames s))); [reflexivity|].
  rewrite errors_forget. destruct (endpoint_errors (record_tfk tfk) _ _ _ _ _ _) as [[[f1 t1] w1]|]; cbn [obind forget]; [|reflexivity].
  unfold record_tik at 1. destruct (tikv (fst w1) q0 t1 (on_qdot s)) as [[[res dq] w2]|]; cbn [obind]; [|reflexivity].
  destruct (Rlt_dec res 0); [reflexivity|]. destruct (_ || _ || _); [reflexivity|].
  destruct (enforceJointVelLimits dq (on_dmax s)) as [q1|]; cbn [obind]; [|reflexivity].
  destruct (jnt_plus q0 q1) as [q2|]; cbn [obind]; [|reflexivity].
  destruct (clamp_both _ _ _) as [q3|]; reflexivity.
Qed.

(** * Calls always return *)
Lemma errors_total nj g : tinner_total tfk tikv nj -> forall p w q frames twists,
  same_keys frames twists -> all_known p frames ->
  exists f1 t1 w1, endpoint_errors tfk g p w q frames twists = Ret (f1, t1, w1) /\ same_keys f1 t1 /\
    (forall k, dict_find f1 k = None <-> dict_find frames k = None).
Proof.
  intros (T1 & _). induction p as [|[k fd] p IH]; intros w q frames twists SK AK; cbn [endpoint_errors].
  - exists frames, twists, w. split; [reflexivity|]. split; [exact SK|tauto].
  - destruct (dict_find frames k) as [f0|] eqn:F; [|exfalso; apply (AK k (or_introl eq_refl) F)].
    destruct (dict_find twists k) as [t0|] eqn:T; [|apply SK in T; congruence].
    destruct (T1 w q k f0) as ([f w1] & ->). cbn [obind].
    destruct (IH w1 q (dict_put frames k f) (dict_put twists k (g (f_diff f fd 1)))) as (f1 & t1 & w2 & R & S & K).
    + intros k'. rewrite !find_put_none. apply SK.
    + intros k' I. rewrite find_put_none. apply AK. right; exact I.
    + exists f1, t1, w2. split; [exact R|]. split; [exact S|]. intros k'. rewrite K. apply find_put_none.
Qed.
Lemma tnrjl_loop_total nj s p : tinner_total tfk tikv nj -> length (tn_min s) = nj -> length (tn_max s) = nj ->
  forall n w q frames twists d, length q = nj -> same_keys frames twists -> all_known p frames ->
  exists r, tnrjl_loop tfk tikv n s p w q frames twists d = Ret r.
Proof.
  intros T L1 L2. induction n as [|n IH]; intros w q frames twists d LQ SK AK; cbn [tnrjl_loop]; [eauto|].
  destruct (errors_total nj (fun t => t) T p w q frames twists SK AK) as (f1 & t1 & w1 & -> & S & K). cbn [obind].
  destruct (proj2 T w1 q t1 d) as (res & dq & w2 & -> & LD). cbn [obind].
  destruct (Rlt_dec res (tn_eps s)); [eauto|].
  destruct (jnt_plus_ok q dq) as (qs & E); [lia|]. rewrite E; cbn [obind].
  apply jnt_plus_inv, array_sum_length in E.
  destruct (clamp_both_ok (tn_min s) (tn_max s) qs) as (q1 & -> & L & _); [lia|lia|]. cbn [obind].
  apply IH; [lia|exact S|]. intros k I. rewrite K. apply AK. exact I.
Qed.
Lemma tnrjl_total nj s w q0 p : tinner_total tfk tikv nj -> length (tn_min s) = nj -> length (tn_max s) = nj -> length q0 = nj ->
  same_keys (tn_frames s) (tn_twists s) -> exists r, tnrjl_CartToJnt tfk tikv s w q0 p = Ret r.
Proof.
  intros T L1 L2 L0 SK. unfold tnrjl_CartToJnt.
  destruct (unknown_or p (tn_frames s)) as [(KN & ->)|(_ & ->)]; cbn [negb]; [|eauto].
  destruct (tnrjl_loop_total nj s p T L1 L2 (tn_maxiter s) w q0 (tn_frames s) (tn_twists s) (tn_delta s) L0 SK KN)
    as ([[[[[r q1] f1] t1] d1] w1] & ->). cbn [obind]. eauto.
Qed.
Lemma online_total nj s w q0 p : tinner_total tfk tikv nj -> length q0 = nj ->
  (forall d, In d (on_dmax s) -> 0 < d) ->
  same_keys (on_frames s) (on_twists s) -> exists r, online_CartToJnt tfk tikv s w q0 p = Ret r.
Proof.
  intros T L0 DP SK. unfold online_CartToJnt.
  destruct (unknown_or p (on_frames s)) as [(KN & ->)|(_ & ->)]; cbn [negb]; [|eauto].
  destruct (errors_total nj (enforceCartVelLimits (on_trans s) (on_rot s)) T p w q0 _ _ SK KN) as (f1 & t1 & w1 & -> & S & K). cbn [obind].
  destruct (proj2 T w1 q0 t1 (on_qdot s)) as (res & dq & w2 & -> & LD). cbn [obind].
  destruct (Rlt_dec res 0); [eauto|].
  destruct (Nat.eqb_spec (length q0) (length (on_min s))) as [E1|E1]; cbn [negb orb]; [|eauto].
  destruct (Nat.eqb_spec (length q0) (length (on_max s))) as [E2|E2]; cbn [negb orb]; [|eauto].
  destruct (Nat.eqb_spec (length q0) (length (on_dmax s))) as [E3|E3]; cbn [negb orb]; [|eauto].
  destruct (enforce_slowed dq (on_dmax s)) as (qd & -> & LS & _); [lia| |].
  { intros i Hi. apply DP, nth_In. lia. }
  cbn [obind]. destruct (jnt_plus_ok q0 qd) as (qs & E); [lia|]. rewrite E; cbn [obind].
  apply jnt_plus_inv, array_sum_length in E.
  destruct (clamp_both_ok (on_min s) (on_max s) qs) as (q1 & -> & L & _); [lia|lia|]. cbn [obind]. eauto.
Qed.
End TreeIk.

Lemma tnrjl_make_keys nj endpoints lo hi n eps :
  let s := tnrjl_make nj endpoints lo hi n eps in
  same_keys (tn_frames s) (tn_twists s) /\ forall k, dict_find (tn_frames s) k = None <-> ~ In k endpoints.
Proof.
  cbn zeta. unfold tnrjl_make; cbn [tn_frames tn_twists]. split; [intros k; rewrite !find_dict_of; tauto|].
  intros k. apply find_dict_of.
Qed.
Lemma online_make_keys nj endpoints lo hi dm tm rm :
  let s := online_make nj endpoints lo hi dm tm rm in
  same_keys (on_frames s) (on_twists s) /\ forall k, dict_find (on_frames s) k = None <-> ~ In k endpoints.
Proof.
  cbn zeta. unfold online_make; cbn [on_frames on_twists]. split; [intros k; rewrite !find_dict_of; tauto|].
  intros k. apply find_dict_of.
Qed.
