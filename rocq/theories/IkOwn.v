(** Chain position solvers around the library's own forward and velocity solvers. *)
From Coq Require Import Reals String List ZArith Bool Arith Lia Lra.
From Verif Require Import FramesModel FramesSpec FramesProofs FrameOpsProofs Outcome LoopProofs InertiaModel DualModel KinModel KinSpec KinProofs JntModel TreeModel TreeSpec
  LinModel LinSpec IkModel IkSpec IkProofs IkProofs2 IkGeoProofs VelIkModel VelIkSpec LmaProofs2 VelIkProofs VelIkProofs2 VelIkProofs3 NewtonSpec IkOwnSpec.
Import ListNotations.
Local Open Scope list_scope.
Local Open Scope R_scope.

Lemma session_total {T A B} (call : T -> A -> outcome (B * T)) (I : T -> Prop) (P : A -> B -> Prop) :
  (forall st a, I st -> exists b st', call st a = Ret (b, st') /\ I st' /\ P a b) ->
  forall l st, I st -> exists bs st', session call st l = Ret (bs, st') /\ I st' /\ Forall2 P l bs.
Proof.
  intros H. induction l as [|a l IH]; intros st Hi; cbn [session]; [exists [], st; auto|].
  destruct (H st a Hi) as (b & st1 & -> & Hi1 & Hp). cbn [obind]. destruct (IH st1 Hi1) as (bs & st2 & -> & Hi2 & F). cbn [obind].
  exists (b :: bs), st2. auto.
Qed.

Lemma own_fk_ret {W} c (w : W) q : chain_ok c -> length q = ch_nj c -> own_fk c w q = Ret (E_NOERROR, tip c q, w).
Proof.
  intros Hc Hq. unfold own_fk. assert (Hd : denotes c (-1) (length (ch_segs c))) by (left; split; [lia|reflexivity]).
  rewrite (fk_result c q (-1) _ (proj1 Hc) Hd), Hq, Nat.eqb_refl, Nat.leb_refl. reflexivity.
Qed.

(** A velocity solver that keeps its promises on states with [Inv]; it reports an error only where [fails]. *)
Definition serves {W} (nj : nat) (Inv : W -> Prop) (fails : list R -> Prop) (ikv : W -> list R -> Twist -> list R -> outcome (Z * list R * W)) : Prop :=
  forall w q t d, Inv w -> length q = nj -> length d = nj ->
    exists rc dq w', ikv w q t d = Ret (rc, dq, w') /\ length dq = nj /\ Inv w' /\ ((rc < 0)%Z -> fails q).

Section Stack.
Context {W : Type}.
Variables (c : Chain) (Inv : W -> Prop) (fails : list R -> Prop) (ikv : W -> list R -> Twist -> list R -> outcome (Z * list R * W)).
Hypothesis Hc : chain_ok c.
Hypothesis Hs : serves (ch_nj c) Inv fails ikv.

Lemma nrjl_loop_own n s p : length (nj_min s) = ch_nj c -> length (nj_max s) = ch_nj c ->
  forall w q d, Inv w -> length q = ch_nj c -> length d = ch_nj c ->
  exists e q' d' w', nrjl_loop (own_fk c) ikv n s p w q d = Ret (e, q', d', w') /\ Inv w' /\ length q' = ch_nj c /\ length d' = ch_nj c /\
    (q' = q \/ within (nj_min s) (nj_max s) q') /\
    match e with Broke => t_Equal (f_diff (tip c q') p 1) t_zero (nj_eps s) = true | Exhausted => True | Returned code => code = E_IKSOLVERVEL_FAILED /\ fails q' end.
Proof.
  intros L1 L2. induction n as [|n IH]; intros w q d Iw Lq Ld; cbn [nrjl_loop]; [exists Exhausted, q, d, w; auto 8|].
  rewrite (own_fk_ret c w q Hc Lq). cbn [obind]. change (E_NOERROR <? 0)%Z with false. cbv iota.
  destruct (t_Equal (f_diff (tip c q) p 1) t_zero (nj_eps s)) eqn:T; [exists Broke, q, d, w; auto 8|].
  destruct (Hs w q (f_diff (tip c q) p 1) d Iw Lq Ld) as (rc & dq & w1 & -> & Ldq & I1 & F). cbn [obind].
  destruct (Z.ltb_spec rc 0) as [Hr|Hr]; [exists (Returned E_IKSOLVERVEL_FAILED), q, dq, w1; auto 9|].
  destruct (jnt_plus_ok q dq) as (qp & EP); [lia|]. rewrite EP. cbn [obind]. apply jnt_plus_inv, array_sum_length in EP.
  destruct (clamp_within (nj_min s) (nj_max s) qp) as (a & b & -> & R2 & Wb & LB); [lia|lia|]. cbn [obind]. rewrite R2. cbn [obind].
  destruct (IH w1 b dq I1 ltac:(lia) Ldq) as (e & q' & d' & w' & -> & H1 & H2 & H3 & H4 & H5).
  exists e, q', d', w'. split; [reflexivity|]. split; [exact H1|]. split; [exact H2|]. split; [exact H3|]. split; [|exact H5].
  right. destruct H4 as [->|H4]; assumption.
Qed.

Lemma nrjl_ask_own eps lo hi st a : nrjl_ready c (fst st) -> nj_eps (fst st) = eps -> nj_min (fst st) = lo -> nj_max (fst st) = hi -> Inv (snd st) ->
  exists b st', nrjl_ask c ikv st a = Ret (b, st') /\ (nrjl_ready c (fst st') /\ nj_eps (fst st') = eps /\ nj_min (fst st') = lo /\ nj_max (fst st') = hi /\ Inv (snd st')) /\
    nrjl_answer c lo hi eps fails a b.
Proof.
  destruct st as [s w], a as [[q0 p] qo]. cbn [fst snd]. intros (R1 & R2 & R3 & R4) He Hlo Hhi Iw. unfold nrjl_ask, nrjl_answer, sized. cbn [fst snd].
  unfold nrjl_CartToJnt. rewrite R1, R2, R3, Nat.eqb_refl. cbn [negb].
  destruct (Nat.eqb_spec (ch_nj c) (length q0)) as [E1|E1]; cbn [negb orb].
  2:{ cbn [obind]. do 2 eexists. split; [reflexivity|]. cbn. split; [repeat split; assumption|]. split; [auto|]. intros (N & _). congruence. }
  destruct (Nat.eqb_spec (ch_nj c) (length qo)) as [E2|E2]; cbn [negb orb].
  2:{ cbn [obind]. do 2 eexists. split; [reflexivity|]. cbn. split; [repeat split; assumption|]. split; [auto|]. intros (_ & N). congruence. }
  destruct (nrjl_loop_own (nj_maxiter s) s p R2 R3 w q0 (nj_delta s) Iw ltac:(congruence) R4) as (e & q' & d' & w' & -> & H1 & H2 & H3 & H4 & H5). cbn [obind].
  do 2 eexists. split; [reflexivity|]. cbn. split; [repeat split; assumption|]. rewrite <- He, <- Hlo, <- Hhi. split; [intros N; exfalso; apply N; split; congruence|]. intros _.
  split; [exact H2|]. split; [exact H4|]. destruct e as [| |code].
  - left. split; [reflexivity|]. intros Rp He2. apply diff_small; auto. apply tip_frame_rigid. exact Hc.
  - right. left. reflexivity.
  - right. right. exact H5.
Qed.

Lemma nr_loop_own n eps p : forall w q d, Inv w -> length q = ch_nj c -> length d = ch_nj c ->
  exists e q' d' w', nr_loop (own_fk c) ikv n eps p w q d = Ret (e, q', d', w') /\ Inv w' /\ length q' = ch_nj c /\ length d' = ch_nj c /\
    match e with Converged _ => exists q1 dq, array_sum q1 dq q' /\ length q1 = ch_nj c /\ t_Equal (f_diff (tip c q1) p 1) t_zero eps = true
    | NrExhausted => True | NrReturned code => code = E_IKSOLVER_FAILED /\ fails q' end.
Proof.
  induction n as [|n IH]; intros w q d Iw Lq Ld; cbn [nr_loop]; [exists NrExhausted, q, d, w; auto 8|].
  rewrite (own_fk_ret c w q Hc Lq). cbn [obind]. change (E_NOERROR <? E_NOERROR)%Z with false. cbv iota.
  destruct (Hs w q (f_diff (tip c q) p 1) d Iw Lq Ld) as (rc & dq & w1 & -> & Ldq & I1 & F). cbn [obind]. change E_NOERROR with 0%Z.
  destruct (Z.ltb_spec rc 0) as [Hr|Hr]; [exists (NrReturned E_IKSOLVER_FAILED), q, dq, w1; auto 9|].
  destruct (jnt_plus_ok q dq) as (qp & EP); [lia|]. rewrite EP. cbn [obind]. apply jnt_plus_inv in EP. pose proof (array_sum_length _ _ _ EP) as LP.
  destruct (t_Equal (f_diff (tip c q) p 1) t_zero eps) eqn:T.
  - exists (Converged (0 <? rc)%Z), qp, dq, w1. split; [reflexivity|]. split; [exact I1|]. split; [lia|]. split; [exact Ldq|]. exists q, dq. auto.
  - destruct (IH w1 qp dq I1 ltac:(lia) Ldq) as (e & q' & d' & w' & -> & H). exists e, q', d', w'. split; [reflexivity|exact H].
Qed.

Lemma nr_ask_own eps st a : nr_ready c (fst st) -> nr_eps (fst st) = eps -> Inv (snd st) ->
  exists b st', nr_ask c ikv st a = Ret (b, st') /\ (nr_ready c (fst st') /\ nr_eps (fst st') = eps /\ Inv (snd st')) /\ nr_answer c eps fails a b.
Proof.
  destruct st as [s w], a as [[q0 p] qo]. cbn [fst snd]. intros (R1 & R4) He Iw. unfold nr_ask, nr_answer, sized. cbn [fst snd].
  unfold nr_CartToJnt. rewrite R1, Nat.eqb_refl. cbn [negb].
  destruct (Nat.eqb_spec (length q0) (ch_nj c)) as [E1|E1]; cbn [negb orb].
  2:{ cbn [obind]. do 2 eexists. split; [reflexivity|]. cbn. split; [repeat split; assumption|]. split; [auto|]. intros (N & _). congruence. }
  destruct (Nat.eqb_spec (length qo) (ch_nj c)) as [E2|E2]; cbn [negb orb].
  2:{ cbn [obind]. do 2 eexists. split; [reflexivity|]. cbn. split; [repeat split; assumption|]. split; [auto|]. intros (_ & N). congruence. }
  destruct (nr_loop_own (nr_maxiter s) (nr_eps s) p w q0 (nr_delta s) Iw E1 R4) as (e & q' & d' & w' & -> & H1 & H2 & H3 & H5). cbn [obind].
  rewrite He in *. destruct e as [dg| |code]; cbn [obind]; do 2 eexists; (split; [reflexivity|]); cbn; (split; [repeat split; assumption|]);
    (split; [intros N; exfalso; apply N; split; congruence|]; intros _; split; [exact H2|]).
  - left. split; [destruct dg; auto|]. intros Rp He2. destruct H5 as (q1 & dq & S1 & L1 & T1). exists q1, dq. split; [exact S1|]. apply diff_small; auto. apply tip_frame_rigid. exact Hc.
  - right. left. reflexivity.
  - right. right. exact H5.
Qed.
End Stack.

(** The library's velocity solvers keep their promises. *)
Lemma pinv_length svd c s q v d code out s' : chain_ok c -> pinv_clean s -> pv_nj s = ch_nj c -> length q = ch_nj c -> length d = ch_nj c ->
  pinv_CartToJnt svd c s q v d = Ret (code, out, s') -> length out = ch_nj c.
Proof.
  intros Hok [CL CJ] F Lq Ld. unfold pinv_CartToJnt. rewrite F, Lq, Ld, Nat.eqb_refl. cbn [negb orb].
  rewrite CL, F, jac_now by (auto; lia). cbn [obind]. change (E_NOERROR <? 0)%Z with false. cbn match.
  rewrite (jacobian_at_length c q Hok ltac:(lia)).
  destruct (negb _); [intros E; injection E as _ <- _; apply repeat_length|].
  destruct (entries _ _ _); cbn [obind]; [|discriminate]. intros E; injection E as _ <- _. rewrite map_length, seq_length. reflexivity.
Qed.
Lemma nso_length svd c s q v d code out s' : chain_ok c -> nso_clean s -> ns_nj s = ch_nj c -> length q = ch_nj c -> length d = ch_nj c ->
  length (ns_opt s) = ch_nj c -> length (ns_weights s) = ch_nj c ->
  nso_CartToJnt svd c s q v d = Ret (code, out, s') -> length out = ch_nj c.
Proof.
  intros Hok [CL CJ] F Lq Ld Lo Lw. unfold nso_CartToJnt. rewrite F, Lq, Ld, Lo, Lw, Nat.eqb_refl. cbn [negb orb].
  rewrite CL, F, jac_now by (auto; lia). cbn [obind]. change (E_NOERROR <? 0)%Z with false. cbn match.
  destruct (negb _); [intros E; injection E as _ <- _; apply repeat_length|].
  destruct (Nat.ltb _ 6); [discriminate|].
  destruct (entries _ _ _); cbn [obind]; [|discriminate].
  destruct (Rgt_dec _ _); intros E; injection E as _ <- _; unfold nso_back; rewrite map_length, seq_length; reflexivity.
Qed.

Definition pinv_like (w0 w : pinv) : Prop := pv_maxiter w = pv_maxiter w0 /\ pv_eps w = pv_eps w0.
Definition nso_like (w0 w : nso) : Prop :=
  ns_maxiter w = ns_maxiter w0 /\ ns_eps w = ns_eps w0 /\ ns_alpha w = ns_alpha w0 /\ ns_weights w = ns_weights w0 /\ ns_opt w = ns_opt w0.
Lemma pinv_serves svd c w0 : chain_ok c -> (Z.of_nat (ch_nj c) < 2 ^ 32)%Z ->
  serves (ch_nj c) (fun w => pinv_ready c w /\ pinv_like w0 w) (pinv_fails svd c (pv_maxiter w0)) (pinv_CartToJnt svd c).
Proof.
  intros Hok Hn w q t d ((C & F & He) & (K & Ke)) Lq Ld.
  destruct (pinv_call svd c w q t d Hok C He Hn) as (code & out & s' & E & _ & C' & N' & E' & K' & _ & _ & H).
  exists code, out, s'. split; [exact E|]. split; [exact (pinv_length _ _ _ _ _ _ _ _ _ Hok C F Lq Ld E)|].
  split; [split; [split; [exact C'|]; rewrite N', E'; auto|unfold pinv_like; rewrite K', E'; auto]|].
  intros L. destruct (H F (conj Lq Ld)) as (_ & _ & H2). unfold pinv_fails. rewrite <- K. intros Z0.
  destruct (H2 Z0) as ([->| ->] & _); unfold E_NOERROR, E_CONVERGE_PINV_SINGULAR in L; lia.
Qed.
Lemma nso_serves svd c w0 : chain_ok c -> (6 <= ch_nj c)%nat ->
  serves (ch_nj c) (fun w => nso_ready c w /\ nso_like w0 w) (pinv_fails svd c (ns_maxiter w0)) (nso_CartToJnt svd c).
Proof.
  intros Hok Hn w q t d ((C & F & He & Lo & Lw) & (K & Ke & Ka & Kw & Ko)) Lq Ld.
  destruct (nso_call svd c w q t d Hok C He Hn) as (code & out & s' & E & _ & C' & N' & E' & K' & Al' & W' & O' & _ & _ & H).
  exists code, out, s'. split; [exact E|]. split; [exact (nso_length _ _ _ _ _ _ _ _ _ Hok C F Lq Ld Lo Lw E)|].
  split; [split; [split; [exact C'|]; rewrite N', E', W', O'; auto|unfold nso_like; rewrite K', E', W', O', Al'; auto]|].
  intros L. destruct (H F (conj Lq (conj Ld (conj Lo Lw)))) as (_ & _ & H2). unfold pinv_fails. rewrite <- K. intros Z0.
  destruct (H2 Z0) as (-> & _). unfold E_NOERROR in L; lia.
Qed.
Definition wdls_like (w0 w : wdls) : Prop := wd_ts w = wd_ts w0 /\ wd_js w = wd_js w0 /\ wd_maxiter w = wd_maxiter w0 /\ wd_eps w = wd_eps w0 /\ wd_lambda w = wd_lambda w0.
Lemma wdls_serves svd c w0 : chain_ok c -> (6 <= ch_nj c)%nat -> (Z.of_nat (ch_nj c) < 2 ^ 32)%Z -> wdls_honest svd c w0 ->
  serves (ch_nj c) (fun w => wdls_ready c w /\ wdls_like w0 w) (wdls_fails svd c w0) (wdls_CartToJnt svd c).
Proof.
  intros Hok H6 Hn Hh w q t d ((C & Sh & F & He & Hl) & (T & J & K & Ke & Kl)) Lq Ld.
  assert (EW : weighted_jac c q w = weighted_jac c q w0) by (unfold weighted_jac; rewrite T, J; reflexivity).
  specialize (Hh q Lq). cbv zeta in Hh. unfold wdls_fails. rewrite <- EW, <- K in *.
  destruct (Z.eq_dec (dc_rc (svd (wd_maxiter w) (weighted_jac c q w))) 0) as [Z0|Z0].
  - destruct (Hh Z0) as (SV & SS).
    destruct (wdls_solution svd c w q t d Hok C Sh F Lq Ld He H6 Hn Z0 SV SS (or_introl Hl))
      as (code & out & s' & x & E & _ & C' & Sh' & N' & E' & K' & L' & T' & J' & _ & _ & _ & _ & Cd & _ & _ & _ & Eo & _).
    exists code, out, s'. split; [exact E|]. split; [subst out; unfold weighted; rewrite map_length, seq_length; reflexivity|].
    split; [split; [split; [exact C'|split; [exact Sh'|split; [congruence|split; [rewrite E'; exact He|congruence]]]]|repeat split; congruence]|].
    intros L. exfalso. destruct Cd as [->| ->]; unfold E_NOERROR, E_CONVERGE_PINV_SINGULAR in L; lia.
  - destruct (wdls_head svd c w q t d Hok C Sh) as (_ & _ & D). cbv zeta in D. rewrite (D F (conj Lq Ld)).
    destruct (Z.eqb_spec (dc_rc (svd (wd_maxiter w) (weighted_jac c q w))) 0); [contradiction|]. cbn [negb].
    do 3 eexists. split; [reflexivity|]. split; [apply repeat_length|]. split; [|auto].
    destruct C as (C1 & C2 & C3). split; [|repeat split; assumption].
    split; [|split; [exact Sh|repeat split; assumption]]. split; [exact C1|]. cbn. split.
    + rewrite (jacobian_at_length c q Hok Lq). symmetry; exact F.
    + rewrite map_length, seq_length. symmetry; exact F.
Qed.

(** Sessions. *)
Section Sessions.
Context {W : Type}.
Variables (c : Chain) (Inv : W -> Prop) (fails : list R -> Prop) (ikv : W -> list R -> Twist -> list R -> outcome (Z * list R * W)).
Hypothesis Hc : chain_ok c.
Hypothesis Hs : serves (ch_nj c) Inv fails ikv.
Lemma nrjl_session s w l : nrjl_ready c s -> Inv w ->
  exists answers s' w', session (nrjl_ask c ikv) (s, w) l = Ret (answers, (s', w')) /\ nrjl_ready c s' /\ Inv w' /\
    Forall2 (nrjl_answer c (nj_min s) (nj_max s) (nj_eps s) fails) l answers.
Proof.
  intros Rs Iw.
  destruct (session_total (nrjl_ask c ikv) (fun st => nrjl_ready c (fst st) /\ nj_eps (fst st) = nj_eps s /\ nj_min (fst st) = nj_min s /\ nj_max (fst st) = nj_max s /\ Inv (snd st))
    (nrjl_answer c (nj_min s) (nj_max s) (nj_eps s) fails)) with (l := l) (st := (s, w)) as (bs & [s' w'] & E & (R1 & _ & _ & _ & I1) & F); cbn [fst snd]; auto.
  - intros st a (A1 & A2 & A3 & A4 & A5). exact (nrjl_ask_own c Inv fails ikv Hc Hs (nj_eps s) (nj_min s) (nj_max s) st a A1 A2 A3 A4 A5).
  - eauto 8.
Qed.
Lemma nr_session s w l : nr_ready c s -> Inv w ->
  exists answers s' w', session (nr_ask c ikv) (s, w) l = Ret (answers, (s', w')) /\ nr_ready c s' /\ Inv w' /\
    Forall2 (nr_answer c (nr_eps s) fails) l answers.
Proof.
  intros Rs Iw.
  destruct (session_total (nr_ask c ikv) (fun st => nr_ready c (fst st) /\ nr_eps (fst st) = nr_eps s /\ Inv (snd st))
    (nr_answer c (nr_eps s) fails)) with (l := l) (st := (s, w)) as (bs & [s' w'] & E & (R1 & _ & I1) & F); cbn [fst snd]; auto.
  - intros st a (A1 & A2 & A5). exact (nr_ask_own c Inv fails ikv Hc Hs (nr_eps s) st a A1 A2 A5).
  - eauto 8.
Qed.
End Sessions.
