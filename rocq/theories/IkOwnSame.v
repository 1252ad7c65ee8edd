(** The answers of a chain position solver do not depend on earlier calls. *)
From Coq Require Import Reals String List ZArith Bool Arith Lia Lra.
From Verif Require Import FramesModel FramesSpec FramesProofs Outcome InertiaModel DualModel KinModel KinSpec KinProofs JntModel TreeModel TreeSpec
  LinModel LinSpec LmaModel LmaSpec LmaProofs LmaProofs2 IkModel IkSpec IkProofs IkProofs2 VelIkModel VelIkSpec VelIkLin JacProofs JacDotProofs VelIkProofs VelIkProofs2 VelIkProofs3 NewtonSpec IkOwnSpec IkOwn.
Import ListNotations.
Local Open Scope list_scope.
Local Open Scope R_scope.

Definition strip {W} (r : outcome (Z * list R * W)) : outcome (Z * list R) := let! (code, out, _) := r in Ret (code, out).
Definition repeats {W} (nj : nat) (Inv : W -> Prop) (ikv : W -> list R -> Twist -> list R -> outcome (Z * list R * W)) : Prop :=
  forall w1 w2 q t d1 d2, Inv w1 -> Inv w2 -> length q = nj -> length d1 = nj -> length d2 = nj -> strip (ikv w1 q t d1) = strip (ikv w2 q t d2).

Section Same.
Context {W : Type}.
Variables (c : Chain) (Inv : W -> Prop) (fails : list R -> Prop) (ikv : W -> list R -> Twist -> list R -> outcome (Z * list R * W)).
Hypothesis Hc : chain_ok c.
Hypothesis Hs : serves (ch_nj c) Inv fails ikv.
Hypothesis Hr : repeats (ch_nj c) Inv ikv.

Lemma both w1 w2 q t d1 d2 : Inv w1 -> Inv w2 -> length q = ch_nj c -> length d1 = ch_nj c -> length d2 = ch_nj c ->
  exists rc dq w1' w2', ikv w1 q t d1 = Ret (rc, dq, w1') /\ ikv w2 q t d2 = Ret (rc, dq, w2') /\ length dq = ch_nj c /\ Inv w1' /\ Inv w2'.
Proof.
  intros I1 I2 Lq L1 L2. pose proof (Hr w1 w2 q t d1 d2 I1 I2 Lq L1 L2) as E.
  destruct (Hs w1 q t d1 I1 Lq L1) as (rc & dq & w1' & E1 & Ld & J1 & _). destruct (Hs w2 q t d2 I2 Lq L2) as (rc2 & dq2 & w2' & E2 & _ & J2 & _).
  rewrite E1, E2 in E. cbn in E. injection E as <- <-. exists rc, dq, w1', w2'. auto.
Qed.

Definition twin (s1 s2 : nrjl) : Prop := nj_min s1 = nj_min s2 /\ nj_max s1 = nj_max s2 /\ nj_eps s1 = nj_eps s2 /\ nj_maxiter s1 = nj_maxiter s2.
Lemma nrjl_loop_same p s1 s2 : twin s1 s2 -> length (nj_min s2) = ch_nj c -> length (nj_max s2) = ch_nj c ->
  forall n w1 w2 q d1 d2, Inv w1 -> Inv w2 -> length q = ch_nj c -> length d1 = ch_nj c -> length d2 = ch_nj c ->
  exists e q' d1' d2' w1' w2', nrjl_loop (own_fk c) ikv n s1 p w1 q d1 = Ret (e, q', d1', w1') /\ nrjl_loop (own_fk c) ikv n s2 p w2 q d2 = Ret (e, q', d2', w2').
Proof.
  intros (T1 & T2 & T3 & _) L1 L2. induction n as [|n IH]; intros w1 w2 q d1 d2 I1 I2 Lq Ld1 Ld2; cbn [nrjl_loop]; [do 6 eexists; split; reflexivity|].
  rewrite !(own_fk_ret c _ q Hc Lq). cbn [obind]. change (E_NOERROR <? 0)%Z with false. cbv iota. rewrite T1, T2, T3.
  destruct (t_Equal _ _ _); [do 6 eexists; split; reflexivity|].
  destruct (both w1 w2 q (f_diff (tip c q) p 1) d1 d2 I1 I2 Lq Ld1 Ld2) as (rc & dq & w1' & w2' & -> & -> & Ldq & J1 & J2). cbn [obind].
  destruct (Z.ltb_spec rc 0); [do 6 eexists; split; reflexivity|].
  destruct (jnt_plus_ok q dq) as (qp & EP); [lia|]. rewrite EP. cbn [obind]. apply jnt_plus_inv, array_sum_length in EP.
  destruct (clamp_within (nj_min s2) (nj_max s2) qp) as (a & b & -> & R2 & Wb & LB); [lia|lia|]. cbn [obind]. rewrite R2. cbn [obind].
  apply IH; auto; lia.
Qed.
Lemma nrjl_ask_same st1 st2 a b1 b2 st1' st2' : twin (fst st1) (fst st2) -> nrjl_ready c (fst st1) -> nrjl_ready c (fst st2) -> Inv (snd st1) -> Inv (snd st2) ->
  nrjl_ask c ikv st1 a = Ret (b1, st1') -> nrjl_ask c ikv st2 a = Ret (b2, st2') -> b1 = b2.
Proof.
  destruct st1 as [s1 w1], st2 as [s2 w2], a as [[q0 p] qo]. cbn [fst snd]. intros T (A1 & A2 & A3 & A4) (B1 & B2 & B3 & B4) I1 I2. unfold nrjl_ask. cbn [fst snd].
  unfold nrjl_CartToJnt. rewrite A1, B1, A2, A3, B2, B3, Nat.eqb_refl. cbn [negb].
  destruct (Nat.eqb_spec (ch_nj c) (length q0)) as [E1|E1]; cbn [negb orb].
  2:{ cbn [obind]. intros X Y. injection X as <- _. injection Y as <- _. reflexivity. }
  destruct (Nat.eqb_spec (ch_nj c) (length qo)) as [E2|E2]; cbn [negb orb].
  2:{ cbn [obind]. intros X Y. injection X as <- _. injection Y as <- _. reflexivity. }
  rewrite (proj2 (proj2 (proj2 T))).
  destruct (nrjl_loop_same p s1 s2 T B2 B3 (nj_maxiter s2) w1 w2 q0 (nj_delta s1) (nj_delta s2) I1 I2 ltac:(congruence) A4 B4) as (e & q' & d1' & d2' & w1' & w2' & -> & ->).
  cbn [obind]. intros X Y. injection X as <- _. injection Y as <- _. reflexivity.
Qed.

Lemma nr_loop_same p eps : forall n w1 w2 q d1 d2, Inv w1 -> Inv w2 -> length q = ch_nj c -> length d1 = ch_nj c -> length d2 = ch_nj c ->
  exists e q' d1' d2' w1' w2', nr_loop (own_fk c) ikv n eps p w1 q d1 = Ret (e, q', d1', w1') /\ nr_loop (own_fk c) ikv n eps p w2 q d2 = Ret (e, q', d2', w2').
Proof.
  induction n as [|n IH]; intros w1 w2 q d1 d2 I1 I2 Lq Ld1 Ld2; cbn [nr_loop]; [do 6 eexists; split; reflexivity|].
  rewrite !(own_fk_ret c _ q Hc Lq). cbn [obind]. change (E_NOERROR <? E_NOERROR)%Z with false. cbv iota.
  destruct (both w1 w2 q (f_diff (tip c q) p 1) d1 d2 I1 I2 Lq Ld1 Ld2) as (rc & dq & w1' & w2' & -> & -> & Ldq & J1 & J2). cbn [obind].
  destruct (Z.ltb _ _); [do 6 eexists; split; reflexivity|].
  destruct (jnt_plus_ok q dq) as (qp & EP); [lia|]. rewrite EP. cbn [obind]. apply jnt_plus_inv, array_sum_length in EP.
  destruct (t_Equal _ _ _); [do 6 eexists; split; reflexivity|]. apply IH; auto; lia.
Qed.
Lemma nr_ask_same st1 st2 a b1 b2 st1' st2' : nr_eps (fst st1) = nr_eps (fst st2) -> nr_maxiter (fst st1) = nr_maxiter (fst st2) ->
  nr_ready c (fst st1) -> nr_ready c (fst st2) -> Inv (snd st1) -> Inv (snd st2) ->
  nr_ask c ikv st1 a = Ret (b1, st1') -> nr_ask c ikv st2 a = Ret (b2, st2') -> b1 = b2.
Proof.
  destruct st1 as [s1 w1], st2 as [s2 w2], a as [[q0 p] qo]. cbn [fst snd]. intros T1 T2 (A1 & A4) (B1 & B4) I1 I2. unfold nr_ask. cbn [fst snd].
  unfold nr_CartToJnt. rewrite A1, B1, Nat.eqb_refl. cbn [negb].
  destruct (Nat.eqb_spec (length q0) (ch_nj c)) as [E1|E1]; cbn [negb orb].
  2:{ cbn [obind]. intros X Y. injection X as <- _. injection Y as <- _. reflexivity. }
  destruct (Nat.eqb_spec (length qo) (ch_nj c)) as [E2|E2]; cbn [negb orb].
  2:{ cbn [obind]. intros X Y. injection X as <- _. injection Y as <- _. reflexivity. }
  rewrite T1, T2.
  destruct (nr_loop_same p (nr_eps s2) (nr_maxiter s2) w1 w2 q0 (nr_delta s1) (nr_delta s2) I1 I2 E1 A4 B4) as (e & q' & d1' & d2' & w1' & w2' & -> & ->).
  destruct e; cbn [obind]; intros X Y; injection X as <- _; injection Y as <- _; reflexivity.
Qed.

Lemma nrjl_keeps st a b st' : nrjl_ask c ikv st a = Ret (b, st') -> nj_maxiter (fst st') = nj_maxiter (fst st).
Proof.
  destruct st as [s w], a as [[q0 p] qo]. unfold nrjl_ask, nrjl_CartToJnt. cbn [fst snd].
  repeat match goal with |- context [if ?b then Ret _ else _] => destruct b; [cbn [obind]; intros E; injection E as _ <-; reflexivity|] end.
  destruct (nrjl_loop _ _ _ _ _ _ _ _) as [[[[e q'] d'] w']|]; cbn [obind]; [|discriminate]. intros E; injection E as _ <-; reflexivity.
Qed.
Lemma nr_keeps st a b st' : nr_ask c ikv st a = Ret (b, st') -> nr_maxiter (fst st') = nr_maxiter (fst st).
Proof.
  destruct st as [s w], a as [[q0 p] qo]. unfold nr_ask, nr_CartToJnt. cbn [fst snd].
  repeat match goal with |- context [if ?b then Ret _ else _] => destruct b; [cbn [obind]; intros E; injection E as _ <-; reflexivity|] end.
  destruct (nr_loop _ _ _ _ _ _ _ _) as [[[[e q'] d'] w']|]; cbn [obind]; [|discriminate]. destruct e; cbn [obind]; intros E; injection E as _ <-; reflexivity.
Qed.

Lemma nrjl_session_same s w l : nrjl_ready c s -> Inv w ->
  exists answers st', session (nrjl_ask c ikv) (s, w) l = Ret (answers, st') /\
    Forall2 (fun a b => exists st1, nrjl_ask c ikv (s, w) a = Ret (b, st1)) l answers.
Proof.
  intros Rs Iw.
  destruct (session_total (nrjl_ask c ikv) (fun st => (nrjl_ready c (fst st) /\ nj_eps (fst st) = nj_eps s /\ nj_min (fst st) = nj_min s /\ nj_max (fst st) = nj_max s /\ Inv (snd st)) /\ nj_maxiter (fst st) = nj_maxiter s)
    (fun a b => exists st1, nrjl_ask c ikv (s, w) a = Ret (b, st1))) with (l := l) (st := (s, w)) as (bs & st' & E & _ & F); cbn [fst snd]; auto.
  - intros st a ((A1 & A2 & A3 & A4 & A5) & A6).
    destruct (nrjl_ask_own c Inv fails ikv Hc Hs (nj_eps s) (nj_min s) (nj_max s) st a A1 A2 A3 A4 A5) as (b & st' & E & I' & _).
    destruct (nrjl_ask_own c Inv fails ikv Hc Hs (nj_eps s) (nj_min s) (nj_max s) (s, w) a Rs eq_refl eq_refl eq_refl Iw) as (b2 & st2 & E2 & _ & _).
    exists b, st'. split; [exact E|]. split; [split; [exact I'|rewrite (nrjl_keeps _ _ _ _ E); exact A6]|].
    exists st2. rewrite E2. f_equal. f_equal. symmetry. apply (nrjl_ask_same st (s, w) a b b2 st' st2); auto. split; [exact A3|]. split; [exact A4|]. split; [exact A2|exact A6].
  - eauto 10.
  - eauto.
Qed.
Lemma nr_session_same s w l : nr_ready c s -> Inv w ->
  exists answers st', session (nr_ask c ikv) (s, w) l = Ret (answers, st') /\
    Forall2 (fun a b => exists st1, nr_ask c ikv (s, w) a = Ret (b, st1)) l answers.
Proof.
  intros Rs Iw.
  destruct (session_total (nr_ask c ikv) (fun st => (nr_ready c (fst st) /\ nr_eps (fst st) = nr_eps s /\ Inv (snd st)) /\ nr_maxiter (fst st) = nr_maxiter s)
    (fun a b => exists st1, nr_ask c ikv (s, w) a = Ret (b, st1))) with (l := l) (st := (s, w)) as (bs & st' & E & _ & F); cbn [fst snd]; auto.
  - intros st a ((A1 & A2 & A5) & A6).
    destruct (nr_ask_own c Inv fails ikv Hc Hs (nr_eps s) st a A1 A2 A5) as (b & st' & E & I' & _).
    destruct (nr_ask_own c Inv fails ikv Hc Hs (nr_eps s) (s, w) a Rs eq_refl Iw) as (b2 & st2 & E2 & _ & _).
    exists b, st'. split; [exact E|]. split; [split; [exact I'|rewrite (nr_keeps _ _ _ _ E); exact A6]|].
    exists st2. rewrite E2. f_equal. f_equal. symmetry. apply (nr_ask_same st (s, w) a b b2 st' st2); auto.
  - eauto.
Qed.
End Same.

Lemma pinv_repeats svd c w0 : chain_ok c -> repeats (ch_nj c) (fun w => pinv_ready c w /\ pinv_like w0 w) (pinv_CartToJnt svd c).
Proof.
  intros Hok w1 w2 q t d1 d2 (((C1 & J1) & F1 & _) & (A1 & B1)) (((C2 & J2) & F2 & _) & (A2 & B2)) Lq L1 L2.
  unfold pinv_CartToJnt. rewrite F1, F2, Lq, L1, L2, Nat.eqb_refl. cbn [negb orb]. rewrite C1, C2, F1, F2, !jac_now by (auto; lia). cbn [obind]. change (E_NOERROR <? 0)%Z with false. cbn match.
  rewrite A1, A2, B1, B2. destruct (negb _); [reflexivity|]. destruct (entries _ _ _); reflexivity.
Qed.
Lemma nso_repeats svd c w0 : chain_ok c -> repeats (ch_nj c) (fun w => nso_ready c w /\ nso_like w0 w) (nso_CartToJnt svd c).
Proof.
  intros Hok w1 w2 q t d1 d2 (((C1 & J1) & F1 & _ & O1 & W1) & (A1 & B1 & D1 & G1 & H1)) (((C2 & J2) & F2 & _ & O2 & W2) & (A2 & B2 & D2 & G2 & H2)) Lq L1 L2.
  unfold nso_CartToJnt. rewrite F1, F2, Lq, L1, L2, O1, O2, W1, W2, Nat.eqb_refl. cbn [negb orb]. rewrite C1, C2, F1, F2, !jac_now by (auto; lia). cbn [obind]. change (E_NOERROR <? 0)%Z with false. cbn match.
  rewrite A1, A2, B1, B2, D1, D2, G1, G2, H1, H2. destruct (negb _); [reflexivity|]. destruct (Nat.ltb _ 6); [reflexivity|]. destruct (entries _ _ _); [|reflexivity]. cbn [obind].
  destruct (Rgt_dec _ _); reflexivity.
Qed.
Lemma wdls_repeats svd c w0 : chain_ok c -> repeats (ch_nj c) (fun w => wdls_ready c w /\ wdls_like w0 w) (wdls_CartToJnt svd c).
Proof.
  intros Hok w1 w2 q t d1 d2 ((C1 & S1 & F1 & _ & _) & (A1 & B1 & D1 & G1 & H1)) ((C2 & S2 & F2 & _ & _) & (A2 & B2 & D2 & G2 & H2)) Lq L1 L2.
  destruct (wdls_head svd c w1 q t d1 Hok C1 S1) as (_ & _ & X1). destruct (wdls_head svd c w2 q t d2 Hok C2 S2) as (_ & _ & X2). cbv zeta in X1, X2.
  rewrite (X1 F1 (conj Lq L1)), (X2 F2 (conj Lq L2)).
  assert (EW : weighted_jac c q w1 = weighted_jac c q w2) by (unfold weighted_jac; rewrite A1, A2, B1, B2; reflexivity).
  rewrite EW, A1, A2, B1, B2, D1, D2, G1, G2, H1, H2. generalize (svd (wd_maxiter w0) (weighted_jac c q w2)). intros d. clear.
  destruct (Z.eqb (dc_rc d) 0); cbn [negb]; [|reflexivity]. destruct (Nat.ltb (ch_nj c) 6); [reflexivity|].
  destruct (entries _ _ _); reflexivity.
Qed.
