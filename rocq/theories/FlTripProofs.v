(** Inverse dynamics at rounded accelerations, and the round trip through forward dynamics. *)
From Coq Require Import Reals String List ZArith Bool Lra Lia.
From Flocq Require Import Core.
From Verif Require Import FramesModel Outcome InertiaModel InertiaSpec DualModel KinModel KinSpec LinModel LinSpec DynModel DynSpec RneProofs DynProofs FdProofs DynWitness
  FlModel FlJacModel FlRotModel FlDynModel FlMassModel FlSpec FlDynSpec FlMassSpec FlDynProofs FlDynMain FlDynFinal FlMassProofs FlFdProofs FlMassFinal.
Import ListNotations.
Local Open Scope list_scope.
Local Open Scope R_scope.

Section Mode.
Context {mo : mode}.
Lemma llin_length {A} (RA : (env -> A) -> A -> Prop) l' l : llin RA l' l -> forall e, length (l' e) = length l.
Proof. intros (L & E & H) e. rewrite E, map_length. apply (Forall2_len _ _ _ H). Qed.
Definition rowlin (s' : env -> R * R * R * nat) (s : R * R * R * nat) : Prop :=
  exists x xd d' d j, (forall e, s' e = (x, xd, d' e, j)) /\ s = (x, xd, d, j) /\ lin d' d.

Lemma fwd_lin_v c ag q qd qdd' qdd fext i s' s : llin lin qdd' qdd -> swlin s' s ->
  olin swlin (fun e => fl_rne_fwd_body (e_rnd e) (e_sin e) (e_cos e) c ag q qd (qdd' e) fext i (s' e)) (rne_fwd_body c ag q qd qdd fext i s).
Proof.
  intros HQ (Hj & HX & HS & Hv & Ha & Hf). unfold fl_rne_fwd_body, rne_fwd_body.
  apply olin_ext with (G := fun e => fl_rne_fwd_body (e_rnd e) (e_sin e) (e_cos e) c ag q qd (qdd' e) fext i
    (mkSw (sw_j s) (sw_X (s' e)) (sw_S (s' e)) (sw_v (s' e)) (sw_a (s' e)) (sw_f (s' e)))).
  { intros e. rewrite <- (Hj e). destruct (s' e). reflexivity. }
  unfold fl_rne_fwd_body. cbn [sw_j sw_X sw_S sw_v sw_a sw_f].
  apply olin_same. intros sg. apply (olin_bind rowlin).
  { destruct (moving sg).
    - apply olin_same. intros x. apply olin_same. intros xd. apply (olin_bind lin); [apply olin_aget, HQ|]. intros d' d Hd.
      apply (olin_ret rowlin (fun e => (x, xd, d' e, S (sw_j s)))). exists x, xd, d', d, (S (sw_j s)). auto.
    - apply (olin_ret rowlin (fun _ => (0, 0, 0, sw_j s))). exists 0, 0, (fun _ => 0), 0, (sw_j s). split; [reflexivity|]. split; [reflexivity|apply lin_const]. }
  intros r' r (x & xd & xdd' & xdd & j' & Er & -> & Hxdd). eapply olin_ext; [intros e; rewrite Er; reflexivity|]. cbv beta iota.
  apply (olin_bind (llin flin)); [apply olin_aset; [exact HX|apply l_segment_pose]|]. intros Xs' Xs HXs.
  apply (olin_bind flin); [apply olin_aget, HXs|]. intros Xi' Xi HXi. cbv zeta.
  apply (olin_bind (llin tlin)); [apply olin_aset; [exact HS|apply l_r_invapp_t; [exact (proj1 HXi)|apply l_segment_twist]]|]. intros Ss' Ss HSs.
  apply (olin_bind tlin); [apply olin_aget, HSs|]. intros Si' Si HSi.
  assert (Hvj : tlin (fun e => fl_r_invapp_t (e_rnd e) (fM (Xi' e)) (fl_segment_twist (e_rnd e) (e_sin e) (e_cos e) sg x xd)) (r_invapp_t (fM Xi) (segment_twist sg x xd)))
    by (apply l_r_invapp_t; [exact (proj1 HXi)|apply l_segment_twist]).
  apply (olin_bind (pairlin (llin tlin) (llin tlin))).
  { destruct (Nat.eqb i 0).
    - apply (olin_bind (llin tlin)); [apply olin_aset; [exact Hv|exact Hvj]|]. intros vs' vs Hvs.
      apply (olin_bind tlin); [apply olin_aget, Hvs|]. intros vi' vi Hvi.
      apply (olin_bind (llin tlin)); [apply olin_aset; [exact Ha|]|].
      + apply l_t_add; [apply l_t_add; [apply (l_f_invapp_t _ _ (fun _ => ag)); [exact HXi|apply tlin_const]|apply (l_t_scale _ _ xdd'); [exact HSi|exact Hxdd]]|].
        apply l_t_cross; [exact Hvi|exact Hvj].
      + intros as' as_ Has. apply (olin_ret _ (fun e => (vs' e, as' e))). split; assumption.
    - apply (olin_bind tlin); [apply olin_aget, Hv|]. intros vp' vp Hvp.
      apply (olin_bind (llin tlin)); [apply olin_aset; [exact Hv|apply l_t_add; [apply l_f_invapp_t; assumption|exact Hvj]]|]. intros vs' vs Hvs.
      apply (olin_bind tlin); [apply olin_aget, Hvs|]. intros vi' vi Hvi.
      apply (olin_bind tlin); [apply olin_aget, Ha|]. intros ap' ap Hap.
      apply (olin_bind (llin tlin)); [apply olin_aset; [exact Ha|]|].
      + apply l_t_add; [apply l_t_add; [apply l_f_invapp_t; assumption|apply (l_t_scale _ _ xdd'); [exact HSi|exact Hxdd]]|].
        apply l_t_cross; [exact Hvi|exact Hvj].
      + intros as' as_ Has. apply (olin_ret _ (fun e => (vs' e, as' e))). split; assumption. }
  intros va' [vs as_] [Hvs Has]. cbn [fst snd] in Hvs, Has.
  eapply olin_ext; [intros e; rewrite (surjective_pairing (va' e)); reflexivity|]. cbv beta iota.
  apply (olin_bind tlin); [apply olin_aget, Hvs|]. intros vi' vi Hvi.
  apply (olin_bind tlin); [apply olin_aget, Has|]. intros ai' ai Hai.
  apply olin_same. intros fe.
  apply (olin_bind (llin wlin)); [apply olin_aset; [exact Hf|]|].
  - apply (l_w_sub _ _ (fun _ => fe)); [apply l_w_add; [apply l_rb_app, Hai|apply l_tw_cross; [exact Hvi|apply l_rb_app, Hvi]]|apply wlin_const].
  - intros fs' fs Hfs. apply (olin_ret _ (fun e => mkSw j' (Xs' e) (Ss' e) (fst (va' e)) (snd (va' e)) (fs' e))).
    repeat split; cbn [sw_j sw_X sw_S sw_v sw_a sw_f]; assumption.
Qed.

Lemma bwd_lin_v c n Xs' Xs Ss' Ss qdd' qdd i s' s : llin lin qdd' qdd -> llin flin Xs' Xs -> llin tlin Ss' Ss -> bwlin s' s ->
  olin bwlin (fun e => fl_rne_bwd_body (e_rnd e) c n (Xs' e) (Ss' e) (qdd' e) i (s' e)) (rne_bwd_body c n Xs Ss qdd i s).
Proof.
  intros HQ HX HS (j & fs' & fs & tau' & tau & E & -> & Hf & Ht).
  apply olin_ext with (G := fun e => fl_rne_bwd_body (e_rnd e) c n (Xs' e) (Ss' e) (qdd' e) i (j, fs' e, tau' e)).
  { intros e. rewrite E. reflexivity. }
  unfold fl_rne_bwd_body, rne_bwd_body. cbv zeta beta iota.
  apply olin_same. intros sg.
  apply (olin_bind jtlin).
  { destruct (moving sg).
    - apply (olin_bind tlin); [apply olin_aget, HS|]. intros Si' Si HSi.
      apply (olin_bind wlin); [apply olin_aget, Hf|]. intros fi' fi Hfi.
      apply (olin_bind (llin lin)); [apply olin_zaset; [exact Ht|apply l_tw_dot; assumption]|]. intros t1' t1 Ht1.
      apply (olin_bind lin); [apply olin_zaget, Ht1|]. intros x' x Hx.
      apply (olin_bind lin); [apply olin_zaget, HQ|]. intros xdd' xdd Hxdd.
      apply (olin_bind (llin lin)); [apply olin_zaset; [exact Ht1|]|].
      + apply lin_rnd, lin_add; [exact Hx|]. apply lin_rnd, lin_mul; [apply lin_const|exact Hxdd].
      + intros t2' t2 Ht2. apply (olin_ret _ (fun e => ((j - 1)%Z, t2' e))). exists (j - 1)%Z, t2', t2. auto.
    - apply (olin_ret _ (fun e => (j, tau' e))). exists j, tau', tau. auto. }
  intros r' r (j1 & t1' & t1 & Er & -> & Ht1).
  eapply olin_ext; [intros e; rewrite Er; reflexivity|]. cbv beta iota.
  destruct (Nat.eqb (n - 1 - i) 0).
  - apply (olin_ret _ (fun e => (j1, fs' e, t1' e))). exists j1, fs', fs, t1', t1. auto.
  - apply (olin_bind wlin); [apply olin_aget, Hf|]. intros fp' fp Hfp.
    apply (olin_bind flin); [apply olin_aget, HX|]. intros Xi' Xi HXi.
    apply (olin_bind wlin); [apply olin_aget, Hf|]. intros fi' fi Hfi.
    apply (olin_bind (llin wlin)); [apply olin_aset; [exact Hf|apply l_w_add; [exact Hfp|apply l_f_app_w; assumption]]|].
    intros f2' f2 Hf2. apply (olin_ret _ (fun e => (j1, f2' e, t1' e))). exists j1, f2', f2, t1', t1. auto.
Qed.

Theorem rne_lin_v c st q qd qdd' qdd fext tau : llin lin qdd' qdd ->
  olin jtlin (fun e => fl_rne_CartToJnt (e_rnd e) (e_sin e) (e_cos e) c st q qd (qdd' e) fext tau) (rne_CartToJnt c st q qd qdd fext tau).
Proof.
  intros HQ. unfold fl_rne_CartToJnt, rne_CartToJnt.
  assert (C : forall z, jtlin (fun _ => (z, tau)) (z, tau)).
  { intros z. exists z, (fun _ => tau), tau. repeat split. apply llin_const, lin_const. }
  eapply olin_ext; [intros e; rewrite (llin_length lin qdd' qdd HQ e); reflexivity|].
  destruct (_ || _)%bool; [apply (olin_ret jtlin (fun _ => (E_NOT_UP_TO_DATE, tau))), C|].
  destruct (negb _); [apply (olin_ret jtlin (fun _ => (E_SIZE_MISMATCH, tau))), C|]. cbv zeta.
  apply (olin_bind swlin).
  { apply (olin_loop swlin (fun e => fl_rne_fwd_body (e_rnd e) (e_sin e) (e_cos e) c (rn_ag st) q qd (qdd' e) fext)
      (rne_fwd_body c (rn_ag st) q qd qdd fext) (rn_ns st) (fun i s' s H => fwd_lin_v c (rn_ag st) q qd qdd' qdd fext i s' s HQ H) 0%nat
      (fun _ => mkSw 0 (repeat f_id (rn_ns st)) (repeat t_zero (rn_ns st)) (repeat t_zero (rn_ns st)) (repeat t_zero (rn_ns st)) (repeat w_zero (rn_ns st)))).
    repeat split; cbn [sw_j sw_X sw_S sw_v sw_a sw_f]; apply llin_const; auto using flin_const, tlin_const, wlin_const. }
  intros sw' sw (Hj & HX & HS & Hv & Ha & Hf).
  apply (olin_bind bwlin).
  { apply (olin_loop bwlin (fun e => fl_rne_bwd_body (e_rnd e) c (rn_ns st) (sw_X (sw' e)) (sw_S (sw' e)) (qdd' e))
      (rne_bwd_body c (rn_ns st) (sw_X sw) (sw_S sw) qdd) (rn_ns st)
      (fun i s' s H => bwd_lin_v c (rn_ns st) _ _ _ _ qdd' qdd i s' s HQ HX HS H) 0%nat
      (fun e => ((Z.of_nat (rn_nj st) - 1)%Z, sw_f (sw' e), tau))).
    exists (Z.of_nat (rn_nj st) - 1)%Z, (fun e => sw_f (sw' e)), (sw_f sw), (fun _ => tau), tau. repeat split; auto. apply llin_const, lin_const. }
  intros r' r (j & fs' & fs & t' & t & E & -> & _ & Ht).
  eapply olin_ext; [intros e; rewrite E; reflexivity|]. cbv beta iota.
  apply (olin_ret jtlin (fun e => (E_NOERROR, t' e))). exists E_NOERROR, t', t. auto.
Qed.

End Mode.

Theorem round_trip g c0 c st rs q qd tau fext qdd tau0 ds H M : chain_ok c0 -> fd_reach g c0 c st -> same_counts c0 c -> fd_current c st ->
  inertias_symmetric c -> rne_reach g c rs -> rne_current c rs -> dyn_reach g c ds -> dyn_current c ds -> mrows H = ch_nj c -> mcols H = ch_nj c ->
  length q = ch_nj c -> length qd = ch_nj c -> length tau = ch_nj c -> length qdd = ch_nj c -> length fext = ch_ns c -> length tau0 = ch_nj c ->
  dyn_JntToMass c ds q H = Ret (E_NOERROR, M) -> pivots_ok (ch_nj c) (mentry M) ->
  exists K e0, 0 <= K /\ 0 < e0 /\ forall eps rnd fsin fcos, arithmetic eps rnd fsin fcos -> eps <= e0 ->
    exists out' T', fl_fd_CartToJnt rnd fsin fcos c st q qd tau fext qdd = Ret (E_NOERROR, out') /\
      fl_rne_CartToJnt rnd fsin fcos c rs q qd out' fext tau0 = Ret (E_NOERROR, T') /\ within (K * eps) T' tau.
Proof.
  intros H0 Fr Sc Cu Sy Rr Rc Dr Dc R1 R2 Hq Hqd Ht Hqdd Hf Ht0 EM Pv.
  destruct (fd_then_id g c0 c st rs q qd tau fext qdd tau0 ds H M H0 Fr Sc Cu Sy Rr Rc Dr Dc R1 R2 Hq Hqd Ht Hqdd Hf Ht0 EM Pv) as (out & st' & EO & _ & ET & _).
  destruct (fd_reach_inv g c0 c st H0 Fr) as [Iv Hok]. pose proof Sc as [N1 N2]. pose proof Iv as (_ & _ & B1 & B2 & _). rewrite N1 in B1, B2.
  destruct (fd_result g c0 c st q qd tau fext qdd Hok Sc Iv Cu Hq Hqd Ht Hqdd Hf) as (_ & _ & M2 & _ & _ & _ & _ & _ & EM2 & _).
  assert (P2 : pivots_ok (ch_nj c) (mentry M2)).
  { apply (pivots_ext _ (mentry M)); [|exact Pv].
    apply (mass_same g c ds (dyn_make c0 g) q H (fd_H st) M M2 Hok Sy Dr Dc (proj1 (same_counts_reach g c0 c))); auto. }
  destruct (fd_lin g c0 c st q qd (fun _ => tau) tau fext qdd M2 Hok Sc Iv Cu (llin_const lin tau lin_const) Hq Hqd Ht Hqdd Hf EM2 P2) as (out2 & st2 & x' & EO2 & Hx & EX).
  rewrite EO in EO2. injection EO2 as <- <-.
  pose proof (rne_lin_v c rs q qd x' out fext tau0 Hx) as OT. rewrite ET in OT. destruct OT as (t' & Et & (z & T' & T & Et' & X & HT)). injection X as <- <-.
  destruct (llin_bound _ _ HT) as (K & d & K0 & D & HK). cbn in D. exists K, d. split; [exact K0|]. split; [exact D|].
  intros eps rnd fsin fcos ([e0 e1] & Q1 & Q2 & Q3) Le. pose (e := mkEnv eps rnd fsin fcos e0 e1 Q1 Q2 Q3).
  exists (x' e), (T' e). split; [apply (EX e)|]. split; [|apply (HK e Le)]. rewrite <- Et'. apply (Et e).
Qed.

(** The other way round: the accelerations come back from the torques computed for them. *)
Theorem trip_back g c0 c st rs q qd a fext qdd tau0 ds H M : chain_ok c0 -> fd_reach g c0 c st -> same_counts c0 c -> fd_current c st ->
  inertias_symmetric c -> rne_reach g c rs -> rne_current c rs -> dyn_reach g c ds -> dyn_current c ds -> mrows H = ch_nj c -> mcols H = ch_nj c ->
  length q = ch_nj c -> length qd = ch_nj c -> length a = ch_nj c -> length qdd = ch_nj c -> length fext = ch_ns c -> length tau0 = ch_nj c ->
  dyn_JntToMass c ds q H = Ret (E_NOERROR, M) -> pivots_ok (ch_nj c) (mentry M) ->
  exists K e0, 0 <= K /\ 0 < e0 /\ forall eps rnd fsin fcos, arithmetic eps rnd fsin fcos -> eps <= e0 ->
    exists T' out', fl_rne_CartToJnt rnd fsin fcos c rs q qd a fext tau0 = Ret (E_NOERROR, T') /\
      fl_fd_CartToJnt rnd fsin fcos c st q qd T' fext qdd = Ret (E_NOERROR, out') /\ within (K * eps) out' a.
Proof.
  intros H0 Fr Sc Cu Sy Rr Rc Dr Dc R1 R2 Hq Hqd Ha Hqdd Hf Ht0 EM Pv.
  destruct (fd_reach_inv g c0 c st H0 Fr) as [Iv Hok]. pose proof Sc as [N1 N2]. pose proof Iv as (_ & _ & B1 & B2 & _). rewrite N1 in B1, B2.
  destruct (rne_result c rs q qd a fext tau0 Hok Rc Hq Hqd Ha Ht0 Hf) as (T & ET & LT & _).
  destruct (fd_then_id g c0 c st rs q qd T fext qdd tau0 ds H M H0 Fr Sc Cu Sy Rr Rc Dr Dc R1 R2 Hq Hqd LT Hqdd Hf Ht0 EM Pv) as (out & st' & EO & _ & _ & U).
  specialize (U a Ha ET). subst out.
  destruct (fd_result g c0 c st q qd T fext qdd Hok Sc Iv Cu Hq Hqd LT Hqdd Hf) as (_ & _ & M2 & _ & _ & _ & _ & _ & EM2 & _).
  assert (P2 : pivots_ok (ch_nj c) (mentry M2)).
  { apply (pivots_ext _ (mentry M)); [|exact Pv].
    apply (mass_same g c ds (dyn_make c0 g) q H (fd_H st) M M2 Hok Sy Dr Dc (proj1 (same_counts_reach g c0 c))); auto. }
  pose proof (rne_lin c rs q qd a fext tau0) as OT. rewrite ET in OT. destruct OT as (t' & Et & (z & T' & T1 & Et' & X & HT)). injection X as <- <-.
  destruct (fd_lin g c0 c st q qd T' T fext qdd M2 Hok Sc Iv Cu HT Hq Hqd LT Hqdd Hf EM2 P2) as (out2 & st2 & x' & EO2 & Hx & EX).
  rewrite EO in EO2. injection EO2 as <- <-.
  destruct (llin_bound _ _ Hx) as (K & d & K0 & D & HK). cbn in D. exists K, d. split; [exact K0|]. split; [exact D|].
  intros eps rnd fsin fcos ([e0 e1] & Q1 & Q2 & Q3) Le. pose (e := mkEnv eps rnd fsin fcos e0 e1 Q1 Q2 Q3).
  exists (T' e), (x' e). split; [rewrite <- Et'; apply (Et e)|]. split; [apply (EX e)|apply (HK e Le)].
Qed.
