(** Simulation of a chain in rounded arithmetic: all the arguments of the solvers carry errors. *)
From Coq Require Import Reals String List ZArith Bool Lra Lia.
From Verif Require Import FramesModel Outcome LoopProofs InertiaModel InertiaSpec DualModel KinModel KinSpec LinModel LinSpec SumProofs LdlProofs DynModel DynSpec RneProofs MassProofs DynProofs FdProofs
  FlModel FlJacModel FlRotModel FlDynModel FlMassModel FlSpec FlDynProofs FlDynMain FlMassProofs FlFdProofs FlTripProofs FlSimModel FlSimSpec.
Import ListNotations.
Local Open Scope list_scope.
Local Open Scope R_scope.

Section Mode.
Context {mo : mode}.
Ltac lin1 := first [assumption | apply lin_const | apply lin_rnd | apply lin_add | apply lin_sub | apply lin_mul | apply lin_opp | apply lin_cos | apply lin_sin].
Ltac linop := intros; unfold flin, tlin, wlin, rlin, vlin, fl_dot3 in *;
  cbn [vx vy vz r0 r1 r2 r3 r4 r5 r6 r7 r8 fM fp tvel trot wforce wtorque] in *;
  repeat match goal with H : _ /\ _ |- _ => destruct H end;
  repeat match goal with |- _ /\ _ => split end; repeat lin1.

Lemma l_joint_pose_v j q' q : lin q' q -> flin (fun e => fl_joint_pose (e_rnd e) (e_sin e) (e_cos e) j (q' e)) (joint_pose j q).
Proof.
  intros HQ. unfold fl_joint_pose, joint_pose. cbv zeta.
  assert (L : lin (fun e => e_rnd e (e_rnd e (jscale j * q' e) + joffset j)) (jscale j * q + joffset j)) by (repeat lin1).
  destruct (jtype j).
  - split; cbn [fM fp]; [apply l_Rot2, L|apply vlin_const].
  - unfold f_of_rot, fl_RotX, r_RotX, v_zero. cbv zeta. linop.
  - unfold f_of_rot, fl_RotY, r_RotY, v_zero. cbv zeta. linop.
  - unfold f_of_rot, fl_RotZ, r_RotZ, v_zero. cbv zeta. linop.
  - unfold f_of_vec. split; cbn [fM fp]; [apply rlin_const|]. apply (l_v_add (fun _ => jorigin j)); [apply vlin_const|].
    apply (l_v_scale (fun _ => jaxis j)); [apply vlin_const|exact L].
  - unfold f_of_vec, r_id. linop.
  - unfold f_of_vec, r_id. linop.
  - unfold f_of_vec, r_id. linop.
  - apply flin_const.
Qed.
Lemma l_joint_twist_v j qd' qd : lin qd' qd -> tlin (fun e => fl_joint_twist (e_rnd e) j (qd' e)) (joint_twist j qd).
Proof.
  intros HQ. unfold fl_joint_twist, joint_twist. cbv zeta.
  assert (L : lin (fun e => e_rnd e (jscale j * qd' e)) (jscale j * qd)) by (repeat lin1).
  destruct (jtype j); unfold t_zero, v_zero; linop.
Qed.
Lemma l_segment_pose_v s q' q : lin q' q -> flin (fun e => fl_segment_pose (e_rnd e) (e_sin e) (e_cos e) s (q' e)) (segment_pose s q).
Proof. intros HQ. unfold fl_segment_pose, segment_pose. apply (l_f_mul _ _ (fun _ => sf_tip s)); [apply l_joint_pose_v, HQ|apply flin_const]. Qed.
Lemma l_segment_twist_v s q' q qd' qd : lin q' q -> lin qd' qd -> tlin (fun e => fl_segment_twist (e_rnd e) (e_sin e) (e_cos e) s (q' e) (qd' e)) (segment_twist s q qd).
Proof.
  intros HQ HQd. unfold fl_segment_twist, segment_twist. apply l_t_RefPoint; [apply l_joint_twist_v, HQd|].
  apply (l_r_app _ _ (fun _ => fp (sf_tip s))); [|apply vlin_const]. exact (proj1 (l_joint_pose_v (sjoint s) q' q HQ)).
Qed.

Definition xklin (s' : env -> R * nat) (s : R * nat) : Prop := exists x' x k, (forall e, s' e = (x' e, k)) /\ s = (x, k) /\ lin x' x.
Lemma mass_fwd_lin_v c q' q i s' s : llin lin q' q -> mflin s' s ->
  olin mflin (fun e => fl_mass_fwd_body (e_rnd e) (e_sin e) (e_cos e) c (q' e) i (s' e)) (mass_fwd_body c q i s).
Proof.
  intros HQ (k & Is' & Is & Xs' & Xs & Ss' & Ss & E & -> & HI & HX & HS).
  apply olin_ext with (G := fun e => fl_mass_fwd_body (e_rnd e) (e_sin e) (e_cos e) c (q' e) i (k, Is' e, Xs' e, Ss' e)).
  { intros e. rewrite E. reflexivity. }
  unfold fl_mass_fwd_body, mass_fwd_body. cbv beta iota. apply olin_same. intros sg.
  apply (olin_bind (llin ablin)); [apply olin_aset; [exact HI|apply l_ab_of_rb]|]. intros I2' I2 HI2.
  apply (olin_bind xklin).
  { destruct (moving sg).
    - apply (olin_bind lin); [apply olin_aget, HQ|]. intros x' x Hx. apply (olin_ret xklin (fun e => (x' e, S k))). exists x', x, (S k). auto.
    - apply (olin_ret xklin (fun _ => (0, k))). exists (fun _ => 0), 0, k. split; [reflexivity|]. split; [reflexivity|apply lin_const]. }
  intros r' r (x' & x & k' & Er & -> & Hx). eapply olin_ext; [intros e; rewrite Er; reflexivity|]. cbv beta iota.
  apply (olin_bind (llin flin)); [apply olin_aset; [exact HX|apply l_segment_pose_v, Hx]|]. intros X2' X2 HX2.
  apply (olin_bind flin); [apply olin_aget, HX2|]. intros Xi' Xi HXi.
  apply (olin_bind (llin tlin)); [apply olin_aset; [exact HS|apply l_r_invapp_t; [exact (proj1 HXi)|apply (l_segment_twist_v sg x' x (fun _ => 1) 1); [exact Hx|apply lin_const]]]|]. intros S2' S2 HS2.
  apply (olin_ret mflin (fun e => (k', I2' e, X2' e, S2' e))). exists k', I2', I2, X2', X2, S2', S2. auto.
Qed.
Theorem mass_lin_v c st q' q H : llin lin q' q -> olin zmlin (fun e => fl_dyn_JntToMass (e_rnd e) (e_sin e) (e_cos e) c st (q' e) H) (dyn_JntToMass c st q H).
Proof.
  intros HQ. unfold fl_dyn_JntToMass, dyn_JntToMass.
  assert (C : forall z, zmlin (fun _ => (z, H)) (z, H)) by (intros z; exists z, (fun _ => H), H; repeat split; intros; apply lin_const).
  eapply olin_ext; [intros e; rewrite (llin_length lin q' q HQ e); reflexivity|].
  destruct (_ || _)%bool; [apply (olin_ret zmlin (fun _ => (E_NOT_UP_TO_DATE, H))), C|].
  destruct (negb _); [apply (olin_ret zmlin (fun _ => (E_SIZE_MISMATCH, H))), C|]. cbv zeta.
  apply (olin_bind mflin).
  { apply (olin_loop mflin (fun e => fl_mass_fwd_body (e_rnd e) (e_sin e) (e_cos e) c (q' e)) (mass_fwd_body c q) (dp_ns st)
      (fun i s' s K => mass_fwd_lin_v c q' q i s' s HQ K) 0%nat (fun _ => (0%nat, repeat ab_zero (dp_ns st), repeat f_id (dp_ns st), repeat t_zero (dp_ns st)))).
    do 7 eexists. split; [intros e; reflexivity|]. split; [reflexivity|]. split; [|split]; apply llin_const; auto using ablin_const, flin_const, tlin_const. }
  intros r' r (k & Is' & Is & Xs' & Xs & Ss' & Ss & E & -> & HI & HX & HS).
  eapply olin_ext; [intros e; rewrite E; reflexivity|]. cbv beta iota.
  apply (olin_bind mblin).
  { apply (olin_loop mblin (fun e => fl_mass_bwd_body (e_rnd e) c (dp_ns st) (Xs' e) (Ss' e)) (mass_bwd_body c (dp_ns st) Xs Ss) (dp_ns st)
      (fun i s' s K => mass_bwd_lin c (dp_ns st) _ _ _ _ i s' s HX HS K) 0%nat (fun e => ((Z.of_nat (dp_nj st) - 1)%Z, Is' e, H))).
    exists (Z.of_nat (dp_nj st) - 1)%Z, Is', Is, (fun _ => H), H. split; [reflexivity|]. split; [reflexivity|]. split; [exact HI|apply mlin_const]. }
  intros r2' r2 (k2 & I2' & I2 & H2' & H2 & E2 & -> & _ & HH).
  eapply olin_ext; [intros e; rewrite E2; reflexivity|]. cbv beta iota.
  apply (olin_ret zmlin (fun e => (E_NOERROR, H2' e))). exists E_NOERROR, H2', H2. auto.
Qed.

Definition row3lin (s' : env -> R * R * R * nat) (s : R * R * R * nat) : Prop :=
  exists x' x v' v d' d j, (forall e, s' e = (x' e, v' e, d' e, j)) /\ s = (x, v, d, j) /\ lin x' x /\ lin v' v /\ lin d' d.
Lemma fwd_lin_w c ag q' q qd' qd qdd' qdd fext i s' s : llin lin q' q -> llin lin qd' qd -> llin lin qdd' qdd -> swlin s' s ->
  olin swlin (fun e => fl_rne_fwd_body (e_rnd e) (e_sin e) (e_cos e) c ag (q' e) (qd' e) (qdd' e) fext i (s' e)) (rne_fwd_body c ag q qd qdd fext i s).
Proof.
  intros HP HV HQ (Hj & HX & HS & Hv & Ha & Hf). unfold fl_rne_fwd_body, rne_fwd_body.
  apply olin_ext with (G := fun e => fl_rne_fwd_body (e_rnd e) (e_sin e) (e_cos e) c ag (q' e) (qd' e) (qdd' e) fext i
    (mkSw (sw_j s) (sw_X (s' e)) (sw_S (s' e)) (sw_v (s' e)) (sw_a (s' e)) (sw_f (s' e)))).
  { intros e. rewrite <- (Hj e). destruct (s' e). reflexivity. }
  unfold fl_rne_fwd_body. cbn [sw_j sw_X sw_S sw_v sw_a sw_f].
  apply olin_same. intros sg. apply (olin_bind row3lin).
  { destruct (moving sg).
    - apply (olin_bind lin); [apply olin_aget, HP|]. intros x' x Hx. apply (olin_bind lin); [apply olin_aget, HV|]. intros v' v Hv0. apply (olin_bind lin); [apply olin_aget, HQ|]. intros d' d Hd.
      apply (olin_ret row3lin (fun e => (x' e, v' e, d' e, S (sw_j s)))). exists x', x, v', v, d', d, (S (sw_j s)). auto 6.
    - apply (olin_ret row3lin (fun _ => (0, 0, 0, sw_j s))). exists (fun _ => 0), 0, (fun _ => 0), 0, (fun _ => 0), 0, (sw_j s). split; [reflexivity|]. split; [reflexivity|]. split; [|split]; apply lin_const. }
  intros r' r (x' & x & xd' & xd & xdd' & xdd & j' & Er & -> & Hx & Hxd & Hxdd). eapply olin_ext; [intros e; rewrite Er; reflexivity|]. cbv beta iota.
  apply (olin_bind (llin flin)); [apply olin_aset; [exact HX|apply l_segment_pose_v, Hx]|]. intros Xs' Xs HXs.
  apply (olin_bind flin); [apply olin_aget, HXs|]. intros Xi' Xi HXi. cbv zeta.
  apply (olin_bind (llin tlin)); [apply olin_aset; [exact HS|apply l_r_invapp_t; [exact (proj1 HXi)|apply (l_segment_twist_v sg x' x (fun _ => 1) 1); [exact Hx|apply lin_const]]]|]. intros Ss' Ss HSs.
  apply (olin_bind tlin); [apply olin_aget, HSs|]. intros Si' Si HSi.
  assert (Hvj : tlin (fun e => fl_r_invapp_t (e_rnd e) (fM (Xi' e)) (fl_segment_twist (e_rnd e) (e_sin e) (e_cos e) sg (x' e) (xd' e))) (r_invapp_t (fM Xi) (segment_twist sg x xd)))
    by (apply l_r_invapp_t; [exact (proj1 HXi)|apply l_segment_twist_v; assumption]).
  apply (olin_bind (pairlin (llin tlin) (llin tlin))).
  { destruct (Nat.eqb i 0).
    - apply (olin_bind (llin tlin)); [apply olin_aset; [exact Hv|exact Hvj]|]. intros vs' vs Hvs.
      apply (olin_bind tlin); [apply olin_aget, Hvs|]. intros vi' vi Hvi.
      apply (olin_bind (llin tlin)); [apply olin_aset; [exact Ha|]|].
      + apply l_t_add; [apply l_t_add; [apply (l_f_invapp_t _ _ (fun _ => ag)); [exact HXi|apply tlin_const]|apply (l_t_scale _ _ xdd'); [exact HSi|exact Hxdd]]|].
        apply l_t_cross; [exact Hvi|exact Hvj].
      + intros as' as_ Has. apply (olin_ret _ (fun e => (vs' e, as' e))). split; assumption.
    - apply (olin_bind tlin); [apply olin_aget, Hv|]. intros vp' vp Hvp.
      apply (olin_bind (llin tlin)); [apply olin_aset; [exact Hv|apply l_t_add; [apply l_f_invapp_t; assumption|exact Hvj]]|]. intros vs' vs Hvs.
      apply (olin_bind tlin); [apply olin_aget, Hvs|]. intros vi' vi Hvi.
      apply (olin_bind tlin); [apply olin_aget, Ha|]. intros ap' ap Hap.
      apply (olin_bind (llin tlin)); [apply olin_aset; [exact Ha|]|].
      + apply l_t_add; [apply l_t_add; [apply l_f_invapp_t; assumption|apply (l_t_scale _ _ xdd'); [exact HSi|exact Hxdd]]|].
        apply l_t_cross; [exact Hvi|exact Hvj].
      + intros as' as_ Has. apply (olin_ret _ (fun e => (vs' e, as' e))). split; assumption. }
  intros va' [vs as_] [Hvs Has]. cbn [fst snd] in Hvs, Has.
  eapply olin_ext; [intros e; rewrite (surjective_pairing (va' e)); reflexivity|]. cbv beta iota.
  apply (olin_bind tlin); [apply olin_aget, Hvs|]. intros vi' vi Hvi.
  apply (olin_bind tlin); [apply olin_aget, Has|]. intros ai' ai Hai.
  apply olin_same. intros fe.
  apply (olin_bind (llin wlin)); [apply olin_aset; [exact Hf|]|].
  - apply (l_w_sub _ _ (fun _ => fe)); [apply l_w_add; [apply l_rb_app, Hai|apply l_tw_cross; [exact Hvi|apply l_rb_app, Hvi]]|apply wlin_const].
  - intros fs' fs Hfs. apply (olin_ret _ (fun e => mkSw j' (Xs' e) (Ss' e) (fst (va' e)) (snd (va' e)) (fs' e))).
    repeat split; cbn [sw_j sw_X sw_S sw_v sw_a sw_f]; assumption.
Qed.

Theorem rne_lin_w c st q' q qd' qd qdd' qdd fext tau : llin lin q' q -> llin lin qd' qd -> llin lin qdd' qdd ->
  olin jtlin (fun e => fl_rne_CartToJnt (e_rnd e) (e_sin e) (e_cos e) c st (q' e) (qd' e) (qdd' e) fext tau) (rne_CartToJnt c st q qd qdd fext tau).
Proof.
  intros HP HV HQ. unfold fl_rne_CartToJnt, rne_CartToJnt.
  assert (C : forall z, jtlin (fun _ => (z, tau)) (z, tau)).
  { intros z. exists z, (fun _ => tau), tau. repeat split. apply llin_const, lin_const. }
  eapply olin_ext; [intros e; rewrite (llin_length lin q' q HP e), (llin_length lin qd' qd HV e), (llin_length lin qdd' qdd HQ e); reflexivity|].
  destruct (_ || _)%bool; [apply (olin_ret jtlin (fun _ => (E_NOT_UP_TO_DATE, tau))), C|].
  destruct (negb _); [apply (olin_ret jtlin (fun _ => (E_SIZE_MISMATCH, tau))), C|]. cbv zeta.
  apply (olin_bind swlin).
  { apply (olin_loop swlin (fun e => fl_rne_fwd_body (e_rnd e) (e_sin e) (e_cos e) c (rn_ag st) (q' e) (qd' e) (qdd' e) fext)
      (rne_fwd_body c (rn_ag st) q qd qdd fext) (rn_ns st) (fun i s' s H => fwd_lin_w c (rn_ag st) q' q qd' qd qdd' qdd fext i s' s HP HV HQ H) 0%nat
      (fun _ => mkSw 0 (repeat f_id (rn_ns st)) (repeat t_zero (rn_ns st)) (repeat t_zero (rn_ns st)) (repeat t_zero (rn_ns st)) (repeat w_zero (rn_ns st)))).
    repeat split; cbn [sw_j sw_X sw_S sw_v sw_a sw_f]; apply llin_const; auto using flin_const, tlin_const, wlin_const. }
  intros sw' sw (Hj & HX & HS & Hv & Ha & Hf).
  apply (olin_bind bwlin).
  { apply (olin_loop bwlin (fun e => fl_rne_bwd_body (e_rnd e) c (rn_ns st) (sw_X (sw' e)) (sw_S (sw' e)) (qdd' e))
      (rne_bwd_body c (rn_ns st) (sw_X sw) (sw_S sw) qdd) (rn_ns st)
      (fun i s' s H => bwd_lin_v c (rn_ns st) _ _ _ _ qdd' qdd i s' s HQ HX HS H) 0%nat
      (fun e => ((Z.of_nat (rn_nj st) - 1)%Z, sw_f (sw' e), tau))).
    exists (Z.of_nat (rn_nj st) - 1)%Z, (fun e => sw_f (sw' e)), (sw_f sw), (fun _ => tau), tau. repeat split; auto. apply llin_const, lin_const. }
  intros r' r (j & fs' & fs & t' & t & E & -> & _ & Ht).
  eapply olin_ext; [intros e; rewrite E; reflexivity|]. cbv beta iota.
  apply (olin_ret jtlin (fun e => (E_NOERROR, t' e))). exists E_NOERROR, t', t. auto.
Qed.

End Mode.

Theorem fd_lin_v g c0 c st q' q qd' qd tau' tau fext qdd' qdd M : chain_ok c -> same_counts c0 c -> fd_inv g c0 st -> fd_current c st -> llin lin q' q -> llin lin qd' qd -> llin lin tau' tau -> (forall e, length (qdd' e) = length qdd) ->
  length q = ch_nj c -> length qd = ch_nj c -> length tau = ch_nj c -> length qdd = ch_nj c -> length fext = ch_ns c ->
  dyn_JntToMass c (dyn_make c0 g) q (fd_H st) = Ret (E_NOERROR, M) -> pivots_ok (ch_nj c) (mentry M) ->
  exists out st' x', fd_CartToJnt c st q qd tau fext qdd = Ret (E_NOERROR, out, st') /\ llin lin x' out /\ length out = ch_nj c /\
    forall e, fl_fd_CartToJnt (e_rnd e) (e_sin e) (e_cos e) c st (q' e) (qd' e) (tau' e) fext (qdd' e) = Ret (E_NOERROR, x' e).
Proof.
  intros Hok [N1 N2] I [F1 F2] HP HV Hu Lq' Hq Hqd Ht Hqdd Hf EM Pv. destruct I as (I1 & I2 & B1 & B2 & B3 & B4 & B5 & B6 & B7 & B8 & B9 & B10 & B11). rewrite N1 in *.
  assert (Cd : dyn_current c (dyn_make c0 g)) by (split; assumption).
  assert (Cr : rne_current c (rne_make c0 g)) by (split; assumption).
  destruct (mass_result c (dyn_make c0 g) q (fd_H st) Hok Cd Hq B1 B2) as (M0 & EM0 & M1 & M2 & _). rewrite EM in EM0. injection EM0 as <-.
  destruct (zero_loop (ch_nj c) qdd Hqdd) as (z & EZ & Lz & Z1).
  destruct (rne_result c (rne_make c0 g) q qd z fext (fd_T st) Hok Cr Hq Hqd Lz B3 Hf) as (T0 & ET & LT & _).
  destruct (load_loop (ch_nj c) M tau T0 (fd_Heig st) (fd_Teig st) M1 M2 Ht LT B4 B5 B6) as (He & Te & EL & C1 & C2 & C3 & C4 & C5).
  pose proof (mass_lin_v c (dyn_make c0 g) q' q (fd_H st) HP) as OM. rewrite EM in OM. destruct OM as (m' & Em & (zz & M' & Ma & Em' & X & HM)). injection X as <- <-.
  pose proof (rne_lin_w c (rne_make c0 g) q' q qd' qd (fun _ => z) z fext (fd_T st) HP HV (llin_const lin z lin_const)) as OT. rewrite ET in OT. destruct OT as (t' & Et & (zz & T' & Ta & Et' & X & HT)). injection X as <- <-.
  pose proof (load_lin (ch_nj c) M' M tau' tau T' T0 (fd_Heig st) (fd_Teig st) HM Hu HT) as OL. rewrite EL in OL. destruct OL as (l' & El & (He' & Hea & Te' & Tea & El' & X & HHe & HTe)). injection X as <- <-.
  assert (P' : pivots_ok (ch_nj c) (mentry He)) by (apply (pivots_ext _ (mentry M)); [intros a b Ha Hb; symmetry; apply C4; auto|exact Pv]).
  destruct (ldl_lin He' He Te' Te (fd_L st) (fd_D st) (fd_r st) (fd_acc st) (ch_nj c) HHe HTe C1 C2 C3 B7 B8 B9 B10 B11 P') as (L2 & D2 & y & x & x' & EX & Lx & Hx & EX').
  exists x. eexists. exists x'. split; [|split; [exact Hx|split; [exact Lx|]]].
  - unfold fd_CartToJnt. rewrite F1, F2, Hq, Hqd, Ht, Hqdd, Hf, !Nat.eqb_refl. cbn [andb orb negb]. cbv zeta. rewrite I1, I2.
    rewrite EM. cbn [obind]. change (E_NOERROR <? 0)%Z with false. cbn iota. rewrite EZ. cbn [obind]. rewrite ET. cbn [obind]. change (E_NOERROR <? 0)%Z with false. cbn iota.
    rewrite EL. cbn [obind]. rewrite EX. cbn [obind]. rewrite copy_loop by assumption. cbn [obind]. reflexivity.
  - intros e. unfold fl_fd_CartToJnt. rewrite F1, F2, Lq', (llin_length lin q' q HP e), (llin_length lin qd' qd HV e), (llin_length lin tau' tau Hu e), Hq, Hqd, Ht, Hqdd, Hf, !Nat.eqb_refl. cbn [andb orb negb]. cbv zeta. rewrite I1, I2.
    rewrite Em, Em'. cbn [obind]. change (E_NOERROR <? 0)%Z with false. cbn iota. destruct (zero_loop (ch_nj c) (qdd' e) (eq_trans (Lq' e) Hqdd)) as (z2 & EZ2 & Lz2 & Z2). rewrite EZ2. cbn [obind]. assert (z2 = z) by (apply nth_ext_R; [congruence|]; intros k _; rewrite Z2, Z1; reflexivity). subst z2. rewrite Et, Et'. cbn [obind]. change (E_NOERROR <? 0)%Z with false. cbn iota.
    rewrite El, El'. cbn [obind]. rewrite EX'. cbn [obind]. rewrite copy_loop by (try rewrite (llin_length lin x' x Hx e); assumption). reflexivity.
Qed.

(** * Steps *)
Lemma llin_map2 (f' : env -> R -> R -> R) f a' a b' b : (forall x' x y' y, lin x' x -> lin y' y -> lin (fun e => f' e (x' e) (y' e)) (f x y)) ->
  llin lin a' a -> llin lin b' b -> llin lin (fun e => map2 (f' e) (a' e) (b' e)) (map2 f a b).
Proof.
  intros Hf (A & EA & HA) (B & EB & HB). exists (map2 (fun x y e => f' e (x e) (y e)) A B). split.
  - intros e. rewrite EA, EB. clear. revert B. induction A as [|x A IH]; intros [|y B]; cbn; try reflexivity. rewrite IH. reflexivity.
  - clear EA EB. revert B b HB. induction HA as [|x' x A a Hx HA IH]; intros B b HB; cbn; [constructor|].
    destruct HB as [|y' y B b Hy HB]; constructor; auto.
Qed.

Section Arm.
Variables (g : Vector) (c : Chain) (st : fdsolver) (tau : list R) (fext : list Wrench).
Hypothesis Hok : chain_ok c.
Hypothesis Iv : fd_inv g c st.
Hypothesis Cu : fd_current c st.
Hypothesis Ht : length tau = ch_nj c.
Hypothesis Hf : length fext = ch_ns c.
Hypothesis Pv : forall q, length q = ch_nj c -> exists M, dyn_JntToMass c (dyn_make c g) q (fd_H st) = Ret (E_NOERROR, M) /\ pivots_ok (ch_nj c) (mentry M).

Lemma stage_lin q' q v' v old' old : llin lin q' q -> llin lin v' v -> llin lin old' old ->
  length q = ch_nj c -> length v = ch_nj c -> length old = ch_nj c ->
  length (stage c st tau fext q v old) = ch_nj c /\
  exists a', llin lin a' (stage c st tau fext q v old) /\
    forall e, fl_stage (e_rnd e) (e_sin e) (e_cos e) c st tau fext (q' e) (v' e) (old' e) = Ret (a' e).
Proof.
  intros HQ HV HO Lq Lv Lo. destruct (Pv q Lq) as (M & EM & PM).
  destruct (fd_lin_v g c c st q' q v' v (fun _ => tau) tau fext old' old M Hok (conj eq_refl eq_refl) Iv Cu HQ HV (llin_const lin tau lin_const)
    (llin_length lin old' old HO) Lq Lv Ht Lo Hf EM PM) as (out & st' & x' & E & Hx & Lx & E').
  unfold stage. rewrite E. split; [exact Lx|]. exists x'. split; [exact Hx|]. intros e. unfold fl_stage. rewrite (E' e). reflexivity.
Qed.

Ltac linm := intros; repeat first [assumption | apply lin_const | apply lin_rnd | apply lin_add | apply lin_mul | (apply lin_div; [|apply lin_const|lra])].
Lemma step_lin dt q' q v' v old : llin lin q' q -> llin lin v' v -> length q = ch_nj c -> length v = ch_nj c -> length old = ch_nj c ->
  let s := rk4_step (stage c st tau fext) dt q v old in length (fst s) = ch_nj c /\ length (snd s) = ch_nj c /\
  exists q2' v2', llin lin q2' (fst s) /\ llin lin v2' (snd s) /\
    forall e, fl_rk4_step (e_rnd e) (e_sin e) (e_cos e) c st tau fext dt (q' e) (v' e) old = Ret (q2' e, v2' e).
Proof.
  intros HQ HV Lq Lv Lo. cbv zeta. unfold rk4_step, fl_rk4_step. cbv zeta. cbn [fst snd].
  pose proof (fun f a b => map2_swap_length f a b (ch_nj c)) as LM.
  destruct (stage_lin q' q v' v (fun _ => old) old HQ HV (llin_const lin old lin_const) Lq Lv Lo) as (La1 & a1' & Ha1 & E1). set (a1 := stage c st tau fext q v old) in *.
  set (qt1 := map2 _ q v). set (vt1 := map2 _ v a1).
  assert (Hqt1 : llin lin (fun e => map2 (fun x v => e_rnd e (x + e_rnd e (e_rnd e (v * dt) / 2))) (q' e) (v' e)) qt1)
    by (apply (llin_map2 (fun e x v => e_rnd e (x + e_rnd e (e_rnd e (v * dt) / 2)))); [linm|assumption|assumption]).
  assert (Hvt1 : llin lin (fun e => map2 (fun x v => e_rnd e (x + e_rnd e (e_rnd e (v * dt) / 2))) (v' e) (a1' e)) vt1)
    by (apply (llin_map2 (fun e x v => e_rnd e (x + e_rnd e (e_rnd e (v * dt) / 2)))); [linm|assumption|assumption]).
  assert (Lqt1 : length qt1 = ch_nj c) by (apply LM; assumption). assert (Lvt1 : length vt1 = ch_nj c) by (apply LM; assumption).
  destruct (stage_lin _ qt1 _ vt1 _ a1 Hqt1 Hvt1 Ha1 Lqt1 Lvt1 La1) as (La2 & a2' & Ha2 & E2). set (a2 := stage c st tau fext qt1 vt1 a1) in *.
  set (qt2 := map2 _ q vt1). set (vt2 := map2 _ v a2).
  assert (Hqt2 := llin_map2 (fun e x v => e_rnd e (x + e_rnd e (e_rnd e (v * dt) / 2))) (fun x v => x + v * dt / 2) _ _ _ _ ltac:(linm) HQ Hvt1 : llin lin _ qt2).
  assert (Hvt2 := llin_map2 (fun e x v => e_rnd e (x + e_rnd e (e_rnd e (v * dt) / 2))) (fun x v => x + v * dt / 2) _ _ _ _ ltac:(linm) HV Ha2 : llin lin _ vt2).
  assert (Lqt2 : length qt2 = ch_nj c) by (apply LM; assumption). assert (Lvt2 : length vt2 = ch_nj c) by (apply LM; assumption).
  set (dq2 := map2 _ v vt2). set (dv2 := map2 _ a1 a2).
  assert (Hdq2 := llin_map2 (fun e d v => e_rnd e (d + e_rnd e (2 * v))) (fun d v => d + 2 * v) _ _ _ _ ltac:(linm) HV Hvt2 : llin lin _ dq2).
  assert (Hdv2 := llin_map2 (fun e d v => e_rnd e (d + e_rnd e (2 * v))) (fun d v => d + 2 * v) _ _ _ _ ltac:(linm) Ha1 Ha2 : llin lin _ dv2).
  assert (Ldq2 : length dq2 = ch_nj c) by (apply LM; assumption). assert (Ldv2 : length dv2 = ch_nj c) by (apply LM; assumption).
  destruct (stage_lin _ qt2 _ vt2 _ a2 Hqt2 Hvt2 Ha2 Lqt2 Lvt2 La2) as (La3 & a3' & Ha3 & E3). set (a3 := stage c st tau fext qt2 vt2 a2) in *.
  set (qt3 := map2 _ q vt2). set (vt3 := map2 _ v a3).
  assert (Hqt3 := llin_map2 (fun e x v => e_rnd e (x + e_rnd e (v * dt))) (fun x v => x + v * dt) _ _ _ _ ltac:(linm) HQ Hvt2 : llin lin _ qt3).
  assert (Hvt3 := llin_map2 (fun e x v => e_rnd e (x + e_rnd e (v * dt))) (fun x v => x + v * dt) _ _ _ _ ltac:(linm) HV Ha3 : llin lin _ vt3).
  assert (Lqt3 : length qt3 = ch_nj c) by (apply LM; assumption). assert (Lvt3 : length vt3 = ch_nj c) by (apply LM; assumption).
  set (dq3 := map2 _ dq2 vt3). set (dv3 := map2 _ dv2 a3).
  assert (Hdq3 := llin_map2 (fun e d v => e_rnd e (d + e_rnd e (2 * v))) (fun d v => d + 2 * v) _ _ _ _ ltac:(linm) Hdq2 Hvt3 : llin lin _ dq3).
  assert (Hdv3 := llin_map2 (fun e d v => e_rnd e (d + e_rnd e (2 * v))) (fun d v => d + 2 * v) _ _ _ _ ltac:(linm) Hdv2 Ha3 : llin lin _ dv3).
  assert (Ldq3 : length dq3 = ch_nj c) by (apply LM; assumption). assert (Ldv3 : length dv3 = ch_nj c) by (apply LM; assumption).
  destruct (stage_lin _ qt3 _ vt3 _ a3 Hqt3 Hvt3 Ha3 Lqt3 Lvt3 La3) as (La4 & a4' & Ha4 & E4). set (a4 := stage c st tau fext qt3 vt3 a3) in *.
  set (dq4 := map2 _ dq3 vt3). set (dv4 := map2 _ dv3 a4).
  assert (Hdq4 := llin_map2 (fun e d v => e_rnd e (e_rnd e (e_rnd e (d + v) * dt) / 6)) (fun d v => (d + v) * dt / 6) _ _ _ _ ltac:(linm) Hdq3 Hvt3 : llin lin _ dq4).
  assert (Hdv4 := llin_map2 (fun e d v => e_rnd e (e_rnd e (e_rnd e (d + v) * dt) / 6)) (fun d v => (d + v) * dt / 6) _ _ _ _ ltac:(linm) Hdv3 Ha4 : llin lin _ dv4).
  assert (Ldq4 : length dq4 = ch_nj c) by (apply LM; assumption). assert (Ldv4 : length dv4 = ch_nj c) by (apply LM; assumption).
  split; [apply LM; assumption|]. split; [apply LM; assumption|].
  pose proof (llin_map2 (fun e x d => e_rnd e (x + d)) Rplus _ _ _ _ ltac:(linm) HQ Hdq4) as R1.
  pose proof (llin_map2 (fun e x d => e_rnd e (x + d)) Rplus _ _ _ _ ltac:(linm) HV Hdv4) as R2.
  do 2 eexists. split; [exact R1|]. split; [exact R2|]. intros e. cbv beta in *.
  rewrite E1. cbn [obind]. rewrite E2. cbn [obind]. rewrite E3. cbn [obind]. rewrite E4. reflexivity.
Qed.

Theorem simulate_lin dt qdd : length qdd = ch_nj c -> forall n q' q v' v, llin lin q' q -> llin lin v' v -> length q = ch_nj c -> length v = ch_nj c ->
  let s := simulate (stage c st tau fext) dt qdd n q v in
  exists q2' v2', llin lin q2' (fst s) /\ llin lin v2' (snd s) /\
    forall e, fl_simulate (e_rnd e) (e_sin e) (e_cos e) c st tau fext dt qdd n (q' e) (v' e) = Ret (q2' e, v2' e).
Proof.
  intros Lo. induction n as [|n IH]; intros q' q v' v HQ HV Lq Lv; cbv zeta; cbn [simulate fl_simulate].
  - exists q', v'. auto.
  - destruct (step_lin dt q' q v' v qdd HQ HV Lq Lv Lo) as (L1 & L2 & q2' & v2' & H1 & H2 & E).
    destruct (IH q2' _ v2' _ H1 H2 L1 L2) as (q3' & v3' & H3 & H4 & E3). exists q3', v3'. split; [exact H3|]. split; [exact H4|].
    intros e. rewrite (E e). cbn [obind fst snd]. apply E3.
Qed.
End Arm.
