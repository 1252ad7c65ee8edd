(** The two sweeps of inverse dynamics in rounded arithmetic. *)
From Coq Require Import Reals String List ZArith Bool Lra Lia.
From Verif Require Import FramesModel Outcome InertiaModel DualModel KinModel LinModel DynModel FlModel FlJacModel FlRotModel FlDynModel FlSpec FlDynProofs.
Import ListNotations.
Local Open Scope list_scope.
Local Open Scope R_scope.

Section Mode.
Context {mo : mode}.
Definition swlin (s' : env -> rnesweep) (s : rnesweep) : Prop :=
  (forall e, sw_j (s' e) = sw_j s) /\ llin flin (fun e => sw_X (s' e)) (sw_X s) /\ llin tlin (fun e => sw_S (s' e)) (sw_S s) /\
  llin tlin (fun e => sw_v (s' e)) (sw_v s) /\ llin tlin (fun e => sw_a (s' e)) (sw_a s) /\ llin wlin (fun e => sw_f (s' e)) (sw_f s).

Definition pairlin {A B : Type} (RA : (env -> A) -> A -> Prop) (RB : (env -> B) -> B -> Prop) (p' : env -> A * B) (p : A * B) : Prop :=
  RA (fun e => fst (p' e)) (fst p) /\ RB (fun e => snd (p' e)) (snd p).

Lemma fwd_lin c ag q qd qdd fext i s' s : swlin s' s ->
  olin swlin (fun e => fl_rne_fwd_body (e_rnd e) (e_sin e) (e_cos e) c ag q qd qdd fext i (s' e)) (rne_fwd_body c ag q qd qdd fext i s).
Proof.
  intros (Hj & HX & HS & Hv & Ha & Hf). unfold fl_rne_fwd_body, rne_fwd_body.
  apply olin_ext with (G := fun e => fl_rne_fwd_body (e_rnd e) (e_sin e) (e_cos e) c ag q qd qdd fext i
    (mkSw (sw_j s) (sw_X (s' e)) (sw_S (s' e)) (sw_v (s' e)) (sw_a (s' e)) (sw_f (s' e)))).
  { intros e. rewrite <- (Hj e). destruct (s' e). reflexivity. }
  unfold fl_rne_fwd_body. cbn [sw_j sw_X sw_S sw_v sw_a sw_f].
  apply olin_same. intros sg. apply olin_same. intros [[[x xd] xdd] j'].
  apply (olin_bind (llin flin)); [apply olin_aset; [exact HX|apply l_segment_pose]|]. intros Xs' Xs HXs.
  apply (olin_bind flin); [apply olin_aget, HXs|]. intros Xi' Xi HXi. cbv zeta.
  apply (olin_bind (llin tlin)); [apply olin_aset; [exact HS|apply l_r_invapp_t; [exact (proj1 HXi)|apply l_segment_twist]]|]. intros Ss' Ss HSs.
  apply (olin_bind tlin); [apply olin_aget, HSs|]. intros Si' Si HSi.
  assert (Hvj : tlin (fun e => fl_r_invapp_t (e_rnd e) (fM (Xi' e)) (fl_segment_twist (e_rnd e) (e_sin e) (e_cos e) sg x xd)) (r_invapp_t (fM Xi) (segment_twist sg x xd)))
    by (apply l_r_invapp_t; [exact (proj1 HXi)|apply l_segment_twist]).
  apply (olin_bind (pairlin (llin tlin) (llin tlin))).
  { destruct (Nat.eqb i 0).
    - apply (olin_bind (llin tlin)); [apply olin_aset; [exact Hv|exact Hvj]|]. intros vs' vs Hvs.
      apply (olin_bind tlin); [apply olin_aget, Hvs|]. intros vi' vi Hvi.
      apply (olin_bind (llin tlin)); [apply olin_aset; [exact Ha|]|].
      + apply l_t_add; [apply l_t_add; [apply (l_f_invapp_t _ _ (fun _ => ag)); [exact HXi|apply tlin_const]|apply (l_t_scale _ _ (fun _ => xdd)); [exact HSi|apply lin_const]]|].
        apply l_t_cross; [exact Hvi|exact Hvj].
      + intros as' as_ Has. apply (olin_ret _ (fun e => (vs' e, as' e))). split; assumption.
    - apply (olin_bind tlin); [apply olin_aget, Hv|]. intros vp' vp Hvp.
      apply (olin_bind (llin tlin)); [apply olin_aset; [exact Hv|apply l_t_add; [apply l_f_invapp_t; assumption|exact Hvj]]|]. intros vs' vs Hvs.
      apply (olin_bind tlin); [apply olin_aget, Hvs|]. intros vi' vi Hvi.
      apply (olin_bind tlin); [apply olin_aget, Ha|]. intros ap' ap Hap.
      apply (olin_bind (llin tlin)); [apply olin_aset; [exact Ha|]|].
      + apply l_t_add; [apply l_t_add; [apply l_f_invapp_t; assumption|apply (l_t_scale _ _ (fun _ => xdd)); [exact HSi|apply lin_const]]|].
        apply l_t_cross; [exact Hvi|exact Hvj].
      + intros as' as_ Has. apply (olin_ret _ (fun e => (vs' e, as' e))). split; assumption. }
  intros va' [vs as_] [Hvs Has]. cbn [fst snd] in Hvs, Has.
  eapply olin_ext; [intros e; rewrite (surjective_pairing (va' e)); reflexivity|]. cbv beta iota.
  apply (olin_bind tlin); [apply olin_aget, Hvs|]. intros vi' vi Hvi.
  apply (olin_bind tlin); [apply olin_aget, Has|]. intros ai' ai Hai.
  apply olin_same. intros fe.
  apply (olin_bind (llin wlin)); [apply olin_aset; [exact Hf|]|].
  - apply (l_w_sub _ _ (fun _ => fe)); [apply l_w_add; [apply l_rb_app, Hai|apply l_tw_cross; [exact Hvi|apply l_rb_app, Hvi]]|apply wlin_const].
  - intros fs' fs Hfs. apply (olin_ret _ (fun e => mkSw j' (Xs' e) (Ss' e) (fst (va' e)) (snd (va' e)) (fs' e))).
    repeat split; cbn [sw_j sw_X sw_S sw_v sw_a sw_f]; assumption.
Qed.

Definition bwlin (s' : env -> Z * list Wrench * list R) (s : Z * list Wrench * list R) : Prop :=
  exists j fs' fs tau' tau, (forall e, s' e = (j, fs' e, tau' e)) /\ s = (j, fs, tau) /\ llin wlin fs' fs /\ llin lin tau' tau.
Definition jtlin (s' : env -> Z * list R) (s : Z * list R) : Prop :=
  exists j tau' tau, (forall e, s' e = (j, tau' e)) /\ s = (j, tau) /\ llin lin tau' tau.

Lemma bwd_lin c n Xs' Xs Ss' Ss qdd i s' s : llin flin Xs' Xs -> llin tlin Ss' Ss -> bwlin s' s ->
  olin bwlin (fun e => fl_rne_bwd_body (e_rnd e) c n (Xs' e) (Ss' e) qdd i (s' e)) (rne_bwd_body c n Xs Ss qdd i s).
Proof.
  intros HX HS (j & fs' & fs & tau' & tau & E & -> & Hf & Ht).
  apply olin_ext with (G := fun e => fl_rne_bwd_body (e_rnd e) c n (Xs' e) (Ss' e) qdd i (j, fs' e, tau' e)).
  { intros e. rewrite E. reflexivity. }
  unfold fl_rne_bwd_body, rne_bwd_body. cbv zeta beta iota.
  apply olin_same. intros sg.
  apply (olin_bind jtlin).
  { destruct (moving sg).
    - apply (olin_bind tlin); [apply olin_aget, HS|]. intros Si' Si HSi.
      apply (olin_bind wlin); [apply olin_aget, Hf|]. intros fi' fi Hfi.
      apply (olin_bind (llin lin)); [apply olin_zaset; [exact Ht|apply l_tw_dot; assumption]|]. intros t1' t1 Ht1.
      apply (olin_bind lin); [apply olin_zaget, Ht1|]. intros x' x Hx.
      apply olin_same. intros xdd.
      apply (olin_bind (llin lin)); [apply olin_zaset; [exact Ht1|]|].
      + apply lin_rnd, lin_add; [exact Hx|]. apply lin_rnd. apply lin_const.
      + intros t2' t2 Ht2. apply (olin_ret _ (fun e => ((j - 1)%Z, t2' e))). exists (j - 1)%Z, t2', t2. auto.
    - apply (olin_ret _ (fun e => (j, tau' e))). exists j, tau', tau. auto. }
  intros r' r (j1 & t1' & t1 & Er & -> & Ht1).
  eapply olin_ext; [intros e; rewrite Er; reflexivity|]. cbv beta iota.
  destruct (Nat.eqb (n - 1 - i) 0).
  - apply (olin_ret _ (fun e => (j1, fs' e, t1' e))). exists j1, fs', fs, t1', t1. auto.
  - apply (olin_bind wlin); [apply olin_aget, Hf|]. intros fp' fp Hfp.
    apply (olin_bind flin); [apply olin_aget, HX|]. intros Xi' Xi HXi.
    apply (olin_bind wlin); [apply olin_aget, Hf|]. intros fi' fi Hfi.
    apply (olin_bind (llin wlin)); [apply olin_aset; [exact Hf|apply l_w_add; [exact Hfp|apply l_f_app_w; assumption]]|].
    intros f2' f2 Hf2. apply (olin_ret _ (fun e => (j1, f2' e, t1' e))). exists j1, f2', f2, t1', t1. auto.
Qed.

Lemma rne_lin c st q qd qdd fext tau :
  olin jtlin (fun e => fl_rne_CartToJnt (e_rnd e) (e_sin e) (e_cos e) c st q qd qdd fext tau) (rne_CartToJnt c st q qd qdd fext tau).
Proof.
  unfold fl_rne_CartToJnt, rne_CartToJnt.
  assert (C : forall z, jtlin (fun _ => (z, tau)) (z, tau)).
  { intros z. exists z, (fun _ => tau), tau. repeat split. apply llin_const, lin_const. }
  destruct (_ || _)%bool; [apply (olin_ret jtlin (fun _ => (E_NOT_UP_TO_DATE, tau))), C|].
  destruct (negb _); [apply (olin_ret jtlin (fun _ => (E_SIZE_MISMATCH, tau))), C|]. cbv zeta.
  apply (olin_bind swlin).
  { apply (olin_loop swlin (fun e => fl_rne_fwd_body (e_rnd e) (e_sin e) (e_cos e) c (rn_ag st) q qd qdd fext)
      (rne_fwd_body c (rn_ag st) q qd qdd fext) (rn_ns st) (fun i s' s H => fwd_lin c (rn_ag st) q qd qdd fext i s' s H) 0%nat
      (fun _ => mkSw 0 (repeat f_id (rn_ns st)) (repeat t_zero (rn_ns st)) (repeat t_zero (rn_ns st)) (repeat t_zero (rn_ns st)) (repeat w_zero (rn_ns st)))).
    repeat split; cbn [sw_j sw_X sw_S sw_v sw_a sw_f]; apply llin_const; auto using flin_const, tlin_const, wlin_const. }
  intros sw' sw (Hj & HX & HS & Hv & Ha & Hf).
  apply (olin_bind bwlin).
  { apply (olin_loop bwlin (fun e => fl_rne_bwd_body (e_rnd e) c (rn_ns st) (sw_X (sw' e)) (sw_S (sw' e)) qdd)
      (rne_bwd_body c (rn_ns st) (sw_X sw) (sw_S sw) qdd) (rn_ns st)
      (fun i s' s H => bwd_lin c (rn_ns st) _ _ _ _ qdd i s' s HX HS H) 0%nat
      (fun e => ((Z.of_nat (rn_nj st) - 1)%Z, sw_f (sw' e), tau))).
    exists (Z.of_nat (rn_nj st) - 1)%Z, (fun e => sw_f (sw' e)), (sw_f sw), (fun _ => tau), tau. repeat split; auto. apply llin_const, lin_const. }
  intros r' r (j & fs' & fs & t' & t & E & -> & _ & Ht).
  eapply olin_ext; [intros e; rewrite E; reflexivity|]. cbv beta iota.
  apply (olin_ret jtlin (fun e => (E_NOERROR, t' e))). exists E_NOERROR, t', t. auto.
Qed.

(** One constant for all entries. *)
Lemma llin_bound l' l : llin lin l' l -> exists K d, 0 <= K /\ md d /\ forall e, e_eps e <= d -> Forall2 (fun x' x => Rabs (x' - x) <= K * e_eps e) (l' e) l.
Proof.
  intros (L & E & H). revert l' E. induction H as [|x' x L l (K & d & K0 & D & HK) H IH]; intros l' E.
  - exists 0, 1. split; [lra|]. split; [apply md1|]. intros e _. rewrite E. constructor.
  - destruct (IH _ (fun e => eq_refl)) as (K2 & d2 & K20 & D2 & HK2). exists (K + K2), (Rmin d d2). split; [lra|]. split; [apply mdmin; assumption|].
    intros e M. pose proof (Rmin_l d d2). pose proof (Rmin_r d d2). rewrite E. cbn [map].
    pose proof (e_lo e). assert (0 <= K * e_eps e) by (apply Rmult_le_pos; lra). assert (0 <= K2 * e_eps e) by (apply Rmult_le_pos; lra).
    constructor.
    + specialize (HK e ltac:(lra)). lra.
    + eapply Forall2_imp; [|apply (HK2 e); lra]. cbn. intros; lra.
Qed.
End Mode.

(** Bounds that hold at once. *)
Definition always : mode.
Proof. refine {| md := fun d => d = 1 |}; [reflexivity|]. intros a b -> ->. apply Rmin_left. lra. Defined.
Theorem fl_rne_error c st q qd qdd fext tau : exists K, 0 <= K /\ forall eps rnd fsin fcos,
  0 <= eps <= 1 -> rounds eps rnd -> computes eps fsin sin -> computes eps fcos cos ->
  match rne_CartToJnt c st q qd qdd fext tau, fl_rne_CartToJnt rnd fsin fcos c st q qd qdd fext tau with
  | Ret (code, T), Ret (code', T') => code' = code /\ Forall2 (fun t' t => Rabs (t' - t) <= K * eps) T' T
  | Undef, Undef => True
  | _, _ => False
  end.
Proof.
  pose proof (@rne_lin always c st q qd qdd fext tau) as H.
  destruct (rne_CartToJnt c st q qd qdd fext tau) as [[code T]|]; cbn in H.
  - destruct H as (r' & E & (j & t' & t & Er & X & Ht)). injection X as -> ->.
    destruct (llin_bound _ _ Ht) as (K & d & K0 & D & HK). cbn in D. subst d. exists K. split; [exact K0|].
    intros eps rnd fsin fcos [e0 e1] R1 R2 R3. specialize (E (mkEnv eps rnd fsin fcos e0 e1 R1 R2 R3)).
    rewrite Er in E. cbn in E. rewrite E. split; [reflexivity|]. apply (HK (mkEnv eps rnd fsin fcos e0 e1 R1 R2 R3)), e1.
  - exists 0. split; [lra|]. intros eps rnd fsin fcos [e0 e1] R1 R2 R3. specialize (H (mkEnv eps rnd fsin fcos e0 e1 R1 R2 R3)).
    cbn in H. rewrite H. exact I.
Qed.
