(** Mass matrix in rounded arithmetic. *)
From Coq Require Import Reals String List ZArith Bool Lra Lia.
From Verif Require Import FramesModel Outcome InertiaModel DualModel KinModel LinModel DynModel FlModel FlJacModel FlRotModel FlDynModel FlMassModel FlSpec FlDynProofs FlDynMain.
Import ListNotations.
Local Open Scope list_scope.
Local Open Scope R_scope.

Section Mode.
Context {mo : mode}.
Ltac lin1 := first [assumption | apply lin_const | apply lin_rnd | apply lin_add | apply lin_sub | apply lin_mul | apply lin_opp | apply lin_cos | apply lin_sin].
Ltac linop := intros; unfold flin, tlin, wlin, rlin, vlin, fl_dot3 in *;
  cbn [vx vy vz r0 r1 r2 r3 r4 r5 r6 r7 r8 fM fp tvel trot wforce wtorque] in *;
  repeat match goal with H : _ /\ _ |- _ => destruct H end;
  repeat match goal with |- _ /\ _ => split end; repeat lin1.

Definition ablin (I' : env -> ArticulatedBodyInertia) (I : ArticulatedBodyInertia) : Prop :=
  rlin (fun e => ab_M (I' e)) (ab_M I) /\ rlin (fun e => ab_H (I' e)) (ab_H I) /\ rlin (fun e => ab_I (I' e)) (ab_I I).

Lemma l_m3_add a' a b' b : rlin a' a -> rlin b' b -> rlin (fun e => fl_m3_add (e_rnd e) (a' e) (b' e)) (m3_add a b).
Proof. unfold fl_m3_add, m3_add. linop. Qed.
Lemma l_m3_sub a' a b' b : rlin a' a -> rlin b' b -> rlin (fun e => fl_m3_sub (e_rnd e) (a' e) (b' e)) (m3_sub a b).
Proof. unfold fl_m3_sub, m3_sub. linop. Qed.
Lemma l_m3_mul a' a b' b : rlin a' a -> rlin b' b -> rlin (fun e => fl_r_mul (e_rnd e) (a' e) (b' e)) (m3_mul a b).
Proof. unfold fl_r_mul, m3_mul. linop. Qed.
Lemma l_m3_app a' a v' v : rlin a' a -> vlin v' v -> vlin (fun e => fl_r_app (e_rnd e) (a' e) (v' e)) (m3_app a v).
Proof. unfold fl_r_app, m3_app. linop. Qed.
Lemma l_m3_tr a' a : rlin a' a -> rlin (fun e => m3_tr (a' e)) (m3_tr a).
Proof. unfold m3_tr. linop. Qed.
Lemma l_m3_skew v' v : vlin v' v -> rlin (fun e => m3_skew (v' e)) (m3_skew v).
Proof. unfold m3_skew. linop. Qed.
Lemma l_m3_scale s a : rlin (fun e => fl_m3_scale (e_rnd e) s a) (m3_scale s a).
Proof. unfold fl_m3_scale, m3_scale. linop. Qed.
Lemma l_f_inv f' f : flin f' f -> flin (fun e => fl_f_inv (e_rnd e) (f' e)) (f_inv f).
Proof. unfold fl_f_inv, f_inv, r_inv, v_neg, fl_r_invapp, r_invapp. linop. Qed.
Lemma l_ab_of_rb I : ablin (fun e => fl_ab_of_rb (e_rnd e) I) (ab_of_rb I).
Proof. unfold fl_ab_of_rb, ab_of_rb. repeat split; cbn [ab_M ab_H ab_I]; try apply l_m3_scale; apply lin_const. Qed.
Lemma ablin_const I : ablin (fun _ => I) I.
Proof. repeat split; apply lin_const. Qed.
Lemma l_ab_add a' a b' b : ablin a' a -> ablin b' b -> ablin (fun e => fl_ab_add (e_rnd e) (a' e) (b' e)) (ab_add a b).
Proof. intros (A & B & C) (D & E & F). split; [|split]; cbn [fl_ab_add ab_add ab_M ab_H ab_I]; apply l_m3_add; assumption. Qed.
Lemma l_ab_app I' I t' t : ablin I' I -> tlin t' t -> wlin (fun e => fl_ab_app (e_rnd e) (I' e) (t' e)) (ab_app I t).
Proof.
  intros (A & B & C) (D & E). split; cbn [fl_ab_app ab_app wforce wtorque]; apply l_v_add; apply l_m3_app; auto. apply l_m3_tr; auto.
Qed.
Lemma l_f_app_ab f' f I' I : flin f' f -> ablin I' I -> ablin (fun e => fl_f_app_ab (e_rnd e) (f' e) (I' e)) (f_app_ab f I).
Proof.
  intros Hf (A & B & C). pose proof (l_f_inv f' f Hf) as [P Q]. unfold fl_f_app_ab, f_app_ab. cbv zeta.
  assert (E : rlin (fun e => eig (fM (fl_f_inv (e_rnd e) (f' e)))) (eig (fM (f_inv f)))) by (apply l_m3_tr; exact P).
  assert (T : rlin (fun e => m3_tr (eig (fM (fl_f_inv (e_rnd e) (f' e))))) (m3_tr (eig (fM (f_inv f))))) by (apply l_m3_tr; exact E).
  assert (S : rlin (fun e => m3_skew (fp (fl_f_inv (e_rnd e) (f' e)))) (m3_skew (fp (f_inv f)))) by (apply l_m3_skew; exact Q).
  assert (G : rlin (fun e => fl_m3_sub (e_rnd e) (ab_H (I' e)) (fl_r_mul (e_rnd e) (m3_skew (fp (fl_f_inv (e_rnd e) (f' e)))) (ab_M (I' e))))
     (m3_sub (ab_H I) (m3_mul (m3_skew (fp (f_inv f))) (ab_M I)))) by (apply l_m3_sub; [exact B|apply l_m3_mul; assumption]).
  split; [|split]; cbn [ab_M ab_H ab_I].
  - apply l_m3_mul; [apply l_m3_mul|]; assumption.
  - apply l_m3_mul; [apply l_m3_mul|]; assumption.
  - apply l_m3_mul; [apply l_m3_mul|]; try assumption. apply l_m3_add; [apply l_m3_sub|]; try apply l_m3_mul; try assumption. apply l_m3_tr, B.
Qed.

(** * Matrices *)
Definition mlin (m' : env -> Mat) (m : Mat) : Prop :=
  (forall e, mrows (m' e) = mrows m) /\ (forall e, mcols (m' e) = mcols m) /\ forall i j, lin (fun e => mentry (m' e) i j) (mentry m i j).
Lemma mlin_const m : mlin (fun _ => m) m.
Proof. split; [reflexivity|]. split; [reflexivity|]. intros. apply lin_const. Qed.
Lemma olin_mget m' m i j : mlin m' m -> olin lin (fun e => mget (m' e) i j) (mget m i j).
Proof.
  intros (R1 & R2 & H). apply olin_ext with (G := fun e => if Nat.ltb i (mrows m) && Nat.ltb j (mcols m) then Ret (mentry (m' e) i j) else Undef).
  { intros e. unfold mget. rewrite R1, R2. reflexivity. }
  unfold mget. destruct (_ && _)%bool; [apply (olin_ret lin (fun e => mentry (m' e) i j)), H|intros e; reflexivity].
Qed.
Lemma olin_mset m' m i j x' x : mlin m' m -> lin x' x -> olin mlin (fun e => mset (m' e) i j (x' e)) (mset m i j x).
Proof.
  intros (R1 & R2 & H) Hx.
  apply olin_ext with (G := fun e => if Nat.ltb i (mrows m) && Nat.ltb j (mcols m)
    then Ret (mkM (mrows (m' e)) (mcols (m' e)) (fun a b => if Nat.eqb a i && Nat.eqb b j then x' e else mentry (m' e) a b)) else Undef).
  { intros e. unfold mset. rewrite R1, R2. reflexivity. }
  unfold mset. destruct (_ && _)%bool; [|intros e; reflexivity].
  apply (olin_ret mlin (fun e => mkM (mrows (m' e)) (mcols (m' e)) (fun a b => if Nat.eqb a i && Nat.eqb b j then x' e else mentry (m' e) a b))).
  split; [exact R1|]. split; [exact R2|]. intros a b. cbn [mentry]. destruct (_ && _)%bool; [exact Hx|apply H].
Qed.
Lemma olin_zmget m' m i j : mlin m' m -> olin lin (fun e => zmget (m' e) i j) (zmget m i j).
Proof. intros H. unfold zmget. destruct (_ || _)%bool; [intros e; reflexivity|apply olin_mget, H]. Qed.
Lemma olin_zmset m' m i j x' x : mlin m' m -> lin x' x -> olin mlin (fun e => zmset (m' e) i j (x' e)) (zmset m i j x).
Proof. intros H Hx. unfold zmset. destruct (_ || _)%bool; [intros e; reflexivity|apply olin_mset; assumption]. Qed.

(** * The loops *)
Definition mflin (s' : env -> nat * list ArticulatedBodyInertia * list Frame * list Twist) (s : nat * list ArticulatedBodyInertia * list Frame * list Twist) : Prop :=
  exists k Is' Is Xs' Xs Ss' Ss, (forall e, s' e = (k, Is' e, Xs' e, Ss' e)) /\ s = (k, Is, Xs, Ss) /\ llin ablin Is' Is /\ llin flin Xs' Xs /\ llin tlin Ss' Ss.
Lemma mass_fwd_lin c q i s' s : mflin s' s ->
  olin mflin (fun e => fl_mass_fwd_body (e_rnd e) (e_sin e) (e_cos e) c q i (s' e)) (mass_fwd_body c q i s).
Proof.
  intros (k & Is' & Is & Xs' & Xs & Ss' & Ss & E & -> & HI & HX & HS).
  apply olin_ext with (G := fun e => fl_mass_fwd_body (e_rnd e) (e_sin e) (e_cos e) c q i (k, Is' e, Xs' e, Ss' e)).
  { intros e. rewrite E. reflexivity. }
  unfold fl_mass_fwd_body, mass_fwd_body. cbv beta iota. apply olin_same. intros sg.
  apply (olin_bind (llin ablin)); [apply olin_aset; [exact HI|apply l_ab_of_rb]|]. intros I2' I2 HI2.
  apply olin_same. intros [x k'].
  apply (olin_bind (llin flin)); [apply olin_aset; [exact HX|apply l_segment_pose]|]. intros X2' X2 HX2.
  apply (olin_bind flin); [apply olin_aget, HX2|]. intros Xi' Xi HXi.
  apply (olin_bind (llin tlin)); [apply olin_aset; [exact HS|apply l_r_invapp_t; [exact (proj1 HXi)|apply l_segment_twist]]|]. intros S2' S2 HS2.
  apply (olin_ret mflin (fun e => (k', I2' e, X2' e, S2' e))). exists k', I2', I2, X2', X2, S2', S2. auto.
Qed.
Lemma mass_up_lin c Xs' Xs Ss' Ss k : llin flin Xs' Xs -> llin tlin Ss' Ss -> forall l j F' F H' H, wlin F' F -> mlin H' H ->
  olin mlin (fun e => fl_mass_up (e_rnd e) c (Xs' e) (Ss' e) k l j (F' e) (H' e)) (mass_up c Xs Ss k l j F H).
Proof.
  intros HX HS l. induction l as [|l IH]; intros j F' F H' H HF HH; cbn [fl_mass_up mass_up].
  - apply olin_ret, HH.
  - apply (olin_bind flin); [apply olin_aget, HX|]. intros Xl' Xl HXl. cbv zeta. apply olin_same. intros sg.
    assert (HF2 : wlin (fun e => fl_f_app_w (e_rnd e) (Xl' e) (F' e)) (f_app_w Xl F)) by (apply l_f_app_w; assumption).
    destruct (moving sg).
    + apply (olin_bind tlin); [apply olin_aget, HS|]. intros Sl' Sl HSl.
      apply (olin_bind mlin); [apply olin_zmset; [exact HH|apply l_tw_dot; assumption]|]. intros H1' H1 HH1.
      apply (olin_bind lin); [apply olin_zmget, HH1|]. intros x' x Hx.
      apply (olin_bind mlin); [apply olin_zmset; assumption|]. intros H2' H2 HH2.
      apply (IH _ (fun e => fl_f_app_w (e_rnd e) (Xl' e) (F' e))); assumption.
    + apply (IH _ (fun e => fl_f_app_w (e_rnd e) (Xl' e) (F' e))); assumption.
Qed.
Definition mblin (s' : env -> Z * list ArticulatedBodyInertia * Mat) (s : Z * list ArticulatedBodyInertia * Mat) : Prop :=
  exists k Is' Is H' H, (forall e, s' e = (k, Is' e, H' e)) /\ s = (k, Is, H) /\ llin ablin Is' Is /\ mlin H' H.
Lemma mass_bwd_lin c n Xs' Xs Ss' Ss i s' s : llin flin Xs' Xs -> llin tlin Ss' Ss -> mblin s' s ->
  olin mblin (fun e => fl_mass_bwd_body (e_rnd e) c n (Xs' e) (Ss' e) i (s' e)) (mass_bwd_body c n Xs Ss i s).
Proof.
  intros HX HS (k & Is' & Is & H' & H & E & -> & HI & HH).
  apply olin_ext with (G := fun e => fl_mass_bwd_body (e_rnd e) c n (Xs' e) (Ss' e) i (k, Is' e, H' e)).
  { intros e. rewrite E. reflexivity. }
  unfold fl_mass_bwd_body, mass_bwd_body. cbv zeta beta iota.
  apply (olin_bind (llin ablin)).
  { destruct (Nat.eqb (n - 1 - i) 0); [apply olin_ret, HI|].
    apply (olin_bind ablin); [apply olin_aget, HI|]. intros Ip' Ip HIp.
    apply (olin_bind flin); [apply olin_aget, HX|]. intros Xi' Xi HXi.
    apply (olin_bind ablin); [apply olin_aget, HI|]. intros Ii' Ii HIi.
    apply olin_aset; [exact HI|]. apply l_ab_add; [exact HIp|apply l_f_app_ab; assumption]. }
  intros I2' I2 HI2.
  apply (olin_bind ablin); [apply olin_aget, HI2|]. intros Ii' Ii HIi.
  apply (olin_bind tlin); [apply olin_aget, HS|]. intros Si' Si HSi.
  apply olin_same. intros sg.
  assert (HF : wlin (fun e => fl_ab_app (e_rnd e) (Ii' e) (Si' e)) (ab_app Ii Si)) by (apply l_ab_app; assumption).
  destruct (moving sg).
  - apply (olin_bind mlin); [apply olin_zmset; [exact HH|apply l_tw_dot; assumption]|]. intros H1' H1 HH1.
    apply (olin_bind lin); [apply olin_zmget, HH1|]. intros x' x Hx.
    apply (olin_bind mlin); [apply olin_zmset; [exact HH1|apply lin_rnd, lin_add; [exact Hx|apply lin_const]]|]. intros H2' H2 HH2.
    apply (olin_bind mlin); [apply mass_up_lin; assumption|]. intros H3' H3 HH3.
    apply (olin_ret mblin (fun e => ((k - 1)%Z, I2' e, H3' e))). exists (k - 1)%Z, I2', I2, H3', H3. auto.
  - apply (olin_ret mblin (fun e => (k, I2' e, H' e))). exists k, I2', I2, H', H. auto.
Qed.
Definition zmlin (s' : env -> Z * Mat) (s : Z * Mat) : Prop := exists z H' H, (forall e, s' e = (z, H' e)) /\ s = (z, H) /\ mlin H' H.
Lemma mass_lin c st q H : olin zmlin (fun e => fl_dyn_JntToMass (e_rnd e) (e_sin e) (e_cos e) c st q H) (dyn_JntToMass c st q H).
Proof.
  unfold fl_dyn_JntToMass, dyn_JntToMass.
  assert (C : forall z, zmlin (fun _ => (z, H)) (z, H)) by (intros z; exists z, (fun _ => H), H; repeat split; intros; apply lin_const).
  destruct (_ || _)%bool; [apply (olin_ret zmlin (fun _ => (E_NOT_UP_TO_DATE, H))), C|].
  destruct (negb _); [apply (olin_ret zmlin (fun _ => (E_SIZE_MISMATCH, H))), C|]. cbv zeta.
  apply (olin_bind mflin).
  { apply (olin_loop mflin (fun e => fl_mass_fwd_body (e_rnd e) (e_sin e) (e_cos e) c q) (mass_fwd_body c q) (dp_ns st)
      (fun i s' s K => mass_fwd_lin c q i s' s K) 0%nat (fun _ => (0%nat, repeat ab_zero (dp_ns st), repeat f_id (dp_ns st), repeat t_zero (dp_ns st)))).
    do 7 eexists. split; [intros e; reflexivity|]. split; [reflexivity|]. split; [|split]; apply llin_const; auto using ablin_const, flin_const, tlin_const. }
  intros r' r (k & Is' & Is & Xs' & Xs & Ss' & Ss & E & -> & HI & HX & HS).
  eapply olin_ext; [intros e; rewrite E; reflexivity|]. cbv beta iota.
  apply (olin_bind mblin).
  { apply (olin_loop mblin (fun e => fl_mass_bwd_body (e_rnd e) c (dp_ns st) (Xs' e) (Ss' e)) (mass_bwd_body c (dp_ns st) Xs Ss) (dp_ns st)
      (fun i s' s K => mass_bwd_lin c (dp_ns st) _ _ _ _ i s' s HX HS K) 0%nat (fun e => ((Z.of_nat (dp_nj st) - 1)%Z, Is' e, H))).
    exists (Z.of_nat (dp_nj st) - 1)%Z, Is', Is, (fun _ => H), H. split; [reflexivity|]. split; [reflexivity|]. split; [exact HI|apply mlin_const]. }
  intros r2' r2 (k2 & I2' & I2 & H2' & H2 & E2 & -> & _ & HH).
  eapply olin_ext; [intros e; rewrite E2; reflexivity|]. cbv beta iota.
  apply (olin_ret zmlin (fun e => (E_NOERROR, H2' e))). exists E_NOERROR, H2', H2. auto.
Qed.

(** One constant for finitely many bounds. *)
Lemma uniform (Q : nat -> env -> R -> Prop) : (forall i e a b, Q i e a -> a <= b -> Q i e b) ->
  (forall i, exists K d, 0 <= K /\ md d /\ forall e, e_eps e <= d -> Q i e (K * e_eps e)) ->
  forall n, exists K d, 0 <= K /\ md d /\ forall e, e_eps e <= d -> forall i, (i < n)%nat -> Q i e (K * e_eps e).
Proof.
  intros M H. induction n as [|n (K & d & K0 & D & IH)].
  - exists 0, 1. split; [lra|]. split; [apply md1|]. intros; lia.
  - destruct (H n) as (L & d' & L0 & D' & HL). exists (K + L), (Rmin d d'). split; [lra|]. split; [apply mdmin; assumption|].
    intros e He i Hi. pose proof (Rmin_l d d'). pose proof (Rmin_r d d'). pose proof (e_lo e).
    assert (0 <= K * e_eps e) by (apply Rmult_le_pos; lra). assert (0 <= L * e_eps e) by (apply Rmult_le_pos; lra).
    destruct (Nat.eq_dec i n) as [->|].
    + apply M with (a := L * e_eps e); [apply HL; lra|lra].
    + apply M with (a := K * e_eps e); [apply IH; [lra|lia]|lra].
Qed.
Lemma mlin_bound m' m n p : mlin m' m -> exists K d, 0 <= K /\ md d /\ forall e, e_eps e <= d ->
  forall i j, (i < n)%nat -> (j < p)%nat -> Rabs (mentry (m' e) i j - mentry m i j) <= K * e_eps e.
Proof.
  intros (_ & _ & H).
  destruct (uniform (fun i e b => forall j, (j < p)%nat -> Rabs (mentry (m' e) i j - mentry m i j) <= b)) with (n := n) as (K & d & K0 & D & HK).
  - intros i e a b Ha Hb j Hj. specialize (Ha j Hj). lra.
  - intros i. destruct (uniform (fun j e b => Rabs (mentry (m' e) i j - mentry m i j) <= b)) with (n := p) as (K & d & K0 & D & HK).
    + intros. lra.
    + intros j. exact (H i j).
    + exists K, d. split; [exact K0|]. split; [exact D|]. intros e He j Hj. apply HK; assumption.
  - exists K, d. split; [exact K0|]. split; [exact D|]. intros e He i j Hi Hj. apply (HK e He i Hi j Hj).
Qed.
End Mode.
