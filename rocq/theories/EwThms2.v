(** The external wrench estimator: the initial momentum, return codes, histories with edited chains, witnesses. *)
From Coq Require Import String Reals List Arith Lia Lra ZArith Bool.
From Verif Require Import FramesModel FramesSpec FramesProofs FrameOpsProofs RotationProofs Outcome LoopProofs InertiaModel InertiaSpec InertiaProofs DualModel KinModel KinSpec KinProofs JacProofs SpatialProofs JacDotProofs
  LinModel LinSpec SumProofs DynModel DynSpec RneProofs MassProofs DynProofs FdProofs EnergyProofs DynWitness LmaModel LmaSpec LmaProofs VelIkModel VelIkSpec VelIkLin VelIkProofs VelIkWitness
  EwModel EwSpec EwProofs EwHist EwConv EwThms.
Import ListNotations.
Local Open Scope list_scope.
Local Open Scope R_scope.

(** ** setInitialMomentum *)
Theorem ew_initial_momentum svd c g freq K f eps n w q qd tau : chain_ok c -> inertias_symmetric c -> freq <> 0 -> 0 < eps ->
  length q = ch_nj c -> length qd = ch_nj c -> length tau = ch_nj c ->
  (forall j, (j < ch_nj c)%nat -> nth j tau 0 = gravity_at c g q j + coriolis_at c g q qd j) ->
  exists s0 codes1 w1 s1 T1 codes2 w2 s2 T2, ew_make c g freq K f eps n = Ret s0 /\
    ew_run svd c w s0 [Sample q qd tau] = Ret (codes1, w1, s1) /\ (forall out, length out = ch_nj c -> ew_getEstimatedJntTorque s1 out = Ret T1) /\
    ew_run svd c w s0 [Start q qd; Sample q qd tau] = Ret (codes2, w2, s2) /\ (forall out, length out = ch_nj c -> ew_getEstimatedJntTorque s2 out = Ret T2) /\
    forall j, (j < ch_nj c)%nat -> nth j T1 0 = 0 /\ nth j T2 0 = - (1 - f) * K * momentum_at c g q qd j.
Proof.
  intros Hok Sy Hf He Hq Hqd Ht HB.
  destruct (ew_reference svd c g freq K f eps n [Sample q qd tau] w Hok Sy Hf He) as (s0 & codes1 & w1 & s1 & T1 & E0 & E1 & _ & _ & G1 & L1 & H1).
  { repeat constructor; assumption. }
  destruct (ew_reference svd c g freq K f eps n [Start q qd; Sample q qd tau] w Hok Sy Hf He) as (s0' & codes2 & w2 & s2 & T2 & E0' & E2 & _ & _ & G2 & L2 & H2).
  { repeat constructor; assumption. }
  rewrite E0 in E0'. injection E0' as <-.
  exists s0, codes1, w1, s1, T1, codes2, w2, s2, T2. do 5 (split; [assumption|]).
  intros j Hj. rewrite (H1 j Hj), (H2 j Hj). unfold ref_run, ref_start, ref_do, observer_step, apparent. cbn [fold_left fst snd]. rewrite (HB j Hj). split; ring.
Qed.
(** Used after the first sample the call does what it is for: the estimate starts from zero and the next one is right. *)
Theorem ew_momentum_after_sample svd c g freq K f eps n w q qd tau q' qd' tau' ext : chain_ok c -> inertias_symmetric c -> freq <> 0 -> 0 < eps ->
  Forall (fits (ch_nj c)) [Sample q qd tau; Sample q' qd' tau'] -> moves_under c g (1 / freq) ext (q, qd) [Sample q' qd' tau'] ->
  exists s0 codes w' s T, ew_make c g freq K f eps n = Ret s0 /\ ew_run svd c w s0 [Sample q qd tau; Start q qd; Sample q' qd' tau'] = Ret (codes, w', s) /\
    (forall out, length out = ch_nj c -> ew_getEstimatedJntTorque s out = Ret T) /\
    forall j, (j < ch_nj c)%nat -> nth j T 0 = (1 - f) * (K * (1 / freq) * ext j).
Proof.
  intros Hok Sy Hf He HF [HM _].
  assert (Hdt : 1 / freq <> 0) by (unfold Rdiv; rewrite Rmult_1_l; apply Rinv_neq_0_compat, Hf).
  inversion HF as [|? ? F1 HF2]. inversion HF2 as [|? ? F2 _]. cbn [fits] in F1, F2.
  destruct (ew_reference svd c g freq K f eps n [Sample q qd tau; Start q qd; Sample q' qd' tau'] w Hok Sy Hf He) as (s0 & codes & w' & s & T & E0 & E & _ & _ & G & L & HT).
  { constructor; [exact F1|]. constructor; [split; apply F1|]. constructor; [exact F2|constructor]. }
  exists s0, codes, w', s, T. do 3 (split; [assumption|]). intros j Hj. rewrite (HT j Hj).
  unfold ref_run. cbn [fold_left ref_do fst snd]. rewrite (apparent_is_external c g (1 / freq) q qd q' qd' tau' (ext j) j Hdt (HM j Hj)).
  unfold observer_step. cbn [fst snd]. ring.
Qed.

(** ** Histories with an edited chain *)
Definition ew_good (g : Vector) (c : Chain) (s : ew) : Prop :=
  chain_ok c /\ inertias_symmetric c /\ ew_sized s /\ dyn_reach g c (ew_dyn s) /\ ew_dt s <> 0 /\ 0 < ew_eps s.
Lemma good_fail g c s code : ew_good g c s -> ew_good g c (ew_fail s code).
Proof. intros H. exact H. Qed.
Lemma vec_resize_len {A} (l : list A) n d : length (vec_resize l n d) = n.
Proof. unfold vec_resize. rewrite app_length, firstn_length, repeat_length. lia. Qed.
Lemma sized_update c s s' : ew_sized s -> ew_update c s = Ret s' ->
  ew_sized s' /\ ew_current c s' /\ ew_dyn s' = dyn_update c (ew_dyn s) /\ ew_dt s' = ew_dt s /\ ew_eps s' = ew_eps s /\
  (ch_nj c <> ew_nj s -> ew_prev s' = None) /\ (ch_nj c = ew_nj s -> ew_prev s' = ew_prev s).
Proof.
  intros (Z1 & Z2 & Z3 & Z4 & Z5 & Z6 & Z7 & Z8 & Z9 & Z10 & Z11 & Z12 & Z13) E. unfold ew_update in E. apply obind_Ret_inv in E as (g0 & _ & E).
  assert (S : s' = mkEW (ew_dt s) (ew_filter s) (ew_eps s) (ew_maxiter s) (ch_nj c) (ch_ns c)
        (match m_resize (Some (ew_M s)) (ch_nj c) with Some a => a | None => mat_zero (ch_nj c) end)
        (m_resize (ew_prev s) (ch_nj c)) (vec_resize (ew_p0 s) (ch_nj c) 0) (vec_resize (ew_int s) (ch_nj c) 0) (vec_resize (ew_filt s) (ch_nj c) 0)
        (vec_resize (ew_grav s) (ch_nj c) 0) (vec_resize (ew_cor s) (ch_nj c) 0) (vec_resize (ew_jac s) (ch_nj c) t_zero) (vec_resize (ew_gain s) (ch_nj c) g0)
        (dyn_update c (ew_dyn s)) (jacsolver_update c (ew_locked s)) (ew_error s)) by congruence.
  clear E. subst s'. unfold ew_sized, ew_current.
  cbn [ew_nj ew_ns ew_M ew_prev ew_p0 ew_int ew_filt ew_grav ew_cor ew_jac ew_gain ew_locked ew_dyn ew_dt ew_filter ew_eps ew_maxiter ew_error].
  assert (RM : forall a m, m_resize a m = None \/ exists b, m_resize a m = Some b /\ a = Some b /\ mrows b = m /\ mcols b = m).
  { intros [b|] m; [|left; reflexivity]. cbn [m_resize]. destruct (Nat.eqb_spec (mrows b) m), (Nat.eqb_spec (mcols b) m); cbn [andb]; auto. right. exists b. auto. }
  split.
  - assert (QM : mrows (match m_resize (Some (ew_M s)) (ch_nj c) with Some a => a | None => mat_zero (ch_nj c) end) = ch_nj c /\
                mcols (match m_resize (Some (ew_M s)) (ch_nj c) with Some a => a | None => mat_zero (ch_nj c) end) = ch_nj c).
    { destruct (RM (Some (ew_M s)) (ch_nj c)) as [->|(b & -> & _ & B1 & B2)]; [split; reflexivity|split; assumption]. }
    destruct QM as [Q1 Q2]. split; [exact Q1|]. split; [exact Q2|]. rewrite !vec_resize_len. do 7 (split; [reflexivity|]).
    split. { unfold jacsolver_update. rewrite Z10. apply vec_resize_repeat. }
    split; [reflexivity|]. split; [reflexivity|]. intros P EP. destruct (RM (ew_prev s) (ch_nj c)) as [N|(b & B & _ & B1 & B2)]; [congruence|].
    rewrite B in EP. injection EP as <-. split; assumption.
  - split; [split; reflexivity|]. do 3 (split; [reflexivity|]). split.
    + intros N. destruct (RM (ew_prev s) (ch_nj c)) as [->|(b & B & Eb & B1 & B2)]; [reflexivity|]. destruct (Z13 b Eb). congruence.
    + intros N. destruct (ew_prev s) as [P|] eqn:EP; [|reflexivity]. destruct (Z13 P eq_refl) as [P1 P2]. cbn [m_resize]. rewrite P1, P2, N, Nat.eqb_refl. reflexivity.
Qed.
Lemma good_do svd g c s e w code w' s' : ew_good g c s -> (forall eps, e = SetEps eps -> 0 < eps) -> ew_do svd c w s e = Ret (code, w', s') -> ew_good g c s'.
Proof.
  intros HG HE E. pose proof HG as (Hok & Sy & Z & Dr & Hd & He). destruct e as [q qd tau|q qd|eps|m|]; cbn [ew_do] in E.
  - destruct (Nat.eq_dec (ew_nj s) (ch_nj c)) as [C1|N]; [destruct (Nat.eq_dec (ew_ns s) (ch_ns c)) as [C2|N]|].
    2,3: unfold ew_JntToExtWrench in E; (replace (negb (Nat.eqb (ew_nj s) (ch_nj c)) || negb (Nat.eqb (ew_ns s) (ch_ns c)))%bool with true in E
      by (apply Nat.eqb_neq in N; rewrite N; cbn; rewrite ?orb_true_r; reflexivity)); injection E as <- <- <-; apply good_fail, HG.
    destruct (Nat.eq_dec (length q) (ew_nj s)) as [L1|N]; [destruct (Nat.eq_dec (length qd) (ew_nj s)) as [L2|N]; [destruct (Nat.eq_dec (length tau) (ew_nj s)) as [L3|N]|]|].
    2,3,4: unfold ew_JntToExtWrench in E; rewrite C1, C2, !Nat.eqb_refl in E; cbn [negb orb] in E; rewrite <- C1 in E;
      (replace (negb (Nat.eqb (length q) (ew_nj s)) || negb (Nat.eqb (length qd) (ew_nj s)) || negb (Nat.eqb (length tau) (ew_nj s)))%bool with true in E
       by (apply Nat.eqb_neq in N; rewrite N; cbn; rewrite ?orb_true_r; reflexivity)); injection E as <- <- <-; apply good_fail, HG.
    destruct (ew_prev s) as [P|] eqn:EP.
    + rewrite C1 in L1, L2, L3.
      destruct (ew_sample svd g c s q qd tau w P Hok Sy Z (conj C1 C2) Dr Hd He L1 L2 L3 EP) as (code1 & w1 & s1 & E1 & _ & _ & _ & Z' & _ & D' & dt' & _ & eps' & _).
      rewrite E in E1. injection E1 as -> -> ->. unfold ew_good. rewrite D', dt', eps'. split; [exact Hok|]. split; [exact Sy|]. split; [exact Z'|]. auto.
    + exfalso. unfold ew_JntToExtWrench in E. rewrite C1, C2, !Nat.eqb_refl in E. cbn [negb orb] in E. rewrite <- C1, L1, L2, L3, !Nat.eqb_refl in E. cbn [negb orb] in E.
      destruct Z as (Z1 & Z2 & Z3 & Z4 & Z5 & Z6 & Z7 & Z8 & Z9 & Z10 & Z11 & Z12 & Z13). rewrite C1 in *.
      assert (Dc : dyn_current c (ew_dyn s)) by (split; congruence).
      destruct (mass_at_ok g c (ew_dyn s) q (ew_M s) Hok Sy Dr Dc L1 Z1 Z2) as (M & EM & _). rewrite EM in E. cbn [obind] in E.
      change (negb (E_NOERROR =? E_NOERROR)%Z) with false in E. cbv iota in E.
      destruct (coriolis_at_ok g c (ew_dyn s) q qd (ew_cor s) Hok Dr Dc L1 L2 Z7) as (C & EC & _). rewrite EC in E. cbn [obind] in E.
      change (negb (E_NOERROR =? E_NOERROR)%Z) with false in E. cbv iota in E.
      destruct (gravity_at_ok g c (ew_dyn s) q (ew_grav s) Hok Dr Dc L1 Z6) as (G & EG & _). rewrite EG in E. cbn [obind] in E.
      change (negb (E_NOERROR =? E_NOERROR)%Z) with false in E. cbv iota in E. rewrite EP in E. discriminate E.
  - apply obind_Ret_inv in E as ([code1 s1] & E1 & E). injection E as <- <- <-.
    pose proof Z as (Z1 & Z2 & Z3 & Z4 & Z5 & Z6 & Z7 & Z8 & Z9 & Z10 & Z11 & Z12 & Z13).
    unfold ew_setInitialMomentum in E1.
    destruct (Nat.eqb_spec (length q) (ew_nj s)) as [L1|]; cbn [negb orb] in E1; [|injection E1 as <- <-; apply good_fail, HG].
    destruct (Nat.eqb_spec (length qd) (ew_nj s)) as [L2|]; cbn [negb orb] in E1; [|injection E1 as <- <-; apply good_fail, HG].
    destruct (Nat.eq_dec (dp_nj (ew_dyn s)) (ch_nj c)) as [D1|N]; [destruct (Nat.eq_dec (dp_ns (ew_dyn s)) (ch_ns c)) as [D2|N]|].
    2,3: rewrite mass_stale in E1 by (intros [? ?]; contradiction); cbn [obind] in E1; change (negb (E_NOT_UP_TO_DATE =? E_NOERROR)%Z) with true in E1; cbv iota in E1;
      injection E1 as <- <-; unfold ew_good, ew_sized, ew_fail, ew_dynamics; cbn [ew_nj ew_ns ew_M ew_prev ew_p0 ew_int ew_filt ew_grav ew_cor ew_jac ew_gain ew_locked ew_dyn ew_dt ew_eps]; exact HG.
    assert (En : ew_nj s = ch_nj c) by congruence. rewrite En in *.
    destruct (mass_at_ok g c (ew_dyn s) q (ew_M s) Hok Sy Dr (conj D1 D2) L1 Z1 Z2) as (M & EM & M1 & M2 & _). rewrite EM in E1. cbn [obind] in E1.
    change (negb (E_NOERROR =? E_NOERROR)%Z) with false in E1. cbv iota in E1.
    destruct (m_vec_ok M qd (ch_nj c) M1 M2 L2) as (p0 & Ep & L0 & _). rewrite Ep in E1. cbn [obind] in E1. injection E1 as <- <-.
    unfold ew_good, ew_sized. cbn [ew_nj ew_ns ew_M ew_prev ew_p0 ew_int ew_filt ew_grav ew_cor ew_jac ew_gain ew_locked ew_dyn ew_dt ew_eps]. rewrite !map_length.
    split; [exact Hok|]. split; [exact Sy|]. split; [|split; [exact Dr|split; [exact Hd|exact He]]].
    repeat (split; [assumption|]). exact Z13.
  - injection E as <- <- <-. split; [exact Hok|]. split; [exact Sy|]. split; [exact Z|]. split; [exact Dr|]. split; [exact Hd|]. apply (HE eps eq_refl).
  - injection E as <- <- <-. exact HG.
  - apply obind_Ret_inv in E as (s1 & E1 & E). injection E as <- <- <-. destruct (sized_update c s s1 Z E1) as (Z' & _ & D' & dt' & eps' & _).
    unfold ew_good. rewrite D', dt', eps'. split; [exact Hok|]. split; [exact Sy|]. split; [exact Z'|]. split; [apply dyn_r_update; exact Dr|]. split; assumption.
Qed.
Lemma reach_good svd g c s : ew_reach svd g c s -> ew_good g c s.
Proof.
  induction 1 as [c freq K f eps n s Hok Sy He E|c c' s H IH Hok Sy|c s e w code w' s' H IH HE E].
  - assert (Hf : freq <> 0). { intros ->. unfold ew_make, rdiv in E. destruct (Req_EM_T 0 0) as [_|N]; [discriminate E|contradiction]. }
    destruct (follows_make c g freq K f eps n Hf He) as (s' & E' & (Z & _ & Dr & Ed & _ & He' & _) & _). rewrite E in E'. injection E' as <-.
    split; [exact Hok|]. split; [exact Sy|]. split; [exact Z|]. split; [exact Dr|]. split; [|exact He'].
    rewrite Ed. unfold Rdiv. rewrite Rmult_1_l. apply Rinv_neq_0_compat, Hf.
  - destruct IH as (_ & _ & Z & Dr & Hd & He). split; [exact Hok|]. split; [exact Sy|]. split; [exact Z|]. split; [apply dyn_r_edit with (c := c); exact Dr|]. auto.
  - eapply good_do; eassumption.
Qed.

(** ** Return codes *)
Theorem ew_codes svd g c s q qd tau w : ew_reach svd g c s ->
  (~ ew_current c s -> ew_JntToExtWrench svd c s q qd tau w = Ret (E_NOT_UP_TO_DATE, w, ew_fail s E_NOT_UP_TO_DATE)) /\
  (ew_current c s -> ~ (length q = ch_nj c /\ length qd = ch_nj c /\ length tau = ch_nj c) ->
     ew_JntToExtWrench svd c s q qd tau w = Ret (E_SIZE_MISMATCH, w, ew_fail s E_SIZE_MISMATCH)) /\
  (ew_current c s -> length q = ch_nj c -> length qd = ch_nj c -> length tau = ch_nj c ->
     (ew_prev s = None /\ ew_JntToExtWrench svd c s q qd tau w = Undef) \/
     exists code w' s', ew_JntToExtWrench svd c s q qd tau w = Ret (code, w', s') /\ ew_error s' = code /\
       (dc_rc (svd (ew_maxiter s) (ew_matrix c q)) = 0%Z -> code = E_NOERROR) /\
       (dc_rc (svd (ew_maxiter s) (ew_matrix c q)) <> 0%Z -> code = E_SVD_FAILED /\ w' = w)).
Proof.
  intros HR. pose proof (reach_good svd g c s HR) as HG. pose proof HG as (Hok & Sy & Z & Dr & Hd & He).
  split; [|split].
  - intros N. unfold ew_JntToExtWrench. destruct (Nat.eqb_spec (ew_nj s) (ch_nj c)) as [C1|], (Nat.eqb_spec (ew_ns s) (ch_ns c)) as [C2|]; cbn [negb orb]; try reflexivity.
    exfalso. apply N. split; assumption.
  - intros [C1 C2] N. unfold ew_JntToExtWrench. rewrite C1, C2, !Nat.eqb_refl. cbn [negb orb].
    destruct (Nat.eqb_spec (length q) (ch_nj c)) as [L1|], (Nat.eqb_spec (length qd) (ch_nj c)) as [L2|], (Nat.eqb_spec (length tau) (ch_nj c)) as [L3|]; cbn [negb orb]; try reflexivity.
    exfalso. apply N. auto.
  - intros [C1 C2] L1 L2 L3. destruct (ew_prev s) as [P|] eqn:EP.
    + right. destruct (ew_sample svd g c s q qd tau w P Hok Sy Z (conj C1 C2) Dr Hd He L1 L2 L3 EP) as (code1 & w1 & s1 & E1 & Er & W1 & W2 & _).
      exists code1, w1, s1. split; [exact E1|]. split; [exact Er|]. split; [intros D0; apply (W1 D0)|exact W2].
    + left. split; [reflexivity|].
      destruct (ew_JntToExtWrench svd c s q qd tau w) as [[[code w'] s']|] eqn:E; [exfalso|reflexivity].
      revert E. unfold ew_JntToExtWrench. rewrite C1, C2, L1, L2, L3, !Nat.eqb_refl. cbn [negb orb].
      destruct Z as (Z1 & Z2 & Z3 & Z4 & Z5 & Z6 & Z7 & Z8 & Z9 & Z10 & Z11 & Z12 & Z13). rewrite C1 in *.
      assert (Dc : dyn_current c (ew_dyn s)) by (split; congruence).
      destruct (mass_at_ok g c (ew_dyn s) q (ew_M s) Hok Sy Dr Dc L1 Z1 Z2) as (M & EM & _). rewrite EM. cbn [obind].
      change (negb (E_NOERROR =? E_NOERROR)%Z) with false. cbv iota.
      destruct (coriolis_at_ok g c (ew_dyn s) q qd (ew_cor s) Hok Dr Dc L1 L2 Z7) as (C & EC & _). rewrite EC. cbn [obind].
      change (negb (E_NOERROR =? E_NOERROR)%Z) with false. cbv iota.
      destruct (gravity_at_ok g c (ew_dyn s) q (ew_grav s) Hok Dr Dc L1 Z6) as (G & EG & _). rewrite EG. cbn [obind].
      change (negb (E_NOERROR =? E_NOERROR)%Z) with false. cbv iota. rewrite EP. discriminate.
Qed.
(** A stale object refuses setInitialMomentum as well. *)
Theorem ew_start_codes svd g c s q qd : ew_reach svd g c s ->
  (~ (length q = ew_nj s /\ length qd = ew_nj s) -> ew_setInitialMomentum c s q qd = Ret (E_SIZE_MISMATCH, ew_fail s E_SIZE_MISMATCH)) /\
  (length q = ew_nj s -> length qd = ew_nj s -> ~ ew_current c s ->
     exists s', ew_setInitialMomentum c s q qd = Ret (EW_MASS_FAILED, s') /\ ew_p0 s' = ew_p0 s /\ ew_int s' = ew_int s /\ ew_filt s' = ew_filt s) /\
  (length q = ew_nj s -> length qd = ew_nj s -> ew_current c s -> exists s', ew_setInitialMomentum c s q qd = Ret (E_NOERROR, s') /\ ew_filt s' = repeat 0 (ch_nj c)).
Proof.
  intros HR. pose proof (reach_good svd g c s HR) as (Hok & Sy & Z & Dr & Hd & He).
  pose proof Z as (Z1 & Z2 & Z3 & Z4 & Z5 & Z6 & Z7 & Z8 & Z9 & Z10 & Z11 & Z12 & Z13). unfold ew_setInitialMomentum. split; [|split].
  - intros N. destruct (Nat.eqb_spec (length q) (ew_nj s)), (Nat.eqb_spec (length qd) (ew_nj s)); cbn [negb orb]; try reflexivity. exfalso. apply N. auto.
  - intros L1 L2 N. rewrite L1, L2, !Nat.eqb_refl. cbn [negb orb].
    rewrite mass_stale by (intros [D1 D2]; apply N; split; congruence). cbn [obind]. change (negb (E_NOT_UP_TO_DATE =? E_NOERROR)%Z) with true. cbv iota.
    eexists. split; [reflexivity|]. split; [reflexivity|]. split; reflexivity.
  - intros L1 L2 [C1 C2]. rewrite L1, L2, !Nat.eqb_refl. cbn [negb orb]. rewrite C1 in *.
    destruct (mass_at_ok g c (ew_dyn s) q (ew_M s) Hok Sy Dr (conj Z11 (eq_trans Z12 C2)) L1 Z1 Z2) as (M & EM & M1 & M2 & _). rewrite EM. cbn [obind].
    change (negb (E_NOERROR =? E_NOERROR)%Z) with false. cbv iota.
    destruct (m_vec_ok M qd (ch_nj c) M1 M2 L2) as (p0 & Ep & L0 & _). rewrite Ep. cbn [obind]. eexists. split; [reflexivity|]. cbn [ew_filt].
    rewrite <- Z5. clear. induction (ew_filt s) as [|x l IH]; [reflexivity|]. cbn. f_equal. exact IH.
Qed.
(** After a change of the number of joints updateInternalDataStructures leaves the previous mass matrix without values, and the next call reads it. *)
Theorem ew_update_reads_garbage svd g c s s' q qd tau w : ew_reach svd g c s -> ch_nj c <> ew_nj s -> ew_update c s = Ret s' ->
  length q = ch_nj c -> length qd = ch_nj c -> length tau = ch_nj c -> ew_JntToExtWrench svd c s' q qd tau w = Undef.
Proof.
  intros HR N E L1 L2 L3. pose proof (reach_good svd g c s HR) as (Hok & Sy & Z & Dr & Hd & He).
  destruct (sized_update c s s' Z E) as (Z' & C' & _ & _ & _ & NN & _).
  assert (HR' : ew_reach svd g c s'). { apply (ew_r_do svd g c s Update w E_NOERROR w s' HR); [discriminate|]. cbn [ew_do]. rewrite E. reflexivity. }
  destruct (ew_codes svd g c s' q qd tau w HR') as (_ & _ & H). destruct (H C' L1 L2 L3) as [[_ U]|(code & w' & s'' & E' & _)]; [exact U|].
  exfalso. revert E'. destruct C' as [C1 C2]. destruct (H (conj C1 C2) L1 L2 L3) as [[_ U]|_]; [rewrite U; discriminate|].
  unfold ew_JntToExtWrench. rewrite C1, C2, L1, L2, L3, !Nat.eqb_refl. cbn [negb orb].
  pose proof (reach_good svd g c s' HR') as (_ & _ & _ & Dr' & _).
  destruct Z' as (Z1 & Z2 & Z3 & Z4 & Z5 & Z6 & Z7 & Z8 & Z9 & Z10 & Z11 & Z12 & Z13). rewrite C1 in *.
  assert (Dc : dyn_current c (ew_dyn s')) by (split; congruence).
  destruct (mass_at_ok g c (ew_dyn s') q (ew_M s') Hok Sy Dr' Dc L1 Z1 Z2) as (M & EM & _). rewrite EM. cbn [obind].
  change (negb (E_NOERROR =? E_NOERROR)%Z) with false. cbv iota.
  destruct (coriolis_at_ok g c (ew_dyn s') q qd (ew_cor s') Hok Dr' Dc L1 L2 Z7) as (C & EC & _). rewrite EC. cbn [obind].
  change (negb (E_NOERROR =? E_NOERROR)%Z) with false. cbv iota.
  destruct (gravity_at_ok g c (ew_dyn s') q (ew_grav s') Hok Dr' Dc L1 Z6) as (G & EG & _). rewrite EG. cbn [obind].
  change (negb (E_NOERROR =? E_NOERROR)%Z) with false. cbv iota. rewrite (NN N). discriminate.
Qed.
Theorem ew_update_no_joints c s : ew_sized s -> ew_nj s = 0%nat -> ew_update c s = Undef.
Proof.
  intros (_ & _ & _ & _ & _ & _ & _ & _ & Z9 & _) N. rewrite N in Z9. unfold ew_update. destruct (ew_gain s); [reflexivity|discriminate Z9].
Qed.

(** ** A gain that is too large *)
Theorem ew_gain_limit svd c g freq K eps n w q tau j : chain_ok c -> inertias_symmetric c -> freq <> 0 -> 0 < eps -> 2 <= K * (1 / freq) ->
  length q = ch_nj c -> length tau = ch_nj c -> (j < ch_nj c)%nat -> forall k,
  let ext := gravity_at c g q j - nth j tau 0 in
  exists s0 codes w' s T, ew_make c g freq K 0 eps n = Ret s0 /\ ew_run svd c w s0 (repeat (Sample q (repeat 0 (ch_nj c)) tau) k) = Ret (codes, w', s) /\
    (forall out, length out = ch_nj c -> ew_getEstimatedJntTorque s out = Ret T) /\ Rabs ext <= Rabs (nth j T 0 - ext).
Proof.
  intros Hok Sy Hf He HK Hq Ht Hj k ext.
  assert (Hdt : 1 / freq <> 0) by (unfold Rdiv; rewrite Rmult_1_l; apply Rinv_neq_0_compat, Hf).
  set (x := Sample q (repeat 0 (ch_nj c)) tau).
  destruct (ew_reference svd c g freq K 0 eps n (repeat x k) w Hok Sy Hf He) as (s0 & codes & w' & s & T & E0 & E & _ & _ & ET & LT & HT).
  { apply Forall_forall. intros e Hin. apply repeat_spec in Hin. subst. repeat split; [exact Hq|apply repeat_length|exact Ht]. }
  exists s0, codes, w', s, T. split; [exact E0|]. split; [exact E|]. split; [exact ET|]. rewrite (HT j Hj).
  assert (A : forall last, last = None \/ last = Some (q, repeat 0 (ch_nj c)) -> apparent c g (1 / freq) last q (repeat 0 (ch_nj c)) tau j = ext).
  { intros last [Hl|Hl]; rewrite Hl.
    - unfold apparent. rewrite coriolis_at_rest by auto. unfold ext. ring.
    - apply apparent_is_external; [exact Hdt|]. rewrite sumn_zero by (intros; ring). rewrite coriolis_at_rest by auto. unfold ext. ring. }
  assert (G : forall m last y, last = None \/ last = Some (q, repeat 0 (ch_nj c)) -> snd (ref_run c g K (1 / freq) 0 (last, y) (repeat x m)) j = observer K (1 / freq) 0 (y j) (repeat ext m)).
  { induction m as [|m IH]; intros last y Hl; [reflexivity|]. cbn [repeat ref_run fold_left ref_do observer fst snd].
    etransitivity; [apply (IH (Some (q, repeat 0 (ch_nj c))) (fun j => observer_step K (1 / freq) 0 (apparent c g (1 / freq) last q (repeat 0 (ch_nj c)) tau j) (y j))); right; reflexivity|].
    cbv beta. rewrite (A last Hl). reflexivity. }
  unfold ref_start. rewrite (G k None _ (or_introl eq_refl)). apply observer_diverges, HK.
Qed.

(** ** Concrete cases *)
Lemma momentum_moves : exists j, (j < ch_nj wchain)%nat /\ momentum_at wchain wgrav [0; 0] [1; 0] j <> 0.
Proof.
  destruct wchain_inertias as [Sy Ps].
  destruct (psd_symmetric_mass wgrav wchain (dyn_make wchain wgrav) [0; 0] (mat_zero (ch_nj wchain)) wchain_ok Sy Ps) as (M & EM & _ & _ & PD);
    [intros j Hj; apply Rlt_le, wchain_rotors, Hj|apply dyn_r_make|split; reflexivity|reflexivity|reflexivity|reflexivity|].
  specialize (PD wchain_rotors).
  destruct (Req_EM_T (momentum_at wchain wgrav [0; 0] [1; 0] 0) 0) as [Z|N]; [exfalso|exists 0%nat; split; [change (ch_nj wchain) with 2%nat; lia|exact N]].
  assert (Q : quadratic (ch_nj wchain) (mentry M) (fun j => nth j [1; 0] 0) = momentum_at wchain wgrav [0; 0] [1; 0] 0).
  { unfold quadratic, momentum_at, mass_at. rewrite EM. change (ch_nj wchain) with 2%nat. cbn [sumn nth]. ring. }
  assert (P : 0 < quadratic (ch_nj wchain) (mentry M) (fun j => nth j [1; 0] 0)).
  { apply PD. exists 0%nat. change (ch_nj wchain) with 2%nat. cbn. split; [lia|lra]. }
  lra.
Qed.
Theorem ew_initial_momentum_refuted : exists svd c g freq K f eps n w q qd tau s0 codes1 w1 s1 codes2 w2 s2 T1 T2 j,
  chain_ok c /\ inertias_symmetric c /\ 0 < freq /\ 0 < K < freq /\ f = 0 /\
  (forall j, (j < ch_nj c)%nat -> nth j tau 0 = gravity_at c g q j + coriolis_at c g q qd j) /\
  ew_make c g freq K f eps n = Ret s0 /\
  ew_run svd c w s0 [Sample q qd tau] = Ret (codes1, w1, s1) /\ ew_getEstimatedJntTorque s1 (repeat 0 (ch_nj c)) = Ret T1 /\
  ew_run svd c w s0 [Start q qd; Sample q qd tau] = Ret (codes2, w2, s2) /\ ew_getEstimatedJntTorque s2 (repeat 0 (ch_nj c)) = Ret T2 /\
  (j < ch_nj c)%nat /\ nth j T1 0 = 0 /\ nth j T2 0 <> 0.
Proof.
  destruct momentum_moves as (j & Hj & Nz). destruct wchain_inertias as [Sy _].
  set (tau := map (fun j => gravity_at wchain wgrav [0; 0] j + coriolis_at wchain wgrav [0; 0] [1; 0] j) (seq 0 (ch_nj wchain))).
  destruct (ew_initial_momentum (fun _ _ => gantry_svd 1 0) wchain wgrav 10 1 0 1 0%Z w_zero [0; 0] [1; 0] tau wchain_ok Sy) as (s0 & codes1 & w1 & s1 & T1 & codes2 & w2 & s2 & T2 & E0 & E1 & G1 & E2 & G2 & H);
    [lra|lra|reflexivity|reflexivity|unfold tau; rewrite map_length, seq_length; reflexivity|intros i Hi; unfold tau; rewrite nth_map_seq by exact Hi; reflexivity|].
  exists (fun _ _ => gantry_svd 1 0), wchain, wgrav, 10, 1, 0, 1, 0%Z, w_zero, [0; 0], [1; 0], tau, s0, codes1, w1, s1, codes2, w2, s2, T1, T2, j.
  destruct (H j Hj) as [H1 H2].
  split; [apply wchain_ok|]. split; [exact Sy|]. split; [lra|]. split; [lra|]. split; [reflexivity|].
  split; [intros i Hi; unfold tau; rewrite nth_map_seq by exact Hi; reflexivity|]. split; [exact E0|]. split; [exact E1|]. split; [apply G1, repeat_length|].
  split; [exact E2|]. split; [apply G2, repeat_length|]. split; [exact Hj|]. split; [exact H1|]. rewrite H2. intros Q. apply Nz. lra.
Qed.
Lemma gantry_sym : inertias_symmetric (gantry 1).
Proof. unfold inertias_symmetric, gantry. cbn [ch_segs]. repeat (constructor; [apply rb_symmetric_data; repeat split; reflexivity|]). constructor. Qed.
Lemma ew_nonvacuous : exists (svd : Z -> Mat -> Decomp) c g freq K f eps n q load, freq <> 0 /\ -1 < f < 1 /\ 0 < K * (1 / freq) /\ K * (1 / freq) * (1 - f) < 2 * (1 + f) /\
  chain_ok c /\ inertias_symmetric c /\ 0 < eps /\ length q = ch_nj c /\ (0 < ch_nj c)%nat /\ load <> w_zero /\
  (exists before, Forall (fits (ch_nj c)) before /\ Forall is_call before /\ length before = 2%nat) /\
  (exists tau, length tau = ch_nj c /\ forall j, (j < ch_nj c)%nat -> nth j tau 0 = gravity_at c g q j - external_torque c q (tip_load c load) j) /\
  let d := svd n (ew_matrix c q) in
  dc_rc d = 0%Z /\ svd_of (ch_nj c) 6 (tip_axes_jacobian c q) d /\ (forall i, (i < 6)%nat -> eps <= Rabs (dc_S d i)).
Proof.
  exists (fun _ _ => gantry_svd 1 0), (gantry 1), wgrav, 10, 1, (1/2), 1, 0%Z, home, (mkW (mkV 1 2 3) (mkV 4 5 6)).
  split; [lra|]. split; [lra|]. split; [lra|]. split; [lra|]. split; [apply gantry_ok|]. split; [apply gantry_sym|]. split; [lra|]. split; [reflexivity|]. split; [cbn; lia|].
  split. { intros E. apply (f_equal (fun w => vx (wforce w))) in E. cbn in E. lra. }
  split. { exists [Start home home; Sample home home home]. split; [repeat constructor|]. split; [repeat constructor|reflexivity]. }
  split. { exists (map (fun j => gravity_at (gantry 1) wgrav home j - external_torque (gantry 1) home (tip_load (gantry 1) (mkW (mkV 1 2 3) (mkV 4 5 6))) j) (seq 0 (ch_nj (gantry 1)))).
    split; [reflexivity|]. intros j Hj. rewrite nth_map_seq by exact Hj. reflexivity. }
  cbv zeta. split; [reflexivity|].
  assert (T : fM (tip_at (gantry 1) (-1) home) = r_id).
  { assert (D : denotes (gantry 1) (-1) (length (ch_segs (gantry 1)))) by (left; split; [lia|reflexivity]).
    rewrite (tip_at_eq (gantry 1) (-1) _ home (proj1 (gantry_ok 1)) D (le_n _) eq_refl).
    unfold tip_frame. rewrite firstn_all. change (fM (pose_product (assign (map (fun p => ax (fst p) (snd p)) (gantry_axes 1)) (repeat 0 (length (gantry_axes 1))))) = r_id).
    rewrite (proj2 (ax_jacl (gantry_axes 1) ltac:(repeat constructor; cbn; tauto))). reflexivity. }
  split.
  - destruct (gantry_svd_of 1 0) as (A & V & U). split; [|split; [exact V|exact U]].
    intros r j Hr Hj. unfold tip_axes_jacobian. rewrite T.
    replace (r_invapp_t r_id (nth r (jacobian_at (gantry 1) (-1) home) t_zero)) with (nth r (jacobian_at (gantry 1) (-1) home) t_zero).
    2:{ destruct (nth r (jacobian_at (gantry 1) (-1) home) t_zero) as [[a b e] [a' b' e']]. clear. geo. }
    change (ch_nj (gantry 1)) with 6%nat in Hr. rewrite <- (A r j Hr Hj). rewrite (gantry_jac_entry 1 r j Hr Hj), gantry_jac.
    destruct r as [|[|[|[|[|[|r]]]]]]; try lia; destruct j as [|[|[|[|[|[|j]]]]]]; try lia; cbn; ring.
  - intros i Hi. cbn [gantry_svd dc_S]. destruct (Nat.eqb i 5); rewrite Rabs_R1; lra.
Qed.
