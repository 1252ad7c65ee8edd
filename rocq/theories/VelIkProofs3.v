(** Proofs about ChainIkSolverVel_wdls. *)
From Coq Require Import Reals String List ZArith Bool Arith Lia Lra.
From Verif Require Import FramesModel Outcome InertiaModel DualModel KinModel KinSpec KinProofs JacProofs JacDotProofs
  LinModel LinSpec SumProofs LmaModel LmaSpec LmaProofs LmaProofs2 VelIkModel VelIkSpec VelIkLin VelIkProofs.
Import ListNotations.
Local Open Scope list_scope.
Local Open Scope R_scope.

Lemma wdls_make_clean c eps k : let s := wdls_make c eps k in wdls_clean s /\ wdls_shapes s /\ wd_nj s = ch_nj c /\ wd_eps s = eps /\
  wd_maxiter s = k /\ wd_lambda s = 0 /\ wd_ts s = m_identity 6 /\ wd_js s = m_identity (ch_nj c) /\ wd_scaled s = 0 /\
  wd_zeros s = 0%nat /\ wd_svd s = 0%Z /\ wd_smin s = 0 /\ wd_error s = E_NOERROR.
Proof. cbv zeta. unfold wdls_clean, wdls_shapes, wdls_make; cbn. unfold jac_make. rewrite !repeat_length. repeat split. Qed.
Lemma wdls_update_clean c s : wdls_clean s -> wdls_shapes s -> let s' := wdls_update c s in wdls_clean s' /\ wdls_shapes s' /\
  wd_nj s' = ch_nj c /\ wd_eps s' = wd_eps s /\ wd_maxiter s' = wd_maxiter s /\ wd_lambda s' = wd_lambda s /\ wd_ts s' = wd_ts s /\
  (forall i j, (i < ch_nj c)%nat -> (j < ch_nj c)%nat ->
     mentry (wd_js s') i j = if Nat.ltb i (wd_nj s) && Nat.ltb j (wd_nj s) then mentry (wd_js s) i j else delta i j).
Proof.
  intros (L & J & S) (T1 & T2 & J1 & J2). cbv zeta. unfold wdls_clean, wdls_shapes, wdls_update; cbn. unfold jacsolver_update.
  rewrite L, vec_resize_repeat, !vec_resize_length, J1, J2. repeat (split; [auto | ]). reflexivity.
Qed.
(** Setting a weight of the right shape, lambda, eps and the iteration limit. *)
Lemma wdls_setters c s MJ MT x e k : wdls_clean s -> wdls_shapes s -> wd_nj s = ch_nj c ->
  let keeps (s' : wdls) := wdls_clean s' /\ wd_nj s' = wd_nj s in
  (mrows MJ = wd_nj s -> mcols MJ = wd_nj s -> exists s', wdls_setWeightJS c s MJ = (E_NOERROR, s') /\ keeps s' /\ wdls_shapes s' /\
     wd_js s' = MJ /\ wd_ts s' = wd_ts s /\ wd_lambda s' = wd_lambda s /\ wd_eps s' = wd_eps s /\ wd_maxiter s' = wd_maxiter s) /\
  (mrows MT = 6%nat -> mcols MT = 6%nat -> exists s', wdls_setWeightTS s MT = (E_NOERROR, s') /\ keeps s' /\ wdls_shapes s' /\
     wd_ts s' = MT /\ wd_js s' = wd_js s /\ wd_lambda s' = wd_lambda s /\ wd_eps s' = wd_eps s /\ wd_maxiter s' = wd_maxiter s) /\
  ((mrows MJ * mcols MJ <> wd_nj s * wd_nj s)%nat -> exists s', wdls_setWeightJS c s MJ = (E_SIZE_MISMATCH, s') /\ keeps s' /\ wdls_shapes s' /\
     wd_js s' = wd_js s /\ wd_ts s' = wd_ts s /\ wd_lambda s' = wd_lambda s /\ wd_eps s' = wd_eps s /\ wd_maxiter s' = wd_maxiter s) /\
  ((mrows MT * mcols MT <> 36)%nat -> exists s', wdls_setWeightTS s MT = (E_SIZE_MISMATCH, s') /\ keeps s' /\ wdls_shapes s' /\
     wd_js s' = wd_js s /\ wd_ts s' = wd_ts s /\ wd_lambda s' = wd_lambda s /\ wd_eps s' = wd_eps s /\ wd_maxiter s' = wd_maxiter s) /\
  (keeps (wdls_setLambda s x) /\ wdls_shapes (wdls_setLambda s x) /\ wd_lambda (wdls_setLambda s x) = x /\
     wd_eps (wdls_setLambda s x) = wd_eps s /\ wd_maxiter (wdls_setLambda s x) = wd_maxiter s /\
     wd_ts (wdls_setLambda s x) = wd_ts s /\ wd_js (wdls_setLambda s x) = wd_js s) /\
  (keeps (wdls_setEps s e) /\ wdls_shapes (wdls_setEps s e) /\ wd_eps (wdls_setEps s e) = e /\
     wd_lambda (wdls_setEps s e) = wd_lambda s /\ wd_maxiter (wdls_setEps s e) = wd_maxiter s /\
     wd_ts (wdls_setEps s e) = wd_ts s /\ wd_js (wdls_setEps s e) = wd_js s) /\
  (keeps (wdls_setMaxIter s k) /\ wdls_shapes (wdls_setMaxIter s k) /\ wd_maxiter (wdls_setMaxIter s k) = k /\
     wd_lambda (wdls_setMaxIter s k) = wd_lambda s /\ wd_eps (wdls_setMaxIter s k) = wd_eps s /\
     wd_ts (wdls_setMaxIter s k) = wd_ts s /\ wd_js (wdls_setMaxIter s k) = wd_js s).
Proof.
  intros C (T1 & T2 & J1 & J2) F. cbv zeta. unfold wdls_setWeightJS, wdls_setWeightTS, wdls_shapes, wdls_clean in *.
  rewrite F, Nat.eqb_refl, J1, J2, T1, T2, F. cbn [negb]. rewrite F in C. destruct C as (C1 & C2 & C3).
  split. { intros R K. rewrite R, K, Nat.eqb_refl. cbn. eexists. repeat split; cbn; congruence. }
  split. { intros R K. rewrite R, K. cbn. eexists. repeat split; cbn; congruence. }
  split. { intros N. destruct (Nat.eqb_spec (mrows MJ * mcols MJ) (ch_nj c * ch_nj c)); [contradiction | ]. cbn. eexists.
           repeat split; cbn; congruence. }
  split. { intros N. destruct (Nat.eqb_spec (mrows MT * mcols MT) (6 * 6)); [contradiction | ]. cbn [negb]. eexists.
           repeat split; cbn; congruence. }
  repeat split; cbn; congruence.
Qed.
(** setWeightJS in a not up-to-date solver. *)
Lemma wdls_setWeightJS_stale c s M : wd_nj s <> ch_nj c -> exists s', wdls_setWeightJS c s M = (E_NOT_UP_TO_DATE, s') /\ wd_js s' = wd_js s.
Proof. intros F. unfold wdls_setWeightJS. destruct (Nat.eqb_spec (wd_nj s) (ch_nj c)); [contradiction | ]. cbn. eexists. split; reflexivity. Qed.
(** getSigma copies the singular values into an array of the right size. *)
Lemma wdls_getSigma_spec s Sout : wdls_clean s ->
  (length Sout = wd_nj s -> exists s', wdls_getSigma s Sout = (E_NOERROR, wd_S s, s') /\ wd_S s' = wd_S s) /\
  (length Sout <> wd_nj s -> exists s', wdls_getSigma s Sout = (E_SIZE_MISMATCH, Sout, s') /\ wd_S s' = wd_S s).
Proof.
  intros (L & J & S). unfold wdls_getSigma. rewrite S. split; intros H.
  - rewrite H, Nat.eqb_refl. cbn. eexists. split; reflexivity.
  - destruct (Nat.eqb_spec (length Sout) (wd_nj s)); [contradiction | ]. cbn. eexists. split; reflexivity.
Qed.

Lemma wdls_head svd c s q v qdot : chain_ok c -> wdls_clean s -> wdls_shapes s ->
  let n := ch_nj c in
  let fits := wd_nj s = n in
  let sized := length q = n /\ length qdot = n in
  let d := svd (wd_maxiter s) (weighted_jac c q s) in
  (~ fits -> wdls_CartToJnt svd c s q v qdot = Ret (E_NOT_UP_TO_DATE, qdot, wdls_error s E_NOT_UP_TO_DATE)) /\
  (fits -> ~ sized -> wdls_CartToJnt svd c s q v qdot = Ret (E_SIZE_MISMATCH, qdot, wdls_error s E_SIZE_MISMATCH)) /\
  (fits -> sized -> wdls_CartToJnt svd c s q v qdot =
      let S := map (dc_S d) (seq 0 n) in
      if negb (dc_rc d =? 0)%Z then
        Ret (E_SVD_FAILED, repeat 0 n, wdls_leave s (jacobian_at c (-1) q) 0 S 0 (dc_rc d) 0 E_SVD_FAILED)
      else if Nat.ltb n 6 then Undef
      else
        let scaled := wdls_scaled (dc_S d 5) (wd_eps s) (wd_lambda s) in
        let! tmp := entries (wdls_tmp (wd_eps s) scaled (wd_ts s) d v) 0 n in
        let out := map (fun i => total n (fun j => total n (fun k => mentry (wd_js s) i k * dc_V d k j) * nth j tmp 0)) (seq 0 n) in
        let zeros := count_below (wd_eps s) (dc_S d) n in
        let code := singular_code (wd_eps s) d n in
        Ret (code, out, wdls_leave s (jacobian_at c (-1) q) scaled S zeros (dc_rc d) (dc_S d 5) code)).
Proof.
  intros Hok (CL & CJ & CS) (T1 & T2 & J1 & J2). cbv zeta. unfold wdls_CartToJnt.
  destruct (Nat.eqb_spec (wd_nj s) (ch_nj c)) as [F | NF]; cbn [negb].
  2:{ split; [reflexivity | ]. split; intros; contradiction. }
  split; [intros; contradiction | ].
  destruct (Nat.eqb_spec (wd_nj s) (length q)) as [Q | NQ]; cbn [negb orb].
  2:{ split; [reflexivity | ]. intros _ [X _]. exfalso. lia. }
  destruct (Nat.eqb_spec (wd_nj s) (length qdot)) as [Q2 | NQ]; cbn [negb orb].
  2:{ split; [reflexivity | ]. intros _ [_ X]. exfalso. lia. }
  split; [intros _ X; exfalso; apply X; lia | ]. intros _ _.
  rewrite CL, F, jac_now by (auto; lia). cbn [obind]. change (E_NOERROR <? 0)%Z with false. cbn match.
  pose proof (jacobian_at_length c q Hok ltac:(lia)) as LJ.
  unfold m_mul at 1. cbn [jac_mat mcols mrows mentry]. rewrite LJ, J1, F, Nat.eqb_refl. cbn [obind mcols mrows mentry].
  unfold m_mul at 1. cbn [jac_mat mcols mrows mentry]. rewrite T1, T2, Nat.eqb_refl, J2, F. cbn [obind mcols mrows mentry].
  change (mkM 6 (ch_nj c) _) with (weighted_jac c q s).
  set (d := svd (wd_maxiter s) (weighted_jac c q s)).
  replace (length qdot) with (ch_nj c) by lia.
  destruct (dc_rc d =? 0)%Z; cbn [negb]; [ | reflexivity].
  destruct (Nat.ltb (ch_nj c) 6); [reflexivity | ].
  destruct (entries (wdls_tmp (wd_eps s) (wdls_scaled (dc_S d 5) (wd_eps s) (wd_lambda s)) (wd_ts s) d v) 0 (ch_nj c)) as [tmp | ] eqn:ET; [ | reflexivity].
  cbn [obind].
  assert (LT : length tmp = ch_nj c).
  { eapply entries_length; exact ET. }
  unfold m_mul. cbn [mcols mrows mentry]. rewrite J1, J2, F, Nat.eqb_refl. cbn [obind].
  unfold m_vec. cbn [mcols mrows mentry]. rewrite LT, Nat.eqb_refl. cbn [obind]. reflexivity.
Qed.

Section Damped.
Variables (c : Chain) (s : wdls) (q : list R) (v : Twist) (d : Decomp).
Let n := ch_nj c.
Let eps := wd_eps s.
Let lam := wdls_scaled (dc_S d 5) eps (wd_lambda s).
Hypothesis He : 0 < eps.
Hypothesis H6 : (6 <= n)%nat.
Hypothesis SV : svd_of 6 n (mentry (weighted_jac c q s)) d.
Hypothesis SS : svd_sorted 6 n d.
Hypothesis Hl : wd_lambda s <> 0 \/ 0 < dc_S d 5.

Definition wfactor (i : nat) : R :=
  if Nat.ltb i 6 then if Rlt_dec (Rabs (dc_S d i)) eps then dc_S d i / (dc_S d i * dc_S d i + lam * lam) else / dc_S d i else 0.
Definition wpen (i : nat) : R := if Rlt_dec (Rabs (dc_S d i)) eps then lam * lam else 0.
Lemma high_zero i : (i < n)%nat -> (6 <= i)%nat -> dc_S d i = 0.
Proof. intros Hi H. apply SS. lia. Qed.
Lemma lam_nz : dc_S d 5 = 0 -> lam <> 0.
Proof.
  intros E. unfold lam, wdls_scaled. rewrite E. destruct (Rlt_dec 0 eps); [ | contradiction].
  unfold Rdiv. rewrite Rmult_0_l, Rmult_0_l, Rminus_0_r, sqrt_1, Rmult_1_l. destruct Hl; [assumption | lra].
Qed.
Lemma den_nz i : (i < 6)%nat -> dc_S d i * dc_S d i + lam * lam <> 0.
Proof.
  intros Hi E. pose proof (Rle_0_sqr (dc_S d i)) as P1. pose proof (Rle_0_sqr lam) as P2. unfold Rsqr in *.
  assert (S0 : dc_S d i = 0) by (destruct (Rmult_integral (dc_S d i) (dc_S d i)); lra).
  assert (L0 : lam = 0) by (destruct (Rmult_integral lam lam); lra).
  apply (lam_nz); [ | exact L0]. destruct SS as (SO & SP & _). pose proof (SO i 5%nat ltac:(lia) ltac:(lia)). pose proof (SP 5%nat ltac:(lia)). lra.
Qed.
Lemma wtmp_factor i : (i < n)%nat -> wdls_tmp eps lam (wd_ts s) d v i = Ret (wfactor i * coef 6 (weighted_twist s v) (dc_U d) i).
Proof.
  intros Hi. unfold wdls_tmp, wfactor. destruct (Nat.ltb_spec i 6) as [L | G].
  - assert (E : total 6 (fun j => total 6 (fun k => mentry (wd_ts s) j k * dc_U d k i) * t_at v j) = coef 6 (weighted_twist s v) (dc_U d) i).
    { change total with sumn. unfold coef, weighted_twist.
      rewrite (sumn_ext 6 _ (fun j => sumn 6 (fun k => dc_U d k i * (mentry (wd_ts s) j k * t_at v j)))).
      2:{ intros j _. rewrite <- sumn_scale_r. apply sumn_ext. intros; ring. }
      rewrite sumn_swap. apply sumn_ext. intros k _. rewrite sumn_scale. reflexivity. }
    rewrite E. destruct (Rlt_dec (Rabs (dc_S d i)) eps) as [ | N].
    + rewrite rdiv_ok by (apply den_nz; exact L). cbn [obind]. f_equal. ring.
    + rewrite rdiv_ok by (apply (not_small eps); assumption). f_equal. unfold Rdiv. ring.
  - rewrite high_zero by assumption. rewrite Rabs_R0. destruct (Rlt_dec 0 eps); [ | contradiction]. f_equal. ring.
Qed.
Lemma wfactor_ok i : (i < n)%nat -> wfactor i * (dc_S d i * dc_S d i + wpen i) = dc_S d i.
Proof.
  intros Hi. unfold wfactor, wpen. destruct (Nat.ltb_spec i 6) as [L | G].
  - destruct (Rlt_dec (Rabs (dc_S d i)) eps) as [ | N].
    + pose proof (den_nz i L). field. assumption.
    + pose proof (not_small _ _ He N). field. assumption.
  - rewrite high_zero by assumption. ring.
Qed.
Lemma wpen_nonneg i : 0 <= wpen i.
Proof. unfold wpen. destruct (Rlt_dec (Rabs (dc_S d i)) eps); [apply Rle_0_sqr | lra]. Qed.
Definition wsol : list R := sol 6 n (weighted_twist s v) (dc_U d) (dc_V d) wfactor.
Lemma wsol_min y : selectively_damped 6 n (mentry (weighted_jac c q s)) (weighted_twist s v) d eps lam wsol <=
  selectively_damped 6 n (mentry (weighted_jac c q s)) (weighted_twist s v) d eps lam y.
Proof.
  destruct SV as (HA & HV & HU).
  assert (E : forall x, selectively_damped 6 n (mentry (weighted_jac c q s)) (weighted_twist s v) d eps lam x =
     misfit 6 n (mentry (weighted_jac c q s)) (weighted_twist s v) x + pen n (dc_V d) wpen x).
  { intros x. unfold selectively_damped, pen. f_equal. apply sumn_ext. intros i Hi. unfold wpen, along, part.
    destruct (Rlt_dec (Rabs (dc_S d i)) eps); ring. }
  rewrite !E. apply (sol_min 6 n _ _ (dc_U d) (dc_S d) (dc_V d) wfactor wpen HA HV HU).
  - intros; apply wpen_nonneg.
  - apply wfactor_ok.
Qed.
Lemma lam_zero : eps <= dc_S d 5 \/ wd_lambda s = 0 -> lam = 0.
Proof.
  unfold lam, wdls_scaled. intros [G | Z]; destruct (Rlt_dec (dc_S d 5) eps); try lra. rewrite Z. ring.
Qed.
Lemma wsol_shortest : eps <= dc_S d 5 \/ (wd_lambda s = 0 /\ 0 < dc_S d 5) ->
  shortest_least_squares 6 n (mentry (weighted_jac c q s)) (weighted_twist s v) wsol.
Proof.
  intros HC. destruct SV as (HA & HV & HU). assert (L0 : lam = 0) by (apply lam_zero; tauto).
  apply (sol_shortest 6 n _ _ (dc_U d) (dc_S d) (dc_V d) wfactor wpen HA HV HU).
  - intros; apply wpen_nonneg.
  - apply wfactor_ok.
  - intros i Hi. unfold wpen. rewrite L0. destruct (Rlt_dec (Rabs (dc_S d i)) eps); ring.
  - intros i Hi S0. unfold wfactor. destruct (Nat.ltb_spec i 6) as [L | G]; [ | reflexivity]. exfalso.
    destruct SS as (SO & SP & _). pose proof (SO i 5%nat ltac:(lia) ltac:(lia)). lra.
Qed.
End Damped.

Lemma wdls_codes svd c s q v qdot : chain_ok c -> wdls_clean s -> wdls_shapes s ->
  let n := ch_nj c in
  let fits := wd_nj s = n in
  let sized := length q = n /\ length qdot = n in
  let d := svd (wd_maxiter s) (weighted_jac c q s) in
  (~ fits -> exists s', wdls_CartToJnt svd c s q v qdot = Ret (E_NOT_UP_TO_DATE, qdot, s') /\ wd_error s' = E_NOT_UP_TO_DATE) /\
  (fits -> ~ sized -> exists s', wdls_CartToJnt svd c s q v qdot = Ret (E_SIZE_MISMATCH, qdot, s') /\ wd_error s' = E_SIZE_MISMATCH) /\
  (fits -> sized -> dc_rc d <> 0%Z -> exists s', wdls_CartToJnt svd c s q v qdot = Ret (E_SVD_FAILED, repeat 0 n, s') /\
     wd_error s' = E_SVD_FAILED /\ wd_svd s' = dc_rc d /\ wd_zeros s' = 0%nat /\ wd_smin s' = 0 /\ wd_scaled s' = 0) /\
  (fits -> sized -> dc_rc d = 0%Z -> (n < 6)%nat -> wdls_CartToJnt svd c s q v qdot = Undef) /\
  (fits -> sized -> dc_rc d = 0%Z -> (6 <= n)%nat -> 0 < wd_eps s -> wd_lambda s = 0 ->
     (exists i, (i < 6)%nat /\ dc_S d i = 0) -> wdls_CartToJnt svd c s q v qdot = Undef).
Proof.
  intros Hok C Sh. cbv zeta. destruct (wdls_head svd c s q v qdot Hok C Sh) as (A & B & D). cbv zeta in *.
  split; [intros F; rewrite (A F); eexists; split; reflexivity | ].
  split; [intros F N; rewrite (B F N); eexists; split; reflexivity | ].
  split. { intros F N Z. rewrite (D F N). destruct (Z.eqb_spec (dc_rc (svd (wd_maxiter s) (weighted_jac c q s))) 0); [contradiction | ].
    eexists. split; [reflexivity | ]. repeat split. }
  split. { intros F N Z L. rewrite (D F N), Z. cbn [Z.eqb negb]. destruct (Nat.ltb_spec (ch_nj c) 6); [reflexivity | lia]. }
  intros F N Z L He L0 (i & Hi & S0). rewrite (D F N), Z. cbn [Z.eqb negb]. destruct (Nat.ltb_spec (ch_nj c) 6); [lia | ].
  rewrite (entries_undef _ (ch_nj c) i 0); [reflexivity | lia | ].
  unfold wdls_tmp. rewrite S0, Rabs_R0. destruct (Rlt_dec 0 (wd_eps s)); [ | contradiction].
  destruct (Nat.ltb_spec i 6); [ | lia]. unfold rdiv.
  match goal with |- context [Req_EM_T ?a 0] => destruct (Req_EM_T a 0) as [ | NZ] end; [reflexivity | ].
  exfalso. apply NZ. unfold wdls_scaled. rewrite L0. destruct (Rlt_dec _ _); ring.
Qed.

Lemma wdls_solution svd c s q v qdot : chain_ok c -> wdls_clean s -> wdls_shapes s -> wd_nj s = ch_nj c ->
  length q = ch_nj c -> length qdot = ch_nj c -> 0 < wd_eps s -> (6 <= ch_nj c)%nat -> (Z.of_nat (ch_nj c) < 2 ^ 32)%Z ->
  let n := ch_nj c in
  let B := weighted_jac c q s in
  let b := weighted_twist s v in
  let d := svd (wd_maxiter s) B in
  let lam := damping (dc_S d 5) (wd_eps s) (wd_lambda s) in
  dc_rc d = 0%Z -> svd_of 6 n (mentry B) d -> svd_sorted 6 n d -> (wd_lambda s <> 0 \/ 0 < dc_S d 5) ->
  exists code out s' x, wdls_CartToJnt svd c s q v qdot = Ret (code, out, s') /\
    wd_error s' = code /\ wdls_clean s' /\ wdls_shapes s' /\ wd_nj s' = wd_nj s /\ wd_eps s' = wd_eps s /\ wd_maxiter s' = wd_maxiter s /\
    wd_lambda s' = wd_lambda s /\ wd_ts s' = wd_ts s /\ wd_js s' = wd_js s /\
    wd_smin s' = dc_S d 5 /\ wd_scaled s' = lam /\ wd_S s' = map (dc_S d) (seq 0 n) /\ wd_svd s' = 0%Z /\
    (code = E_CONVERGE_PINV_SINGULAR \/ code = E_NOERROR) /\
    (code = E_CONVERGE_PINV_SINGULAR <-> dc_S d 5 < wd_eps s) /\
    (wd_zeros s' + length (large_values n (wd_eps s) d) = n)%nat /\
    length x = n /\ out = weighted n (mentry (wd_js s)) x /\
    (forall y, length y = n -> selectively_damped 6 n (mentry B) b d (wd_eps s) lam x <= selectively_damped 6 n (mentry B) b d (wd_eps s) lam y) /\
    (wd_eps s <= dc_S d 5 \/ (wd_lambda s = 0 /\ 0 < dc_S d 5) -> shortest_least_squares 6 n (mentry B) b x).
Proof.
  intros Hok C Sh F Q Qd He H6 Hn. cbv zeta. intros Z0 SV SS Hl.
  destruct (wdls_head svd c s q v qdot Hok C Sh) as (_ & _ & D). cbv zeta in D. rewrite (D F (conj Q Qd)), Z0. clear D. cbn [Z.eqb negb].
  destruct (Nat.ltb_spec (ch_nj c) 6); [lia | ].
  set (d := svd (wd_maxiter s) (weighted_jac c q s)) in *.
  rewrite (entries_map _ (fun i => wfactor s d i * coef 6 (weighted_twist s v) (dc_U d) i)).
  2:{ intros k Hk. apply (wtmp_factor c s v d He H6 SS Hl). lia. }
  cbn [obind]. do 4 eexists. split; [reflexivity | ]. split; [reflexivity | ].
  destruct C as (CL & CJ & CS). destruct Sh as (T1 & T2 & J1 & J2).
  split. { split; [exact CL | ]. split; [exact (eq_trans (jacobian_at_length c q Hok Q) (eq_sym F)) | ]. cbn. rewrite map_length, seq_length. auto. }
  split. { repeat split; assumption. }
  do 10 (split; [reflexivity | ]).
  split; [apply singular_code_cases | ].
  split.
  { rewrite (proj1 (singular_code_meaning (wd_eps s) d (ch_nj c) Hn)).
    destruct SS as (SO & SP & SZ). unfold large_values.
    assert (Hs : forall i, (i < ch_nj c)%nat -> ~ Rabs (dc_S d i) < wd_eps s -> (i < 6)%nat /\ wd_eps s <= dc_S d i).
    { intros i Hi N. rewrite Rabs_pos_eq in N by auto. destruct (le_lt_dec 6 i); [exfalso; apply N; rewrite SZ by lia; exact He | ].
      split; [assumption | lra]. }
    split.
    - intros [_ L]. destruct (Rlt_dec (dc_S d 5) (wd_eps s)) as [ | NL]; [assumption | exfalso].
      assert (I : incl (seq 0 6) (filter (fun i => if Rlt_dec (Rabs (dc_S d i)) (wd_eps s) then false else true) (seq 0 (ch_nj c)))).
      { intros i Hi. apply in_seq in Hi. apply filter_In. split; [apply in_seq; lia | ].
        destruct (Rlt_dec (Rabs (dc_S d i)) (wd_eps s)) as [L2 | ]; [exfalso | reflexivity].
        rewrite Rabs_pos_eq in L2 by (apply SP; lia). pose proof (SO i 5%nat ltac:(lia) ltac:(lia)). lra. }
      apply NoDup_incl_length in I; [rewrite seq_length in I; lia | apply seq_NoDup].
    - intros L. split; [exact H6 | ].
      assert (I : incl (filter (fun i => if Rlt_dec (Rabs (dc_S d i)) (wd_eps s) then false else true) (seq 0 (ch_nj c))) (seq 0 5)).
      { intros i Hi. apply filter_In in Hi. destruct Hi as [Hi Hb]. apply in_seq in Hi.
        destruct (Rlt_dec (Rabs (dc_S d i)) (wd_eps s)) as [ | N]; [discriminate | ].
        destruct (Hs i ltac:(lia) N) as [H0 H1]. apply in_seq. destruct (Nat.eq_dec i 5) as [-> | ]; [lra | lia]. }
      apply NoDup_incl_length in I; [rewrite seq_length in I; lia | apply NoDup_filter, seq_NoDup]. }
  split; [apply count_split | ].
  split; [apply (vlist_length (ch_nj c)) | ].
  split; [ | split; [intros y _; apply (wsol_min c s q v d He H6 SV SS Hl) | apply (wsol_shortest c s q v d He H6 SV SS Hl)]].
  unfold weighted. apply map_ext_in. intros i Hi. change total with sumn.
  rewrite (sumn_ext (ch_nj c) _ (fun j => sumn (ch_nj c) (fun k => mentry (wd_js s) i k *
     (dc_V d k j * (wfactor s d j * coef 6 (weighted_twist s v) (dc_U d) j))))).
  2:{ intros j Hj. rewrite nth_map_seq by exact Hj. rewrite <- sumn_scale_r. apply sumn_ext. intros; ring. }
  rewrite sumn_swap. apply sumn_ext. intros k Hk. rewrite sumn_scale. unfold sol. rewrite vlist_nth by exact Hk. reflexivity.
Qed.
