(** Proofs about ChainIkSolverVel_pinv_nso. *)
From Coq Require Import Reals String List ZArith Bool Arith Lia Lra.
From Verif Require Import FramesModel Outcome InertiaModel DualModel KinModel KinSpec KinProofs JacProofs JacDotProofs
  LinModel LinSpec SumProofs LmaModel LmaSpec LmaProofs LmaProofs2 VelIkModel VelIkSpec VelIkLin VelIkProofs.
Import ListNotations.
Local Open Scope list_scope.
Local Open Scope R_scope.

Lemma nso_make_clean c o w eps k a : let s := nso_make c o w eps k a in nso_clean s /\ ns_nj s = ch_nj c /\ ns_eps s = eps /\
  ns_maxiter s = k /\ ns_alpha s = a /\ ns_weights s = w /\ ns_opt s = o /\ ns_svd s = 0%Z /\ ns_error s = E_NOERROR.
Proof. cbv zeta. unfold nso_clean, nso_make; cbn. unfold jac_make. rewrite repeat_length. repeat split. Qed.
Lemma nso_update_clean c s : nso_clean s -> let s' := nso_update c s in nso_clean s' /\ ns_nj s' = ch_nj c /\ ns_eps s' = ns_eps s /\
  ns_maxiter s' = ns_maxiter s /\ ns_alpha s' = ns_alpha s /\ length (ns_weights s') = ch_nj c /\ length (ns_opt s') = ch_nj c /\
  (forall i, (i < ch_nj c)%nat -> nth i (ns_weights s') 1 = nth i (ns_weights s) 1 /\ nth i (ns_opt s') 0 = nth i (ns_opt s) 0).
Proof.
  assert (N : forall (l : list R) n d i, (i < n)%nat -> nth i (vec_resize l n d) d = nth i l d).
  { intros l n d i Hi. unfold vec_resize. destruct (le_lt_dec (length l) i) as [G | L].
    - rewrite (nth_overflow l) by exact G. destruct (le_lt_dec (length (firstn n l)) i) as [G2 | L2].
      + rewrite app_nth2 by exact G2. apply nth_repeat.
      + rewrite firstn_length in L2. lia.
    - rewrite app_nth1 by (rewrite firstn_length; lia). rewrite <- (firstn_skipn n l) at 2.
      rewrite app_nth1 by (rewrite firstn_length; lia). reflexivity. }
  intros [L J]. cbv zeta. unfold nso_clean, nso_update; cbn. unfold jacsolver_update. rewrite L, vec_resize_repeat, !vec_resize_length.
  do 7 (split; [auto | ]). intros i Hi. rewrite !N by exact Hi. auto.
Qed.
(** The setters change what they name, when the size is right. *)
Lemma nso_setters s w o a : nso_clean s ->
  (length w = ns_nj s -> exists s', nso_setWeights s w = (E_NOERROR, s') /\ nso_clean s' /\ ns_weights s' = w /\
     ns_nj s' = ns_nj s /\ ns_opt s' = ns_opt s /\ ns_alpha s' = ns_alpha s /\ ns_eps s' = ns_eps s /\ ns_maxiter s' = ns_maxiter s) /\
  (length w <> ns_nj s -> exists s', nso_setWeights s w = (E_SIZE_MISMATCH, s') /\ nso_clean s' /\ ns_weights s' = ns_weights s /\
     ns_nj s' = ns_nj s /\ ns_opt s' = ns_opt s /\ ns_alpha s' = ns_alpha s /\ ns_eps s' = ns_eps s /\ ns_maxiter s' = ns_maxiter s) /\
  (length o = ns_nj s -> exists s', nso_setOptPos s o = (E_NOERROR, s') /\ nso_clean s' /\ ns_opt s' = o /\
     ns_nj s' = ns_nj s /\ ns_weights s' = ns_weights s /\ ns_alpha s' = ns_alpha s /\ ns_eps s' = ns_eps s /\ ns_maxiter s' = ns_maxiter s) /\
  (length o <> ns_nj s -> exists s', nso_setOptPos s o = (E_SIZE_MISMATCH, s') /\ nso_clean s' /\ ns_opt s' = ns_opt s /\
     ns_nj s' = ns_nj s /\ ns_weights s' = ns_weights s /\ ns_alpha s' = ns_alpha s /\ ns_eps s' = ns_eps s /\ ns_maxiter s' = ns_maxiter s) /\
  (exists s', nso_setAlpha s a = (0%Z, s') /\ nso_clean s' /\ ns_alpha s' = a /\
     ns_nj s' = ns_nj s /\ ns_weights s' = ns_weights s /\ ns_opt s' = ns_opt s /\ ns_eps s' = ns_eps s /\ ns_maxiter s' = ns_maxiter s).
Proof.
  intros C. unfold nso_setWeights, nso_setOptPos, nso_setAlpha, nso_clean in *.
  repeat split.
  - intros E. destruct (Nat.eqb_spec (ns_nj s) (length w)); [cbn | lia]. eexists. repeat split; cbn; tauto.
  - intros E. destruct (Nat.eqb_spec (ns_nj s) (length w)); [lia | cbn]. eexists. repeat split; cbn; tauto.
  - intros E. destruct (Nat.eqb_spec (ns_nj s) (length o)); [cbn | lia]. eexists. repeat split; cbn; tauto.
  - intros E. destruct (Nat.eqb_spec (ns_nj s) (length o)); [lia | cbn]. eexists. repeat split; cbn; tauto.
  - eexists. repeat split; cbn; tauto.
Qed.

Section Null.
Variables (n : nat) (A : nat -> nat -> R) (d : Decomp) (eps : R).
Hypothesis He : 0 < eps.
Hypothesis SV : svd_of 6 n A d.
Let U := dc_U d. Let V := dc_V d.
Let pt := part n V.

Definition sinvs : list R := map (inv_factor eps d) (seq 0 n).
Lemma back_sol y : nso_back n d sinvs y = pinv_sol 6 n eps d y.
Proof.
  unfold nso_back, pinv_sol, sol, vlist. apply map_ext_in. intros j Hj. rewrite total_sum. apply sumn_ext. intros i Hi.
  unfold sinvs. rewrite nth_map_seq by exact Hi. unfold coef. rewrite total_sum. reflexivity.
Qed.
Lemma forward_parts x r : nso_forward n d x r = sumn n (fun i => dc_U d r i * dc_S d i * pt i x).
Proof. unfold nso_forward. rewrite total_sum. apply sumn_ext. intros i Hi. rewrite total_sum. unfold pt, part, V. ring. Qed.
(** The projection of x: its part along the right singular vectors that are kept. *)
Lemma back_forward_part x i : (i < n)%nat ->
  pt i (nso_back n d sinvs (nso_forward n d x)) = if Rlt_dec (Rabs (dc_S d i)) eps then 0 else pt i x.
Proof.
  intros Hi. rewrite back_sol. destruct SV as (HA & HV & HU). unfold pinv_sol, pt. rewrite sol_part by assumption.
  unfold inv_factor. destruct (Rlt_dec (Rabs (dc_S d i)) eps) as [ | N]; [ring | ].
  pose proof (not_small _ _ He N) as NZ.
  assert (B : dc_S d i * coef 6 (nso_forward n d x) (dc_U d) i = dc_S d i * dc_S d i * part n V i x).
  { unfold coef.
    rewrite (sumn_ext 6 _ (fun r => sumn n (fun k => dc_U d r i * dc_U d r k * (dc_S d k * pt k x)))).
    2:{ intros r Hr. rewrite forward_parts. rewrite <- sumn_scale. apply sumn_ext; intros; ring. }
    rewrite sumn_swap.
    rewrite (sumn_ext n _ (fun k => delta i k * (dc_S d k * pt k x))).
    2:{ intros k Hk. rewrite sumn_scale_r. destruct (Req_dec (dc_S d k) 0) as [Zk | NZk].
        - rewrite Zk. ring.
        - rewrite HU by assumption. reflexivity. }
    rewrite sumn_delta' by exact Hi. unfold pt. ring. }
  assert (E : coef 6 (nso_forward n d x) (dc_U d) i = dc_S d i * part n V i x).
  { apply (Rmult_eq_reg_l (dc_S d i)); [ | exact NZ]. rewrite B. ring. }
  rewrite E. unfold V. field. exact NZ.
Qed.
(** z = x - projection has no part along the kept vectors, so J does not see it. *)
Definition rest (x : list R) : list R := vsub n x (nso_back n d sinvs (nso_forward n d x)).
Lemma rest_part x i : (i < n)%nat -> pt i (rest x) = if Rlt_dec (Rabs (dc_S d i)) eps then pt i x else 0.
Proof.
  intros Hi. unfold rest, pt. rewrite part_sub by exact Hi. fold pt. rewrite back_forward_part by exact Hi.
  unfold pt. destruct (Rlt_dec (Rabs (dc_S d i)) eps); ring.
Qed.
Lemma rest_unseen x r : image n (truncated n eps d) (rest x) r = 0.
Proof.
  unfold image.
  rewrite (sumn_ext n _ (fun j => sumn n (fun i => dc_U d r i * big eps d i * (dc_V d j i * nth j (rest x) 0)))).
  2:{ intros j Hj. rewrite truncated_big, <- sumn_scale_r. apply sumn_ext; intros; ring. }
  rewrite sumn_swap. apply sumn_zero. intros i Hi. rewrite sumn_scale. fold V. change (sumn n (fun j => V j i * nth j (rest x) 0)) with (pt i (rest x)).
  rewrite rest_part by exact Hi. unfold big. destruct (Rlt_dec (Rabs (dc_S d i)) eps); ring.
Qed.
(** x . z = z . z *)
Lemma rest_dot x : sumn n (fun j => nth j x 0 * nth j (rest x) 0) = sumn n (fun j => nth j (rest x) 0 * nth j (rest x) 0).
Proof.
  assert (D : sumn n (fun j => nth j (nso_back n d sinvs (nso_forward n d x)) 0 * nth j (rest x) 0) = 0).
  { rewrite back_sol. unfold pinv_sol. rewrite sol_dot. apply sumn_zero. intros i Hi. fold V.
    change (part n V i (rest x)) with (pt i (rest x)).
    rewrite rest_part by exact Hi. unfold inv_factor. destruct (Rlt_dec (Rabs (dc_S d i)) eps); ring. }
  rewrite (sumn_ext n _ (fun j => nth j (rest x) 0 * nth j (rest x) 0 +
    nth j (nso_back n d sinvs (nso_forward n d x)) 0 * nth j (rest x) 0)).
  - rewrite sumn_add, D. ring.
  - intros j Hj. unfold rest at 2 4. unfold vsub. rewrite vlist_nth by exact Hj. unfold rest. unfold vsub. rewrite vlist_nth by exact Hj. ring.
Qed.
End Null.

Lemma posture_derivative n w o q x : derivable_pt_lim (fun t => posture_cost n w o (shifted n q x t)) 0 (posture_rate n w o q x).
Proof.
  set (K := sumn n (fun i => nth i w 0 * (nth i x 0 * nth i x 0)) / 2).
  assert (E : forall t, posture_cost n w o (shifted n q x t) = posture_cost n w o q + t * posture_rate n w o q x + t * t * K).
  { intros t. unfold posture_cost, posture_rate, K.
    rewrite (sumn_ext n (fun i => nth i w 0 * ((nth i (shifted n q x t) 0 - nth i o 0) * (nth i (shifted n q x t) 0 - nth i o 0)))
      (fun i => nth i w 0 * ((nth i q 0 - nth i o 0) * (nth i q 0 - nth i o 0)) +
         2 * t * (nth i w 0 * (nth i q 0 - nth i o 0) * nth i x 0) + t * t * (nth i w 0 * (nth i x 0 * nth i x 0)))).
    2:{ intros i Hi. unfold shifted. rewrite nth_map_seq by exact Hi. ring. }
    rewrite !sumn_add, !sumn_scale. field. }
  intros e He. assert (P : 0 < e / (Rabs K + 1)).
  { apply Rdiv_lt_0_compat; [exact He | pose proof (Rabs_pos K); lra]. }
  exists (mkposreal _ P). intros h H0 H1. cbn [pos] in H1. rewrite !E.
  replace ((posture_cost n w o q + (0 + h) * posture_rate n w o q x + (0 + h) * (0 + h) * K -
    (posture_cost n w o q + 0 * posture_rate n w o q x + 0 * 0 * K)) / h - posture_rate n w o q x) with (h * K) by (field; exact H0).
  rewrite Rabs_mult. pose proof (Rabs_pos K). pose proof (Rabs_pos h).
  apply (Rle_lt_trans _ (Rabs h * (Rabs K + 1))); [nra | ].
  apply (Rmult_lt_compat_r (Rabs K + 1)) in H1; [ | lra].
  unfold Rdiv in H1. rewrite Rmult_assoc, Rinv_l, Rmult_1_r in H1 by lra. exact H1.
Qed.

Lemma nso_call svd c s q v qdot : chain_ok c -> nso_clean s -> 0 < ns_eps s -> (6 <= ch_nj c)%nat ->
  exists code out s', nso_CartToJnt svd c s q v qdot = Ret (code, out, s') /\
  ns_error s' = code /\ nso_clean s' /\ ns_nj s' = ns_nj s /\ ns_eps s' = ns_eps s /\ ns_maxiter s' = ns_maxiter s /\
  ns_alpha s' = ns_alpha s /\ ns_weights s' = ns_weights s /\ ns_opt s' = ns_opt s /\
  let n := ch_nj c in
  let fits := ns_nj s = n in
  let sized := length q = n /\ length qdot = n /\ length (ns_opt s) = n /\ length (ns_weights s) = n in
  let J := mkM 6 n (tip_jacobian c q) in
  let d := svd (ns_maxiter s) J in
  (~ fits -> code = E_NOT_UP_TO_DATE /\ out = qdot) /\
  (fits -> ~ sized -> code = E_SIZE_MISMATCH /\ out = qdot) /\
  (fits -> sized -> ns_svd s' = dc_rc d /\
    (dc_rc d <> 0%Z -> code = E_SVD_FAILED /\ out = repeat 0 n) /\
    (dc_rc d = 0%Z -> code = E_NOERROR /\
      (svd_of 6 n (tip_jacobian c q) d -> exists plain,
        shortest_least_squares 6 n (truncated n (ns_eps s) d) (t_at v) plain /\
        least_squares 6 n (truncated n (ns_eps s) d) (t_at v) out /\
        (no_small n (ns_eps s) d -> least_squares 6 n (tip_jacobian c q) (t_at v) out) /\
        (0 <= ns_alpha s -> (forall i, (i < n)%nat -> 0 <= nth i (ns_weights s) 0) ->
         posture_rate n (ns_weights s) (ns_opt s) q out <= posture_rate n (ns_weights s) (ns_opt s) q plain) /\
        (sumn n (fun i => (nth i (ns_weights s) 0 * (nth i q 0 - nth i (ns_opt s) 0)) ^ 2) <= 1 / 1000000000 -> out = plain)))).
Proof.
  intros Hok [CL CJ] He Hn. unfold nso_CartToJnt. cbv zeta.
  destruct (Nat.eqb_spec (ns_nj s) (ch_nj c)) as [F | NF]; cbn [negb].
  2:{ do 3 eexists. split; [reflexivity | ]. do 8 (split; [first [reflexivity | unfold nso_clean; cbn; auto; fail] | ]).
      split; [auto | ]. split; intros; contradiction. }
  destruct (negb (Nat.eqb (ns_nj s) (length q)) || negb (Nat.eqb (ns_nj s) (length qdot)) ||
          negb (Nat.eqb (ns_nj s) (length (ns_opt s))) || negb (Nat.eqb (ns_nj s) (length (ns_weights s)))) eqn:SZ.
  { do 3 eexists. split; [reflexivity | ]. do 8 (split; [first [reflexivity | unfold nso_clean; cbn; auto; fail] | ]).
    split; [intros; contradiction | ]. split; [auto | ]. intros _ (X1 & X2 & X3 & X4). exfalso.
    rewrite X1, X2, X3, X4, F, Nat.eqb_refl in SZ. discriminate. }
  rewrite !orb_false_iff, !negb_false_iff, !Nat.eqb_eq in SZ. destruct SZ as (((S1 & S2) & S3) & S4).
  rewrite CL, F, jac_now by (auto; lia). cbn [obind]. change (E_NOERROR <? 0)%Z with false. cbn match.
  pose proof (jacobian_at_length c q Hok ltac:(lia)) as LJ.
  assert (EJ : jac_mat (jacobian_at c (-1) q) = mkM 6 (ch_nj c) (tip_jacobian c q)) by (unfold jac_mat; rewrite LJ; reflexivity).
  assert (CC : forall rc e, nso_clean (nso_leave s (jacobian_at c (-1) q) rc e)).
  { intros. split; [exact CL | ]. exact (eq_trans LJ (eq_sym F)). }
  rewrite EJ. set (d := svd (ns_maxiter s) (mkM 6 (ch_nj c) (tip_jacobian c q))).
  destruct (Z.eqb_spec (dc_rc d) 0) as [Z0 | NZ]; cbn [negb].
  2:{ do 3 eexists. split; [reflexivity | ]. do 8 (split; [first [reflexivity | apply CC | exact F] | ]).
      split; [intros; contradiction | ]. split; [intros _ X; exfalso; apply X; lia | ].
      intros _ _. split; [reflexivity | ]. split; [intros _; split; [reflexivity | f_equal; lia] | intros; contradiction]. }
  destruct (Nat.ltb_spec (ch_nj c) 6) as [ | _]; [lia | ].
  set (n := ch_nj c) in *. set (eps := ns_eps s) in *.
  rewrite (entries_map _ (inv_factor eps d)).
  2:{ intros k _. unfold nso_sinv, inv_factor. destruct (Rlt_dec (Rabs (dc_S d k)) eps) as [ | N]; [reflexivity | ].
      rewrite rdiv_ok by (apply (not_small eps); assumption). f_equal. unfold Rdiv. ring. }
  cbn [obind]. fold (sinvs n d eps). rewrite (back_sol n d eps (t_at v)).
  rewrite (total_sum n (fun i => 1 / 2 * (nth i q 0 - nth i (ns_opt s) 0) * (nth i q 0 - nth i (ns_opt s) 0) * nth i (ns_weights s) 0)).
  rewrite !total_sum.
  set (A := sumn n (fun i => (nth i q 0 - nth i (ns_opt s) 0) * (nth i q 0 - nth i (ns_opt s) 0) * nth i (ns_weights s) 0 * nth i (ns_weights s) 0)).
  set (g := sumn n (fun i => 1 / 2 * (nth i q 0 - nth i (ns_opt s) 0) * (nth i q 0 - nth i (ns_opt s) 0) * nth i (ns_weights s) 0)). set (plain := pinv_sol 6 n eps d (t_at v)).
  set (tmp := map (fun i => nth i (ns_weights s) 0 * (nth i q 0 - nth i (ns_opt s) 0) / A) (seq 0 n)).
  set (tmp2 := nso_back n d (sinvs n d eps) (nso_forward n d tmp)).
  destruct (Rgt_dec A (1 / 1000000000)) as [GA | LA].
  2:{ do 3 eexists. split; [reflexivity | ]. do 8 (split; [first [reflexivity | apply CC | exact F] | ]).
      split; [intros; contradiction | ]. split; [intros _ X; exfalso; apply X; lia | ].
      intros _ _. split; [reflexivity | ]. split; [intros; contradiction | ]. intros _. split; [reflexivity | ]. intros SV.
      exists plain. pose proof (pinv_sol_shortest 6 n (tip_jacobian c q) eps d (t_at v) He SV) as P.
      split; [exact P | ]. split; [exact (proj1 P) | ].
      split; [intros NS; eapply least_ext; [ | exact (proj1 P)]; intros; eapply truncated_all; eassumption | ].
      split; [intros; lra | reflexivity]. }
  do 3 eexists. split; [reflexivity | ]. do 8 (split; [first [reflexivity | apply CC | exact F] | ]).
  split; [intros; contradiction | ]. split; [intros _ X; exfalso; apply X; lia | ].
  intros _ _. split; [reflexivity | ]. split; [intros; contradiction | ]. intros _. split; [reflexivity | ]. intros SV.
  exists plain. pose proof (pinv_sol_shortest 6 n (tip_jacobian c q) eps d (t_at v) He SV) as P.
  set (out := map (fun i => nth i plain 0 + - (2) * ns_alpha s * g * (nth i tmp 0 - nth i tmp2 0)) (seq 0 n)).
  assert (ON : forall j, (j < n)%nat -> nth j out 0 = nth j plain 0 + (- (2)) * ns_alpha s * g * nth j (rest n d eps tmp) 0).
  { intros j Hj. unfold out. rewrite nth_map_seq by exact Hj. unfold rest, vsub. rewrite vlist_nth by exact Hj. reflexivity. }
  assert (LS : least_squares 6 n (truncated n eps d) (t_at v) out).
  { split; [unfold out; rewrite map_length, seq_length; reflexivity | ].
    assert (M : misfit 6 n (truncated n eps d) (t_at v) out = misfit 6 n (truncated n eps d) (t_at v) plain).
    { apply sumn_ext. intros r Hr.
      assert (I : image n (truncated n eps d) out r = image n (truncated n eps d) plain r); [ | rewrite I; reflexivity].
      pose proof (rest_unseen n (tip_jacobian c q) d eps He SV tmp r) as RU. unfold image in *.
      rewrite (sumn_ext n _ (fun j => truncated n eps d r j * nth j plain 0 +
        (- (2)) * ns_alpha s * g * (truncated n eps d r j * nth j (rest n d eps tmp) 0))).
      2:{ intros j Hj. rewrite ON by exact Hj. ring. }
      rewrite sumn_add, sumn_scale, RU. ring. }
    intros y Hy. rewrite M. apply (proj2 (proj1 P) y Hy). }
  split; [exact P | ]. split; [exact LS | ].
  split; [intros NS; eapply least_ext; [ | exact LS]; intros; eapply truncated_all; eassumption | ].
  assert (EA : A = sumn n (fun i => (nth i (ns_weights s) 0 * (nth i q 0 - nth i (ns_opt s) 0)) ^ 2)).
  { apply sumn_ext. intros; ring. }
  split.
  - intros Ha Hw. unfold posture_rate.
    rewrite (sumn_ext n (fun i => nth i (ns_weights s) 0 * (nth i q 0 - nth i (ns_opt s) 0) * nth i out 0)
      (fun i => nth i (ns_weights s) 0 * (nth i q 0 - nth i (ns_opt s) 0) * nth i plain 0 +
        (- (2)) * ns_alpha s * g * A * (nth i tmp 0 * nth i (rest n d eps tmp) 0))).
    2:{ intros i Hi. rewrite ON by exact Hi. unfold tmp at 2. rewrite nth_map_seq by exact Hi. field. lra. }
    rewrite sumn_add, sumn_scale, (rest_dot n (tip_jacobian c q) d eps He SV).
    pose proof (sq_nonneg n (fun j => nth j (rest n d eps tmp) 0)) as Z. cbv beta in Z.
    assert (G0 : 0 <= g).
    { apply sumn_nonneg. intros i Hi. pose proof (Rle_0_sqr (nth i q 0 - nth i (ns_opt s) 0)) as Q. unfold Rsqr in Q.
      specialize (Hw i Hi). rewrite Rmult_assoc. nra. }
    assert (0 <= ns_alpha s * g * A * sumn n (fun j => nth j (rest n d eps tmp) 0 * nth j (rest n d eps tmp) 0)).
    { apply Rmult_le_pos; [apply Rmult_le_pos; [apply Rmult_le_pos | lra] | exact Z]; assumption. }
    lra.
  - intros LA. exfalso. rewrite <- EA in LA. lra.
Qed.
(** Fewer than six joints: lines 116-118 write outside tmp. *)
Lemma nso_few_joints svd c s q v qdot : chain_ok c -> nso_clean s -> ns_nj s = ch_nj c -> (ch_nj c < 6)%nat ->
  length q = ch_nj c -> length qdot = ch_nj c -> length (ns_opt s) = ch_nj c -> length (ns_weights s) = ch_nj c ->
  dc_rc (svd (ns_maxiter s) (mkM 6 (ch_nj c) (tip_jacobian c q))) = 0%Z ->
  nso_CartToJnt svd c s q v qdot = Undef.
Proof.
  intros Hok [CL CJ] F Hn S1 S2 S3 S4 Z0. unfold nso_CartToJnt. cbv zeta.
  rewrite F, S1, S2, S3, S4, !Nat.eqb_refl. cbn [negb orb].
  rewrite CL, F, jac_now by (auto; lia). cbn [obind]. change (E_NOERROR <? 0)%Z with false. cbn match.
  pose proof (jacobian_at_length c q Hok S1) as LJ.
  assert (EJ : jac_mat (jacobian_at c (-1) q) = mkM 6 (ch_nj c) (tip_jacobian c q)) by (unfold jac_mat; rewrite LJ; reflexivity).
  rewrite EJ, Z0. cbn [negb Z.eqb].
  destruct (Nat.ltb_spec (ch_nj c) 6) as [ | ]; [reflexivity | lia].
Qed.
