(** Proofs about ChainIkSolverVel_pinv and ChainIkSolverVel_pinv_nso. *)
From Coq Require Import Reals String List ZArith Bool Arith Lia Lra.
From Verif Require Import FramesModel Outcome InertiaModel DualModel KinModel KinSpec KinProofs JacProofs JacDotProofs
  LinModel LinSpec SumProofs LmaModel LmaSpec LmaProofs LmaProofs2 VelIkModel VelIkSpec VelIkLin.
Import ListNotations.
Local Open Scope list_scope.
Local Open Scope R_scope.

Lemma jac_now c q jac : chain_ok c -> length q = ch_nj c -> length jac = ch_nj c ->
  jac_JntToJac c (repeat false (ch_nj c)) q jac (-1) = Ret (E_NOERROR, jacobian_at c (-1) q).
Proof.
  intros Hok Hq Hj. unfold jacobian_at.
  assert (D : denotes c (-1) (length (ch_segs c))) by (left; split; [lia | reflexivity]).
  rewrite !(jac_result _ _ _ _ _ _ Hok D). unfold jacsolver_make, jac_make.
  rewrite !repeat_length, Hq, Hj, Nat.eqb_refl, Nat.leb_refl. reflexivity.
Qed.
Lemma entries_map f g : forall n i, (forall k, (i <= k < i + n)%nat -> f k = Ret (g k)) -> entries f i n = Ret (map g (seq i n)).
Proof.
  induction n; intros i H; [reflexivity | ]. cbn [entries seq map].
  rewrite (H i) by lia. cbn [obind]. rewrite IHn by (intros; apply H; lia). reflexivity.
Qed.
Lemma entries_undef f n k : forall i, (i <= k < i + n)%nat -> f k = Undef -> entries f i n = Undef.
Proof.
  induction n; intros i H E; [lia | ]. cbn [entries].
  destruct (Nat.eq_dec i k) as [-> | ]; [rewrite E; reflexivity | ].
  destruct (f i); [ | reflexivity]. cbn [obind]. rewrite (IHn (S i)) by (auto; lia). reflexivity.
Qed.
Lemma entries_length f n : forall i l, entries f i n = Ret l -> length l = n.
Proof.
  induction n; intros i l E; cbn [entries] in E; [injection E as <-; reflexivity | ].
  destruct (f i) as [x | ]; cbn [obind] in E; [ | discriminate].
  destruct (entries f (S i) n) as [r | ] eqn:E2; cbn [obind] in E; [ | discriminate].
  injection E as <-. cbn. f_equal. eapply IHn; exact E2.
Qed.
Lemma rdiv_ok x y : y <> 0 -> rdiv x y = Ret (x / y).
Proof. intros H. unfold rdiv. destruct (Req_EM_T y 0); [contradiction | reflexivity]. Qed.
Lemma vlist_ext n f g : (forall i, (i < n)%nat -> f i = g i) -> vlist n f = vlist n g.
Proof. intros H. apply map_ext_in. intros i Hi. apply in_seq in Hi. apply H; lia. Qed.
Lemma image_ext m n A B x r : (forall r j, (r < m)%nat -> (j < n)%nat -> A r j = B r j) -> (r < m)%nat -> image n A x r = image n B x r.
Proof. intros H Hr. apply sumn_ext. intros j Hj. rewrite H by assumption. reflexivity. Qed.
Lemma misfit_ext m n A B b x : (forall r j, (r < m)%nat -> (j < n)%nat -> A r j = B r j) -> misfit m n A b x = misfit m n B b x.
Proof. intros H. apply sumn_ext. intros r Hr. rewrite (image_ext m n A B) by assumption. reflexivity. Qed.
Lemma misfit_rhs m n A b e x : (forall r, (r < m)%nat -> b r = e r) -> misfit m n A b x = misfit m n A e x.
Proof. intros H. apply sumn_ext. intros r Hr. rewrite H by assumption. reflexivity. Qed.
Lemma least_ext m n A B b x : (forall r j, (r < m)%nat -> (j < n)%nat -> A r j = B r j) -> least_squares m n A b x -> least_squares m n B b x.
Proof. intros H [L M]. split; [exact L | ]. intros y Hy. rewrite <- !(misfit_ext m n A B) by assumption. auto. Qed.
Lemma shortest_ext m n A B b x : (forall r j, (r < m)%nat -> (j < n)%nat -> A r j = B r j) ->
  shortest_least_squares m n A b x -> shortest_least_squares m n B b x.
Proof.
  intros H [L M]. split; [eapply least_ext; eassumption | ]. intros y Hy. apply M.
  eapply least_ext; [ | exact Hy]. intros; symmetry; auto.
Qed.
Lemma least_rhs m n A b e x : (forall r, (r < m)%nat -> b r = e r) -> least_squares m n A b x -> least_squares m n A e x.
Proof. intros H [L M]. split; [exact L | ]. intros y Hy. rewrite <- !(misfit_rhs m n A b e) by assumption. auto. Qed.
Lemma shortest_rhs m n A b e x : (forall r, (r < m)%nat -> b r = e r) ->
  shortest_least_squares m n A b x -> shortest_least_squares m n A e x.
Proof.
  intros H [L M]. split; [eapply least_rhs; eassumption | ]. intros y Hy. apply M.
  eapply least_rhs; [ | exact Hy]. intros; symmetry; auto.
Qed.

(** ** Truncation *)
Definition big (eps : R) (d : Decomp) (i : nat) : R := if Rlt_dec (Rabs (dc_S d i)) eps then 0 else dc_S d i.
Definition inv_factor (eps : R) (d : Decomp) (i : nat) : R := if Rlt_dec (Rabs (dc_S d i)) eps then 0 else / dc_S d i.
Lemma not_small eps x : 0 < eps -> ~ Rabs x < eps -> x <> 0.
Proof. intros H N E. apply N. rewrite E, Rabs_R0. exact H. Qed.
Lemma truncated_big n eps d r j : truncated n eps d r j = sumn n (fun i => dc_U d r i * big eps d i * dc_V d j i).
Proof. apply sumn_ext. intros i Hi. unfold big. destruct (Rlt_dec (Rabs (dc_S d i)) eps); ring. Qed.
Lemma truncated_all m n A eps d : svd_of m n A d -> no_small n eps d -> forall r j, (r < m)%nat -> (j < n)%nat -> truncated n eps d r j = A r j.
Proof.
  intros [HA _] N r j Hr Hj. rewrite HA by assumption. apply sumn_ext. intros i Hi.
  destruct (Rlt_dec (Rabs (dc_S d i)) eps) as [L | ]; [rewrite (N i Hi L); ring | reflexivity].
Qed.
Lemma big_nz eps d i : big eps d i <> 0 -> dc_S d i <> 0.
Proof. unfold big. destruct (Rlt_dec (Rabs (dc_S d i)) eps); auto. Qed.
Lemma inv_factor_ok eps d i : 0 < eps -> inv_factor eps d i * (big eps d i * big eps d i + 0) = big eps d i.
Proof.
  intros He. unfold inv_factor, big. destruct (Rlt_dec (Rabs (dc_S d i)) eps) as [ | N]; [ring | ].
  field. apply (not_small eps); assumption.
Qed.
Lemma inv_factor_zero eps d i : 0 < eps -> big eps d i = 0 -> inv_factor eps d i = 0.
Proof.
  intros He. unfold inv_factor, big. destruct (Rlt_dec (Rabs (dc_S d i)) eps) as [ | N]; [auto | ].
  intros E. exfalso. exact (not_small _ _ He N E).
Qed.
Definition pinv_sol (m n : nat) (eps : R) (d : Decomp) (b : nat -> R) : list R := sol m n b (dc_U d) (dc_V d) (inv_factor eps d).
Lemma pinv_sol_shortest m n A eps d b : 0 < eps -> svd_of m n A d -> shortest_least_squares m n (truncated n eps d) b (pinv_sol m n eps d b).
Proof.
  intros He (HA & HV & HU).
  apply (sol_shortest m n (truncated n eps d) b (dc_U d) (big eps d) (dc_V d) (inv_factor eps d) (fun _ => 0)).
  - intros r j _ _. apply truncated_big.
  - exact HV.
  - intros i k Hi Hk Ni Nk. apply HU; auto; eapply big_nz; eassumption.
  - intros; lra.
  - intros; apply inv_factor_ok; exact He.
  - reflexivity.
  - intros; apply inv_factor_zero; assumption.
Qed.
Lemma pinv_sol_bound m n A eps d b : 0 < eps -> svd_of m n A d -> eps * eps * norm2 n (pinv_sol m n eps d b) <= sumn m (fun r => b r * b r).
Proof.
  intros He (HA & HV & HU). unfold pinv_sol. rewrite sol_norm2 by exact HV.
  eapply Rle_trans; [ | apply (bessel m n (dc_U d) b (fun i => if Rlt_dec (Rabs (dc_S d i)) eps then false else true))].
  - rewrite <- sumn_scale.
    assert (G : forall k f g, (forall i, (i < k)%nat -> f i <= g i) -> sumn k f <= sumn k g).
    { clear. induction k; intros f g H; cbn; [lra | ]. pose proof (H k (Nat.lt_succ_diag_r _)).
      pose proof (IHk f g (fun i Hi => H i (Nat.lt_lt_succ_r _ _ Hi))). lra. }
    apply G. intros i Hi. unfold inv_factor. destruct (Rlt_dec (Rabs (dc_S d i)) eps) as [ | N]; [lra | ].
    pose proof (not_small _ _ He N) as NZ. set (S := dc_S d i) in *. set (c := coef m b (dc_U d) i).
    replace (eps * eps * (/ S * c * (/ S * c))) with ((eps * eps / (S * S)) * (c * c)) by (field; exact NZ).
    assert (Q : eps * eps / (S * S) <= 1).
    { apply (Rmult_le_reg_r (S * S)); [pose proof (Rsqr_pos_lt S NZ) as P; unfold Rsqr in P; exact P | ].
      unfold Rdiv. rewrite Rmult_assoc, Rinv_l by (intros E; destruct (Rmult_integral _ _ E); contradiction).
      rewrite Rmult_1_r, Rmult_1_l. rewrite <- (Rabs_pos_eq (S * S)) by apply Rle_0_sqr. rewrite Rabs_mult. nra. }
    pose proof (Rle_0_sqr c) as P. unfold Rsqr in P. nra.
  - intros i k Hi Hk Oi Ok. apply HU; auto;
      match goal with H : (if Rlt_dec (Rabs (dc_S d ?a)) _ then _ else _) = true |- dc_S d ?a <> 0 =>
        destruct (Rlt_dec (Rabs (dc_S d a)) eps) as [ | N]; [discriminate | exact (not_small _ _ He N)] end.
Qed.

(** ** Counting *)
Lemma count_below_le eps S n : (count_below eps S n <= n)%nat.
Proof.
  unfold count_below. etransitivity; [ | apply Nat.eq_le_incl, (seq_length n 0)].
  generalize (seq 0 n) as l. induction l as [ | a l IH]; cbn; [lia | ]. destruct (Rlt_dec (Rabs (S a)) eps); cbn; lia.
Qed.
Definition singular_code (eps : R) (d : Decomp) (n : nat) : Z :=
  if (unsigned_minus n 6 <? Z.of_nat (count_below eps (dc_S d) n))%Z then E_CONVERGE_PINV_SINGULAR else E_NOERROR.
Lemma count_split eps d n : (count_below eps (dc_S d) n + length (large_values n eps d) = n)%nat.
Proof.
  unfold count_below, large_values. rewrite <- (seq_length n 0) at 3. generalize (seq 0 n) as l.
  induction l as [ | a l IH]; cbn; [reflexivity | ]. destruct (Rlt_dec (Rabs (dc_S d a)) eps); cbn; lia.
Qed.
Lemma singular_code_meaning eps d n : (Z.of_nat n < 2 ^ 32)%Z ->
  (singular_code eps d n = E_CONVERGE_PINV_SINGULAR <-> (6 <= n)%nat /\ (length (large_values n eps d) < 6)%nat) /\
  (singular_code eps d n = E_NOERROR <-> ~ ((6 <= n)%nat /\ (length (large_values n eps d) < 6)%nat)).
Proof.
  intros Hn. pose proof (count_split eps d n) as C. unfold singular_code, unsigned_minus.
  destruct (le_lt_dec 6 n) as [G | L].
  - rewrite Z.mod_small by lia.
    destruct (Z.ltb_spec (Z.of_nat n - Z.of_nat 6) (Z.of_nat (count_below eps (dc_S d) n))).
    + split; split; intros; try reflexivity; try discriminate; lia.
    + split; split; intros; try reflexivity; try discriminate; lia.
  - replace (Z.of_nat n - Z.of_nat 6)%Z with (Z.of_nat n - 6 + 2 ^ 32 + (-1) * 2 ^ 32)%Z by lia.
    rewrite Z.mod_add by lia. rewrite Z.mod_small by lia.
    destruct (Z.ltb_spec (Z.of_nat n - 6 + 2 ^ 32) (Z.of_nat (count_below eps (dc_S d) n))); [lia | ].
    split; split; intros; try reflexivity; try discriminate; lia.
Qed.
Lemma singular_code_cases eps d n : singular_code eps d n = E_CONVERGE_PINV_SINGULAR \/ singular_code eps d n = E_NOERROR.
Proof. unfold singular_code. destruct (_ <? _)%Z; auto. Qed.

(** ** ChainIkSolverVel_pinv *)
Lemma pinv_make_clean c eps k : pinv_clean (pinv_make c eps k) /\ pv_nj (pinv_make c eps k) = ch_nj c /\
  pv_eps (pinv_make c eps k) = eps /\ pv_maxiter (pinv_make c eps k) = k /\ pv_zeros (pinv_make c eps k) = 0%nat /\
  pv_svd (pinv_make c eps k) = 0%Z /\ pv_error (pinv_make c eps k) = E_NOERROR.
Proof. unfold pinv_clean, pinv_make; cbn. unfold jac_make. rewrite repeat_length. repeat split. Qed.
Lemma pinv_update_clean c s : pinv_clean s -> pinv_clean (pinv_update c s) /\ pv_nj (pinv_update c s) = ch_nj c /\
  pv_eps (pinv_update c s) = pv_eps s /\ pv_maxiter (pinv_update c s) = pv_maxiter s /\ pv_zeros (pinv_update c s) = pv_zeros s /\
  pv_svd (pinv_update c s) = pv_svd s /\ pv_error (pinv_update c s) = pv_error s.
Proof.
  intros [L J]. unfold pinv_clean, pinv_update; cbn. unfold jacsolver_update. rewrite L, vec_resize_repeat, vec_resize_length. repeat split.
Qed.
Lemma pinv_tmp_factor eps d v i : 0 < eps -> pinv_tmp eps d v i = Ret (inv_factor eps d i * coef 6 (t_at v) (dc_U d) i).
Proof.
  intros He. unfold pinv_tmp, inv_factor. destruct (Rlt_dec (Rabs (dc_S d i)) eps) as [ | N].
  - f_equal. ring.
  - rewrite rdiv_ok by (apply (not_small eps); assumption). rewrite total_sum. f_equal. unfold coef, Rdiv. ring.
Qed.
Lemma map_sol n f V : map (fun i => total n (fun j => V i j * nth j (map f (seq 0 n)) 0)) (seq 0 n) =
  vlist n (fun i => sumn n (fun j => V i j * f j)).
Proof.
  apply vlist_ext. intros i Hi. rewrite total_sum. apply sumn_ext. intros j Hj. rewrite nth_map_seq by exact Hj. reflexivity.
Qed.

Lemma pinv_call svd c s q v qdot : chain_ok c -> pinv_clean s -> 0 < pv_eps s -> (Z.of_nat (ch_nj c) < 2 ^ 32)%Z ->
  exists code out s', pinv_CartToJnt svd c s q v qdot = Ret (code, out, s') /\
  pv_error s' = code /\ pinv_clean s' /\ pv_nj s' = pv_nj s /\ pv_eps s' = pv_eps s /\ pv_maxiter s' = pv_maxiter s /\
  let fits := pv_nj s = ch_nj c in
  let sized := length q = ch_nj c /\ length qdot = ch_nj c in
  let J := mkM 6 (ch_nj c) (tip_jacobian c q) in
  let d := svd (pv_maxiter s) J in
  (~ fits -> code = E_NOT_UP_TO_DATE /\ out = qdot) /\
  (fits -> ~ sized -> code = E_SIZE_MISMATCH /\ out = qdot) /\
  (fits -> sized -> pv_svd s' = dc_rc d /\
    (dc_rc d <> 0%Z -> code = E_SVD_FAILED /\ out = repeat 0 (ch_nj c) /\ pv_zeros s' = 0%nat) /\
    (dc_rc d = 0%Z ->
      (code = E_CONVERGE_PINV_SINGULAR \/ code = E_NOERROR) /\
      (code = E_CONVERGE_PINV_SINGULAR <-> (6 <= ch_nj c)%nat /\ (length (large_values (ch_nj c) (pv_eps s) d) < 6)%nat) /\
      (pv_zeros s' + length (large_values (ch_nj c) (pv_eps s) d) = ch_nj c)%nat /\
      (svd_of 6 (ch_nj c) (tip_jacobian c q) d ->
        shortest_least_squares 6 (ch_nj c) (truncated (ch_nj c) (pv_eps s) d) (t_at v) out /\
        (no_small (ch_nj c) (pv_eps s) d -> shortest_least_squares 6 (ch_nj c) (tip_jacobian c q) (t_at v) out) /\
        pv_eps s * pv_eps s * norm2 (ch_nj c) out <= sumn 6 (fun r => t_at v r * t_at v r)))).
Proof.
  intros Hok [CL CJ] He Hn. unfold pinv_CartToJnt. cbv zeta.
  destruct (Nat.eqb_spec (pv_nj s) (ch_nj c)) as [F | NF]; cbn [negb].
  2:{ do 3 eexists. split; [reflexivity | ]. do 5 (split; [first [reflexivity | unfold pinv_clean; cbn; auto] | ]).
      split; [auto | ]. split; intros; contradiction. }
  destruct (Nat.eqb_spec (pv_nj s) (length q)) as [Q | NQ]; cbn [negb orb].
  2:{ do 3 eexists. split; [reflexivity | ]. do 5 (split; [first [reflexivity | unfold pinv_clean; cbn; auto] | ]).
      split; [intros; contradiction | ]. split; [auto | ]. intros _ [X _]. exfalso. lia. }
  destruct (Nat.eqb_spec (pv_nj s) (length qdot)) as [Q2 | NQ]; cbn [negb orb].
  2:{ do 3 eexists. split; [reflexivity | ]. do 5 (split; [first [reflexivity | unfold pinv_clean; cbn; auto] | ]).
      split; [intros; contradiction | ]. split; [auto | ]. intros _ [_ X]. exfalso. lia. }
  rewrite CL, F, jac_now by (auto; lia). cbn [obind]. change (E_NOERROR <? 0)%Z with false. cbn match.
  pose proof (jacobian_at_length c q Hok ltac:(lia)) as LJ.
  assert (EJ : jac_mat (jacobian_at c (-1) q) = mkM 6 (ch_nj c) (tip_jacobian c q)) by (unfold jac_mat; rewrite LJ; reflexivity).
  assert (CC : forall z rc e, pinv_clean (pinv_leave s (jacobian_at c (-1) q) z rc e)).
  { intros. split; [exact CL | ]. exact (eq_trans LJ (eq_sym F)). }
  rewrite EJ, LJ. set (d := svd (pv_maxiter s) (mkM 6 (ch_nj c) (tip_jacobian c q))).
  destruct (Z.eqb_spec (dc_rc d) 0) as [Z0 | NZ]; cbn [negb].
  2:{ do 3 eexists. split; [reflexivity | ].
      do 5 (split; [first [reflexivity | apply CC | exact F] | ]).
      split; [intros; contradiction | ]. split; [intros _ X; exfalso; apply X; lia | ].
      intros _ _. split; [reflexivity | ]. split; [intros _; split; [reflexivity | split; [f_equal; lia | reflexivity]] | intros; contradiction]. }
  rewrite (entries_map _ (fun i => inv_factor (pv_eps s) d i * coef 6 (t_at v) (dc_U d) i))
    by (intros; apply pinv_tmp_factor; exact He).
  cbn [obind]. rewrite map_sol. fold (sol 6 (ch_nj c) (t_at v) (dc_U d) (dc_V d) (inv_factor (pv_eps s) d)).
  fold (pinv_sol 6 (ch_nj c) (pv_eps s) d (t_at v)). fold (singular_code (pv_eps s) d (ch_nj c)).
  do 3 eexists. split; [reflexivity | ].
  do 5 (split; [first [reflexivity | apply CC | exact F] | ]).
  split; [intros; contradiction | ]. split; [intros _ X; exfalso; apply X; lia | ].
  intros _ _. split; [reflexivity | ]. split; [intros; contradiction | ]. intros _.
  split; [apply singular_code_cases | ]. split; [apply (singular_code_meaning (pv_eps s) d (ch_nj c) Hn) | ].
  split; [apply count_split | ]. intros SV.
  split; [eapply pinv_sol_shortest; eassumption | ].
  split; [ | eapply pinv_sol_bound; eassumption].
  intros NS. eapply shortest_ext; [ | eapply pinv_sol_shortest; eassumption]. intros. eapply truncated_all; eassumption.
Qed.
