(** Proofs about the external wrench estimator. *)
From Coq Require Import Reals List Arith Lia Lra ZArith Bool.
From Verif Require Import FramesModel FramesSpec FramesProofs RotationProofs Outcome LoopProofs InertiaModel InertiaSpec DualModel KinModel KinSpec KinProofs JacProofs JacDotProofs
  LinModel LinSpec SumProofs DynModel DynSpec RneProofs MassProofs DynProofs FdProofs LmaModel LmaSpec LmaProofs LmaProofs2 VelIkModel VelIkSpec VelIkLin VelIkProofs EwModel EwSpec.
Import ListNotations.
Local Open Scope list_scope.
Local Open Scope R_scope.

(** ** Vectors *)
Lemma vzip_ok f a b n : length a = n -> length b = n ->
  exists r, vzip f a b = Ret r /\ length r = n /\ forall j, (j < n)%nat -> nth j r 0 = f (nth j a 0) (nth j b 0).
Proof.
  intros La Lb. unfold vzip. rewrite La, Lb, Nat.eqb_refl. exists (map2 f a b). split; [reflexivity|].
  split; [rewrite map2_length; congruence|]. intros j Hj. apply map2_nth; lia.
Qed.
Lemma m_vec_ok A x n : mrows A = n -> mcols A = n -> length x = n ->
  exists r, m_vec A x = Ret r /\ length r = n /\ forall j, (j < n)%nat -> nth j r 0 = sumn n (fun k => mentry A j k * nth k x 0).
Proof.
  intros R1 R2 L. unfold m_vec. rewrite R1, R2, L, Nat.eqb_refl. eexists. split; [reflexivity|].
  split; [rewrite map_length, seq_length; reflexivity|]. intros j Hj. rewrite nth_map_seq by exact Hj. apply total_sum.
Qed.

(** ** The dynamics do not depend on the history of the embedded solver *)
Lemma mass_at_ok g c ds q H : chain_ok c -> inertias_symmetric c -> dyn_reach g c ds -> dyn_current c ds ->
  length q = ch_nj c -> mrows H = ch_nj c -> mcols H = ch_nj c ->
  exists M, dyn_JntToMass c ds q H = Ret (E_NOERROR, M) /\ mrows M = ch_nj c /\ mcols M = ch_nj c /\
    forall i j, (i < ch_nj c)%nat -> (j < ch_nj c)%nat -> mentry M i j = mass_at c g q i j.
Proof.
  intros Hok Sy Dr Dc Hq R1 R2. destruct (mass_result c ds q H Hok Dc Hq R1 R2) as (M & EM & M1 & M2 & _).
  exists M. split; [exact EM|]. split; [exact M1|]. split; [exact M2|]. intros i j Hi Hj. unfold mass_at.
  destruct (mass_result c (dyn_make c g) q (mat_zero (ch_nj c)) Hok (conj eq_refl eq_refl) Hq eq_refl eq_refl) as (M' & EM' & _).
  rewrite EM'. apply (mass_same g c ds (dyn_make c g) q H (mat_zero (ch_nj c)) M M'); auto; [apply dyn_r_make|split; reflexivity].
Qed.
Lemma coriolis_at_ok g c ds q qd out : chain_ok c -> dyn_reach g c ds -> dyn_current c ds ->
  length q = ch_nj c -> length qd = ch_nj c -> length out = ch_nj c ->
  exists C, dyn_JntToCoriolis c ds q qd out = Ret (E_NOERROR, C) /\ length C = ch_nj c /\
    forall j, (j < ch_nj c)%nat -> nth j C 0 = coriolis_at c g q qd j.
Proof.
  intros Hok Dr Dc Hq Hqd Ho. destruct (coriolis_result g c ds q qd out Hok Dr Dc Hq Hqd Ho) as (C & EC & LC & HC).
  exists C. split; [exact EC|]. split; [exact LC|]. intros j Hj. unfold coriolis_at.
  destruct (coriolis_result g c (dyn_make c g) q qd (repeat 0 (ch_nj c)) Hok (dyn_r_make g c) (conj eq_refl eq_refl) Hq Hqd (repeat_length _ _)) as (C' & EC' & LC' & HC').
  rewrite EC'. destruct (joint_segment c j (proj1 Hok) Hj) as (i & Hi & Mi & <-). rewrite HC, HC' by auto. reflexivity.
Qed.
Lemma gravity_at_ok g c ds q out : chain_ok c -> dyn_reach g c ds -> dyn_current c ds ->
  length q = ch_nj c -> length out = ch_nj c ->
  exists G, dyn_JntToGravity c ds q out = Ret (E_NOERROR, G) /\ length G = ch_nj c /\
    forall j, (j < ch_nj c)%nat -> nth j G 0 = gravity_at c g q j.
Proof.
  intros Hok Dr Dc Hq Ho. destruct (gravity_result g c ds q out Hok Dr Dc Hq Ho) as (C & EC & LC & HC).
  exists C. split; [exact EC|]. split; [exact LC|]. intros j Hj. unfold gravity_at.
  destruct (gravity_result g c (dyn_make c g) q (repeat 0 (ch_nj c)) Hok (dyn_r_make g c) (conj eq_refl eq_refl) Hq (repeat_length _ _)) as (C' & EC' & LC' & HC').
  rewrite EC'. destruct (joint_segment c j (proj1 Hok) Hj) as (i & Hi & Mi & <-). rewrite HC, HC' by auto. reflexivity.
Qed.

(** ** One observation *)
Lemma observe_ok s M prev cor grav qd tau n : ew_dt s <> 0 ->
  mrows M = n -> mcols M = n -> mrows prev = n -> mcols prev = n -> length cor = n -> length grav = n -> length qd = n -> length tau = n ->
  length (ew_int s) = n -> length (ew_filt s) = n -> length (ew_p0 s) = n -> length (ew_gain s) = n ->
  exists int filt, ew_observe s M prev cor grav qd tau = Ret (int, filt) /\ length int = n /\ length filt = n /\
    forall j, (j < n)%nat ->
      let Mqd := sumn n (fun k => mentry M j k * nth k qd 0) in
      let Pqd := sumn n (fun k => mentry prev j k * nth k qd 0) in
      nth j int 0 = nth j (ew_int s) 0 + (Mqd - Pqd) + ew_dt s * (nth j tau 0 - nth j grav 0 - nth j cor 0 + nth j (ew_filt s) 0) /\
      nth j filt 0 = ew_filter s * nth j (ew_filt s) 0 + (1 - ew_filter s) * (nth j (ew_gain s) 0 * (Mqd - nth j int 0 - nth j (ew_p0 s) 0)).
Proof.
  intros Hd R1 R2 P1 P2 Lc Lg Lq Lt Li Lf Lp Lk. unfold ew_observe, m_rate. rewrite R1, R2, P1, P2, Nat.eqb_refl. cbn [andb obind].
  destruct (vzip_ok Rminus tau grav n Lt Lg) as (a1 & -> & L1 & N1). cbn [obind].
  destruct (vzip_ok Rminus a1 cor n L1 Lc) as (a2 & -> & L2 & N2). cbn [obind].
  destruct (m_vec_ok (mkM n n (fun i j => (mentry M i j - mentry prev i j) / ew_dt s)) qd n eq_refl eq_refl Lq) as (a3 & -> & L3 & N3). cbn [obind].
  destruct (vzip_ok Rplus a2 a3 n L2 L3) as (a4 & -> & L4 & N4). cbn [obind].
  destruct (vzip_ok Rplus a4 (ew_filt s) n L4 Lf) as (a5 & -> & L5 & N5). cbn [obind].
  destruct (vzip_ok (fun x y => x + y * ew_dt s) (ew_int s) a5 n Li L5) as (a6 & -> & L6 & N6). cbn [obind].
  destruct (m_vec_ok M qd n R1 R2 Lq) as (a7 & -> & L7 & N7). cbn [obind].
  destruct (vzip_ok Rminus a7 a6 n L7 L6) as (a8 & -> & L8 & N8). cbn [obind].
  destruct (vzip_ok Rminus a8 (ew_p0 s) n L8 Lp) as (a9 & -> & L9 & N9). cbn [obind].
  destruct (vzip_ok Rmult (ew_gain s) a9 n Lk L9) as (b1 & -> & M1 & K1). cbn [obind].
  destruct (vzip_ok (fun x y => ew_filter s * x + (1 - ew_filter s) * y) (ew_filt s) b1 n Lf M1) as (b2 & -> & M2 & K2). cbn [obind].
  exists a6, b2. split; [reflexivity|]. split; [exact L6|]. split; [exact M2|]. intros j Hj. cbv zeta.
  assert (Q : nth j a3 0 = (sumn n (fun k => mentry M j k * nth k qd 0) - sumn n (fun k => mentry prev j k * nth k qd 0)) / ew_dt s).
  { rewrite N3 by exact Hj. cbn [mentry]. rewrite <- sumn_sub. unfold Rdiv. rewrite <- sumn_scale_r. apply sumn_ext. intros; ring. }
  split.
  - rewrite N6, N5, N4, N2, N1, Q by exact Hj. field. exact Hd.
  - rewrite K2, K1, N9, N8, N7 by exact Hj. reflexivity.
Qed.

(** ** The wrench *)
Lemma tip_now c q : chain_ok c -> length q = ch_nj c -> fk_JntToCart c q (-1) = Ret (E_NOERROR, tip_at c (-1) q).
Proof.
  intros Hok Hq. assert (D : denotes c (-1) (length (ch_segs c))) by (left; split; [lia|reflexivity]).
  rewrite (tip_at_eq c (-1) (length (ch_segs c)) q (proj1 Hok) D (le_n _) Hq), (fk_result c q (-1) _ (proj1 Hok) D), Hq, Nat.eqb_refl, Nat.leb_refl. reflexivity.
Qed.
Lemma ew_matrix_now c q : chain_ok c -> length q = ch_nj c ->
  jac_changeBase (jacobian_at c (-1) q) (r_inv (fM (tip_at c (-1) q))) = Ret (map (r_app_t (r_inv (fM (tip_at c (-1) q)))) (jacobian_at c (-1) q)) /\
  mrows (jac_transpose (map (r_app_t (r_inv (fM (tip_at c (-1) q)))) (jacobian_at c (-1) q))) = ch_nj c /\
  jac_transpose (map (r_app_t (r_inv (fM (tip_at c (-1) q)))) (jacobian_at c (-1) q)) = ew_matrix c q.
Proof.
  intros Hok Hq. split; [unfold jac_changeBase; rewrite jac_inplace_map; reflexivity|].
  pose proof (jacobian_at_length c q Hok Hq) as L.
  split; [cbn; rewrite map_length; exact L|]. unfold jac_transpose, ew_matrix. rewrite map_length, L. f_equal.
  unfold tip_axes_jacobian.
  assert (Z : forall j, nth j (map (r_app_t (r_inv (fM (tip_at c (-1) q)))) (jacobian_at c (-1) q)) t_zero =
    r_invapp_t (fM (tip_at c (-1) q)) (nth j (jacobian_at c (-1) q) t_zero)).
  { intros j. rewrite <- (map_nth (r_invapp_t (fM (tip_at c (-1) q)))).
    replace (r_invapp_t (fM (tip_at c (-1) q)) t_zero) with t_zero by (generalize (fM (tip_at c (-1) q)); clear; intros; unfold t_zero; geo).
    reflexivity. }
  apply FunctionalExtensionality.functional_extensionality. intros j.
  apply FunctionalExtensionality.functional_extensionality. intros r. rewrite Z. reflexivity.
Qed.
Lemma ew_sinv_ok eps d i : 0 < eps -> ew_sinv eps d i = Ret (inv_factor eps d i).
Proof.
  intros He. unfold ew_sinv, inv_factor. destruct (Rlt_dec (Rabs (dc_S d i)) eps) as [|N]; [reflexivity|].
  rewrite rdiv_ok by (apply (not_small eps); assumption). f_equal. unfold Rdiv. ring.
Qed.
Lemma w_list_nth w i : (i < 6)%nat -> nth i (w_list w) 0 = w_at w i.
Proof. intros H. unfold w_list. rewrite nth_map_seq by exact H. reflexivity. Qed.
Lemma ew_wrench_ok nj d eps filt : 0 < eps ->
  exists sinv, entries (ew_sinv eps d) 0 6 = Ret sinv /\ w_list (ew_wrench nj d sinv filt) = pinv_sol nj 6 eps d (fun j => nth j filt 0).
Proof.
  intros He. exists (map (inv_factor eps d) (seq 0 6)). split; [apply entries_map; intros; apply ew_sinv_ok, He|].
  unfold w_list, pinv_sol, sol. apply vlist_ext. intros i Hi.
  assert (E : w_at (ew_wrench nj d (map (inv_factor eps d) (seq 0 6)) filt) i =
    total nj (fun j => total 6 (fun k => dc_V d i k * nth k (map (inv_factor eps d) (seq 0 6)) 0 * dc_U d j k) * nth j filt 0)).
  { unfold ew_wrench. destruct i as [|[|[|[|[|[|i]]]]]]; try reflexivity. lia. }
  rewrite E, total_sum.
  rewrite (sumn_ext nj _ (fun j => sumn 6 (fun k => dc_V d i k * inv_factor eps d k * (dc_U d j k * nth j filt 0)))).
  2:{ intros j Hj. rewrite total_sum, <- sumn_scale_r. apply sumn_ext. intros k Hk. rewrite nth_map_seq by exact Hk. ring. }
  rewrite sumn_swap. apply sumn_ext. intros k Hk. rewrite sumn_scale. unfold coef. ring.
Qed.

(** ** One call *)
Lemma ew_sample svd g c s q qd tau w P : chain_ok c -> inertias_symmetric c -> ew_sized s -> ew_current c s -> dyn_reach g c (ew_dyn s) ->
  ew_dt s <> 0 -> 0 < ew_eps s -> length q = ch_nj c -> length qd = ch_nj c -> length tau = ch_nj c -> ew_prev s = Some P ->
  exists code w' s', ew_JntToExtWrench svd c s q qd tau w = Ret (code, w', s') /\ ew_error s' = code /\
    let d := svd (ew_maxiter s) (ew_matrix c q) in
    (dc_rc d = 0%Z -> code = E_NOERROR /\ w_list w' = pinv_sol (ch_nj c) 6 (ew_eps s) d (fun j => nth j (ew_filt s') 0)) /\
    (dc_rc d <> 0%Z -> code = E_SVD_FAILED /\ w' = w) /\
    ew_sized s' /\ ew_current c s' /\ ew_dyn s' = ew_dyn s /\ ew_dt s' = ew_dt s /\ ew_filter s' = ew_filter s /\ ew_eps s' = ew_eps s /\
    ew_maxiter s' = ew_maxiter s /\ ew_gain s' = ew_gain s /\ ew_p0 s' = ew_p0 s /\
    (exists P', ew_prev s' = Some P' /\ forall i j, (i < ch_nj c)%nat -> (j < ch_nj c)%nat -> mentry P' i j = mass_at c g q i j) /\
    forall j, (j < ch_nj c)%nat ->
      let Pqd := sumn (ch_nj c) (fun k => mentry P j k * nth k qd 0) in
      nth j (ew_int s') 0 = nth j (ew_int s) 0 + (momentum_at c g q qd j - Pqd) +
        ew_dt s * (nth j tau 0 - gravity_at c g q j - coriolis_at c g q qd j + nth j (ew_filt s) 0) /\
      nth j (ew_filt s') 0 = ew_filter s * nth j (ew_filt s) 0 + (1 - ew_filter s) * (nth j (ew_gain s) 0 * (momentum_at c g q qd j - nth j (ew_int s') 0 - nth j (ew_p0 s) 0)).
Proof.
  intros Hok Sy (Z1 & Z2 & Z3 & Z4 & Z5 & Z6 & Z7 & Z8 & Z9 & Z10 & Z11 & Z12 & Z13) [C1 C2] Dr Hd He Hq Hqd Ht EP.
  destruct (Z13 P EP) as [P1 P2]. rewrite C1 in *.
  unfold ew_JntToExtWrench. rewrite C1, C2, Hq, Hqd, Ht, !Nat.eqb_refl. cbn [negb orb].
  assert (Dc : dyn_current c (ew_dyn s)) by (split; congruence).
  destruct (mass_at_ok g c (ew_dyn s) q (ew_M s) Hok Sy Dr Dc Hq Z1 Z2) as (M & -> & M1 & M2 & HM). cbn [obind].
  change (negb (E_NOERROR =? E_NOERROR)%Z) with false. cbv iota.
  destruct (coriolis_at_ok g c (ew_dyn s) q qd (ew_cor s) Hok Dr Dc Hq Hqd Z7) as (C & -> & LC & HC). cbn [obind].
  change (negb (E_NOERROR =? E_NOERROR)%Z) with false. cbv iota.
  destruct (gravity_at_ok g c (ew_dyn s) q (ew_grav s) Hok Dr Dc Hq Z6) as (G & -> & LG & HG). cbn [obind].
  change (negb (E_NOERROR =? E_NOERROR)%Z) with false. cbv iota.
  rewrite EP. cbn [obind].
  set (s3 := ew_dynamics (ew_dynamics (ew_dynamics s M (ew_cor s) (ew_grav s)) M C (ew_grav s)) M C G).
  destruct (observe_ok s3 M P C G qd tau (ch_nj c) Hd M1 M2 P1 P2 LC LG Hqd Ht Z4 Z5 Z3 Z9) as (int & filt & -> & LI & LF & HO). cbn [obind].
  rewrite tip_now by assumption. cbn [obind]. change (negb (E_NOERROR =? E_NOERROR)%Z) with false. cbv iota.
  rewrite Z10. rewrite jac_now by assumption. cbn [obind]. change (negb (E_NOERROR =? E_NOERROR)%Z) with false. cbv iota.
  destruct (ew_matrix_now c q Hok Hq) as (EB & _ & EJ). rewrite EB. cbn [obind]. rewrite EJ.
  pose proof (jacobian_at_length c q Hok Hq) as LJ.
  set (d := svd (ew_maxiter s) (ew_matrix c q)).
  assert (Rest : forall code, let s' := ew_fail (ew_jacobian (ew_remember s3 M int filt) (map (r_app_t (r_inv (fM (tip_at c (-1) q)))) (jacobian_at c (-1) q))) code in
    ew_sized s' /\ ew_current c s' /\ ew_dyn s' = ew_dyn s /\ ew_dt s' = ew_dt s /\ ew_filter s' = ew_filter s /\ ew_eps s' = ew_eps s /\
    ew_maxiter s' = ew_maxiter s /\ ew_gain s' = ew_gain s /\ ew_p0 s' = ew_p0 s /\
    (exists P', ew_prev s' = Some P' /\ forall i j, (i < ch_nj c)%nat -> (j < ch_nj c)%nat -> mentry P' i j = mass_at c g q i j) /\
    forall j, (j < ch_nj c)%nat ->
      let Pqd := sumn (ch_nj c) (fun k => mentry P j k * nth k qd 0) in
      nth j (ew_int s') 0 = nth j (ew_int s) 0 + (momentum_at c g q qd j - Pqd) +
        ew_dt s * (nth j tau 0 - gravity_at c g q j - coriolis_at c g q qd j + nth j (ew_filt s) 0) /\
      nth j (ew_filt s') 0 = ew_filter s * nth j (ew_filt s) 0 + (1 - ew_filter s) * (nth j (ew_gain s) 0 * (momentum_at c g q qd j - nth j (ew_int s') 0 - nth j (ew_p0 s) 0))).
  { intros code. cbv zeta.
    replace (ew_fail (ew_jacobian (ew_remember s3 M int filt) (map (r_app_t (r_inv (fM (tip_at c (-1) q)))) (jacobian_at c (-1) q))) code)
      with (mkEW (ew_dt s) (ew_filter s) (ew_eps s) (ew_maxiter s) (ew_nj s) (ew_ns s) M (Some M) (ew_p0 s) int filt G C
             (map (r_app_t (r_inv (fM (tip_at c (-1) q)))) (jacobian_at c (-1) q)) (ew_gain s) (ew_dyn s) (ew_locked s) code) by reflexivity.
    unfold ew_sized, ew_current.
    cbn [ew_nj ew_ns ew_M ew_prev ew_p0 ew_int ew_filt ew_grav ew_cor ew_jac ew_gain ew_locked ew_dyn ew_dt ew_filter ew_eps ew_maxiter ew_error]. rewrite C1.
    split; [|split; [split; [reflexivity|exact C2]|]].
    { rewrite map_length. repeat (split; [assumption|]). intros P' EP'. injection EP' as <-. split; assumption. }
    repeat (split; [reflexivity|]). split; [exists M; split; [reflexivity|exact HM]|].
    intros j Hj. specialize (HO j Hj). cbv zeta in HO.
    assert (EM : sumn (ch_nj c) (fun k => mentry M j k * nth k qd 0) = momentum_at c g q qd j).
    { unfold momentum_at. apply sumn_ext. intros k Hk. rewrite HM by assumption. reflexivity. }
    rewrite EM, HC, HG in HO by exact Hj. exact HO. }
  destruct (ew_wrench_ok (ch_nj c) d (ew_eps s) filt He) as (sinv & ES & EW).
  destruct (Z.eq_dec (dc_rc d) 0) as [R0|R0].
  - rewrite R0. change (negb (0 =? E_NOERROR)%Z) with false. cbv iota. rewrite ES. cbn [obind].
    do 3 eexists. split; [reflexivity|]. split; [reflexivity|]. cbv zeta. split; [intros _; split; [reflexivity|exact EW]|]. split; [intros; contradiction|].
    apply Rest.
  - replace (negb (dc_rc d =? E_NOERROR)%Z) with true by (symmetry; apply negb_true_iff, Z.eqb_neq; exact R0).
    do 3 eexists. split; [reflexivity|]. split; [reflexivity|]. cbv zeta. split; [intros; contradiction|]. split; [intros _; split; reflexivity|].
    apply Rest.
Qed.
