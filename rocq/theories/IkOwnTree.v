(** Tree position solvers around TreeFkSolverPos_recursive and TreeIkSolverVel_wdls. *)
From Coq Require Import Reals String List ZArith Bool Arith Lia Lra.
From Verif Require Import FramesModel FramesSpec FramesProofs Outcome InertiaModel DualModel KinModel KinSpec KinProofs JacProofs JntModel
  TreeModel TreeSpec TreeProofs TreeCopyProofs TreeSolverProofs TreeFinal LinModel LinSpec SumProofs IkModel IkSpec IkProofs IkProofs2 IkTreeProofs IkTreeProofs2
  LmaModel LmaSpec LmaProofs LmaProofs2 VelIkModel VelIkSpec VelIkLin VelIkProofs VelIkProofs3 VelIkProofs4 IkOwnSpec IkOwn.
Import ListNotations.
Local Open Scope list_scope.
Local Open Scope R_scope.

Lemma put_keys {A} ends (m : dict A) k a : keys_are ends m -> keys_are ends (dict_put m k a).
Proof.
  intros (K1 & K2). split; [intros k'; rewrite find_put_none; apply K1|].
  clear K1. induction m as [|[k1 b] m IH]; cbn [dict_put]; [intros ? ? []|].
  destruct (String.eqb k1 k); intros k' a' [E|I].
  - injection E as <- <-. apply (K2 k1 b). left; reflexivity.
  - apply (K2 k' a'). right; exact I.
  - injection E as <- <-. apply (K2 k1 b). left; reflexivity.
  - apply IH with (a := a'); [|exact I]. intros k2 a2 I2. apply (K2 k2 a2). right; exact I2.
Qed.

Section Own.
Variables (svd : Z -> Mat -> Decomp) (t st : Tree) (ends : list string).
Hypothesis Ht : reachable t.
Hypothesis Ok : tree_ok t.
Hypothesis Hst : treefk_make t = Ret st.
Hypothesis Hn : (0 < tr_nj t)%nat.
Hypothesis Hin : forall k, In k ends -> tfind t k <> None.

Lemma own_tfk_ret {W} (w : W) q k f : In k ends -> exists f', own_tfk st w q k f = Ret (f', w).
Proof.
  intros I. unfold own_tfk. destruct (f_fk t st q f k Ht Hst) as (A & _ & C). destruct (Nat.eq_dec (length q) (tr_nj t)) as [L|L].
  - destruct (C L Hn (Hin k I)) as (F & -> & _). cbn [obind]. eauto.
  - rewrite (A L). cbn [obind]. eauto.
Qed.
Lemma own_tikv_ret w q v d : twdls_ready t ends w -> keys_are ends v ->
  (length q <> tr_nj t -> own_tikv svd w q v d = Ret (-1, d, w)) /\
  (length q = tr_nj t -> length d = tr_nj t -> exists r dq, own_tikv svd w q v d = Ret (r, dq, w) /\ length dq = tr_nj t /\ (r < 0 -> r = IZR E_SVD_FAILED)).
Proof.
  intros (Fo & (Y1 & Y2 & Q1 & Q2) & Hl) (V1 & V2). unfold own_tikv.
  assert (Kn : forall k tw, In (k, tw) v -> In k ends) by exact V2.
  split. { intros L. rewrite (proj1 (proj2 (twdls_codes svd t ends w q v d Ht Ok Fo)) Kn L). reflexivity. }
  intros Hq Ld. pose proof (proj2 (known_dec t ends w v Fo) Kn) as K. destruct Fo as (E & En & A & Bk).
  pose proof (copy_structure _ _ (reachable_inv _ Ht) E) as (R & NJ & NS & S).
  destruct (gather_ok t (tw_tree w) q v (tw_jacs w) Ht Ok E Hq Hn) as (l & El & Fl).
  { intros k buf I. destruct (A _ _ I) as [Ik L]. split; [exact L|]. split; [apply Hin; exact Ik|]. intros N. apply V1 in N. contradiction. }
  unfold twdls_CartToJnt. rewrite K. cbn [negb]. rewrite NJ, Hq, Nat.eqb_refl. cbn [negb]. rewrite El. cbn [obind].
  unfold m_mul at 1. unfold stack_J at 1. cbn [mcols mrows mentry]. rewrite Q1, Nat.eqb_refl. cbn [obind].
  unfold m_mul at 1. cbn [mcols mrows mentry stack_J]. rewrite Y2, En, Nat.eqb_refl. cbn [obind].
  match goal with |- context [svd 150%Z ?B] => set (dd := svd 150%Z B) end.
  destruct (Z.ltb_spec (dc_rc dd) 0) as [Z|Z]; [cbn [obind]; do 2 eexists; split; [reflexivity|]; auto|].
  unfold m_vec at 1, stack_t at 1. rewrite Y2, map_length, seq_length, Nat.eqb_refl. cbn [obind].
  unfold m_mul. cbn [mcols mrows mentry]. rewrite Q1, Q2, Nat.eqb_refl. cbn [obind].
  match goal with |- context [entries ?f 0 (tr_nj t)] => assert (HE : exists tmp, entries f 0 (tr_nj t) = Ret tmp) end.
  { eexists. apply entries_map. intros i _. rewrite rdiv_ok.
    - cbn [obind]. reflexivity.
    - intros E0. apply Hl. pose proof (Rle_0_sqr (dc_S dd i)) as P1. pose proof (Rle_0_sqr (tw_lambda w)) as P2. unfold Rsqr in *.
      destruct (Rmult_integral (tw_lambda w) (tw_lambda w)); lra. }
  destruct HE as (tmp & HE). rewrite HE. apply entries_length in HE. cbn [obind]. unfold m_vec. cbn [mcols mrows mentry]. rewrite HE, Nat.eqb_refl. cbn [obind].
  do 2 eexists. split; [reflexivity|]. split; [rewrite map_length, seq_length; reflexivity|].
  intros N. exfalso.
  match type of N with sqrt ?x < 0 => pose proof (sqrt_pos x) end. lra.
Qed.

Lemma own_errors {W} g p : (forall k, In k (map fst p) -> In k ends) -> forall (w : W) q frames twists, keys_are ends frames -> keys_are ends twists ->
  exists f1 t1, endpoint_errors (own_tfk st) g p w q frames twists = Ret (f1, t1, w) /\ keys_are ends f1 /\ keys_are ends t1.
Proof.
  induction p as [|[k fd] p IH]; intros Hk w q frames twists Kf Kt; cbn [endpoint_errors]; [eauto 6|].
  assert (Ik : In k ends) by (apply Hk; left; reflexivity).
  destruct (dict_find frames k) as [f0|] eqn:F; [|exfalso; apply (proj1 Kf) in F; contradiction].
  destruct (dict_find twists k) as [t0|] eqn:T; [|exfalso; apply (proj1 Kt) in T; contradiction].
  destruct (own_tfk_ret w q k f0 Ik) as (f' & ->). cbn [obind].
  apply IH; [intros k' I; apply Hk; right; exact I|apply put_keys; exact Kf|apply put_keys; exact Kt].
Qed.

Lemma tnrjl_loop_own s p w : twdls_ready t ends w -> (forall k, In k (map fst p) -> In k ends) -> 0 <= tn_eps s ->
  length (tn_min s) = tr_nj t -> length (tn_max s) = tr_nj t ->
  forall n q frames twists d, keys_are ends frames -> keys_are ends twists -> length d = tr_nj t ->
  exists r q' f' t' d', tnrjl_loop (own_tfk st) (own_tikv svd) n s p w q frames twists d = Ret (r, q', f', t', d', w) /\
    keys_are ends f' /\ keys_are ends t' /\ length d' = tr_nj t /\ (q' = q \/ in_box (tn_min s) (tn_max s) q') /\
    (length q <> tr_nj t -> q' = q) /\ (length q = tr_nj t -> length q' = tr_nj t) /\ match r with Some x => x < tn_eps s | None => True end.
Proof.
  intros Rw Hk He L1 L2. induction n as [|n IH]; intros q frames twists d Kf Kt Ld; cbn [tnrjl_loop]; [do 5 eexists; split; [reflexivity|]; auto 10|].
  destruct (own_errors (fun x => x) p Hk w q frames twists Kf Kt) as (f1 & t1 & -> & K1 & K2). cbn [obind].
  destruct (own_tikv_ret w q t1 d Rw K2) as (A & B). destruct (Nat.eq_dec (length q) (tr_nj t)) as [Lq|Lq].
  - destruct (B Lq Ld) as (r & dq & -> & Ldq & _). cbn [obind].
    destruct (Rlt_dec r (tn_eps s)); [do 5 eexists; split; [reflexivity|]; auto 10|].
    destruct (jnt_plus_ok q dq) as (qs & E); [lia|]. rewrite E; cbn [obind]. apply jnt_plus_inv, array_sum_length in E.
    destruct (clamp_both_nearest (tn_min s) (tn_max s) qs) as (q1 & -> & NB & LB & _); [lia|lia|]. cbn [obind].
    destruct (IH q1 f1 t1 dq K1 K2 Ldq) as (r' & q' & f' & t' & d' & -> & H1 & H2 & H3 & H4 & H5 & H6 & H7).
    do 5 eexists. split; [reflexivity|]. repeat (split; [assumption|]).
    split; [right; destruct H4 as [->|]; assumption|]. split; [intros; contradiction|]. split; [intros _; apply H6; lia|exact H7].
  - rewrite (A Lq). cbn [obind]. destruct (Rlt_dec (-1) (tn_eps s)); [|lra]. do 5 eexists. split; [reflexivity|]. auto 10.
Qed.

Lemma known_ends (frames : dict Frame) p : keys_are ends frames ->
  (known_goals ends p /\ endpoints_known (snd p) frames = true) \/ (~ known_goals ends p /\ endpoints_known (snd p) frames = false).
Proof.
  intros (K1 & K2). unfold known_goals. destruct (unknown_or (snd p) frames) as [(AK & ->)|((k & I & N) & ->)]; [left|right]; split; auto.
  - intros k I. destruct (in_dec string_dec k ends) as [Y|Y]; [exact Y|]. apply K1 in Y. exfalso. exact (AK k I Y).
  - intros H. apply K1 in N. exact (N (H k I)).
Qed.

Lemma tnrjl_ask_own eps lo hi w o a : twdls_ready t ends w -> 0 <= eps ->
  (tnrjl_ready t ends (fst o) /\ tn_eps (fst o) = eps /\ tn_min (fst o) = lo /\ tn_max (fst o) = hi /\ snd o = w) ->
  exists b o', tnrjl_ask svd st o a = Ret (b, o') /\
   (tnrjl_ready t ends (fst o') /\ tn_eps (fst o') = eps /\ tn_min (fst o') = lo /\ tn_max (fst o') = hi /\ snd o' = w) /\ tnrjl_answer t ends lo hi eps a b.
Proof.
  intros Rw He ((K1 & K2 & L1 & L2 & L3) & E1 & E2 & E3 & E4). destruct o as [s w0]; cbn [fst snd] in *. subst w0.
  unfold tnrjl_ask, tnrjl_CartToJnt. cbn [fst snd]. destruct (known_ends (tn_frames s) a K1) as [(KG & ->)|(KG & ->)]; cbn [negb].
  2:{ cbn [obind]. do 2 eexists. split; [reflexivity|]. cbn. split; [repeat split; try assumption; try apply K1; try apply K2|]. split; [auto|intros; contradiction]. }
  destruct (tnrjl_loop_own s (snd a) w Rw KG ltac:(lra) L1 L2 (tn_maxiter s) (fst a) (tn_frames s) (tn_twists s) (tn_delta s) K1 K2 L3)
    as (r & q' & f' & t' & d' & -> & H1 & H2 & H3 & H4 & H5 & H6 & H7). cbn [obind].
  do 2 eexists. split; [reflexivity|]. cbn. split; [split; [split; [exact H1|split; [exact H2|auto]]|auto]|].
  split; [intros; contradiction|]. intros _. rewrite <- E2, <- E3, <- E1. split; [exact H4|]. split; [destruct r; auto|]. auto.
Qed.

Lemma online_ask_own lo hi dm w o a : twdls_ready t ends w ->
  (online_ready t ends (fst o) /\ on_min (fst o) = lo /\ on_max (fst o) = hi /\ on_dmax (fst o) = dm /\ snd o = w) ->
  exists b o', online_ask svd st o a = Ret (b, o') /\
   (online_ready t ends (fst o') /\ on_min (fst o') = lo /\ on_max (fst o') = hi /\ on_dmax (fst o') = dm /\ snd o' = w) /\ online_answer t ends lo hi dm a b.
Proof.
  intros Rw ((K1 & K2 & L0 & L1 & L2 & L3 & DP) & E1 & E2 & E3 & E4). destruct o as [s w0]; cbn [fst snd] in *. subst w0 lo hi dm.
  unfold online_ask. cbn [fst snd]. pose proof (fun code q s' w' Hq => online_limits (own_tfk st) (own_tikv svd) s w (fst a) (snd a) code q s' w' (tr_nj t) Hq L1 L2 L3 DP) as LIM.
  unfold online_CartToJnt in *. destruct (known_ends (on_frames s) a K1) as [(KG & E)|(KG & E)]; rewrite E in *; cbn [negb] in *.
  2:{ cbn [obind]. do 2 eexists. split; [reflexivity|]. cbn. split; [repeat split; try assumption; try apply K1; try apply K2|]. split; [auto|]. split; intros; contradiction. }
  destruct (own_errors (enforceCartVelLimits (on_trans s) (on_rot s)) (snd a) KG w (fst a) _ _ K1 K2) as (f1 & t1 & EE & H1 & H2). rewrite EE in *. cbn [obind] in *.
  destruct (own_tikv_ret w (fst a) t1 (on_qdot s) Rw H2) as (A & B). destruct (Nat.eq_dec (length (fst a)) (tr_nj t)) as [Lq|Lq].
  - destruct (B Lq L0) as (r & dq & EB & Ldq & Hr). rewrite EB in *. cbn [obind] in *.
    assert (DI : forall i, (i < tr_nj t)%nat -> 0 < nth i (on_dmax s) 0) by (intros i Hi; apply DP, nth_In; lia).
    destruct (Rlt_dec r 0) as [N|N].
    { cbn [obind]. do 2 eexists. split; [reflexivity|]. cbn. split; [split; [split; [exact H1|split; [exact H2|auto]]|auto]|]. split; [intros; contradiction|]. split; [intros; contradiction|].
      intros _ _. split; [auto|]. split; [intros; lra|]. intros i Hi _. unfold Rminus. rewrite Rplus_opp_r, Rabs_R0. specialize (DI i Hi). lra. }
    rewrite Lq, L1, L2, L3, Nat.eqb_refl in *. cbn [negb orb] in *.
    destruct (enforce_slowed dq (on_dmax s)) as (qd & EQ & LS & _); [lia|intros i Hi; apply DI; lia|]. rewrite EQ in *. cbn [obind] in *.
    destruct (jnt_plus_ok (fst a) qd) as (qs & EP); [lia|]. rewrite EP in *; cbn [obind] in *. apply jnt_plus_inv, array_sum_length in EP.
    destruct (clamp_both_nearest (on_min s) (on_max s) qs) as (q1 & EC & NB & LB & _); [lia|lia|]. rewrite EC in *. cbn [obind] in *.
    do 2 eexists. split; [reflexivity|]. cbn. split; [split; [split; [exact H1|split; [exact H2|split; [cbn; lia|split; [exact L1|split; [exact L2|split; [exact L3|exact DP]]]]]]|auto]|]. split; [intros; contradiction|]. split; [intros; contradiction|].
    intros _ _. split; [intros; lra|]. split; [intros _; exact NB|]. intros i Hi HB.
    destruct (LIM _ _ _ _ eq_refl eq_refl) as [->|(_ & G)]; [|apply G; assumption].
    unfold Rminus. rewrite Rplus_opp_r, Rabs_R0. specialize (DI i Hi). lra.
  - rewrite (A Lq). cbn [obind]. destruct (Rlt_dec (-1) 0); [|lra]. cbn [obind].
    do 2 eexists. split; [reflexivity|]. cbn. split; [split; [split; [exact H1|split; [exact H2|auto]]|auto]|]. split; [intros; contradiction|]. split; [auto|intros; contradiction].
Qed.

Lemma tnrjl_session s w l : tnrjl_ready t ends s -> twdls_ready t ends w -> 0 <= tn_eps s ->
  exists answers s', session (tnrjl_ask svd st) (s, w) l = Ret (answers, (s', w)) /\ tnrjl_ready t ends s' /\
    Forall2 (tnrjl_answer t ends (tn_min s) (tn_max s) (tn_eps s)) l answers.
Proof.
  intros Rs Rw He. destruct (session_total (tnrjl_ask svd st) _ _ (fun o a => tnrjl_ask_own (tn_eps s) (tn_min s) (tn_max s) w o a Rw He) l (s, w))
    as (bs & [s' w'] & E & (R1 & _ & _ & _ & W') & F); cbn [fst snd] in *; auto. subst w'. eauto 8.
Qed.
Lemma online_session s w l : online_ready t ends s -> twdls_ready t ends w ->
  exists answers s', session (online_ask svd st) (s, w) l = Ret (answers, (s', w)) /\ online_ready t ends s' /\
    Forall2 (online_answer t ends (on_min s) (on_max s) (on_dmax s)) l answers.
Proof.
  intros Rs Rw. destruct (session_total (online_ask svd st) _ _ (fun o a => online_ask_own (on_min s) (on_max s) (on_dmax s) w o a Rw) l (s, w))
    as (bs & [s' w'] & E & (R1 & _ & _ & _ & W') & F); cbn [fst snd] in *; auto. subst w'. eauto 8.
Qed.
End Own.
