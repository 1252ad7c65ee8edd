(** C36, C37: positive definite mass matrices of arms whose links have mass. *)
From Coq Require Import String Reals List Arith Lia Lra ZArith Bool.
From Verif Require Import FramesModel FramesSpec FramesProofs FrameOpsProofs RotationProofs Outcome LoopProofs InertiaModel InertiaSpec
  InertiaProofs DualModel KinModel KinSpec KinProofs JacProofs LinModel LinSpec SumProofs LdlProofs DynModel DynSpec SpatialProofs RneProofs MassProofs DynProofs FdProofs PosDefSpec.
Import ListNotations.
Local Open Scope R_scope.

Lemma sumn_le0 n f : (forall i, (i < n)%nat -> 0 <= f i) -> sumn n f <= 0 -> forall i, (i < n)%nat -> f i = 0.
Proof.
  intros H L i Hi. rewrite (sumn_split3 n i f Hi) in L.
  pose proof (sumn_nonneg i f ltac:(intros; apply H; lia)). pose proof (sumn_nonneg (n - S i) (fun t => f (S i + t)%nat) ltac:(intros; apply H; lia)).
  pose proof (H i Hi). lra.
Qed.
Lemma seg_in c i : chain_wf c -> (i < ch_ns c)%nat -> In (seg c i) (ch_segs c).
Proof. intros [H _] Hi. unfold seg. apply nth_In. lia. Qed.
Lemma LA_own c q i : LA c q i = r_invapp_t (fM (segment_pose (seg c i) (jv c q i))) (segment_twist (seg c i) (jv c q i) 1).
Proof. reflexivity. Qed.

Lemma carry_kinetic c q qd : chain_ok c -> inertias_psd c -> joints_carry c -> length q = ch_nj c -> length qd = ch_nj c ->
  (exists j, (j < ch_nj c)%nat /\ nth j qd 0 <> 0) -> 0 < kinetic c q qd.
Proof.
  intros Hok Ps Jc Hq Hqd (j & Hj & Nj). pose proof Hok as [Hw _].
  assert (Ro : forall i, (i < ch_ns c)%nat -> mv c i = true -> 0 <= rotor c (kidx c i)).
  { intros i Hi Hm. rewrite rotor_seg by auto. unfold joints_carry in Jc. rewrite Forall_forall in Jc. apply (Jc _ (seg_in c i Hw Hi)). exact Hm. }
  assert (Ro' : forall k, (k < ch_nj c)%nat -> 0 <= / 2 * rotor c k * (nth k qd 0 * nth k qd 0)).
  { intros k Hk. destruct (joint_segment c k Hw Hk) as (i & Hi & Hm & <-). pose proof (Ro i Hi Hm). pose proof (Rle_0_sqr (nth (kidx c i) qd 0)) as Q. unfold Rsqr in Q.
    apply Rmult_le_pos; [lra|exact Q]. }
  assert (Li : forall k, (k < ch_ns c)%nat -> 0 <= / 2 * tw_dot (link_twist c q qd k) (rb_app (link_inertia c k) (link_twist c q qd k))).
  { intros k Hk. pose proof (link_inertia_psd c k Ps (link_twist c q qd k)). lra. }
  destruct (Rlt_dec 0 (kinetic c q qd)) as [|Nk]; [assumption|exfalso]. unfold kinetic in Nk.
  pose proof (sumn_nonneg _ _ Ro') as P1. pose proof (sumn_nonneg _ _ Li) as P2.
  pose proof (sumn_le0 _ _ Li ltac:(lra)) as Z1. pose proof (sumn_le0 _ _ Ro' ltac:(lra)) as Z2.
  assert (G : forall k, (k <= ch_ns c)%nat -> lvel c q qd k = t_zero /\ forall i, (i < k)%nat -> jv c qd i = 0).
  { induction k as [|k IH]; intros Hk; [split; [reflexivity|intros; lia]|]. destruct (IH ltac:(lia)) as [V J].
    assert (E : lvel c q qd (S k) = t_scale (LA c q k) (jv c qd k)).
    { unfold lvel in *. cbn [bt]. rewrite V, f_invapp_t_zero, t_add_0_l. reflexivity. }
    assert (D : jv c qd k = 0).
    { destruct (mv c k) eqn:Hm; [|apply jv_fixed; exact Hm].
      pose proof (Z1 k ltac:(lia)) as E1. cbv beta in E1. rewrite link_twist_lvel, link_inertia_seg, E in E1 by (auto; lia).
      pose proof (Z2 (kidx c k) (kidx_lt c k Hw ltac:(lia) Hm)) as E2. cbv beta in E2. rewrite rotor_seg in E2 by (auto; lia).
      unfold joints_carry in Jc. rewrite Forall_forall in Jc. destruct (Jc _ (seg_in c k Hw ltac:(lia)) Hm) as [_ O]. specialize (O (jv c q k)).
      unfold own_energy in O. rewrite <- (LA_own c q k) in O. rewrite rb_app_tscale_r, tw_dot_wscale in E1.
      assert (T : tw_dot (t_scale (LA c q k) (jv c qd k)) (rb_app (sI (seg c k)) (LA c q k)) = jv c qd k * tw_dot (LA c q k) (rb_app (sI (seg c k)) (LA c q k))).
      { generalize (rb_app (sI (seg c k)) (LA c q k)) (LA c q k) (jv c qd k). clear. intros w t x. geo. }
      rewrite T in E1. assert (Ej : nth (kidx c k) qd 0 = jv c qd k) by (unfold jv; rewrite Hm; reflexivity). rewrite Ej in E2.
      destruct (Req_dec (jv c qd k) 0) as [|Nz]; [assumption|exfalso].
      set (x := jv c qd k) in *. set (e := tw_dot (LA c q k) (rb_app (sI (seg c k)) (LA c q k))) in *. set (r := jinertia (sjoint (seg c k))) in *.
      assert (x * x * (e + r) = 0) by lra. pose proof (Rsqr_pos_lt x Nz) as Q. unfold Rsqr in Q.
      pose proof (Rmult_lt_0_compat _ _ Q O). lra. }
    split.
    - rewrite E, D. apply t_scale_0.
    - intros i Hi. destruct (Nat.eq_dec i k) as [->|]; [exact D|apply J; lia]. }
  destruct (joint_segment c j Hw Hj) as (i & Hi & Hm & Ei). destruct (G (ch_ns c) (le_n _)) as [_ J]. specialize (J i Hi).
  unfold jv in J. rewrite Hm, Ei in J. contradiction.
Qed.

Lemma pd_mass g c ds q H : chain_ok c -> inertias_symmetric c -> inertias_psd c -> joints_carry c ->
  dyn_reach g c ds -> dyn_current c ds -> length q = ch_nj c -> mrows H = ch_nj c -> mcols H = ch_nj c ->
  exists M, dyn_JntToMass c ds q H = Ret (E_NOERROR, M) /\ symmetric (ch_nj c) (mentry M) /\ positive_definite (ch_nj c) (mentry M).
Proof.
  intros Hok Sy Ps Jc Dr Dc Hq R1 R2.
  destruct (mass_energy g c ds q (repeat 0 (ch_nj c)) H Hok Sy Dr Dc Hq (repeat_length _ _) R1 R2) as (M & EM & _ & _ & SM & _).
  exists M. split; [exact EM|]. split; [exact SM|]. intros x (i & Hi & Nx).
  destruct (mass_energy g c ds q (tolist (ch_nj c) x) H Hok Sy Dr Dc Hq (tolist_length _ _) R1 R2) as (M' & EM' & _ & _ & _ & Q).
  rewrite EM in EM'. injection EM' as <-.
  assert (K : quadratic (ch_nj c) (mentry M) x = 2 * kinetic c q (tolist (ch_nj c) x)).
  { rewrite <- Q. unfold quadratic. apply sumn_ext. intros a Ha. apply sumn_ext. intros b Hb. rewrite !tolist_nth by auto. reflexivity. }
  rewrite K. assert (0 < kinetic c q (tolist (ch_nj c) x)); [|lra].
  apply carry_kinetic; auto using tolist_length. exists i. split; [exact Hi|]. rewrite tolist_nth by auto. exact Nx.
Qed.
Lemma pd_forward g c st rs q qd tau fext qdd tau0 : chain_ok c -> inertias_symmetric c -> inertias_psd c -> joints_carry c ->
  fd_reach g c c st -> fd_current c st -> rne_reach g c rs -> rne_current c rs ->
  length q = ch_nj c -> length qd = ch_nj c -> length tau = ch_nj c -> length qdd = ch_nj c -> length fext = ch_ns c -> length tau0 = ch_nj c ->
  exists out st', fd_CartToJnt c st q qd tau fext qdd = Ret (E_NOERROR, out, st') /\ length out = ch_nj c /\
    rne_CartToJnt c rs q qd out fext tau0 = Ret (E_NOERROR, tau) /\
    (forall a, length a = ch_nj c -> rne_CartToJnt c rs q qd a fext tau0 = Ret (E_NOERROR, tau) -> out = a).
Proof.
  intros Hok Sy Ps Jc Fr Fc Rr Rc Hq Hqd Ht Hqdd Hf Ht0.
  destruct (pd_mass g c (dyn_make c g) q (mat_zero (ch_nj c)) Hok Sy Ps Jc (dyn_r_make g c) ltac:(split; reflexivity) Hq eq_refl eq_refl) as (M & EM & SM & PM).
  eapply fd_then_id with (c0 := c) (ds := dyn_make c g) (H := mat_zero (ch_nj c)) (M := M); eauto; try reflexivity.
  - split; reflexivity.
  - apply dyn_r_make.
  - split; reflexivity.
  - apply pd_pivots; assumption.
Qed.

(** the usual case: definite link inertias *)
Lemma t_zero_inv M t : is_rotation M -> r_invapp_t M t = t_zero -> t = t_zero.
Proof.
  intros H E. destruct t as [v w]. pose proof (f_equal tvel E : r_invapp M v = v_zero) as E1. pose proof (f_equal trot E : r_invapp M w = v_zero) as E2.
  rewrite <- (r_app_invapp M H v), <- (r_app_invapp M H w). rewrite E1, E2. clear. geo.
Qed.
Lemma effective_twist s x : joint_effective (sjoint s) -> segment_twist s x 1 <> t_zero.
Proof.
  unfold joint_effective, segment_twist. generalize (joint_twist (sjoint s) 1) (r_app (fM (joint_pose (sjoint s) x)) (fp (sf_tip s))).
  intros [[a b c] [d e f]] [p q r] H E. apply H. unfold t_RefPoint, t_zero, v_add, v_cross, v_zero in *. cbn in *. injection E as E1 E2 E3 -> -> ->.
  f_equal; f_equal; lra.
Qed.
Lemma definite_carry c : chain_ok c -> Forall (fun s => moving s = true -> 0 <= jinertia (sjoint s) /\ joint_effective (sjoint s) /\ rb_definite (sI s)) (ch_segs c) ->
  joints_carry c.
Proof.
  intros [_ Hok] H. unfold joints_carry. rewrite Forall_forall in *. intros s Hs Hm. destruct (H s Hs Hm) as (Ji & Je & Rd). split; [exact Ji|].
  intros x. unfold own_energy. pose proof (segment_pose_rigid s x (Hok s Hs)) as Rg.
  assert (N : r_invapp_t (fM (segment_pose s x)) (segment_twist s x 1) <> t_zero).
  { intros E. apply (effective_twist s x Je). eapply t_zero_inv; [exact Rg|exact E]. }
  pose proof (Rd _ N). lra.
Qed.
