(** Proofs about the hybrid dynamics solver, part 2. *)
From Coq Require Import String Reals List Arith Lia Lra ZArith Bool.
From Verif Require Import FramesModel FramesSpec FramesProofs FrameOpsProofs RotationProofs Outcome LoopProofs InertiaModel InertiaSpec
  InertiaProofs DualModel KinModel KinSpec KinProofs JacProofs LinModel LinSpec SumProofs DynModel DynSpec SpatialProofs RneProofs DynProofs EnergyProofs
  LmaModel VelIkModel VelIkSpec VelIkLin HdModel HdSpec HdAbs HdLoops HdBridge HdProofs HdMotion.
Import ListNotations.
Local Open Scope R_scope.

Lemma rne_iff c rs q qd x f tau0 tau : chain_ok c -> all_moving c -> rne_current c rs ->
  length q = ch_nj c -> length qd = ch_nj c -> length x = ch_nj c -> length tau0 = ch_nj c -> length f = ch_ns c ->
  rne_CartToJnt c rs q qd x f tau0 = Ret (E_NOERROR, tau) <->
  length tau = ch_nj c /\ forall m, (m < ch_ns c)%nat -> ltau c (rn_ag rs) q qd x f m = nth m tau 0.
Proof.
  intros Hok Hmv Rc Hq Hqd Hx Ht Hf. pose proof Hok as [Hw _]. pose proof (nj_moving c Hw Hmv) as Nj.
  destruct (rne_result c rs q qd x f tau0 Hok Rc Hq Hqd Hx Ht Hf) as (tau' & E & L & H).
  assert (H' : forall m, (m < ch_ns c)%nat -> nth m tau' 0 = ltau c (rn_ag rs) q qd x f m).
  { intros m Hm. rewrite <- (H m Hm (Hmv m Hm)), kidx_moving by (auto; lia). reflexivity. }
  rewrite E. split.
  - intros K. injection K as <-. split; [exact L|]. intros m Hm. symmetry. apply H', Hm.
  - intros [L' T]. f_equal. f_equal. apply nth_ext_R; [congruence|]. intros i Hi. rewrite H', T by lia. reflexivity.
Qed.
Lemma loads_length c q f w : length (loads c q f w) = ch_ns c.
Proof. unfold loads. rewrite map_length, seq_length. reflexivity. Qed.
Lemma no_gravity : t_neg (mkT v_zero v_zero) = t_zero. Proof. geo. Qed.
Lemma rest_iff c q x w tau : chain_ok c -> all_moving c -> length q = ch_nj c -> length x = ch_nj c ->
  rest_torques c q x w tau <->
  length tau = ch_nj c /\ forall m, (m < ch_ns c)%nat -> ltau c t_zero q (repeat 0 (ch_nj c)) x (loads c q (repeat w_zero (ch_ns c)) w) m = nth m tau 0.
Proof.
  intros Hok Hmv Hq Hx. unfold rest_torques. rewrite rne_iff; auto; try (rewrite ?repeat_length, ?loads_length; auto).
  - cbn [rne_make rn_ag]. rewrite no_gravity. reflexivity.
  - split; reflexivity.
Qed.
Lemma tip_rate_lvel c q x : chain_ok c -> length q = ch_nj c -> length x = ch_nj c -> (0 < ch_ns c)%nat ->
  tip_rate c q x = r_app_t (fM (tip_frame c q (ch_ns c))) (lvel c q x (ch_ns c)).
Proof.
  intros Hok Hq Hx Hn. unfold tip_rate. replace (ch_ns c) with (S (ch_ns c - 1)) at 2 3 by lia.
  rewrite <- link_twist_lvel by (auto; lia). unfold link_twist. rewrite link_pose_tip by (auto; lia).
  symmetry. pose proof (tip_frame_rigid c q (S (ch_ns c - 1)) Hok) as Hr. unfold rigid in Hr.
  destruct (jac_mul (link_jacobian c q (ch_ns c - 1)) x) as [u v]. unfold r_app_t, r_invapp_t. cbn [tvel trot]. rewrite !r_app_invapp by exact Hr. reflexivity.
Qed.
Lemma tip_rate_none c q x : ch_ns c = 0%nat -> ch_nj c = 0%nat -> length x = 0%nat -> tip_rate c q x = t_zero.
Proof. intros _ _ H. destruct x; [|discriminate H]. unfold tip_rate. destruct (link_jacobian c q (ch_ns c - 1)); reflexivity. Qed.

(** * What a successful call has done *)
Section Run.
Variables (svd : Z -> Mat -> Decomp) (acc : Twist) (nc : nat) (c : Chain) (s : hd) (q qd qdd : list R) (alfa : list Twist) (beta : list R) (fext : list Wrench) (ff ct qdd' ct' : list R) (s' : hd).
Hypothesis Hok : chain_ok c.
Hypothesis Hsym : inertias_symmetric c.
Hypothesis Hr : hd_reach svd acc nc c s.
Hypothesis Hc : hd_current c s.
Hypothesis HE : hd_CartToJnt svd c s q qd qdd alfa beta fext ff ct = Ret (E_NOERROR, qdd', ct', s').
Let n := ch_ns c.

Lemma run_moving : all_moving c. Proof. exact (hd_moving _ _ _ _ _ _ _ _ _ _ _ _ _ _ Hok HE). Qed.
Lemma run_sizes : hd_sizes c nc q qd qdd alfa beta fext ff ct.
Proof. destruct (hd_reach_inv _ _ _ _ _ Hr) as (_ & B & _). destruct (hd_noerror _ _ _ _ _ _ _ _ _ _ _ _ _ _ HE) as [_ H]. rewrite B in H. exact H. Qed.
Lemma run_facts : exists a res, hd_facts svd c acc nc q qd alfa beta fext ff qdd' ct' s' a res.
Proof.
  destruct (hd_reach_inv _ _ _ _ _ Hr) as (A & B & L). destruct (hd_run svd c s q qd qdd alfa beta fext ff ct qdd' ct' s' Hok run_moving Hc L HE) as (_ & a & res & F).
  rewrite A, B in F. exists a, res. exact F.
Qed.
Lemma run_nj : ch_nj c = n. Proof. exact (nj_moving c (proj1 Hok) run_moving). Qed.

Variables (a : nat -> siA) (res : list seginfo).
Hypothesis HF : hd_facts svd c acc nc q qd alfa beta fext ff qdd' ct' s' a res.
Let nu := hd_nu s'.
Lemma run_Ha : forall m, (m < n)%nat -> a (S m) = SA c q qd fext m. Proof. apply HF. Qed.
Lemma run_sw : swept c nc alfa ff a (tip_frame c q n) 0 res. Proof. apply HF. Qed.
Lemma run_nu : nu = hd_constraint svd nc acc beta (rget res 0). Proof. apply HF. Qed.
Lemma run_nu_len : length nu = nc. Proof. rewrite run_nu. unfold hd_constraint. cbv zeta. rewrite map_length, seq_length. reflexivity. Qed.
Lemma run_al : length alfa = nc. Proof. apply run_sizes. Qed.
Lemma run_q : length q = ch_nj c. Proof. apply run_sizes. Qed.

Lemma run_step m : (m < n)%nat -> fin_step acc nu (hd_res s') qdd' ct' (hd_total s') m. Proof. apply HF. Qed.
Lemma run_a m : (m < n)%nat -> si_a (rget (hd_res s') (S m)) = a (S m) /\ si_r (rget (hd_res s') (S m)) = si_r (rget res (S m)).
Proof.
  intros Hm. destruct HF as (_ & Sw & _ & _ & _ & _ & _ & _ & _ & _ & Same & _). destruct (Same (S m) ltac:(fold n; lia)) as [S1 S2].
  destruct Sw as (Sa & _). rewrite S1, S2, Sa by (fold n; lia). auto.
Qed.
Lemma run_acc k : (k <= n)%nat -> fin_acc acc (hd_res s') k = lacc c acc q qd qdd' k.
Proof.
  induction k as [|k IH]; intros Hk; [reflexivity|].
  destruct (run_step k ltac:(lia)) as (_ & _ & _ & E). rewrite E, IH by lia. destruct (run_a k ltac:(lia)) as [-> _].
  rewrite (lacc_step c q qd fext a Hok run_moving run_Ha acc qdd' k) by (fold n; lia). unfold bC. rewrite run_Ha by lia. reflexivity.
Qed.
Let X := LX c q. Let A := LA c q.
Let PT := bPT res. Let ET := bET res.
Lemma run_ct m : (m < n)%nat -> nth m ct' 0 = - sumn nc (fun i => aEZ X A ET m i * nth i nu 0).
Proof.
  intros Hm. destruct (run_step m Hm) as (_ & E & _). rewrite E. destruct (run_a m Hm) as [-> ->].
  rewrite (b_Z c q qd fext a run_Ha m Hm). rewrite wcols_sum by (rewrite run_nu_len; eapply b_E_len; eauto using run_moving, run_al, run_Ha, run_sw, Nat.le_0_l).
  rewrite tw_dot_wsumn, run_nu_len. f_equal. apply sumn_ext. intros i Hi. rewrite tw_dot_wscale.
  rewrite (b_E c q qd fext nc alfa ff a (tip_frame c q n) 0 res) by eauto using run_moving, run_al, run_Ha, run_sw, Nat.le_0_l. reflexivity.
Qed.
Lemma run_pf m : (m < n)%nat -> - tw_dot (aZ X A m) (ab_app (sr_P (si_r (rget res (S m)))) (lacc c acc q qd qdd' m)) = - tw_dot (lacc c acc q qd qdd' m) (aPZ X A PT m).
Proof.
  intros Hm. f_equal. rewrite (b_P c q qd fext nc alfa ff a (tip_frame c q n) 0 res) by eauto using run_moving, run_al, run_Ha, run_sw, Nat.le_0_l.
  apply (aP_sym n 0 X (bX c q Hok) PT); [|lia|exact Hm].
  intros; eapply b_PT_sym; eauto using run_moving, run_al, run_Ha, run_sw, Nat.le_0_l.
Qed.
Lemma run_solved m : (m < n)%nat -> msolved c q qd nc ff a res acc qdd' nu m.
Proof.
  intros Hm. pose proof (run_ct m Hm) as Ect. destruct (run_step m Hm) as (E & Ec & _). unfold msolved, solved.
  rewrite Ec in Ect. rewrite E, Ect. rewrite run_acc by lia. destruct (run_a m Hm) as [-> ->]. rewrite (b_Z c q qd fext a run_Ha m Hm). fold X A. rewrite run_pf by exact Hm.
  rewrite (b_D c q qd fext nc alfa ff a (tip_frame c q n) 0 res), (b_u c q qd fext nc alfa ff a (tip_frame c q n) 0 res) by eauto using run_moving, run_al, run_Ha, run_sw, Nat.le_0_l.
  fold X A PT ET. field. eapply b_Dok; eauto using run_moving, run_al, run_Ha, run_sw, Nat.le_0_l.
Qed.
Lemma run_total m : (m < n)%nat -> nth m (hd_total s') 0 = aD X A (bJ c) PT m * nth m qdd' 0.
Proof.
  intros Hm. pose proof (run_solved m Hm) as Sv. pose proof (run_ct m Hm) as Ect. destruct (run_step m Hm) as (_ & Ec & E & _). unfold msolved, solved in Sv.
  rewrite Ec in Ect. rewrite E, Ect. rewrite run_acc by lia. destruct (run_a m Hm) as [-> ->]. rewrite (b_Z c q qd fext a run_Ha m Hm). fold X A. rewrite run_pf by exact Hm.
  rewrite (b_u c q qd fext nc alfa ff a (tip_frame c q n) 0 res) by eauto using run_moving, run_al, run_Ha, run_sw, Nat.le_0_l.
  rewrite Sv. fold X A PT ET. field. eapply b_Dok; eauto using run_moving, run_al, run_Ha, run_sw, Nat.le_0_l.
Qed.
Lemma run_torques m : (m < n)%nat -> ltau c acc q qd qdd' (loads c q fext (w_neg (constraint_wrench alfa nu))) m = nth m ff 0.
Proof.
  intros Hm. eapply (real_solved c q qd fext nc alfa ff a 0 res); eauto using run_moving, run_al, run_Ha, run_sw, Nat.le_0_l, run_nu_len, run_q; try (fold n; lia).
  intros k Hk. apply run_solved. lia.
Qed.
(** the equations of motion have no other solution *)
Lemma run_unique nu' x : length nu' = nc -> length x = ch_nj c -> (forall m, (m < n)%nat -> ltau c acc q qd x (loads c q fext (w_neg (constraint_wrench alfa nu'))) m = nth m ff 0) ->
  forall m, (m < n)%nat -> msolved c q qd nc ff a res acc x nu' m.
Proof.
  intros Ln Lx T m Hm. eapply (real_all c q qd fext nc alfa ff a 0 res); eauto using run_moving, run_al, run_Ha, run_sw, Nat.le_0_l, run_q; try (fold n; lia).
  intros k Hk. apply T. lia.
Qed.
Lemma msolved_eq x y nu' : (forall m, (m < n)%nat -> msolved c q qd nc ff a res acc x nu' m) -> (forall m, (m < n)%nat -> msolved c q qd nc ff a res acc y nu' m) ->
  forall m, (m < n)%nat -> nth m x 0 = nth m y 0.
Proof.
  intros Sx Sy. induction m as [m IH] using lt_wf_ind. intros Hm. pose proof (Sx m Hm) as E1. pose proof (Sy m Hm) as E2. unfold msolved, solved in E1, E2.
  rewrite E1, E2. assert (EL : lacc c acc q qd x m = lacc c acc q qd y m); [|rewrite EL; reflexivity].
  rewrite !lacc_split. f_equal. f_equal. unfold lvel. apply bt_ext. intros i Hi. pose proof Hok as [Hw _]. rewrite !jv_moving by (auto using run_moving; fold n; lia). apply IH; lia.
Qed.
End Run.

Theorem hd_motion g svd nc c s q qd qdd alfa beta fext ff ct qdd' ct' s' rs tau0 nu0 : chain_ok c -> inertias_symmetric c ->
  hd_reach svd (t_neg (mkT g v_zero)) nc c s -> hd_current c s -> rne_reach g c rs -> rne_current c rs -> length tau0 = ch_nj c -> length nu0 = nc ->
  hd_CartToJnt svd c s q qd qdd alfa beta fext ff ct = Ret (E_NOERROR, qdd', ct', s') ->
  exists nu, hd_getContraintForceMagnitude s' nu0 = Ret nu /\ length nu = nc /\
    forall x, length x = ch_nj c ->
      (rne_CartToJnt c rs q qd x (loads c q fext (w_neg (constraint_wrench alfa nu))) tau0 = Ret (E_NOERROR, ff) <-> x = qdd').
Proof.
  intros Hok Hsym Hr Hc Rr Rc Lt Ln HE. pose proof (run_moving _ _ _ _ _ _ _ _ _ _ _ _ _ _ Hok HE) as Hmv.
  destruct (run_facts _ _ _ _ _ _ _ _ _ _ _ _ _ _ _ _ Hok Hr Hc HE) as (a & res & HF).
  pose proof (run_nu_len _ _ _ _ _ _ _ _ _ _ _ _ _ _ _ HF) as Lnu. exists (hd_nu s').
  split; [unfold hd_getContraintForceMagnitude; rewrite Ln, Lnu, Nat.eqb_refl; reflexivity|]. split; [exact Lnu|].
  destruct (run_sizes _ _ _ _ _ _ _ _ _ _ _ _ _ _ _ _ Hr HE) as (Lq & Lqd & Lqdd & Lff & Lct & Lfe & Lal & Lbe).
  pose proof HF as (_ & _ & _ & _ & _ & _ & _ & Lq' & _).
  pose proof (nj_moving c (proj1 Hok) Hmv) as Nj.
  intros x Lx. rewrite rne_iff by (auto; apply loads_length). rewrite (rne_reach_ag g c rs Rr). split.
  - intros [_ T]. apply nth_ext_R; [congruence|]. intros i Hi.
    eapply (msolved_eq svd (t_neg (mkT g v_zero)) nc c) with (x := x) (y := qdd') (nu' := hd_nu s') (a := a) (res := res); try eassumption; [| |lia].
    + intros m Hm. eapply run_unique; eauto.
    + intros m Hm. eapply run_solved; eauto.
  - intros ->. split; [exact Lff|]. intros m Hm. eapply run_torques; eauto.
Qed.
