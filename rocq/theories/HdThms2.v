(** Proofs about the hybrid dynamics solver, part 3: the property theorems. *)
From Coq Require Import String Reals List Arith Lia Lra ZArith Bool.
From Verif Require Import FramesModel FramesSpec FramesProofs FrameOpsProofs RotationProofs Outcome LoopProofs InertiaModel InertiaSpec
  InertiaProofs DualModel KinModel KinSpec KinProofs JacProofs LinModel LinSpec SumProofs DynModel DynSpec SpatialProofs RneProofs DynProofs FdProofs EnergyProofs DerivProofs
  LmaModel VelIkModel VelIkSpec VelIkLin HdModel HdSpec HdAbs HdLoops HdBridge HdProofs HdMotion HdThms.
Import ListNotations.
Local Open Scope R_scope.

(** * No constraints *)
Lemma no_wrench alfa : forall nu, Forall (fun t => t = t_zero) alfa -> constraint_wrench alfa nu = w_zero.
Proof.
  induction alfa as [|t alfa IH]; intros [|y nu] F; try reflexivity. cbn [constraint_wrench]. inversion F as [|? ? E F']; subst. rewrite IH by exact F'. clear. geo.
Qed.
Lemma w_neg_zero : w_neg w_zero = w_zero. Proof. geo. Qed.
Theorem hd_free g svd nc c s q qd qdd alfa beta fext ff ct qdd' ct' s' rs tau0 : chain_ok c -> inertias_symmetric c ->
  hd_reach svd (t_neg (mkT g v_zero)) nc c s -> hd_current c s -> rne_reach g c rs -> rne_current c rs -> length tau0 = ch_nj c ->
  Forall (fun t => t = t_zero) alfa ->
  hd_CartToJnt svd c s q qd qdd alfa beta fext ff ct = Ret (E_NOERROR, qdd', ct', s') ->
  forall x, length x = ch_nj c -> (rne_CartToJnt c rs q qd x (loads c q fext w_zero) tau0 = Ret (E_NOERROR, ff) <-> x = qdd').
Proof.
  intros Hok Hsym Hr Hc Rr Rc Lt F HE x Lx.
  destruct (hd_motion g svd nc c s q qd qdd alfa beta fext ff ct qdd' ct' s' rs tau0 (repeat 0 nc) Hok Hsym Hr Hc Rr Rc Lt (repeat_length _ _) HE) as (nu & _ & _ & H).
  specialize (H x Lx). rewrite no_wrench, w_neg_zero in H by exact F. exact H.
Qed.
Theorem hd_fd_agree g c0 fs ds H M svd nc c s q qd qdd alfa beta fext ff ct qdd' ct' s' out : chain_ok c -> chain_ok c0 -> inertias_symmetric c ->
  hd_reach svd (t_neg (mkT g v_zero)) nc c s -> hd_current c s -> fd_reach g c0 c fs -> same_counts c0 c -> fd_current c fs ->
  dyn_reach g c ds -> dyn_current c ds -> mrows H = ch_nj c -> mcols H = ch_nj c -> dyn_JntToMass c ds q H = Ret (E_NOERROR, M) -> pivots_ok (ch_nj c) (mentry M) ->
  length out = ch_nj c -> Forall (fun t => t = t_zero) alfa ->
  hd_CartToJnt svd c s q qd qdd alfa beta fext ff ct = Ret (E_NOERROR, qdd', ct', s') ->
  exists fs', fd_CartToJnt c fs q qd ff (loads c q fext w_zero) out = Ret (E_NOERROR, qdd', fs').
Proof.
  intros Hok Hok0 Hsym Hr Hc Fr Sc Fc Dr Dc R1 R2 EM Pv Lo F HE.
  destruct (run_sizes _ _ _ _ _ _ _ _ _ _ _ _ _ _ _ _ Hr HE) as (Lq & Lqd & Lqdd & Lff & Lct & Lfe & Lal & Lbe).
  destruct (fd_then_id g c0 c fs (rne_make c g) q qd ff (loads c q fext w_zero) out (repeat 0 (ch_nj c)) ds H M Hok0 Fr Sc Fc Hsym (rne_r_make g c) (conj eq_refl eq_refl) Dr Dc R1 R2 Lq Lqd Lff Lo
    (loads_length _ _ _ _) (repeat_length _ _) EM Pv) as (o & fs' & E & L & I & _).
  exists fs'. rewrite E. f_equal. f_equal. f_equal.
  eapply (hd_free g svd nc c s q qd qdd alfa beta fext ff ct qdd' ct' s' (rne_make c g) (repeat 0 (ch_nj c))); eauto; first [exact (rne_r_make g c)|exact (conj eq_refl eq_refl)|apply repeat_length].
Qed.

(** * The accelerations of the links *)
Lemma lgrav_tip c q ag k : chain_ok c -> length q = ch_nj c -> (k <= ch_ns c)%nat ->
  r_app_t (fM (tip_frame c q k)) (lgrav c ag q k) = root_at ag (fp (tip_frame c q k)).
Proof.
  intros Hok Hq. pose proof Hok as [Hw _]. induction k as [|k IH]; intros Hk.
  - cbn [lgrav tip_frame]. destruct ag as [u v]. unfold root_at. cbn. clear. revert u v. geo.
  - cbn [lgrav]. specialize (IH ltac:(lia)). rewrite (tip_frame_S c q k (seg c k) (jv c q k) (kidx_le c k q Hw Hq) (seg_nth c k Hw ltac:(lia)) (jv_spec c q k Hw Hq ltac:(lia))).
    change (segment_pose (seg c k) (jv c q k)) with (LX c q k). pose proof (LX_rigid c q k Hok) as HX. pose proof (tip_frame_rigid c q k Hok) as HT.
    set (F := tip_frame c q k) in *. set (G := LX c q k) in *. set (t := lgrav c ag q k) in *. clearbody F G t. destruct F as [MF pF], G as [MG pG], t as [t1 t2].
    unfold rigid in HX, HT. cbn [fM fp] in *. unfold f_mul, f_invapp_t, r_app_t, root_at in *. cbn [fM fp tvel trot] in *.
    pose proof (f_equal tvel IH) as I1. pose proof (f_equal trot IH) as I2. cbn [tvel trot] in I1, I2. rewrite !r_mul_app, !r_app_invapp by exact HX. rewrite r_app_sub, r_app_cross by exact HT. rewrite I1, I2.
    destruct ag as [u v]. cbn [tvel trot]. clear. generalize (r_app MF pG) pF u v. clear. geo.
Qed.
Theorem hd_links svd acc nc c s q qd qdd alfa beta fext ff ct qdd' ct' s' path pathd t x0 : chain_ok c -> inertias_symmetric c ->
  hd_reach svd acc nc c s -> hd_current c s -> hd_CartToJnt svd c s q qd qdd alfa beta fext ff ct = Ret (E_NOERROR, qdd', ct', s') ->
  joint_motion (ch_nj c) path t (pathd t) -> joint_motion (ch_nj c) pathd t qdd' -> path t = q -> pathd t = qd -> length x0 = (ch_ns c + 1)%nat ->
  exists xs, hd_getTransformedLinkAcceleration s' x0 = Ret xs /\ length xs = (ch_ns c + 1)%nat /\ nth 0 xs t_zero = acc /\
    forall k, (k < ch_ns c)%nat -> exists d, twist_rate (fun u => link_twist c (path u) (pathd u) k) t d /\
      nth (S k) xs t_zero = t_add (r_app_t (fM (link_pose c q k)) d) (root_at acc (fp (link_pose c q k))).
Proof.
  intros Hok Hsym Hr Hc HE J1 J2 Eq Ed Lx. destruct (run_facts _ _ _ _ _ _ _ _ _ _ _ _ _ _ _ _ Hok Hr Hc HE) as (a & res & HF).
  destruct (run_sizes _ _ _ _ _ _ _ _ _ _ _ _ _ _ _ _ Hr HE) as (Lq & Lqd & _).
  pose proof HF as (Ha & Sw & Ens & _ & Eacc & _ & Lres & _).
  unfold hd_getTransformedLinkAcceleration. rewrite Ens, Lx, Nat.eqb_refl. cbn [negb]. eexists. split; [reflexivity|].
  assert (Lt : length (tl (hd_res s')) = ch_ns c) by (destruct (hd_res s'); cbn [tl length] in *; lia).
  split; [cbn [length]; rewrite map_length, firstn_length; lia|]. split; [exact Eacc|]. intros k Hk.
  exists (t_add (lvel c q qdd' (S k)) (lbias c q qd (S k))). split.
  - pose proof (lvel_derive c path pathd t qdd' (S k) Hok J1 J2 ltac:(lia)) as D. rewrite Eq, Ed in D. destruct J1 as [Lp _], J2 as [Lpd _].
    destruct D as [D1 D2]. split; (eapply v_derive_ext; [|eassumption]; intros u; cbv beta; rewrite link_twist_lvel by auto; reflexivity).
  - cbn [nth]. set (f := fun p : seginfo => r_app_t (fM (sa_Fb (si_a p))) (sx_acc (si_x p))).
    rewrite (nth_indep _ t_zero (f si0)) by (rewrite map_length, firstn_length; lia). rewrite map_nth.
    rewrite firstn_all2 by lia. assert (EN : nth k (tl (hd_res s')) si0 = rget (hd_res s') (S k)) by (unfold rget; destruct (hd_res s'); [destruct k|]; reflexivity).
    rewrite EN. unfold f. pose proof (run_a _ _ _ _ _ _ _ _ _ _ _ _ _ _ _ HF k Hk) as [-> _]. rewrite Ha by exact Hk. unfold SA. cbv zeta. cbn [sa_Fb].
    assert (EA : sx_acc (si_x (rget (hd_res s') (S k))) = lacc c acc q qd qdd' (S k)).
    { rewrite <- (run_acc svd acc nc c s q qd qdd alfa beta fext ff ct qdd' ct' s' Hok HE a res HF (S k)) by lia. reflexivity. }
    rewrite EA, lacc_split, link_pose_tip by auto. rewrite <- (lgrav_tip c q acc (S k)) by (auto; lia).
    set (M := fM (tip_frame c q (S k))). generalize M (lvel c q qdd' (S k)) (lgrav c acc q (S k)) (lbias c q qd (S k)). clear. geo.
Qed.

(** * Pushing against the constraints *)
Lemma component_add a u v : component a (t_add u v) = component a u + component a v. Proof. unfold component. generalize a u v. clear. geo. Qed.
Lemma list_of_fun n (y : nat -> R) : exists l, length l = n /\ forall i, (i < n)%nat -> nth i l 0 = y i.
Proof. exists (map y (seq 0 n)). split; [rewrite map_length, seq_length; reflexivity|]. intros i Hi. apply nth_mseq, Hi. Qed.
Lemma wrench_zeros alfa k : constraint_wrench alfa (repeat 0 k) = w_zero.
Proof. revert k. induction alfa as [|t alfa IH]; intros [|k]; try reflexivity. cbn [repeat constraint_wrench]. rewrite IH. generalize (mkW (tvel t) (trot t)). clear. geo. Qed.

Section Response.
Variables (c : Chain) (q qd : list R) (fext : list Wrench) (nc : nat) (alfa : list Twist) (ff : list R) (a : nat -> siA) (lo : nat) (res : list seginfo).
Hypothesis Hok : chain_ok c.
Hypothesis Hmv : all_moving c.
Hypothesis Hsym : inertias_symmetric c.
Hypothesis Hal : length alfa = nc.
Let n := ch_ns c.
Hypothesis Hq : length q = ch_nj c.
Hypothesis Ha : forall m, (m < n)%nat -> a (S m) = SA c q qd fext m.
Hypothesis Hlo : (lo <= n)%nat.
Hypothesis Hsw : swept c nc alfa ff a (tip_frame c q n) lo res.

Lemma rs_nj : ch_nj c = n. Proof. exact (nj_moving c (proj1 Hok) Hmv). Qed.
(** joint accelerations from rest: given before joint [lo], torque-free from there on *)
Lemma response_exists (y0 : nat -> R) nu : exists x, length x = ch_nj c /\ (forall m, (m < lo)%nat -> nth m x 0 = y0 m) /\
  forall m, (lo <= m < n)%nat -> rsolved c q nc res x nu m.
Proof.
  destruct (bt_rec (LX c q) (LA c q) (fun m v => if Nat.ltb m lo then y0 m
    else (- tw_dot v (aPZ (LX c q) (LA c q) (bPT res) m) - sumn nc (fun i => aEZ (LX c q) (LA c q) (bET res) m i * nth i nu 0)) / aD (LX c q) (LA c q) (bJ c) (bPT res) m)) as (y & Hy).
  destruct (list_of_fun (ch_nj c) y) as (x & Lx & Ex). exists x. split; [exact Lx|]. pose proof rs_nj as Nj. split.
  - intros m Hm. rewrite Ex, Hy by lia. destruct (Nat.ltb_spec m lo); [reflexivity|lia].
  - intros m Hm. unfold rsolved. rewrite Ex, Hy by lia. destruct (Nat.ltb_spec m lo); [lia|]. unfold lvel.
    rewrite (bt_ext (LX c q) (LA c q) (jv c x) y m); [reflexivity|]. intros i Hi. rewrite jv_moving by (auto; try apply Hok; fold n; lia). apply Ex. lia.
Qed.
Lemma rest_tau_iff x nu tau : length x = ch_nj c -> length nu = nc ->
  rest_torques c q x (w_neg (constraint_wrench alfa nu)) tau <-> length tau = ch_nj c /\ forall m, (m < n)%nat -> rest_tau c q alfa x nu m = nth m tau 0.
Proof. intros Lx Ln. rewrite rest_iff by auto. reflexivity. Qed.
Lemma zeros_nth k i : nth i (repeat 0 k) 0 = 0. Proof. clear. revert i. induction k as [|k IH]; intros [|i]; cbn; auto. Qed.
Lemma responds_iff x nu : length nu = nc -> lo = 0%nat ->
  responds c q alfa nu x <-> length x = ch_nj c /\ forall m, (m < n)%nat -> rsolved c q nc res x nu m.
Proof.
  intros Ln L0. unfold responds. split.
  - intros [Lx T]. split; [exact Lx|]. apply rest_tau_iff in T; [|exact Lx|exact Ln]. destruct T as [_ T]. intros m Hm.
    eapply (rest_all c q qd fext nc alfa ff a lo res); eauto; try lia. intros k Hk. rewrite T by lia. apply zeros_nth.
  - intros [Lx Sv]. split; [exact Lx|]. apply rest_tau_iff; [exact Lx|exact Ln|]. split; [apply repeat_length|]. intros m Hm. rewrite zeros_nth.
    eapply (rest_solved c q qd fext nc alfa ff a lo res); eauto; try lia. intros k Hk. apply Sv. lia.
Qed.
Lemma tip_component x i : length x = ch_nj c -> (i < nc)%nat -> component (nth i alfa t_zero) (tip_rate c q x) = component (nth i alfa t_zero) (r_app_t (fM (tip_frame c q n)) (lvel c q x n)).
Proof.
  intros Lx Hi. destruct (Nat.eq_dec (ch_ns c) 0) as [Z|Z].
  - pose proof rs_nj as Nj. rewrite tip_rate_none by (unfold n in *; lia). fold n in Z. rewrite Z. unfold lvel. cbn [bt]. f_equal. generalize (fM (tip_frame c q 0)). clear. geo.
  - rewrite tip_rate_lvel by (auto; lia). reflexivity.
Qed.
Lemma response_mobility x nu i : lo = 0%nat -> length nu = nc -> responds c q alfa nu x -> (i < nc)%nat ->
  component (nth i alfa t_zero) (tip_rate c q x) = image nc (bMT res 0) nu i.
Proof.
  intros L0 Ln Hx Hi. apply responds_iff in Hx; [|exact Ln|exact L0]. destruct Hx as [Lx Sv].
  rewrite tip_component by auto. unfold n. rewrite (rest_constraint c q qd fext nc alfa ff a lo res) with (nu := nu); auto.
  - rewrite L0. unfold lvel. cbn [bt]. rewrite tw_dot_zero_l. unfold image. ring.
  - intros m Hm. apply Sv. unfold n. lia.
Qed.
Lemma M_sym : forall d k i j, (k + d = n)%nat -> (lo <= k)%nat -> (i < nc)%nat -> (j < nc)%nat -> bMT res k i j = bMT res k j i.
Proof.
  induction d as [|d IH]; intros k i j Hk L Hi Hj.
  - replace k with n by lia. unfold n. rewrite !(b_MT_leaf c nc alfa ff a (tip_frame c q n) lo res) by (auto; unfold n in *; lia). reflexivity.
  - assert (G : forall i j, (i < nc)%nat -> (j < nc)%nat -> bMT res k i j = bMT res (S k) i j - aEZ (LX c q) (LA c q) (bET res) k i * aEZ (LX c q) (LA c q) (bET res) k j / aD (LX c q) (LA c q) (bJ c) (bPT res) k).
    { intros i0 j0 H1 H2. eapply b_MT_in; eauto; fold n; lia. }
    rewrite (G i j), (G j i), (IH (S k) i j) by (auto; lia). unfold Rdiv. ring.
Qed.
End Response.

Section Solve.
Variables (svd : Z -> Mat -> Decomp) (acc : Twist) (nc : nat) (c : Chain) (s : hd) (q qd qdd : list R) (alfa : list Twist) (beta : list R) (fext : list Wrench) (ff ct qdd' ct' : list R) (s' : hd).
Hypothesis Hok : chain_ok c.
Hypothesis Hsym : inertias_symmetric c.
Hypothesis Hr : hd_reach svd acc nc c s.
Hypothesis Hc : hd_current c s.
Hypothesis HE : hd_CartToJnt svd c s q qd qdd alfa beta fext ff ct = Ret (E_NOERROR, qdd', ct', s').
Variables (a : nat -> siA) (res : list seginfo).
Hypothesis HF : hd_facts svd c acc nc q qd alfa beta fext ff qdd' ct' s' a res.
Let n := ch_ns c.
Let M := st_M (si_t (rget res 0)).
Let b := fun k => - tw_dot acc (nth k (st_E (si_t (rget res 0))) w_zero) + nth k beta 0 - nth k (st_G (si_t (rget res 0))) 0.

Lemma sv_tip i x nu : (i < nc)%nat -> (forall m, (m < n)%nat -> msolved c q qd nc ff a res acc x nu m) ->
  component (nth i alfa t_zero) (r_app_t (fM (tip_frame c q n)) (lacc c acc q qd x n)) - nth i beta 0 = image nc (mentry M) nu i - b i.
Proof.
  intros Hi Sv. destruct (run_sizes _ _ _ _ _ _ _ _ _ _ _ _ _ _ _ _ Hr HE) as (Lq & Lqd & _ & _ & _ & _ & Lal & Lbe).
  rewrite (real_constraint c q qd fext nc alfa ff a 0 res) with (nu := nu); auto; try lia.
  - cbn [lacc]. unfold b, M, image, bET, bMT, bGT. ring.
  - exact (run_moving _ _ _ _ _ _ _ _ _ _ _ _ _ _ Hok HE).
  - apply HF.
  - apply HF.
  - intros m Hm. apply Sv. unfold n. lia.
Qed.
Lemma M_shape : (mrows M = nc /\ mcols M = nc).
Proof.
  destruct HF as (_ & (_ & Sl & Si & _) & _). unfold M. destruct (Nat.eq_dec (ch_ns c) 0) as [Z|Z].
  - rewrite Z in Sl. rewrite Sl by lia. cbn. auto.
  - specialize (Si 0%nat ltac:(lia) ltac:(lia)). unfold hd_inner in Si. cbv zeta in Si.
    destruct (Req_EM_T (sr_D (si_r (rget res 1))) 0); [discriminate Si|]. injection Si as <-. cbn. auto.
Qed.
Lemma sv_shortest : svd_right nc svd -> no_small nc (/ 100000000000000) (svd 150%Z M) ->
  shortest_least_squares nc nc (mentry M) b (hd_nu s').
Proof.
  intros Hs Hn. destruct M_shape as [R1 R2]. destruct (Hs M R1 R2) as [(S1 & S2 & S3) Pos].
  assert (E : hd_nu s' = sol nc nc b (dc_U (svd 150%Z M)) (dc_V (svd 150%Z M)) (fun i => hd_sinv (dc_S (svd 150%Z M) i))).
  { destruct HF as (_ & _ & _ & _ & _ & -> & _). unfold hd_constraint, sol, vlist. cbv zeta. fold M. apply map_ext_in. intros r Hr0.
    rewrite total_sum. rewrite (sumn_ext nc _ (fun k => sumn nc (fun i => dc_V (svd 150%Z M) r i * hd_sinv (dc_S (svd 150%Z M) i) * dc_U (svd 150%Z M) k i * b k))).
    2:{ intros k Hk. rewrite total_sum. rewrite sumn_scale_r. reflexivity. }
    rewrite sumn_swap. apply sumn_ext. intros i Hi. unfold coef. rewrite <- !sumn_scale. apply sumn_ext. intros; ring. }
  rewrite E. apply (sol_shortest nc nc (mentry M) b _ (dc_S (svd 150%Z M)) _ _ (fun _ => 0)); auto.
  - intros; lra.
  - intros i Hi. unfold hd_sinv. specialize (Pos i Hi). specialize (Hn i Hi). rewrite Rabs_right in Hn by lra.
    destruct (Rlt_dec (dc_S (svd 150%Z M) i) (/ 100000000000000)) as [L|L]; [rewrite Hn by exact L; ring|]. field. lra.
  - intros i Hi Z. unfold hd_sinv. rewrite Z. destruct (Rlt_dec 0 (/ 100000000000000)); [reflexivity|exfalso; lra].
Qed.
End Solve.
