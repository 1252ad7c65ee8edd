(** Proofs about the hybrid dynamics solver, part 4: constraints, torques, Gauss' principle, definedness. *)
From Coq Require Import String Reals List Arith Lia Lra ZArith Bool.
From Verif Require Import FramesModel FramesSpec FramesProofs FrameOpsProofs RotationProofs Outcome LoopProofs InertiaModel InertiaSpec
  InertiaProofs DualModel KinModel KinSpec KinProofs JacProofs LinModel LinSpec SumProofs DynModel DynSpec SpatialProofs RneProofs DynProofs FdProofs EnergyProofs
  LmaModel LmaSpec VelIkModel VelIkSpec VelIkLin HdModel HdSpec HdAbs HdLoops HdBridge HdProofs HdMotion HdThms HdThms2.
Import ListNotations.
Local Open Scope R_scope.

Definition tipX c acc q qd x := r_app_t (fM (tip_frame c q (ch_ns c))) (lacc c acc q qd x (ch_ns c)).
Lemma hd_last svd acc nc c s q qd qdd alfa beta fext ff ct qdd' ct' s' x0 : chain_ok c ->
  hd_reach svd acc nc c s -> hd_current c s -> hd_CartToJnt svd c s q qd qdd alfa beta fext ff ct = Ret (E_NOERROR, qdd', ct', s') -> length x0 = (ch_ns c + 1)%nat ->
  exists xs, hd_getTransformedLinkAcceleration s' x0 = Ret xs /\ nth (ch_ns c) xs t_zero = tipX c acc q qd qdd'.
Proof.
  intros Hok Hr Hc HE Lx. destruct (run_facts _ _ _ _ _ _ _ _ _ _ _ _ _ _ _ _ Hok Hr Hc HE) as (a & res & HF).
  pose proof HF as (Ha & Sw & Ens & _ & Eacc & _ & Lres & _).
  unfold hd_getTransformedLinkAcceleration. rewrite Ens, Lx, Nat.eqb_refl. cbn [negb]. eexists. split; [reflexivity|]. unfold tipX.
  assert (Lt : length (tl (hd_res s')) = ch_ns c) by (destruct (hd_res s'); cbn [tl length] in *; lia).
  destruct (ch_ns c) as [|k] eqn:En.
  - cbn [nth lacc tip_frame]. rewrite Eacc. change (tip_frame c q 0) with f_id. generalize acc. clear. geo.
  - cbn [nth]. set (f := fun p : seginfo => r_app_t (fM (sa_Fb (si_a p))) (sx_acc (si_x p))).
    rewrite (nth_indep _ t_zero (f si0)) by (rewrite map_length, firstn_length; lia). rewrite map_nth.
    rewrite firstn_all2 by lia. assert (EN : nth k (tl (hd_res s')) si0 = rget (hd_res s') (S k)) by (unfold rget; destruct (hd_res s'); [destruct k|]; reflexivity).
    rewrite EN. unfold f. pose proof (run_a _ _ _ _ _ _ _ _ _ _ _ _ _ _ _ HF k ltac:(lia)) as [-> _]. rewrite Ha by lia. unfold SA. cbv zeta. cbn [sa_Fb].
    rewrite <- (run_acc svd acc nc c s q qd qdd alfa beta fext ff ct qdd' ct' s' Hok HE a res HF (S k)) by lia. reflexivity.
Qed.
Lemma violation_misfit svd acc nc c s q qd qdd alfa beta fext ff ct qdd' ct' s' a res x nu : chain_ok c -> inertias_symmetric c ->
  hd_reach svd acc nc c s -> hd_CartToJnt svd c s q qd qdd alfa beta fext ff ct = Ret (E_NOERROR, qdd', ct', s') ->
  hd_facts svd c acc nc q qd alfa beta fext ff qdd' ct' s' a res -> (forall m, (m < ch_ns c)%nat -> msolved c q qd nc ff a res acc x nu m) ->
  violation alfa beta (tipX c acc q qd x) = misfit nc nc (mentry (st_M (si_t (rget res 0))))
    (fun k => - tw_dot acc (nth k (st_E (si_t (rget res 0))) w_zero) + nth k beta 0 - nth k (st_G (si_t (rget res 0))) 0) nu.
Proof.
  intros Hok Hsym Hr HE HF Sv. destruct (run_sizes _ _ _ _ _ _ _ _ _ _ _ _ _ _ _ _ Hr HE) as (_ & _ & _ & _ & _ & _ & Lal & _).
  unfold violation, misfit. rewrite Lal. apply sumn_ext. intros i Hi. unfold tipX.
  rewrite (sv_tip svd acc nc c s q qd qdd alfa beta fext ff ct qdd' ct' s' Hok Hr HE a res HF i x nu Hi Sv). reflexivity.
Qed.
Lemma minus_nth x y i : length x = length y -> nth i (minus x y) 0 = nth i x 0 - nth i y 0.
Proof.
  revert y i. induction x as [|u x IH]; intros [|v y] i H; try discriminate H; [destruct i; cbn; ring|]. injection H as H. destruct i as [|i]; [reflexivity|]. apply (IH y i H).
Qed.
Lemma minus_length x y n : length x = n -> length y = n -> length (minus x y) = n.
Proof. intros H1 H2. unfold minus. rewrite map_length, combine_length. lia. Qed.
Lemma lvel_minus c q x y k : length x = length y -> lvel c q x k = t_add (lvel c q y k) (lvel c q (minus x y) k).
Proof.
  intros H. unfold lvel. rewrite <- bt_add. apply bt_ext. intros i Hi. unfold jv. destruct (mv c i); [rewrite minus_nth by exact H|]; ring.
Qed.
Lemma tip_minus c acc q qd x y i alfa nc : chain_ok c -> all_moving c -> length alfa = nc -> length q = ch_nj c -> length x = ch_nj c -> length y = ch_nj c -> (i < nc)%nat ->
  component (nth i alfa t_zero) (tipX c acc q qd x) = component (nth i alfa t_zero) (t_add (tipX c acc q qd y) (tip_rate c q (minus x y))).
Proof.
  intros Hok Hmv Lal Lq Lx Ly Hi. rewrite component_add. rewrite (tip_component c q nc alfa 0%nat) by (auto; try lia; apply minus_length; auto).
  rewrite <- component_add. f_equal. unfold tipX. rewrite !lacc_split, (lvel_minus c q x y) by congruence.
  generalize (fM (tip_frame c q (ch_ns c))) (lvel c q y (ch_ns c)) (lvel c q (minus x y) (ch_ns c)) (lgrav c acc q (ch_ns c)) (lbias c q qd (ch_ns c)). clear. geo.
Qed.
Lemma M_mobility svd acc nc c s q qd qdd alfa beta fext ff ct qdd' ct' s' a res : chain_ok c -> inertias_symmetric c ->
  hd_reach svd acc nc c s -> hd_CartToJnt svd c s q qd qdd alfa beta fext ff ct = Ret (E_NOERROR, qdd', ct', s') ->
  hd_facts svd c acc nc q qd alfa beta fext ff qdd' ct' s' a res -> mobility c q alfa (st_M (si_t (rget res 0))).
Proof.
  intros Hok Hsym Hr HE HF. destruct (run_sizes _ _ _ _ _ _ _ _ _ _ _ _ _ _ _ _ Hr HE) as (Lq & _ & _ & _ & _ & _ & Lal & _).
  destruct (M_shape _ _ _ _ _ _ _ _ _ _ _ _ _ _ _ HF) as [R1 R2]. rewrite <- Lal in R1, R2. split; [exact R1|]. split; [exact R2|].
  intros x y Lx Hx i Hi. rewrite Lal in *.
  rewrite (response_mobility c q qd fext nc alfa ff a 0 res) with (nu := x); auto; try lia.
  - exact (run_moving _ _ _ _ _ _ _ _ _ _ _ _ _ _ Hok HE).
  - apply HF.
  - apply HF.
Qed.
Theorem hd_least g svd nc c s q qd qdd alfa beta fext ff ct qdd' ct' s' rs tau0 x0 : chain_ok c -> inertias_symmetric c ->
  hd_reach svd (t_neg (mkT g v_zero)) nc c s -> hd_current c s -> rne_reach g c rs -> rne_current c rs -> length tau0 = ch_nj c -> length x0 = (ch_ns c + 1)%nat ->
  svd_right nc svd -> (forall A, mobility c q alfa A -> no_small nc (/ 100000000000000) (svd 150%Z A)) ->
  hd_CartToJnt svd c s q qd qdd alfa beta fext ff ct = Ret (E_NOERROR, qdd', ct', s') ->
  exists xs, hd_getTransformedLinkAcceleration s' x0 = Ret xs /\
    forall nu x, length nu = nc -> length x = ch_nj c ->
      rne_CartToJnt c rs q qd x (loads c q fext (w_neg (constraint_wrench alfa nu))) tau0 = Ret (E_NOERROR, ff) ->
      violation alfa beta (nth (ch_ns c) xs t_zero) <= violation alfa beta (t_add (nth (ch_ns c) xs t_zero) (tip_rate c q (minus x qdd'))).
Proof.
  intros Hok Hsym Hr Hc Rr Rc Lt Lx0 Hs Hn HE.
  destruct (hd_last _ _ _ _ _ _ _ _ _ _ _ _ _ _ _ _ x0 Hok Hr Hc HE Lx0) as (xs & E & Ex). exists xs. split; [exact E|]. rewrite Ex. intros nu x Ln Lx T.
  pose proof (run_moving _ _ _ _ _ _ _ _ _ _ _ _ _ _ Hok HE) as Hmv.
  destruct (run_facts _ _ _ _ _ _ _ _ _ _ _ _ _ _ _ _ Hok Hr Hc HE) as (a & res & HF).
  destruct (run_sizes _ _ _ _ _ _ _ _ _ _ _ _ _ _ _ _ Hr HE) as (Lq & Lqd & Lqdd & Lff & Lct & Lfe & Lal & Lbe).
  pose proof HF as (_ & _ & _ & _ & _ & _ & _ & Lq' & _).
  assert (V : violation alfa beta (t_add (tipX c (t_neg (mkT g v_zero)) q qd qdd') (tip_rate c q (minus x qdd'))) = violation alfa beta (tipX c (t_neg (mkT g v_zero)) q qd x)).
  { unfold violation. apply sumn_ext. intros i Hi. rewrite (tip_minus c (t_neg (mkT g v_zero)) q qd x qdd' i alfa nc) by (auto; lia). reflexivity. }
  rewrite V. apply rne_iff in T; auto; [|apply loads_length]. destruct T as [_ T]. rewrite (rne_reach_ag g c rs Rr) in T.
  rewrite (violation_misfit svd (t_neg (mkT g v_zero)) nc c s q qd qdd alfa beta fext ff ct qdd' ct' s' a res x nu Hok Hsym Hr HE HF) by (intros m Hm; eapply run_unique; eauto).
  rewrite (violation_misfit svd (t_neg (mkT g v_zero)) nc c s q qd qdd alfa beta fext ff ct qdd' ct' s' a res qdd' (hd_nu s') Hok Hsym Hr HE HF) by (intros m Hm; eapply run_solved; eauto).
  pose proof (M_mobility _ _ _ _ _ _ _ _ _ _ _ _ _ _ _ _ _ _ Hok Hsym Hr HE HF) as Mo.
  destruct (sv_shortest svd (t_neg (mkT g v_zero)) nc c q qd alfa beta fext ff qdd' ct' s' a res HF Hs (Hn _ Mo)) as [[_ Least] _].
  apply Least, Ln.
Qed.

(** * Reachable constraints are met *)
Theorem hd_met svd acc nc c s q qd qdd alfa beta fext ff ct qdd' ct' s' x0 : chain_ok c -> inertias_symmetric c ->
  hd_reach svd acc nc c s -> hd_current c s -> length x0 = (ch_ns c + 1)%nat ->
  svd_right nc svd -> constraints_mobile c q alfa (/ 100000000000000) ->
  hd_CartToJnt svd c s q qd qdd alfa beta fext ff ct = Ret (E_NOERROR, qdd', ct', s') ->
  exists xs, hd_getTransformedLinkAcceleration s' x0 = Ret xs /\
    forall i, (i < nc)%nat -> component (nth i alfa t_zero) (nth (ch_ns c) xs t_zero) = nth i beta 0.
Proof.
  intros Hok Hsym Hr Hc Lx0 Hs Hm HE.
  destruct (hd_last _ _ _ _ _ _ _ _ _ _ _ _ _ _ _ _ x0 Hok Hr Hc HE Lx0) as (xs & E & Ex). exists xs. split; [exact E|]. rewrite Ex.
  pose proof (run_moving _ _ _ _ _ _ _ _ _ _ _ _ _ _ Hok HE) as Hmv.
  destruct (run_facts _ _ _ _ _ _ _ _ _ _ _ _ _ _ _ _ Hok Hr Hc HE) as (a & res & HF).
  destruct (run_sizes _ _ _ _ _ _ _ _ _ _ _ _ _ _ _ _ Hr HE) as (Lq & Lqd & Lqdd & Lff & Lct & Lfe & Lal & Lbe).
  pose proof (M_mobility _ _ _ _ _ _ _ _ _ _ _ _ _ _ _ _ _ _ Hok Hsym Hr HE HF) as (R1 & R2 & Mo). rewrite Lal in *.
  set (M := st_M (si_t (rget res 0))) in *.
  set (b := fun k => - tw_dot acc (nth k (st_E (si_t (rget res 0))) w_zero) + nth k beta 0 - nth k (st_G (si_t (rget res 0))) 0).
  set (eps := / 100000000000000) in *. assert (He : 0 < eps) by (unfold eps; lra).
  (* the matrix is negative definite *)
  assert (Def : forall y, length y = nc -> eps * sumn nc (fun i => nth i y 0 * nth i y 0) <= - sumn nc (fun i => nth i y 0 * image nc (mentry M) y i)).
  { intros y Ly. destruct (response_exists c q nc alfa 0 res Hok Hmv Lal Lq ltac:(lia) (fun _ => 0) y) as (x & Lx & _ & Sv).
    assert (Rx : responds c q alfa y x).
    { apply (responds_iff c q qd fext nc alfa ff a 0 res); auto; try lia; try apply HF. split; [exact Lx|]. intros m Hm'. apply Sv. lia. }
    specialize (Hm y x). rewrite Lal in Hm. specialize (Hm Ly Rx).
    rewrite (sumn_ext nc (fun i => nth i y 0 * image nc (mentry M) y i) (fun i => nth i y 0 * component (nth i alfa t_zero) (tip_rate c q x))); [exact Hm|].
    intros i Hi. rewrite (Mo y x Ly Rx i Hi). reflexivity. }
  destruct (Hs M R1 R2) as [Sv Pos]. pose proof Sv as (S1 & S2 & S3).
  set (d := svd 150%Z M) in *.
  assert (NS : no_small nc eps d).
  { intros i Hi Sm. specialize (Pos i Hi). rewrite Rabs_right in Sm by lra. destruct (Req_dec (dc_S d i) 0) as [Z|NZ]; [exact Z|]. exfalso.
    pose proof (Def (vlist nc (fun j => dc_V d j i)) (vlist_length _ _)) as D.
    assert (Q : sumn nc (fun k => nth k (vlist nc (fun j => dc_V d j i)) 0 * nth k (vlist nc (fun j => dc_V d j i)) 0) = 1).
    { rewrite (sumn_ext nc _ (fun j => dc_V d j i * dc_V d j i)) by (intros j Hj; rewrite vlist_nth by exact Hj; reflexivity).
      rewrite S2 by auto. unfold delta. rewrite Nat.eqb_refl. reflexivity. }
    rewrite Q in D.
    assert (Im : forall r, (r < nc)%nat -> image nc (mentry M) (vlist nc (fun j => dc_V d j i)) r = dc_U d r i * dc_S d i).
    { intros r Hr0. rewrite (image_parts nc nc (mentry M) (dc_U d) (dc_S d) (dc_V d) S1) by exact Hr0.
      rewrite (sumn_ext nc _ (fun k => delta i k * (dc_U d r k * dc_S d k))).
      - apply sumn_delta'. exact Hi.
      - intros k Hk. unfold part. rewrite (sumn_ext nc _ (fun j => dc_V d j k * dc_V d j i)) by (intros j Hj; rewrite vlist_nth by exact Hj; reflexivity).
        rewrite S2 by auto. rewrite (delta_sym k i). ring. }
    rewrite (sumn_ext nc _ (fun r => dc_S d i * (dc_V d r i * dc_U d r i))) in D.
    2:{ intros r Hr0. rewrite Im, vlist_nth by exact Hr0. ring. }
    rewrite sumn_scale in D.
    pose proof (sq_nonneg nc (fun r => dc_V d r i + dc_U d r i)) as P. cbv beta in P.
    rewrite (sumn_ext nc _ (fun r => dc_V d r i * dc_V d r i + dc_U d r i * dc_U d r i + 2 * (dc_V d r i * dc_U d r i))) in P by (intros; ring).
    rewrite !sumn_add, sumn_scale, S2, S3 in P by auto. unfold delta in P. rewrite Nat.eqb_refl in P.
    set (z := sumn nc (fun r => dc_V d r i * dc_U d r i)) in *. assert (K : -1 <= z) by lra.
    pose proof (Rmult_le_compat_l (dc_S d i) (-1) z ltac:(lra) K). lra. }
  assert (E1 : hd_nu s' = sol nc nc b (dc_U d) (dc_V d) (fun i => hd_sinv (dc_S d i))).
  { destruct HF as (_ & _ & _ & _ & _ & -> & _). unfold hd_constraint, sol, vlist. cbv zeta. fold M d. apply map_ext_in. intros r Hr0.
    rewrite total_sum. rewrite (sumn_ext nc _ (fun k => sumn nc (fun i => dc_V d r i * hd_sinv (dc_S d i) * dc_U d k i * b k))).
    2:{ intros k Hk. rewrite total_sum. rewrite sumn_scale_r. reflexivity. }
    rewrite sumn_swap. apply sumn_ext. intros i Hi. unfold coef. rewrite <- !sumn_scale. apply sumn_ext. intros; ring. }
  set (rho := vlist nc (fun r => image nc (mentry M) (hd_nu s') r - b r)).
  pose proof (normal nc nc (mentry M) b (dc_U d) (dc_S d) (dc_V d) (fun i => hd_sinv (dc_S d i)) (fun _ => 0) S1 S2 S3) as N.
  assert (Nf : forall i, (i < nc)%nat -> hd_sinv (dc_S d i) * (dc_S d i * dc_S d i + 0) = dc_S d i).
  { intros i Hi. unfold hd_sinv. fold eps. specialize (Pos i Hi). specialize (NS i Hi). rewrite Rabs_right in NS by lra.
    destruct (Rlt_dec (dc_S d i) eps) as [L|L]; [rewrite NS by exact L; ring|]. field. lra. }
  specialize (N Nf rho).
  rewrite <- E1 in N. rewrite (sumn_zero nc (fun i => 0 * _)) in N by (intros; ring). rewrite Rplus_0_r in N.
  pose proof (Def rho (vlist_length _ _)) as D.
  rewrite (sumn_ext nc (fun i => nth i rho 0 * image nc (mentry M) rho i) (fun r => image nc (mentry M) rho r * (image nc (mentry M) (hd_nu s') r - b r))) in D.
  2:{ intros i Hi. unfold rho at 1. rewrite vlist_nth by exact Hi. ring. }
  rewrite N in D.
  assert (Z : forall i, (i < nc)%nat -> nth i rho 0 = 0).
  { apply sumn_sq_zero. apply (Rmult_le_reg_l eps); [exact He|]. lra. }
  intros i Hi. specialize (Z i Hi). unfold rho in Z. rewrite vlist_nth in Z by exact Hi.
  pose proof (sv_tip svd acc nc c s q qd qdd alfa beta fext ff ct qdd' ct' s' Hok Hr HE a res HF i qdd' (hd_nu s') Hi
    ltac:(intros m Hm'; eapply run_solved; eauto)) as K.
  fold M in K. unfold tipX. unfold b in Z. lra.
Qed.
