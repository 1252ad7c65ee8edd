(** ChainIkSolverVel_wdls with symmetric and identity weights, and TreeIkSolverVel_wdls. *)
From Coq Require Import Reals String List ZArith Bool Arith Lia Lra.
From Verif Require Import FramesModel Outcome InertiaModel DualModel KinModel KinSpec KinProofs JacProofs JacDotProofs
  TreeModel TreeSpec TreeProofs TreeCopyProofs TreeSolverProofs TreeFinal IkModel IkTreeProofs
  LinModel LinSpec SumProofs LmaModel LmaSpec LmaProofs LmaProofs2 VelIkModel VelIkSpec VelIkLin VelIkProofs VelIkProofs3.
Import ListNotations.
Local Open Scope list_scope.
Local Open Scope R_scope.

(** With a symmetric task weight the right-hand side is Mx v. *)
Lemma weighted_twist_symmetric s v r : symmetric 6 (mentry (wd_ts s)) -> (r < 6)%nat ->
  weighted_twist s v r = sumn 6 (fun k => mentry (wd_ts s) r k * t_at v k).
Proof. intros S Hr. apply sumn_ext. intros k Hk. rewrite (S r k) by assumption. reflexivity. Qed.

Lemma times_id_l k B i j : (i < k)%nat -> times k (mentry (m_identity k)) B i j = B i j.
Proof. intros H. unfold times. cbn [m_identity mentry]. apply (sumn_delta' k i (fun l => B l j) H). Qed.
Lemma times_id_r k A i j : (j < k)%nat -> times k A (mentry (m_identity k)) i j = A i j.
Proof.
  intros H. unfold times. rewrite (sumn_ext k _ (fun l => A i l * delta j l)).
  - apply (sumn_delta k j (fun l => A i l) H).
  - intros l _. cbn [m_identity mentry]. unfold delta. rewrite Nat.eqb_sym. reflexivity.
Qed.
Lemma weighted_id n x : length x = n -> weighted n (mentry (m_identity n)) x = x.
Proof.
  intros L. apply nth_ext_R; unfold weighted; rewrite map_length, seq_length; [auto | ]. intros i Hi.
  rewrite nth_map_seq by exact Hi. cbn [m_identity mentry]. apply (sumn_delta' n i (fun j => nth j x 0) Hi).
Qed.
Lemma weighted_jac_id c q s : wd_ts s = m_identity 6 -> wd_js s = m_identity (ch_nj c) ->
  forall r j, (r < 6)%nat -> (j < ch_nj c)%nat -> mentry (weighted_jac c q s) r j = tip_jacobian c q r j.
Proof.
  intros T J r j Hr Hj. unfold weighted_jac. cbn [mentry]. rewrite T, J, times_id_l by exact Hr. apply times_id_r; exact Hj.
Qed.
Lemma weighted_twist_id s v r : wd_ts s = m_identity 6 -> (r < 6)%nat -> weighted_twist s v r = t_at v r.
Proof.
  intros T Hr. rewrite weighted_twist_symmetric; [ | intros i j _ _; rewrite T; cbn; rewrite Nat.eqb_sym; reflexivity | exact Hr].
  rewrite T. apply (sumn_delta' 6 r (t_at v) Hr).
Qed.

(** Default weights: the plain least squares problem of the Jacobian. *)
Lemma wdls_identity svd c s q v qdot : chain_ok c -> wdls_clean s -> wd_ts s = m_identity 6 -> wd_js s = m_identity (ch_nj c) ->
  wd_nj s = ch_nj c -> length q = ch_nj c -> length qdot = ch_nj c -> 0 < wd_eps s -> (6 <= ch_nj c)%nat -> (Z.of_nat (ch_nj c) < 2 ^ 32)%Z ->
  let n := ch_nj c in
  let d := svd (wd_maxiter s) (weighted_jac c q s) in
  dc_rc d = 0%Z -> svd_of 6 n (tip_jacobian c q) d -> svd_sorted 6 n d ->
  wd_eps s <= dc_S d 5 \/ (wd_lambda s = 0 /\ 0 < dc_S d 5) ->
  exists code out s', wdls_CartToJnt svd c s q v qdot = Ret (code, out, s') /\
    shortest_least_squares 6 n (tip_jacobian c q) (t_at v) out.
Proof.
  intros Hok C T J F Q Qd He H6 Hn. cbv zeta. intros Z0 SV SS HC.
  assert (Sh : wdls_shapes s) by (unfold wdls_shapes; rewrite T, J; cbn; auto).
  assert (SV' : svd_of 6 (ch_nj c) (mentry (weighted_jac c q s)) (svd (wd_maxiter s) (weighted_jac c q s))).
  { destruct SV as (A & B & D). split; [ | split; assumption]. intros. rewrite weighted_jac_id by assumption. auto. }
  destruct (wdls_solution svd c s q v qdot Hok C Sh F Q Qd He H6 Hn Z0 SV' SS ltac:(lra))
    as (code & out & s' & x & E & P). do 14 apply proj2 in P. do 2 apply proj2 in P.
  destruct P as (Lx & Eo & _ & P). exists code, out, s'. split; [exact E | ].
  rewrite J, weighted_id in Eo by exact Lx. subst out.
  eapply shortest_ext; [apply (weighted_jac_id c q s T J) | ].
  eapply shortest_rhs; [ | apply P; exact HC]. intros. apply weighted_twist_id; assumption.
Qed.
(** ... so both solvers give the same joint velocities. *)
Lemma wdls_is_pinv svd1 svd2 c s1 s2 q v qdot : chain_ok c -> pinv_clean s1 -> wdls_clean s2 ->
  wd_ts s2 = m_identity 6 -> wd_js s2 = m_identity (ch_nj c) -> pv_nj s1 = ch_nj c -> wd_nj s2 = ch_nj c ->
  length q = ch_nj c -> length qdot = ch_nj c -> 0 < pv_eps s1 -> 0 < wd_eps s2 -> (6 <= ch_nj c)%nat -> (Z.of_nat (ch_nj c) < 2 ^ 32)%Z ->
  let n := ch_nj c in
  let d1 := svd1 (pv_maxiter s1) (mkM 6 n (tip_jacobian c q)) in
  let d2 := svd2 (wd_maxiter s2) (weighted_jac c q s2) in
  dc_rc d1 = 0%Z -> svd_of 6 n (tip_jacobian c q) d1 -> no_small n (pv_eps s1) d1 ->
  dc_rc d2 = 0%Z -> svd_of 6 n (tip_jacobian c q) d2 -> svd_sorted 6 n d2 ->
  wd_eps s2 <= dc_S d2 5 \/ (wd_lambda s2 = 0 /\ 0 < dc_S d2 5) ->
  exists code1 code2 out s1' s2', pinv_CartToJnt svd1 c s1 q v qdot = Ret (code1, out, s1') /\
    wdls_CartToJnt svd2 c s2 q v qdot = Ret (code2, out, s2').
Proof.
  intros Hok C1 C2 T J F1 F2 Q Qd He1 He2 H6 Hn. cbv zeta. intros Z1 V1 NS Z2 V2 SS HC.
  destruct (wdls_identity svd2 c s2 q v qdot Hok C2 T J F2 Q Qd He2 H6 Hn Z2 V2 SS HC) as (code2 & out2 & s2' & E2 & P2).
  destruct (pinv_call svd1 c s1 q v qdot Hok C1 He1 Hn) as (code1 & out1 & s1' & E1 & P). cbv zeta in P.
  do 5 apply proj2 in P. destruct P as (_ & _ & P). specialize (P F1 (conj Q Qd)). destruct P as (_ & _ & P). specialize (P Z1).
  destruct P as (_ & _ & _ & P). specialize (P V1). destruct P as (_ & P & _). specialize (P NS).
  pose proof (shortest_unique _ _ _ _ _ _ P P2) as E. subst out2. do 5 eexists. split; eassumption.
Qed.

(** ** Damping by lambda times the norm, for TreeIkSolverVel_wdls *)
Lemma ridge m n A b U S V f lam : 
  (forall r j, (r < m)%nat -> (j < n)%nat -> A r j = sumn n (fun i => U r i * S i * V j i)) ->
  (forall i k, (i < n)%nat -> (k < n)%nat -> sumn n (fun j => V j i * V j k) = delta i k) ->
  (forall i k, (i < n)%nat -> (k < n)%nat -> S i <> 0 -> S k <> 0 -> sumn m (fun r => U r i * U r k) = delta i k) ->
  (forall i, (i < n)%nat -> f i * (S i * S i + lam * lam) = S i) ->
  damped_least_squares m n A b lam (sol m n b U V f).
Proof.
  intros HA HV HU Hf. split; [apply vlist_length | ]. intros y Hy. set (x := sol m n b U V f). set (z := vsub n y x).
  assert (N : sumn m (fun r => image n A z r * (image n A x r - b r)) + lam * lam * sumn n (fun j => nth j x 0 * nth j z 0) = 0).
  { unfold x at 2. rewrite sol_dot.
    rewrite (sumn_ext m _ (fun r => sumn n (fun i => S i * part n V i z * (U r i * (image n A x r - b r))))).
    2:{ intros r Hr. rewrite (image_parts m n A U S V HA z) by exact Hr. rewrite <- sumn_scale_r. apply sumn_ext; intros; ring. }
    rewrite sumn_swap, <- sumn_scale, <- sumn_add. apply sumn_zero. intros i Hi.
    rewrite sumn_scale. rewrite (sumn_ext m _ (fun r => U r i * image n A x r - U r i * b r)) by (intros; ring).
    rewrite sumn_sub. fold (coef m b U i).
    pose proof (image_back m n A U S V HA HU x i Hi) as B. unfold x in B at 2. rewrite sol_part in B by assumption.
    set (w := sumn m (fun r => U r i * image n A x r)) in *.
    replace (S i * part n V i z * (w - coef m b U i) + lam * lam * (f i * coef m b U i * part n V i z))
      with (part n V i z * (S i * w - S i * coef m b U i + lam * lam * f i * coef m b U i)) by ring.
    rewrite B. replace (S i * S i * (f i * coef m b U i) - S i * coef m b U i + lam * lam * f i * coef m b U i)
      with (coef m b U i * (f i * (S i * S i + lam * lam) - S i)) by ring.
    rewrite Hf by exact Hi. ring. }
  assert (M : misfit m n A b y = misfit m n A b x + sumn m (fun r => image n A z r * image n A z r) +
     2 * sumn m (fun r => image n A z r * (image n A x r - b r))).
  { unfold misfit. rewrite <- sumn_scale, <- !sumn_add. apply sumn_ext. intros r Hr. unfold z. rewrite image_sub. ring. }
  assert (Q : norm2 n y = norm2 n x + norm2 n z + 2 * sumn n (fun j => nth j x 0 * nth j z 0)).
  { unfold norm2. rewrite <- sumn_scale, <- !sumn_add. apply sumn_ext. intros j Hj. unfold z, vsub. rewrite vlist_nth by exact Hj. ring. }
  rewrite M, Q. pose proof (sq_nonneg m (fun r => image n A z r)) as P1. pose proof (sq_nonneg n (fun j => nth j z 0)) as P2.
  cbv beta in P1, P2. fold (norm2 n z) in P2. pose proof (Rle_0_sqr lam) as P3. unfold Rsqr in P3.
  pose proof (Rmult_le_pos _ _ P3 P2). lra.
Qed.

Section TreeW.
Variable svd : Z -> Mat -> Decomp.

(** The loop over the endpoints. *)
Lemma gather_ok t st q v_in js : reachable t -> tree_ok t -> treejac_make t = Ret st -> length q = tr_nj t -> (0 < tr_nj t)%nat ->
  (forall k buf, In (k, buf) js -> length buf = tr_nj t /\ tfind t k <> None /\ dict_find v_in k <> None) ->
  exists l, twdls_gather st q v_in js = Ret (inr l) /\
    Forall2 (fun e p => treejac_JntToJac st q (snd e) (fst e) = Ret (0%Z, fst p) /\ length (fst p) = tr_nj t /\ dict_find v_in (fst e) = Some (snd p)) js l.
Proof.
  intros H Ok E Hq Hp. induction js as [ | [k buf] js IH]; intros A; cbn [twdls_gather].
  - exists []. split; [reflexivity | constructor].
  - destruct (A k buf (or_introl eq_refl)) as (L & Fn & D).
    destruct (f_jac t st q buf k H Ok E) as (_ & _ & C). destruct (C Hq L Hp Fn) as (J & EJ & LJ & _).
    rewrite EJ. cbn [obind]. change (0 <? 0)%Z with false. cbn match.
    destruct (dict_find v_in k) as [tw | ] eqn:EF; [ | congruence].
    destruct IH as (l & El & Fl). { intros; apply A; right; assumption. }
    rewrite El. cbn [obind]. exists ((J, tw) :: l). split; [reflexivity | ]. constructor; [ | exact Fl]. cbn. auto.
Qed.
(** A twist missing for some endpoint is undefined behaviour. *)
Lemma gather_missing t st q v_in js : reachable t -> tree_ok t -> treejac_make t = Ret st -> length q = tr_nj t -> (0 < tr_nj t)%nat ->
  (forall k buf, In (k, buf) js -> length buf = tr_nj t /\ tfind t k <> None) ->
  (exists k buf, In (k, buf) js /\ dict_find v_in k = None) -> twdls_gather st q v_in js = Undef.
Proof.
  intros H Ok E Hq Hp. induction js as [ | [k buf] js IH]; intros A (k' & b' & I & D); [contradiction | ]. cbn [twdls_gather].
  destruct (A k buf (or_introl eq_refl)) as (L & Fn).
  destruct (f_jac t st q buf k H Ok E) as (_ & _ & C). destruct (C Hq L Hp Fn) as (J & EJ & LJ & _).
  rewrite EJ. cbn [obind]. change (0 <? 0)%Z with false. cbn match.
  destruct I as [I | I].
  - injection I as -> ->. rewrite D. reflexivity.
  - destruct (dict_find v_in k); [ | reflexivity]. rewrite IH; [reflexivity | intros; apply A; right; assumption | eauto].
Qed.
Lemma gather_unknown t st q v_in js : reachable t -> tree_ok t -> treejac_make t = Ret st -> length q = tr_nj t -> (0 < tr_nj t)%nat ->
  (forall k buf, In (k, buf) js -> length buf = tr_nj t /\ dict_find v_in k <> None) ->
  (exists k buf, In (k, buf) js /\ tfind t k = None) -> twdls_gather st q v_in js = Ret (inl (-2)%Z).
Proof.
  intros H Ok E Hq Hp. induction js as [ | [k buf] js IH]; intros A (k' & b' & I & D); [contradiction | ]. cbn [twdls_gather].
  destruct (A k buf (or_introl eq_refl)) as (L & Dn).
  destruct (f_jac t st q buf k H Ok E) as (_ & B & C). destruct (tfind t k) as [e | ] eqn:Et.
  - destruct (C Hq L Hp ltac:(discriminate)) as (J & EJ & LJ & _). rewrite EJ. cbn [obind]. change (0 <? 0)%Z with false. cbn match.
    destruct (dict_find v_in k); [ | congruence]. rewrite IH; [reflexivity | intros; apply A; right; assumption | ].
    destruct I as [I | I]; [injection I as -> ->; congruence | eauto].
  - rewrite (B Hq L eq_refl). reflexivity.
Qed.
End TreeW.

Lemma insert_in {A} (m : dict A) k a k2 b : In (k2, b) (dict_insert m k a) -> (k2 = k /\ b = a) \/ In (k2, b) m.
Proof.
  induction m as [ | [k' b'] m IH]; cbn [dict_insert].
  - intros [E | []]. injection E as -> ->. auto.
  - destruct (String.eqb k' k); [auto | ]. destruct (String.ltb k k').
    + intros [E | I]; [injection E as -> ->; auto | auto].
    + intros [E | I]; [right; left; exact E | ]. destruct (IH I); [auto | right; right; assumption].
Qed.
Lemma dict_of_in {A} l (a : A) k b : In (k, b) (dict_of l a) -> In k l /\ b = a.
Proof.
  unfold dict_of. assert (G : forall m, In (k, b) (fold_left (fun m k => dict_insert m k a) l m) -> (In k l /\ b = a) \/ In (k, b) m).
  { induction l as [ | x l IH]; cbn; intros m I; [auto | ]. destruct (IH _ I) as [[J E] | J]; [auto | ].
    apply insert_in in J. destruct J as [[-> ->] | J]; auto. }
  intros I. destruct (G [] I) as [ | []]. assumption.
Qed.
Lemma find_in {A} (m : dict A) k a : dict_find m k = Some a -> In (k, a) m.
Proof.
  induction m as [ | [k' b] m IH]; cbn; [discriminate | ]. destruct (String.eqb_spec k' k) as [-> | ].
  - intros E; injection E as ->; auto.
  - auto.
Qed.
Lemma in_find {A} (m : dict A) k a : In (k, a) m -> dict_find m k <> None.
Proof.
  induction m as [ | [k' b] m IH]; cbn; [contradiction | ]. destruct (String.eqb_spec k' k) as [-> | N]; [discriminate | ].
  intros [E | I]; [injection E as -> ->; contradiction | auto].
Qed.

Lemma twdls_make_ok t endpoints : reachable t -> exists s, twdls_make t endpoints = Ret s /\ twdls_for t endpoints s /\ twdls_shapes t endpoints s /\
  tw_lambda s = 0 /\ tw_Wy s = m_identity (6 * length endpoints) /\ tw_Wq s = m_identity (tr_nj t).
Proof.
  intros H. pose proof (reachable_inv _ H) as I. destruct (copy_total _ I) as [t1 E].
  pose proof (copy_copy _ _ I E) as E2. pose proof (copy_structure _ _ I E) as (R & NJ & NS & S).
  unfold twdls_make. rewrite E. cbn [obind]. unfold treejac_make. rewrite E2. cbn [obind]. eexists. split; [reflexivity | ].
  unfold twdls_for, twdls_shapes. cbn [tw_tree tw_ends tw_jacs tw_Wy tw_Wq tw_lambda m_identity mrows mcols]. rewrite NJ.
  repeat split; auto.
  - apply (dict_of_in _ _ _ _ H0).
  - apply dict_of_in in H0. destruct H0 as [_ ->]. unfold jac_make. apply repeat_length.
  - intros k Hk. destruct (dict_find (dict_of endpoints (jac_make (tr_nj t))) k) as [b | ] eqn:F.
    + exists b. split; [apply find_in; exact F | reflexivity].
    + exfalso. apply IkTreeProofs.find_dict_of in F. contradiction.
Qed.
Lemma twdls_setters t endpoints s M x : twdls_for t endpoints s ->
  twdls_for t endpoints (twdls_setWeightJS s M) /\ twdls_for t endpoints (twdls_setWeightTS s M) /\ twdls_for t endpoints (twdls_setLambda s x) /\
  tw_Wq (twdls_setWeightJS s M) = M /\ tw_Wy (twdls_setWeightJS s M) = tw_Wy s /\ tw_lambda (twdls_setWeightJS s M) = tw_lambda s /\
  tw_Wy (twdls_setWeightTS s M) = M /\ tw_Wq (twdls_setWeightTS s M) = tw_Wq s /\ tw_lambda (twdls_setWeightTS s M) = tw_lambda s /\
  tw_lambda (twdls_setLambda s x) = x /\ tw_Wq (twdls_setLambda s x) = tw_Wq s /\ tw_Wy (twdls_setLambda s x) = tw_Wy s.
Proof. intros H. do 3 (split; [exact H | ]). repeat split. Qed.

Lemma known_dec t endpoints s (v_in : dict Twist) : twdls_for t endpoints s ->
  (forallb (fun e => match dict_find (tw_jacs s) (fst e) with Some _ => true | None => false end) v_in = true <->
   forall k tw, In (k, tw) v_in -> In k endpoints).
Proof.
  intros (_ & _ & A & B). rewrite forallb_forall. split.
  - intros H k tw I. specialize (H _ I). cbn in H. destruct (dict_find (tw_jacs s) k) eqn:F; [ | discriminate].
    apply find_in in F. exact (proj1 (A _ _ F)).
  - intros H [k tw] I. cbn. destruct (B k (H _ _ I)) as (buf & _ & F). rewrite F. reflexivity.
Qed.

Lemma twdls_codes svd t endpoints s q v_in qdot : reachable t -> tree_ok t -> twdls_for t endpoints s ->
  let known := forall k tw, In (k, tw) v_in -> In k endpoints in
  (~ known -> twdls_CartToJnt svd s q v_in qdot = Ret (-2, qdot)) /\
  (known -> length q <> tr_nj t -> twdls_CartToJnt svd s q v_in qdot = Ret (-1, qdot)) /\
  (known -> length q = tr_nj t -> (0 < tr_nj t)%nat -> (forall k, In k endpoints -> dict_find v_in k <> None) ->
     (exists k, In k endpoints /\ tfind t k = None) -> twdls_CartToJnt svd s q v_in qdot = Ret (-2, qdot)) /\
  (known -> length q = tr_nj t -> (0 < tr_nj t)%nat -> (forall k, In k endpoints -> tfind t k <> None) ->
     (exists k, In k endpoints /\ dict_find v_in k = None) -> twdls_CartToJnt svd s q v_in qdot = Undef).
Proof.
  intros H Ok Fo. pose proof (known_dec t endpoints s v_in Fo) as K. destruct Fo as (E & En & A & B). cbv zeta.
  pose proof (copy_structure _ _ (reachable_inv _ H) E) as (R & NJ & NS & S).
  unfold twdls_CartToJnt.
  split. { intros N. destruct (forallb _ v_in); [exfalso; apply N, K; reflexivity | reflexivity]. }
  split. { intros Kn Hq. rewrite (proj2 K Kn). cbn [negb]. rewrite NJ. destruct (Nat.eqb_spec (length q) (tr_nj t)); [contradiction | reflexivity]. }
  split.
  - intros Kn Hq Hp D (k & Ik & Tk). rewrite (proj2 K Kn). cbn [negb]. rewrite NJ, Hq, Nat.eqb_refl. cbn [negb].
    rewrite (gather_unknown t _ q v_in (tw_jacs s) H Ok E Hq Hp); [reflexivity | | ].
    + intros k' buf I. destruct (A _ _ I). auto.
    + destruct (B k Ik) as (buf & I & _). eauto.
  - intros Kn Hq Hp D (k & Ik & Tk). rewrite (proj2 K Kn). cbn [negb]. rewrite NJ, Hq, Nat.eqb_refl. cbn [negb].
    rewrite (gather_missing t _ q v_in (tw_jacs s) H Ok E Hq Hp); [reflexivity | | ].
    + intros k' buf I. destruct (A _ _ I). auto.
    + destruct (B k Ik) as (buf & I & _). eauto.
Qed.

Lemma twdls_solution svd t endpoints s q v_in qdot : reachable t -> tree_ok t -> twdls_for t endpoints s -> twdls_shapes t endpoints s ->
  (forall k tw, In (k, tw) v_in -> In k endpoints) -> (forall k, In k endpoints -> tfind t k <> None /\ dict_find v_in k <> None) ->
  length q = tr_nj t -> (0 < tr_nj t)%nat ->
  exists l, gathered t s q v_in l /\
  let m := (6 * length endpoints)%nat in let n := tr_nj t in
  let B := times m (mentry (tw_Wy s)) (times n (stacked_jac l) (mentry (tw_Wq s))) in
  let b := fun r => sumn m (fun k => mentry (tw_Wy s) r k * stacked_tw l k) in
  let d := svd 150%Z (mkM m n B) in
  let lam := tw_lambda s in
  ((dc_rc d < 0)%Z -> twdls_CartToJnt svd s q v_in qdot = Ret (IZR E_SVD_FAILED, qdot)) /\
  ((0 <= dc_rc d)%Z -> svd_of m n B d -> svd_sorted m n d -> (lam <> 0 \/ forall i, (i < n)%nat -> dc_S d i <> 0) ->
     exists out x, twdls_CartToJnt svd s q v_in qdot = Ret (sqrt (sumn m (fun r => b r * b r)), out) /\
       length x = n /\ out = weighted n (mentry (tw_Wq s)) x /\ damped_least_squares m n B b lam x /\
       (lam = 0 -> shortest_least_squares m n B b x)) /\
  ((0 <= dc_rc d)%Z -> lam = 0 -> (exists i, (i < n)%nat /\ dc_S d i = 0) -> twdls_CartToJnt svd s q v_in qdot = Undef).
Proof.
  intros H Ok Fo (Y1 & Y2 & Q1 & Q2) Kn Al Hq Hp. pose proof (proj2 (known_dec t endpoints s v_in Fo) Kn) as K. destruct Fo as (E & En & A & Bk).
  pose proof (copy_structure _ _ (reachable_inv _ H) E) as (R & NJ & NS & S).
  destruct (gather_ok t (tw_tree s) q v_in (tw_jacs s) H Ok E Hq Hp) as (l & El & Fl).
  { intros k buf I. destruct (A _ _ I) as [Ik L]. destruct (Al k Ik). auto. }
  exists l. split; [exact Fl | ]. cbv zeta.
  set (m := (6 * length endpoints)%nat) in *. set (n := tr_nj t) in *.
  set (B := times m (mentry (tw_Wy s)) (times n (stacked_jac l) (mentry (tw_Wq s)))).
  set (b := fun r => sumn m (fun k => mentry (tw_Wy s) r k * stacked_tw l k)).
  set (d := svd 150%Z (mkM m n B)).
  assert (HEAD : twdls_CartToJnt svd s q v_in qdot =
    if (dc_rc d <? 0)%Z then Ret (IZR E_SVD_FAILED, qdot) else
      let! Wy_t := m_vec (tw_Wy s) (stack_t l (length endpoints)) in
      let! Wq_V := m_mul (tw_Wq s) (mkM n n (dc_V d)) in
      let! tmp := entries (fun i =>
         let sum := if Nat.ltb i m then total m (fun j => dc_U d j i * nth j Wy_t 0) else 0 in
         let! f := rdiv (dc_S d i) (dc_S d i * dc_S d i + tw_lambda s * tw_lambda s) in
         Ret (sum * f)) 0 n in
      let! qdot := m_vec Wq_V tmp in
      Ret (sqrt (total m (fun j => nth j Wy_t 0 * nth j Wy_t 0)), qdot)).
  { unfold twdls_CartToJnt. rewrite K. cbn [negb]. rewrite NJ. fold n. rewrite Hq, Nat.eqb_refl. cbn [negb].
    rewrite El. cbn [obind]. rewrite En. fold m.
    unfold m_mul at 1. unfold stack_J at 1 2 3. cbn [mcols mrows mentry]. rewrite Q1, Nat.eqb_refl. cbn [obind].
    unfold m_mul at 1. cbn [mcols mrows mentry]. rewrite Y1, Y2. fold m. rewrite Nat.eqb_refl, Q2. cbn [obind]. reflexivity. }
  rewrite HEAD. clear HEAD.
  split. { intros L. destruct (Z.ltb_spec (dc_rc d) 0); [reflexivity | lia]. }
  assert (MV : m_vec (tw_Wy s) (stack_t l (length endpoints)) = Ret (vlist m b)).
  { unfold m_vec, stack_t. rewrite Y1, Y2, map_length, seq_length. fold m. rewrite Nat.eqb_refl. f_equal.
    apply vlist_ext. intros r Hr. change total with sumn. apply sumn_ext. intros k Hk. rewrite nth_map_seq by exact Hk. reflexivity. }
  set (f i := dc_S d i / (dc_S d i * dc_S d i + tw_lambda s * tw_lambda s)).
  split.
  - intros L SV SS Hl. destruct (Z.ltb_spec (dc_rc d) 0); [lia | ]. rewrite MV. cbn [obind].
    unfold m_mul. cbn [mcols mrows mentry]. rewrite Q1, Q2, Nat.eqb_refl. cbn [obind].
    assert (Dn : forall i, (i < n)%nat -> dc_S d i * dc_S d i + tw_lambda s * tw_lambda s <> 0).
    { intros i Hi E0. pose proof (Rle_0_sqr (dc_S d i)) as P1. pose proof (Rle_0_sqr (tw_lambda s)) as P2. unfold Rsqr in *.
      destruct Hl as [Hl | Hl].
      - apply Hl. destruct (Rmult_integral (tw_lambda s) (tw_lambda s)); lra.
      - apply (Hl i Hi). destruct (Rmult_integral (dc_S d i) (dc_S d i)); lra. }
    match goal with |- exists out x, ?L = _ /\ _ => assert (CALL : L = Ret (sqrt (sumn m (fun r => b r * b r)),
      weighted n (mentry (tw_Wq s)) (sol m n b (dc_U d) (dc_V d) f))) end.
    { rewrite (entries_map _ (fun i => f i * coef m b (dc_U d) i)).
      2:{ intros i Hi. rewrite rdiv_ok by (apply Dn; lia). cbn [obind]. f_equal. unfold f. destruct (Nat.ltb_spec i m) as [Li | Gi].
          - rewrite Rmult_comm. f_equal. change total with sumn. apply sumn_ext. intros j Hj. rewrite vlist_nth by exact Hj. reflexivity.
          - rewrite (proj2 (proj2 SS) i) by lia. unfold Rdiv. ring. }
      cbn [obind]. unfold m_vec. cbn [mcols mrows mentry]. rewrite map_length, seq_length, Nat.eqb_refl. cbn [obind].
      f_equal. f_equal.
      - f_equal. change total with sumn. apply sumn_ext. intros r Hr. rewrite vlist_nth by exact Hr. reflexivity.
      - unfold weighted. apply map_ext_in. intros i Hi. change total with sumn.
        rewrite (sumn_ext n _ (fun j => sumn n (fun k => mentry (tw_Wq s) i k * (dc_V d k j * (f j * coef m b (dc_U d) j))))).
        2:{ intros j Hj. rewrite nth_map_seq by exact Hj. rewrite <- sumn_scale_r. apply sumn_ext. intros; ring. }
        rewrite sumn_swap. apply sumn_ext. intros k Hk. rewrite sumn_scale. unfold sol. rewrite vlist_nth by exact Hk. reflexivity. }
    assert (Hf : forall i, (i < n)%nat -> f i * (dc_S d i * dc_S d i + tw_lambda s * tw_lambda s) = dc_S d i).
    { intros i Hi. unfold f. field. apply Dn; exact Hi. }
    destruct SV as (HA & HV & HU).
    exists (weighted n (mentry (tw_Wq s)) (sol m n b (dc_U d) (dc_V d) f)), (sol m n b (dc_U d) (dc_V d) f).
    split; [exact CALL | ]. split; [apply vlist_length | ]. split; [reflexivity | ].
    split; [apply (ridge m n B b (dc_U d) (dc_S d) (dc_V d) f (tw_lambda s) HA HV HU Hf) | ].
    intros L0. apply (sol_shortest m n B b (dc_U d) (dc_S d) (dc_V d) f (fun _ => 0) HA HV HU).
    + intros; lra.
    + intros i Hi. pose proof (Hf i Hi) as HH. rewrite L0 in HH. etransitivity; [ | exact HH]. ring.
    + reflexivity.
    + intros i Hi S0. exfalso. destruct Hl as [Hl | Hl]; [contradiction | exact (Hl i Hi S0)].
  - intros L L0 (i & Hi & S0). destruct (Z.ltb_spec (dc_rc d) 0); [lia | ]. rewrite MV. cbn [obind].
    unfold m_mul. cbn [mcols mrows mentry]. rewrite Q1, Q2, Nat.eqb_refl. cbn [obind].
    rewrite (entries_undef _ n i 0); [reflexivity | lia | ].
    unfold rdiv. rewrite S0, L0. destruct (Req_EM_T (0 * 0 + 0 * 0) 0) as [ | N]; [reflexivity | exfalso; apply N; ring].
Qed.

(** What getError() answers after a setter. *)
Lemma setter_errors c s w o a t MJ MT x e k Sout :
  ns_error (snd (nso_setWeights s w)) = fst (nso_setWeights s w) /\ ns_error (snd (nso_setOptPos s o)) = fst (nso_setOptPos s o) /\
  ns_error (snd (nso_setAlpha s a)) = ns_error s /\
  wd_error (snd (wdls_setWeightJS c t MJ)) = fst (wdls_setWeightJS c t MJ) /\ wd_error (snd (wdls_setWeightTS t MT)) = fst (wdls_setWeightTS t MT) /\
  wd_error (wdls_setLambda t x) = wd_error t /\ wd_error (wdls_setEps t e) = wd_error t /\ wd_error (wdls_setMaxIter t k) = wd_error t /\
  wd_error (snd (wdls_getSigma t Sout)) = fst (fst (wdls_getSigma t Sout)).
Proof.
  unfold nso_setWeights, nso_setOptPos, wdls_setWeightJS, wdls_setWeightTS, wdls_getSigma.
  repeat split; repeat match goal with |- context[if ?b then _ else _] => destruct b end; reflexivity.
Qed.
