(** The arrays the hybrid dynamics solver fills obey the recursion of HdAbs. *)
From Coq Require Import String Reals List Arith Lia Lra ZArith Bool.
From Verif Require Import FramesModel FramesSpec FramesProofs FrameOpsProofs RotationProofs Outcome LoopProofs InertiaModel InertiaSpec
  InertiaProofs DualModel KinModel KinSpec KinProofs JacProofs LinModel LinSpec SumProofs DynModel DynSpec SpatialProofs RneProofs DynProofs
  LmaModel VelIkModel HdModel HdAbs HdLoops.
Import ListNotations.
Local Open Scope R_scope.

Definition bPT (res : list seginfo) (k : nat) (t : Twist) : Wrench := ab_app (st_P (si_t (rget res k))) t.
Definition bET (res : list seginfo) (k i : nat) : Wrench := nth i (st_E (si_t (rget res k))) w_zero.
Definition bMT (res : list seginfo) (k i j : nat) : R := mentry (st_M (si_t (rget res k))) i j.
Definition bRT (res : list seginfo) (k : nat) : Wrench := st_R (si_t (rget res k)).
Definition bGT (res : list seginfo) (k i : nat) : R := nth i (st_G (si_t (rget res k))) 0.
Definition bH (a : nat -> siA) (k : nat) (t : Twist) : Wrench := ab_app (sa_H (a k)) t.
Definition bU (a : nat -> siA) (k : nat) : Wrench := sa_U (a k).
Definition bC (a : nat -> siA) (m : nat) : Twist := sa_C (a (S m)).
Definition bJ (c : Chain) (m : nat) : R := jinertia (sjoint (seg c m)).

Lemma ab_app_tadd I a b : ab_app I (t_add a b) = w_add (ab_app I a) (ab_app I b).
Proof. destruct I as [M H J], a as [a1 a2], b as [b1 b2]. unfold ab_app. cbn [ab_M ab_H ab_I t_add tvel trot]. unfold w_add. cbn [wforce wtorque].
  unfold m3_app, m3_tr. destruct M, H, J, a1, a2, b1, b2. unfold v_add. cbn. f_equal; f_equal; ring. Qed.
Lemma ab_app_tscale I a s : ab_app I (t_scale a s) = w_scale (ab_app I a) s.
Proof. destruct I as [M H J], a as [a1 a2]. unfold ab_app. cbn [ab_M ab_H ab_I t_scale tvel trot]. unfold w_scale. cbn [wforce wtorque].
  unfold m3_app, m3_tr. destruct M, H, J, a1, a2. unfold v_add, v_scale. cbn. f_equal; f_equal; ring. Qed.
(** the rank one update *)
Lemma ab_app_outer w d t : d <> 0 ->
  ab_app (mkAB (m3_scale (/ d) (m3_outer (wforce w) (wforce w))) (m3_scale (/ d) (m3_outer (wtorque w) (wforce w))) (m3_scale (/ d) (m3_outer (wtorque w) (wtorque w)))) t =
  w_scale w (tw_dot t w / d).
Proof.
  intros Hd. destruct w as [[f1 f2 f3] [g1 g2 g3]], t as [[a1 a2 a3] [b1 b2 b3]].
  unfold ab_app, w_scale, tw_dot, v_dot, m3_app, m3_tr, m3_scale, m3_outer, v_add, v_scale. cbn. f_equal; f_equal; field; exact Hd.
Qed.
Lemma outer_sym d f : symmetric3 (m3_scale d (m3_outer f f)).
Proof. unfold symmetric3, m3_scale, m3_outer. cbn. split; try split; ring. Qed.
Lemma m3_add_sym a b : symmetric3 a -> symmetric3 b -> symmetric3 (m3_add a b).
Proof. unfold symmetric3, m3_add. cbn. intros (A1 & A2 & A3) (B1 & B2 & B3). rewrite A1, A2, A3, B1, B2, B3. auto. Qed.
Lemma m3_sub_sym a b : symmetric3 a -> symmetric3 b -> symmetric3 (m3_sub a b).
Proof. unfold symmetric3, m3_sub. cbn. intros (A1 & A2 & A3) (B1 & B2 & B3). rewrite A1, A2, A3, B1, B2, B3. auto. Qed.
Lemma nth_map_w (f : Wrench -> Wrench) l i : (i < length l)%nat -> nth i (map f l) w_zero = f (nth i l w_zero).
Proof. intros H. rewrite (nth_indep _ w_zero (f w_zero)) by (rewrite map_length; exact H). apply map_nth. Qed.
Lemma nth_map_z (f : Wrench -> R) l i : (i < length l)%nat -> nth i (map f l) 0 = f (nth i l w_zero).
Proof. intros H. rewrite (nth_indep _ 0 (f w_zero)) by (rewrite map_length; exact H). apply map_nth. Qed.
Lemma wcols_sum E nu : length E = length nu -> wcols E nu = wsumn (length nu) (fun i => w_scale (nth i E w_zero) (nth i nu 0)).
Proof.
  revert E. induction nu as [|x nu IH]; intros [|e E] H; try discriminate H; [reflexivity|]. injection H as H.
  cbn [wcols length]. rewrite IH by exact H. clear IH.
  assert (G : forall k f, wsumn (S k) f = w_add (f 0%nat) (wsumn k (fun i => f (S i)))).
  { induction k as [|k IHk]; intros f; [cbn [wsumn]; geo|]. change (wsumn (S (S k)) f) with (w_add (wsumn (S k) f) (f (S k))). rewrite IHk.
    cbn [wsumn]. rewrite w_add_assoc. reflexivity. }
  rewrite G. reflexivity.
Qed.

Section Bridge.
Variables (c : Chain) (q qd : list R) (fext : list Wrench) (nc : nat) (alfa : list Twist) (ff : list R) (a : nat -> siA) (Ft : Frame) (lo : nat) (res : list seginfo).
Hypothesis Hok : chain_ok c.
Hypothesis Hmv : all_moving c.
Hypothesis Hsym : inertias_symmetric c.
Hypothesis Hal : length alfa = nc.
Let n := ch_ns c.
Hypothesis Ha : forall m, (m < n)%nat -> a (S m) = SA c q qd fext m.
Hypothesis Hsw : swept c nc alfa ff a Ft lo res.
Let X := LX c q.
Let A := LA c q.
Let PT := bPT res.
Let ET := bET res.
Let J := bJ c.

Lemma bX i : rigid (X i). Proof. apply LX_rigid, Hok. Qed.
Lemma bPT_add k u v : PT k (t_add u v) = w_add (PT k u) (PT k v). Proof. apply ab_app_tadd. Qed.
Lemma bPT_scale k u s : PT k (t_scale u s) = w_scale (PT k u) s. Proof. apply ab_app_tscale. Qed.

Lemma b_len : forall d k, (k + d = n)%nat -> (lo <= k)%nat -> length (st_E (si_t (rget res k))) = nc /\ length (st_G (si_t (rget res k))) = nc.
Proof.
  destruct Hsw as (_ & Sl & Si & Sr). fold n in Sl. induction d as [|d IH]; intros k Hk L.
  - replace k with n by lia. rewrite Sl by (fold n; lia). cbn [hd_leaf st_E st_G]. rewrite map_length, repeat_length. auto.
  - destruct (IH (S k)) as [L1 L2]; [lia|lia|]. specialize (Si k L ltac:(fold n; lia)). unfold hd_inner in Si. cbv zeta in Si.
    destruct (Req_EM_T (sr_D (si_r (rget res (S k)))) 0); [discriminate Si|]. injection Si as <-. cbn [st_E st_G].
    rewrite !map_length, !combine_length. rewrite (Sr k) by (fold n; lia). cbn [hd_root sr_E sr_EZ]. cbv zeta. cbn [sr_E sr_EZ].
    rewrite !map_length, L1, L2. split; lia.
Qed.
Lemma b_symM : forall d k, (k + d = n)%nat -> (lo <= k)%nat -> (1 <= k)%nat -> symmetric3 (ab_M (st_P (si_t (rget res k)))).
Proof.
  destruct Hsw as (_ & Sl & Si & Sr). fold n in Sl. induction d as [|d IH]; intros k Hk L K1.
  - assert (E : st_P (si_t (rget res k)) = sa_H (a k)) by (replace k with n by lia; rewrite Sl by (fold n; lia); reflexivity).
    rewrite E. replace k with (S (k - 1)) by lia. rewrite Ha by lia. apply ab_of_rb_M_sym.
  - specialize (IH (S k) ltac:(lia) ltac:(lia) ltac:(lia)). specialize (Si k L ltac:(fold n; lia)). unfold hd_inner in Si. cbv zeta in Si.
    destruct (Req_EM_T (sr_D (si_r (rget res (S k)))) 0); [discriminate Si|]. injection Si as <-. cbn [st_P].
    unfold ab_sub, ab_add. cbn [ab_M]. apply m3_sub_sym; [apply m3_add_sym|apply outer_sym].
    + replace k with (S (k - 1)) by lia. rewrite Ha by lia. apply ab_of_rb_M_sym.
    + rewrite (Sr k) by (fold n; lia). unfold hd_root. cbv zeta. cbn [sr_P]. apply ab_sym_M_frame, IH.
Qed.
Lemma b_P m t : (m < n)%nat -> (lo <= S m)%nat -> ab_app (sr_P (si_r (rget res (S m)))) t = aP X PT m t.
Proof.
  intros Hm L. pose proof Hsw as (_ & _ & _ & Sr). rewrite (Sr m L Hm). unfold hd_root. cbv zeta. cbn [sr_P]. rewrite Ha by exact Hm. cbn [SA sa_F]. cbv zeta. cbn [sa_F].
  unfold aP. fold X. rewrite <- (f_app_invapp_t (X m) t) at 1 by apply bX. rewrite ab_app_frame; [reflexivity|apply bX|].
  apply (b_symM (n - S m)); lia.
Qed.
Lemma b_Z m : (m < n)%nat -> sa_Z (a (S m)) = aZ X A m.
Proof. intros Hm. rewrite Ha by exact Hm. reflexivity. Qed.
Lemma b_PZ m : (m < n)%nat -> (lo <= S m)%nat -> sr_PZ (si_r (rget res (S m))) = aPZ X A PT m.
Proof.
  intros Hm L. unfold aPZ. rewrite <- b_P by assumption. pose proof Hsw as (_ & _ & _ & Sr). rewrite (Sr m L Hm). unfold hd_root. cbv zeta. cbn [sr_PZ sr_P].
  rewrite b_Z by exact Hm. reflexivity.
Qed.
Lemma b_D m : (m < n)%nat -> (lo <= S m)%nat -> sr_D (si_r (rget res (S m))) = aD X A J PT m.
Proof.
  intros Hm L. unfold aD. rewrite <- b_PZ by assumption. pose proof Hsw as (_ & _ & _ & Sr). rewrite (Sr m L Hm). unfold hd_root. cbv zeta. cbn [sr_D sr_PZ].
  change (moving (seg c m)) with (mv c m). rewrite (Hmv m Hm), b_Z by exact Hm. reflexivity.
Qed.
Lemma b_E m i : (m < n)%nat -> (lo <= S m)%nat -> (i < nc)%nat -> nth i (sr_E (si_r (rget res (S m)))) w_zero = aE X ET m i.
Proof.
  intros Hm L Hi. pose proof Hsw as (_ & _ & _ & Sr). rewrite (Sr m L Hm). unfold hd_root. cbv zeta. cbn [sr_E].
  destruct (b_len (n - S m) (S m)) as [L1 _]; [lia|lia|].
  rewrite nth_map_w by lia. rewrite Ha by exact Hm. reflexivity.
Qed.
Lemma b_E_len m : (m < n)%nat -> (lo <= S m)%nat -> length (sr_E (si_r (rget res (S m)))) = nc.
Proof.
  intros Hm L. pose proof Hsw as (_ & _ & _ & Sr). rewrite (Sr m L Hm). unfold hd_root. cbv zeta. cbn [sr_E].
  destruct (b_len (n - S m) (S m)) as [L1 _]; [lia|lia|]. rewrite map_length. exact L1.
Qed.
Lemma b_EZ_map m : (m < n)%nat -> (lo <= S m)%nat -> sr_EZ (si_r (rget res (S m))) = map (tw_dot (aZ X A m)) (sr_E (si_r (rget res (S m)))).
Proof. intros Hm L. pose proof Hsw as (_ & _ & _ & Sr). rewrite (Sr m L Hm). unfold hd_root. cbv zeta. cbn [sr_E sr_EZ]. rewrite b_Z by exact Hm. reflexivity. Qed.
Lemma b_EZ m i : (m < n)%nat -> (lo <= S m)%nat -> (i < nc)%nat -> nth i (sr_EZ (si_r (rget res (S m)))) 0 = aEZ X A ET m i.
Proof. intros Hm L Hi. rewrite b_EZ_map by assumption. rewrite nth_map_z by (rewrite b_E_len; assumption). rewrite b_E by assumption. reflexivity. Qed.
Lemma b_R m : (m < n)%nat -> (lo <= S m)%nat -> sr_R (si_r (rget res (S m))) = aR X (bRT res) m.
Proof. intros Hm L. pose proof Hsw as (_ & _ & _ & Sr). rewrite (Sr m L Hm). unfold hd_root. cbv zeta. cbn [sr_R]. rewrite Ha by exact Hm. reflexivity. Qed.
Lemma b_PC m : (m < n)%nat -> (lo <= S m)%nat -> sr_PC (si_r (rget res (S m))) = aP X PT m (bC a m).
Proof.
  intros Hm L. rewrite <- b_P by assumption. pose proof Hsw as (_ & _ & _ & Sr). rewrite (Sr m L Hm). unfold hd_root. cbv zeta. cbn [sr_PC sr_P]. reflexivity.
Qed.
Lemma b_u m : (m < n)%nat -> (lo <= S m)%nat -> sr_u (si_r (rget res (S m))) = au X A PT (bC a) (fun i => nth i ff 0) (bRT res) m.
Proof.
  intros Hm L. unfold au, ab_. rewrite <- b_PC, <- b_R, <- b_Z by assumption. pose proof Hsw as (_ & _ & _ & Sr). rewrite (Sr m L Hm).
  unfold hd_root. cbv zeta. cbn [sr_u sr_R sr_PC]. reflexivity.
Qed.

Lemma b_leaf t : (lo <= n)%nat -> PT n t = bH a n t.
Proof. intros L. pose proof Hsw as (_ & Sl & _ & _). unfold PT, bPT, bH. change n with (ch_ns c) in *. rewrite Sl by exact L. reflexivity. Qed.
Lemma b_inner k : (lo <= k)%nat -> (k < n)%nat -> hd_inner nc (a k) (rget res (S k)) = Ret (si_t (rget res k)) /\ aD X A J PT k <> 0.
Proof.
  intros L Hk. pose proof Hsw as (_ & _ & Si & _). specialize (Si k L Hk). split; [exact Si|].
  rewrite <- b_D by lia. intros E. unfold hd_inner in Si. cbv zeta in Si. rewrite E in Si. destruct (Req_EM_T 0 0); [discriminate Si|contradiction].
Qed.
Lemma b_Dok k : (lo <= k)%nat -> (k < n)%nat -> aD X A J PT k <> 0. Proof. apply b_inner. Qed.
Ltac open_inner L Hk :=
  let Si := fresh "Si" in
  destruct (b_inner _ L Hk) as [Si _]; unfold hd_inner in Si; cbv zeta in Si;
  match type of Si with context [Req_EM_T ?d 0] => destruct (Req_EM_T d 0); [discriminate Si|] end; injection Si as Si.
Lemma b_PT_in k t : (lo <= k)%nat -> (k < n)%nat ->
  PT k t = w_sub (w_add (bH a k t) (aP X PT k t)) (w_scale (aPZ X A PT k) (tw_dot t (aPZ X A PT k) / aD X A J PT k)).
Proof.
  intros L Hk. open_inner L Hk. unfold PT at 1, bPT at 1. rewrite <- Si. cbn [st_P]. rewrite ab_app_sub, ab_app_add, ab_app_outer by assumption.
  rewrite b_P, b_PZ, b_D by lia. reflexivity.
Qed.
Lemma b_ET_in k i : (lo <= k)%nat -> (k < n)%nat -> (i < nc)%nat ->
  ET k i = w_sub (aE X ET k i) (w_scale (aPZ X A PT k) (aEZ X A ET k i / aD X A J PT k)).
Proof.
  intros L Hk Hi. open_inner L Hk. unfold ET at 1, bET at 1. rewrite <- Si. cbn [st_E].
  pose proof (b_E_len k Hk ltac:(lia)) as LE. assert (LZ : length (sr_EZ (si_r (rget res (S k)))) = nc) by (rewrite b_EZ_map by lia; rewrite map_length; exact LE).
  set (f := fun p : Wrench * R => w_sub (fst p) (w_div (w_scale (sr_PZ (si_r (rget res (S k)))) (snd p)) (sr_D (si_r (rget res (S k)))))).
  rewrite (nth_indep _ w_zero (f (w_zero, 0))) by (rewrite map_length, combine_length; lia). rewrite map_nth, combine_nth by lia.
  unfold f. cbn [fst snd]. rewrite b_E, b_EZ, b_PZ, b_D by (auto; lia). f_equal.
  generalize (aPZ X A PT k) (aEZ X A ET k i) (aD X A J PT k). clear. geo.
Qed.
Lemma b_MT_in k i j : (lo <= k)%nat -> (k < n)%nat -> (i < nc)%nat -> (j < nc)%nat ->
  bMT res k i j = bMT res (S k) i j - aEZ X A ET k i * aEZ X A ET k j / aD X A J PT k.
Proof. intros L Hk Hi Hj. open_inner L Hk. unfold bMT at 1. rewrite <- Si. cbn [st_M mentry]. rewrite !b_EZ, b_D by (auto; lia). reflexivity. Qed.
Lemma b_MT_leaf i j : (lo <= n)%nat -> bMT res n i j = 0.
Proof. intros L. pose proof Hsw as (_ & Sl & _ & _). unfold bMT. change n with (ch_ns c) in *. rewrite Sl by exact L. reflexivity. Qed.
Lemma b_RT_leaf : (lo <= n)%nat -> bRT res n = bU a n.
Proof. intros L. pose proof Hsw as (_ & Sl & _ & _). unfold bRT. change n with (ch_ns c) in *. rewrite Sl by exact L. reflexivity. Qed.
Lemma b_RT_in k : (lo <= k)%nat -> (k < n)%nat ->
  bRT res k = w_add (w_add (w_add (bU a k) (aR X (bRT res) k)) (aP X PT k (bC a k)))
                    (w_scale (aPZ X A PT k) (au X A PT (bC a) (fun i => nth i ff 0) (bRT res) k / aD X A J PT k)).
Proof.
  intros L Hk. open_inner L Hk. unfold bRT at 1. rewrite <- Si. cbn [st_R]. rewrite b_R, b_PC, b_PZ, b_D, b_u by lia. f_equal.
  generalize (aPZ X A PT k) (au X A PT (bC a) (fun i => nth i ff 0) (bRT res) k) (aD X A J PT k). clear. geo.
Qed.
Lemma b_GT_leaf i : (lo <= n)%nat -> (i < nc)%nat -> bGT res n i = 0.
Proof.
  intros L Hi. pose proof Hsw as (_ & Sl & _ & _). unfold bGT. change n with (ch_ns c) in *. rewrite Sl by exact L. cbn [hd_leaf st_G].
  clear. generalize nc as k. induction i as [|i IH]; intros [|k]; try reflexivity. apply IH.
Qed.
Lemma b_GT_in k i : (lo <= k)%nat -> (k < n)%nat -> (i < nc)%nat ->
  bGT res k i = bGT res (S k) i +
    tw_dot (t_add (bC a k) (t_scale (aZ X A k) (au X A PT (bC a) (fun i => nth i ff 0) (bRT res) k / aD X A J PT k))) (aE X ET k i).
Proof.
  intros L Hk Hi. open_inner L Hk. unfold bGT at 1. rewrite <- Si. cbn [st_G].
  pose proof (b_E_len k Hk ltac:(lia)) as LE. destruct (b_len (n - S k) (S k)) as [_ LG]; [lia|lia|].
  set (f := fun p : R * Wrench => fst p + _). rewrite (nth_indep _ 0 (f (0, w_zero))) by (rewrite map_length, combine_length; lia).
  rewrite map_nth, combine_nth by lia. unfold f. cbn [fst snd]. pose proof Hsw as (Sa & _). rewrite !Sa by (fold n; lia).
  rewrite b_E, b_Z, b_D, b_u by (auto; lia). unfold bGT. f_equal. rewrite !tw_dot_tadd, !tw_dot_tscale, tw_dot_tdiv. unfold Rdiv. unfold bC. ring.
Qed.
Lemma b_sym : forall d k u v, (k + d = n)%nat -> (1 <= k)%nat -> (lo <= k)%nat -> tw_dot u (PT k v) = tw_dot v (PT k u).
Proof.
  induction d as [|d IH]; intros k u v Hk K1 L.
  - replace k with n by lia. rewrite !b_leaf by lia. unfold bH. replace n with (S (n - 1)) by lia. rewrite Ha by lia. cbn [SA sa_H]. cbv zeta. cbn [sa_H].
    rewrite !ab_of_rb_app. apply seg_symmetric, Hsym.
  - rewrite !(b_PT_in k) by lia. rewrite !tw_dot_wsub, !tw_dot_wadd, !tw_dot_wscale.
    assert (E1 : tw_dot u (bH a k v) = tw_dot v (bH a k u)).
    { unfold bH. replace k with (S (k - 1)) by lia. rewrite Ha by lia. cbn [SA sa_H]. cbv zeta. cbn [sa_H]. rewrite !ab_of_rb_app. apply seg_symmetric, Hsym. }
    assert (E2 : tw_dot u (aP X PT k v) = tw_dot v (aP X PT k u)).
    { unfold aP. rewrite !power_back by apply bX. apply IH; lia. }
    rewrite E1, E2. unfold Rdiv. ring.
Qed.
Lemma b_PT_sym k u v : (1 <= k)%nat -> (lo <= k)%nat -> (k <= n)%nat -> tw_dot u (PT k v) = tw_dot v (PT k u).
Proof. intros K1 L Hk. apply (b_sym (n - k)); lia. Qed.
End Bridge.
