(** The external wrench estimator follows the reference observer through every history. *)
From Coq Require Import Reals List Arith Lia Lra ZArith Bool.
From Verif Require Import FramesModel FramesSpec Outcome InertiaModel InertiaSpec DualModel KinModel KinSpec JacDotProofs
  LinModel LinSpec SumProofs DynModel DynSpec MassProofs DynProofs FdProofs LmaModel LmaSpec LmaProofs VelIkModel VelIkSpec VelIkLin VelIkProofs EwModel EwSpec EwProofs.
Import ListNotations.
Local Open Scope list_scope.
Local Open Scope R_scope.

Lemma vec_resize_same {A} (l : list A) n d : length l = n -> vec_resize l n d = l.
Proof. intros <-. unfold vec_resize. rewrite firstn_all, Nat.sub_diag. apply app_nil_r. Qed.

(** what the object and the reference have in common *)
Definition last_momentum (c : Chain) (g : Vector) (last : option (list R * list R)) (j : nat) : R :=
  match last with Some (q, qd) => momentum_at c g q qd j | None => 0 end.
Definition ew_follows (c : Chain) (g : Vector) (K dt f : R) (s : ew) (r : ref_state) : Prop :=
  ew_sized s /\ ew_current c s /\ dyn_reach g c (ew_dyn s) /\ ew_dt s = dt /\ ew_filter s = f /\ 0 < ew_eps s /\ ew_gain s = repeat K (ch_nj c) /\
  (exists P, ew_prev s = Some P /\ forall i j, (i < ch_nj c)%nat -> (j < ch_nj c)%nat ->
     mentry P i j = match fst r with Some (q, _) => mass_at c g q i j | None => 0 end) /\
  forall j, (j < ch_nj c)%nat -> nth j (ew_filt s) 0 = snd (snd r j) /\
    K * (last_momentum c g (fst r) j - nth j (ew_int s) 0 - nth j (ew_p0 s) 0) = fst (snd r j).

Lemma nth_repeat_lt {A} (x d : A) n j : (j < n)%nat -> nth j (repeat x n) d = x.
Proof. revert j. induction n as [|n IH]; intros [|j] H; cbn; try lia; auto. apply IH. lia. Qed.

Lemma follows_make c g freq K f eps n : freq <> 0 -> 0 < eps -> exists s, ew_make c g freq K f eps n = Ret s /\
  ew_follows c g K (1 / freq) f s ref_start /\ ew_maxiter s = n /\ ew_eps s = eps.
Proof.
  intros Hf He. unfold ew_make. rewrite rdiv_ok by exact Hf. cbn [obind]. eexists. split; [reflexivity|]. split; [|split; reflexivity].
  unfold ew_follows, ew_sized, ew_current. cbn [ew_nj ew_ns ew_M ew_prev ew_p0 ew_int ew_filt ew_grav ew_cor ew_jac ew_gain ew_locked ew_dyn ew_dt ew_filter ew_eps ew_maxiter ew_error fst snd ref_start].
  split. { unfold jac_make. rewrite !repeat_length. repeat (split; [reflexivity|]). intros P E. injection E as <-. split; reflexivity. }
  split; [split; reflexivity|]. split; [apply dyn_r_make|]. split; [reflexivity|]. split; [reflexivity|]. split; [exact He|]. split; [reflexivity|].
  split. { eexists. split; [reflexivity|]. intros. reflexivity. }
  intros j Hj. rewrite !nth_repeat_lt by exact Hj. cbn. split; [reflexivity|ring].
Qed.

Lemma follows_sample svd c g K dt f s r q qd tau w : chain_ok c -> inertias_symmetric c -> dt <> 0 -> ew_follows c g K dt f s r ->
  length q = ch_nj c -> length qd = ch_nj c -> length tau = ch_nj c ->
  exists code w' s', ew_JntToExtWrench svd c s q qd tau w = Ret (code, w', s') /\
    ew_follows c g K dt f s' (ref_do c g K dt f r (Sample q qd tau)) /\ ew_maxiter s' = ew_maxiter s /\ ew_eps s' = ew_eps s /\ ew_error s' = code /\
    let d := svd (ew_maxiter s) (ew_matrix c q) in
    (dc_rc d = 0%Z -> code = E_NOERROR /\ w_list w' = pinv_sol (ch_nj c) 6 (ew_eps s) d (fun j => nth j (ew_filt s') 0)) /\
    (dc_rc d <> 0%Z -> code = E_SVD_FAILED /\ w' = w).
Proof.
  intros Hok Sy Hdt (Z & C & Dr & Ed & Ef & He & Eg & (P & EP & HP) & HS) Hq Hqd Ht. rewrite <- Ed in Hdt.
  destruct (ew_sample svd g c s q qd tau w P Hok Sy Z C Dr Hdt He Hq Hqd Ht EP) as
    (code & w' & s' & E & Er & W1 & W2 & Z' & C' & D' & dt' & f' & eps' & mx' & g' & p' & P' & HO).
  exists code, w', s'. split; [exact E|]. split; [|split; [exact mx'|split; [exact eps'|split; [exact Er|split; [exact W1|exact W2]]]]].
  unfold ew_follows. split; [exact Z'|]. split; [exact C'|]. split; [rewrite D'; exact Dr|]. split; [congruence|]. split; [congruence|]. split; [rewrite eps'; exact He|].
  split; [congruence|]. split; [exact P'|].
  intros j Hj. destruct (HS j Hj) as [S1 S2]. destruct (HO j Hj) as [O1 O2].
  assert (EPq : sumn (ch_nj c) (fun k => mentry P j k * nth k qd 0) = match fst r with Some (q', _) => momentum_at c g q' qd j | None => 0 end).
  { destruct (fst r) as [[q' qd']|]; [unfold momentum_at; apply sumn_ext; intros k Hk; rewrite HP by assumption; reflexivity|].
    apply sumn_zero. intros k Hk. rewrite HP by assumption. ring. }
  rewrite EPq in O1. rewrite S1, Eg, nth_repeat_lt in O2 by exact Hj. rewrite S1 in O1. rewrite Ed in O1. rewrite Ef in O2.
  cbn [ref_do fst snd]. unfold observer_step. cbn [fst snd]. rewrite <- S2, p'. rewrite Ed in Hdt.
  assert (Q : K * (momentum_at c g q qd j - nth j (ew_int s') 0 - nth j (ew_p0 s) 0) =
    K * (last_momentum c g (fst r) j - nth j (ew_int s) 0 - nth j (ew_p0 s) 0) + K * dt * (apparent c g dt (fst r) q qd tau j - snd (snd r j))).
  { rewrite O1. unfold apparent, last_momentum. destruct (fst r) as [[q' qd']|]; field; exact Hdt. }
  cbn [last_momentum]. split; [|exact Q]. rewrite O2, Q. reflexivity.
Qed.

Lemma follows_start c g K dt f s r q qd : chain_ok c -> inertias_symmetric c -> ew_follows c g K dt f s r ->
  length q = ch_nj c -> length qd = ch_nj c ->
  exists s', ew_setInitialMomentum c s q qd = Ret (E_NOERROR, s') /\ ew_follows c g K dt f s' (ref_do c g K dt f r (Start q qd)) /\
    ew_maxiter s' = ew_maxiter s /\ ew_eps s' = ew_eps s.
Proof.
  intros Hok Sy ((Z1 & Z2 & Z3 & Z4 & Z5 & Z6 & Z7 & Z8 & Z9 & Z10 & Z11 & Z12 & Z13) & [C1 C2] & Dr & Ed & Ef & He & Eg & (P & EP & HP) & HS) Hq Hqd.
  rewrite C1 in *. unfold ew_setInitialMomentum. rewrite C1, Hq, Hqd, !Nat.eqb_refl. cbn [negb orb].
  assert (Dc : dyn_current c (ew_dyn s)) by (split; congruence).
  destruct (mass_at_ok g c (ew_dyn s) q (ew_M s) Hok Sy Dr Dc Hq Z1 Z2) as (M & -> & M1 & M2 & HM). cbn [obind].
  change (negb (E_NOERROR =? E_NOERROR)%Z) with false. cbv iota.
  destruct (m_vec_ok M qd (ch_nj c) M1 M2 Hqd) as (p0 & -> & L0 & H0). cbn [obind]. eexists. split; [reflexivity|]. split; [|split; reflexivity].
  unfold ew_follows, ew_sized, ew_current. cbn [ew_nj ew_ns ew_M ew_prev ew_p0 ew_int ew_filt ew_grav ew_cor ew_jac ew_gain ew_locked ew_dyn ew_dt ew_filter ew_eps ew_maxiter ew_error].
  split. { rewrite !map_length. repeat (split; [assumption|]). exact Z13. }
  split; [split; assumption || reflexivity|]. split; [exact Dr|]. split; [exact Ed|]. split; [exact Ef|]. split; [exact He|]. split; [exact Eg|].
  split; [exists P; split; [exact EP|exact HP]|].
  intros j Hj. cbn [ref_do fst snd]. rewrite !nth_zeros. split; [reflexivity|]. rewrite H0 by exact Hj.
  assert (EM : sumn (ch_nj c) (fun k => mentry M j k * nth k qd 0) = momentum_at c g q qd j).
  { unfold momentum_at. apply sumn_ext. intros k Hk. rewrite HM by assumption. reflexivity. }
  rewrite EM. unfold last_momentum. destruct (fst r) as [[q' qd']|]; ring.
Qed.

Lemma follows_update c g K dt f s r : ch_nj c <> 0%nat -> ew_follows c g K dt f s r ->
  exists s', ew_update c s = Ret s' /\ ew_follows c g K dt f s' r /\ ew_maxiter s' = ew_maxiter s /\ ew_eps s' = ew_eps s.
Proof.
  intros Hn ((Z1 & Z2 & Z3 & Z4 & Z5 & Z6 & Z7 & Z8 & Z9 & Z10 & Z11 & Z12 & Z13) & [C1 C2] & Dr & Ed & Ef & He & Eg & (P & EP & HP) & HS).
  rewrite C1 in *. destruct (Z13 P EP) as [P1 P2]. unfold ew_update.
  replace (aget (ew_gain s) 0) with (Ret K).
  2:{ rewrite Eg. destruct (ch_nj c); [contradiction|reflexivity]. }
  cbn [obind]. eexists. split; [reflexivity|]. split; [|split; reflexivity].
  unfold ew_follows, ew_sized, ew_current. cbn [ew_nj ew_ns ew_M ew_prev ew_p0 ew_int ew_filt ew_grav ew_cor ew_jac ew_gain ew_locked ew_dyn ew_dt ew_filter ew_eps ew_maxiter ew_error].
  unfold m_resize. rewrite EP, P1, P2, Z1, Z2, Nat.eqb_refl. cbn [andb].
  rewrite !vec_resize_same by assumption. unfold jacsolver_update. rewrite Z10, vec_resize_repeat.
  split. { repeat (split; [first [assumption|reflexivity]|]). intros P' E'. injection E' as <-. split; assumption. }
  split; [split; reflexivity|]. split; [apply dyn_r_update; exact Dr|]. split; [exact Ed|]. split; [exact Ef|]. split; [exact He|]. split; [exact Eg|].
  split; [exists P; split; [reflexivity|exact HP]|]. exact HS.
Qed.

Lemma follows_do svd c g K dt f s r w e : chain_ok c -> inertias_symmetric c -> dt <> 0 -> fits (ch_nj c) e -> ew_follows c g K dt f s r ->
  exists code w' s', ew_do svd c w s e = Ret (code, w', s') /\ ew_follows c g K dt f s' (ref_do c g K dt f r e) /\ (code = E_NOERROR \/ code = E_SVD_FAILED).
Proof.
  intros Hok Sy Hdt Hf HF. destruct e as [q qd tau|q qd|eps|n|]; cbn [fits ew_do ref_do] in *.
  - destruct Hf as (L1 & L2 & L3). destruct (follows_sample svd c g K dt f s r q qd tau w Hok Sy Hdt HF L1 L2 L3) as (code & w' & s' & E & F' & _ & _ & _ & W1 & W2).
    exists code, w', s'. split; [exact E|]. split; [exact F'|].
    destruct (Z.eq_dec (dc_rc (svd (ew_maxiter s) (ew_matrix c q))) 0) as [D|D]; [left; apply (W1 D)|right; apply (W2 D)].
  - destruct Hf as (L1 & L2). destruct (follows_start c g K dt f s r q qd Hok Sy HF L1 L2) as (s' & -> & F' & _). cbn [obind]. do 3 eexists. split; [reflexivity|]. split; [exact F'|auto].
  - do 3 eexists. split; [reflexivity|]. split; [|auto]. destruct HF as (Z & C & Dr & Ed & Ef & He & Eg & HP & HS).
    repeat (split; [first [assumption|exact Hf]|]). exact HS.
  - do 3 eexists. split; [reflexivity|]. split; [|auto]. destruct HF as (Z & C & Dr & Ed & Ef & He & Eg & HP & HS).
    repeat (split; [first [assumption|exact Hf]|]). exact HS.
  - destruct (follows_update c g K dt f s r Hf HF) as (s' & -> & F' & _). cbn [obind]. do 3 eexists. split; [reflexivity|]. split; [exact F'|auto].
Qed.
Lemma follows_run svd c g K dt f l : chain_ok c -> inertias_symmetric c -> dt <> 0 -> Forall (fits (ch_nj c)) l ->
  forall s r w, ew_follows c g K dt f s r ->
  exists codes w' s', ew_run svd c w s l = Ret (codes, w', s') /\ ew_follows c g K dt f s' (ref_run c g K dt f r l) /\
    length codes = length l /\ Forall (fun k => k = E_NOERROR \/ k = E_SVD_FAILED) codes.
Proof.
  intros Hok Sy Hdt. induction l as [|e l IH]; intros HF s r w H; cbn [ew_run].
  - do 3 eexists. split; [reflexivity|]. split; [exact H|]. split; [reflexivity|constructor].
  - inversion HF as [|? ? Fe Fl]; subst. destruct (follows_do svd c g K dt f s r w e Hok Sy Hdt Fe H) as (code & w1 & s1 & -> & F1 & C1). cbn [obind].
    destruct (IH Fl s1 _ w1 F1) as (codes & w2 & s2 & -> & F2 & L2 & C2). cbn [obind].
    do 3 eexists. split; [reflexivity|]. split; [exact F2|]. split; [cbn; congruence|constructor; assumption].
Qed.
Lemma run_app svd c l1 l2 : forall w s, ew_run svd c w s (l1 ++ l2) =
  (let! (c1, w1, s1) := ew_run svd c w s l1 in let! (c2, w2, s2) := ew_run svd c w1 s1 l2 in Ret (c1 ++ c2, w2, s2)).
Proof.
  induction l1 as [|e l1 IH]; intros w s; cbn [ew_run app obind].
  - destruct (ew_run svd c w s l2) as [[[a b] d]|]; reflexivity.
  - destruct (ew_do svd c w s e) as [[[k w1] s1]|]; cbn [obind]; [|reflexivity]. rewrite IH.
    destruct (ew_run svd c w1 s1 l1) as [[[a b] d]|]; cbn [obind]; [|reflexivity].
    destruct (ew_run svd c b d l2) as [[[a' b'] d']|]; reflexivity.
Qed.

(** ** The estimated torque is that of the reference *)
Theorem ew_reference svd c g freq K f eps n l w : chain_ok c -> inertias_symmetric c -> freq <> 0 -> 0 < eps -> Forall (fits (ch_nj c)) l ->
  exists s0 codes w' s T, ew_make c g freq K f eps n = Ret s0 /\ ew_run svd c w s0 l = Ret (codes, w', s) /\
    length codes = length l /\ Forall (fun k => k = E_NOERROR \/ k = E_SVD_FAILED) codes /\
    (forall out, length out = ch_nj c -> ew_getEstimatedJntTorque s out = Ret T) /\ length T = ch_nj c /\
    forall j, (j < ch_nj c)%nat -> nth j T 0 = snd (snd (ref_run c g K (1 / freq) f ref_start l) j).
Proof.
  intros Hok Sy Hf He Hl. destruct (follows_make c g freq K f eps n Hf He) as (s0 & E0 & F0 & _).
  assert (Hdt : 1 / freq <> 0) by (unfold Rdiv; rewrite Rmult_1_l; apply Rinv_neq_0_compat, Hf).
  destruct (follows_run svd c g K (1 / freq) f l Hok Sy Hdt Hl s0 ref_start w F0) as (codes & w' & s & E & F & L & C).
  exists s0, codes, w', s, (ew_filt s). split; [exact E0|]. split; [exact E|]. split; [exact L|]. split; [exact C|].
  destruct F as (Z & [C1 C2] & _ & _ & _ & _ & _ & _ & HS). destruct Z as (Z1 & Z2 & Z3 & Z4 & Z5 & _).
  split. { intros out Ho. unfold ew_getEstimatedJntTorque. rewrite Ho, Z5, C1, Nat.eqb_refl. reflexivity. }
  split; [congruence|]. intros j Hj. apply HS, Hj.
Qed.
(** ** The reported wrench is the pseudo-inverse solution for the estimated torque *)
Theorem ew_reported svd c g freq K f eps n l q qd tau w s0 codes w1 s1 : chain_ok c -> inertias_symmetric c -> freq <> 0 -> 0 < eps -> Forall (fits (ch_nj c)) l ->
  length q = ch_nj c -> length qd = ch_nj c -> length tau = ch_nj c ->
  ew_make c g freq K f eps n = Ret s0 -> ew_run svd c w s0 l = Ret (codes, w1, s1) ->
  exists code w' s' T, ew_JntToExtWrench svd c s1 q qd tau w1 = Ret (code, w', s') /\
    (forall out, length out = ch_nj c -> ew_getEstimatedJntTorque s' out = Ret T) /\ length T = ch_nj c /\
    let d := svd (ew_maxiter s1) (ew_matrix c q) in
    (dc_rc d <> 0%Z -> code = E_SVD_FAILED /\ w' = w1) /\
    (dc_rc d = 0%Z -> code = E_NOERROR /\
      (svd_of (ch_nj c) 6 (tip_axes_jacobian c q) d ->
        shortest_least_squares (ch_nj c) 6 (truncated 6 (ew_eps s1) d) (fun j => nth j T 0) (w_list w') /\
        (no_small 6 (ew_eps s1) d -> shortest_least_squares (ch_nj c) 6 (tip_axes_jacobian c q) (fun j => nth j T 0) (w_list w')))).
Proof.
  intros Hok Sy Hf He Hl Hq Hqd Ht E0 E. destruct (follows_make c g freq K f eps n Hf He) as (s0' & E0' & F0 & _).
  rewrite E0 in E0'. injection E0' as <-.
  assert (Hdt : 1 / freq <> 0) by (unfold Rdiv; rewrite Rmult_1_l; apply Rinv_neq_0_compat, Hf).
  destruct (follows_run svd c g K (1 / freq) f l Hok Sy Hdt Hl s0 ref_start w F0) as (codes' & w1' & s1' & E' & F & _). rewrite E in E'. injection E' as <- <- <-.
  destruct (follows_sample svd c g K (1 / freq) f s1 _ q qd tau w1 Hok Sy Hdt F Hq Hqd Ht) as (code & w' & s' & ES & F' & _ & _ & _ & W1 & W2).
  exists code, w', s', (ew_filt s'). split; [exact ES|].
  destruct F' as (Z & [C1 C2] & _). destruct Z as (Z1 & Z2 & Z3 & Z4 & Z5 & _).
  split. { intros out Ho. unfold ew_getEstimatedJntTorque. rewrite Ho, Z5, C1, Nat.eqb_refl. reflexivity. }
  split; [congruence|]. cbv zeta. split; [exact W2|]. intros D0. destruct (W1 D0) as [-> EW]. split; [reflexivity|].
  intros Sv. rewrite EW. assert (Hep : 0 < ew_eps s1) by apply F.
  pose proof (pinv_sol_shortest (ch_nj c) 6 _ (ew_eps s1) _ (fun j => nth j (ew_filt s') 0) Hep Sv) as PS. split; [exact PS|].
  intros NS. revert PS. apply shortest_ext. intros r j Hr Hj. apply (truncated_all (ch_nj c) 6 _ (ew_eps s1) _ Sv NS r j Hr Hj).
Qed.
