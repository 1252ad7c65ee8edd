(** Forward dynamics inverts inverse dynamics (C37); up-to-date protocol of the
    dynamics solvers (C26); the Runge-Kutta integrator (C59). *)
From Coq Require Import String Reals List Arith Lia Lra ZArith Bool.
From Verif Require Import FramesModel FramesSpec FramesProofs FrameOpsProofs RotationProofs Outcome LoopProofs InertiaModel InertiaSpec
  InertiaProofs DualModel KinModel KinSpec KinProofs JacProofs LinModel LinSpec SumProofs LdlProofs DynModel DynSpec SpatialProofs RneProofs MassProofs DynProofs.
Import ListNotations.
Local Open Scope R_scope.

(** * Systems with an L D L^T factorisation *)
Lemma symmetric_ext n a b : (forall i j, (i < n)%nat -> (j < n)%nat -> a i j = b i j) -> symmetric n a -> symmetric n b.
Proof. intros E H i j Hi Hj. rewrite <- !E by auto. apply H; auto. Qed.
Lemma pivots_ext n a b : (forall i j, (i < n)%nat -> (j < n)%nat -> a i j = b i j) -> pivots_ok n a -> pivots_ok n b.
Proof. intros E (l & d & U & F & Z). exists l, d. split; [exact U|]. split; [|exact Z]. intros i j Hi Hj. rewrite <- E by auto. apply F; auto. Qed.
Lemma pivots_symmetric n a : pivots_ok n a -> symmetric n a.
Proof. intros (l & d & _ & F & _) i j Hi Hj. rewrite (F i j), (F j i) by auto. apply sumn_ext. intros; ring. Qed.
Lemma pivots_solvable n a b : pivots_ok n a -> length b = n -> exists x, length x = n /\ solves n a x b.
Proof.
  intros (l & d & U & F & Z) Hb.
  destruct (ldl_correct (mkM n n a) b (mat_zero n) (repeat 0 n) (repeat 0 n) (repeat 0 n) n) as (L & D & y & x & E & _ & _ & _ & Lx & _);
    try (rewrite ?repeat_length; reflexivity); auto.
  destruct (ldl_finds (mkM n n a) b (mat_zero n) (repeat 0 n) (repeat 0 n) (repeat 0 n) n l d) as (L' & D' & y' & x' & E' & _ & _ & S);
    try (rewrite ?repeat_length; reflexivity); auto.
  rewrite E in E'. injection E' as <- <- <- <-. exists x. split; [exact Lx|exact S].
Qed.
Lemma pivots_injective n a w : pivots_ok n a -> length w = n -> (forall i, (i < n)%nat -> sumn n (fun j => a i j * nth j w 0) = 0) ->
  forall i, (i < n)%nat -> nth i w 0 = 0.
Proof.
  intros P Hw H i Hi. pose proof (pivots_symmetric n a P) as Sy.
  destruct (pivots_solvable n a w P Hw) as (x & _ & S).
  assert (Q : sumn n (fun j => nth j w 0 * nth j w 0) = 0).
  { rewrite (sumn_ext n _ (fun j => sumn n (fun k => a j k * nth k x 0 * nth j w 0))).
    2:{ intros j Hj. rewrite <- (S j Hj) at 1. rewrite <- sumn_scale_r. apply sumn_ext. intros; ring. }
    rewrite sumn_swap. apply sumn_zero. intros k Hk.
    rewrite (sumn_ext n _ (fun j => nth k x 0 * (a k j * nth j w 0))) by (intros j Hj; rewrite (Sy j k) by auto; ring).
    rewrite sumn_scale, (H k Hk). ring. }
  assert (G : forall m, (m <= n)%nat -> sumn m (fun j => nth j w 0 * nth j w 0) = 0 -> forall j, (j < m)%nat -> nth j w 0 = 0).
  { induction m as [|m IH]; intros Hm Sm j Hj; [lia|]. cbn [sumn] in Sm.
    assert (0 <= sumn m (fun j => nth j w 0 * nth j w 0)) by (apply sumn_nonneg; intros; apply Rle_0_sqr).
    assert (0 <= nth m w 0 * nth m w 0) by apply Rle_0_sqr.
    destruct (Nat.eq_dec j m) as [->|]; [nra|]. apply IH; lia || nra. }
  apply (G n (le_n _) Q i Hi).
Qed.
Lemma pivots_unique n a x y b : pivots_ok n a -> length x = n -> length y = n -> solves n a x b -> solves n a y b -> x = y.
Proof.
  intros P Lx Ly Sx Sy. apply nth_ext_R; [congruence|]. rewrite Lx. intros i Hi.
  set (w := map (fun j => nth j x 0 - nth j y 0) (seq 0 n)).
  assert (W : forall j, (j < n)%nat -> nth j w 0 = nth j x 0 - nth j y 0).
  { intros j Hj. apply nth_error_nth. unfold w. rewrite nth_error_map, (nth_error_nth' _ 0%nat) by (rewrite seq_length; auto).
    rewrite seq_nth by auto. reflexivity. }
  assert (Z : nth i w 0 = 0).
  { apply (pivots_injective n a w P); auto. { unfold w. rewrite map_length, seq_length. reflexivity. }
    intros k Hk. rewrite (sumn_ext n _ (fun j => a k j * nth j x 0 - a k j * nth j y 0)) by (intros j Hj; rewrite W by auto; ring).
    rewrite sumn_sub, (Sx k Hk), (Sy k Hk). ring. }
  rewrite (W i Hi) in Z. lra.
Qed.
Lemma pd_pivots n a : symmetric n a -> positive_definite n a -> pivots_ok n a.
Proof.
  intros Sy P. destruct (ldl_correct (mkM n n a) (repeat 0 n) (mat_zero n) (repeat 0 n) (repeat 0 n) (repeat 0 n) n)
    as (L & D & y & x & E & _ & _ & _ & Lx & U & C & Q); try (rewrite ?repeat_length; reflexivity).
  exists (mentry L), (fun k => nth k D 0). split; [exact U|].
  assert (Nz : forall r, (r < n)%nat -> nth r D 0 <> 0) by (intros r Hr; pose proof (Q Sy P r Hr); lra).
  split; [apply (C Sy Nz)|exact Nz].
Qed.

(** * Positive (semi)definite mass matrices *)
Definition tolist (n : nat) (x : nat -> R) : list R := map x (seq 0 n).
Lemma tolist_length n x : length (tolist n x) = n. Proof. unfold tolist. rewrite map_length, seq_length. reflexivity. Qed.
Lemma tolist_nth n x j : (j < n)%nat -> nth j (tolist n x) 0 = x j.
Proof.
  intros Hj. apply nth_error_nth. unfold tolist. rewrite nth_error_map, (nth_error_nth' _ 0%nat) by (rewrite seq_length; auto).
  rewrite seq_nth by auto. reflexivity.
Qed.
Lemma link_inertia_psd c k : inertias_psd c -> rb_psd (link_inertia c k).
Proof.
  intros H. unfold link_inertia. destruct (lt_dec k (length (ch_segs c))) as [L|L].
  - rewrite (nth_indep _ rb_zero (sI seg0)) by (rewrite map_length; lia). rewrite map_nth.
    unfold inertias_psd in H. rewrite Forall_forall in H. apply H, nth_In, L.
  - rewrite nth_overflow by (rewrite map_length; lia). intros a. rewrite rb_app_zero, tw_dot_zero_r. lra.
Qed.
Lemma kinetic_bound c q qd : inertias_psd c -> sumn (ch_nj c) (fun j => / 2 * rotor c j * (nth j qd 0 * nth j qd 0)) <= kinetic c q qd.
Proof.
  intros H. unfold kinetic.
  assert (0 <= sumn (ch_ns c) (fun k => / 2 * tw_dot (link_twist c q qd k) (rb_app (link_inertia c k) (link_twist c q qd k)))); [|lra].
  apply sumn_nonneg. intros k _. pose proof (link_inertia_psd c k H (link_twist c q qd k)). lra.
Qed.
Lemma psd_symmetric_mass g c ds q H : chain_ok c -> inertias_symmetric c -> inertias_psd c -> (forall j, (j < ch_nj c)%nat -> 0 <= rotor c j) ->
  dyn_reach g c ds -> dyn_current c ds -> length q = ch_nj c -> mrows H = ch_nj c -> mcols H = ch_nj c ->
  exists M, dyn_JntToMass c ds q H = Ret (E_NOERROR, M) /\ symmetric (ch_nj c) (mentry M) /\
    (forall x, 0 <= quadratic (ch_nj c) (mentry M) x) /\
    ((forall j, (j < ch_nj c)%nat -> 0 < rotor c j) -> positive_definite (ch_nj c) (mentry M)).
Proof.
  intros Hok Sy Ps Ro Dr Dc Hq R1 R2.
  destruct (mass_energy g c ds q (repeat 0 (ch_nj c)) H Hok Sy Dr Dc Hq (repeat_length _ _) R1 R2) as (M & EM & M1 & M2 & SM & _).
  assert (K : forall x, quadratic (ch_nj c) (mentry M) x = 2 * kinetic c q (tolist (ch_nj c) x)).
  { intros x. destruct (mass_energy g c ds q (tolist (ch_nj c) x) H Hok Sy Dr Dc Hq (tolist_length _ _) R1 R2) as (M' & EM' & _ & _ & _ & Q).
    rewrite EM in EM'. injection EM' as <-. rewrite <- Q. unfold quadratic. apply sumn_ext. intros i Hi. apply sumn_ext. intros j Hj.
    rewrite !tolist_nth by auto. reflexivity. }
  exists M. split; [exact EM|]. split; [exact SM|]. split.
  - intros x. rewrite K. pose proof (kinetic_bound c q (tolist (ch_nj c) x) Ps) as B.
    assert (0 <= sumn (ch_nj c) (fun j => / 2 * rotor c j * (nth j (tolist (ch_nj c) x) 0 * nth j (tolist (ch_nj c) x) 0))); [|lra].
    apply sumn_nonneg. intros j Hj. pose proof (Ro j Hj). pose proof (Rle_0_sqr (nth j (tolist (ch_nj c) x) 0)) as S. unfold Rsqr in S. nra.
  - intros Rp x (i & Hi & Nx). rewrite K. pose proof (kinetic_bound c q (tolist (ch_nj c) x) Ps) as B.
    assert (0 < sumn (ch_nj c) (fun j => / 2 * rotor c j * (nth j (tolist (ch_nj c) x) 0 * nth j (tolist (ch_nj c) x) 0))); [|lra].
    rewrite (sumn_ext _ _ (fun j => / 2 * rotor c j * (x j * x j))) by (intros j Hj; rewrite !tolist_nth by auto; reflexivity).
    assert (G : forall m, (m <= ch_nj c)%nat -> (i < m)%nat -> 0 < sumn m (fun j => / 2 * rotor c j * (x j * x j))).
    { assert (P : forall j, (j < ch_nj c)%nat -> 0 <= / 2 * rotor c j * (x j * x j)).
      { intros j Hj. pose proof (Rp j Hj). pose proof (Rle_0_sqr (x j)) as S. unfold Rsqr in S. nra. }
      induction m as [|m IH]; intros Hm Him; [lia|]. cbn [sumn].
      destruct (Nat.eq_dec i m) as [->|Ne].
      - assert (0 <= sumn m (fun j => / 2 * rotor c j * (x j * x j))) by (apply sumn_nonneg; intros; apply P; lia).
        pose proof (Rp m Hi). pose proof (Rsqr_pos_lt (x m) Nx) as S. unfold Rsqr in S. nra.
      - pose proof (IH ltac:(lia) ltac:(lia)). pose proof (P m ltac:(lia)). lra. }
    apply G; auto.
Qed.

(** * The forward dynamics solver object *)
Definition fd_inv g c0 (st : fdsolver) : Prop := let n := ch_nj c0 in
  fd_dyn st = dyn_make c0 g /\ fd_id st = rne_make c0 g /\
  mrows (fd_H st) = n /\ mcols (fd_H st) = n /\ length (fd_T st) = n /\
  mrows (fd_Heig st) = n /\ mcols (fd_Heig st) = n /\ length (fd_Teig st) = n /\
  mrows (fd_L st) = n /\ mcols (fd_L st) = n /\ length (fd_D st) = n /\ length (fd_r st) = n /\ length (fd_acc st) = n.
Lemma fd_inv_make g c0 : fd_inv g c0 (fd_make c0 g).
Proof. unfold fd_inv, fd_make. cbn. rewrite !repeat_length. do 12 (split; [reflexivity|]). reflexivity. Qed.

Lemma zero_loop n (a : list R) : length a = n -> exists z, for_loop n 0 (fun i a => aset a i 0) a = Ret z /\ length z = n /\ forall j, nth j z 0 = 0.
Proof.
  intros L. destruct (for_loop_inv (fun i z => length z = n /\ forall j, (j < i)%nat -> nth j z 0 = 0) (fun i a => aset a i 0) n 0 a) as (z & E & Lz & Z).
  - intros k z Hk [Lz Z]. rewrite aset_ret by lia. eexists; split; [reflexivity|]. rewrite upd_length. split; [exact Lz|].
    intros j Hj. destruct (Nat.eq_dec j k) as [->|]; [apply nth_upd_same; lia|rewrite nth_upd_other by auto; apply Z; lia].
  - split; [exact L|]. intros; lia.
  - exists z. split; [exact E|]. split; [exact Lz|]. intros j. destruct (lt_dec j n); [apply Z; lia|apply nth_overflow; lia].
Qed.
Lemma copy_loop n (a b : list R) : length a = n -> length b = n -> for_loop n 0 (fun i a => let! x := aget b i in aset a i x) a = Ret b.
Proof.
  intros L Lb. destruct (for_loop_inv (fun i z => length z = n /\ forall j, (j < i)%nat -> nth j z 0 = nth j b 0)
    (fun i a => let! x := aget b i in aset a i x) n 0 a) as (z & E & Lz & Z).
  - intros k z Hk [Lz Z]. rewrite agetR by lia. cbn [obind]. rewrite aset_ret by lia. eexists; split; [reflexivity|]. rewrite upd_length. split; [exact Lz|].
    intros j Hj. destruct (Nat.eq_dec j k) as [->|]; [apply nth_upd_same; lia|rewrite nth_upd_other by auto; apply Z; lia].
  - split; [exact L|]. intros; lia.
  - rewrite E. f_equal. apply nth_ext_R; [congruence|]. rewrite Lz. intros i Hi. apply Z. exact Hi.
Qed.
Lemma row_loop n H i m : mrows H = n -> mcols H = n -> mrows m = n -> mcols m = n -> (i < n)%nat ->
  exists m', for_loop n 0 (fun j m => let! x := mget H i j in mset m i j x) m = Ret m' /\ mrows m' = n /\ mcols m' = n /\
    (forall j, (j < n)%nat -> mentry m' i j = mentry H i j) /\ (forall r j, r <> i -> mentry m' r j = mentry m r j).
Proof.
  intros H1 H2 A1 A2 Hi.
  destruct (for_loop_inv (fun j m' => mrows m' = n /\ mcols m' = n /\
    (forall k, (k < j)%nat -> mentry m' i k = mentry H i k) /\ (forall r k, r <> i -> mentry m' r k = mentry m r k))
    (fun j m => let! x := mget H i j in mset m i j x) n 0 m) as (m' & E & S).
  - intros j m1 Hj (B1 & B2 & B3 & B4). rewrite mget_ok by lia. cbn [obind]. rewrite mset_ok by lia. eexists; split; [reflexivity|].
    split; [exact B1|]. split; [exact B2|]. split.
    + intros k Hk. destruct (Nat.eq_dec k j) as [->|]; [apply mupd_same|rewrite mupd_other by auto; apply B3; lia].
    + intros r k Hr. rewrite mupd_other by auto. apply B4, Hr.
  - split; [auto|]. split; [auto|]. split; [intros; lia|auto].
  - exists m'. split; [exact E|]. destruct S as (B1 & B2 & B3 & B4). auto.
Qed.
Lemma load_loop n H (tau T : list R) He Te : mrows H = n -> mcols H = n -> length tau = n -> length T = n ->
  mrows He = n -> mcols He = n -> length Te = n ->
  exists He' Te', for_loop n 0 (fun i hr =>
          let '(He, Te) := hr in
          let! ti := aget tau i in
          let! zi := aget T i in
          let! Te' := aset Te i (ti - zi) in
          let! He' := for_loop n 0 (fun j m => let! x := mget H i j in mset m i j x) He in
          Ret (He', Te')) (He, Te) = Ret (He', Te') /\ mrows He' = n /\ mcols He' = n /\ length Te' = n /\
    (forall i j, (i < n)%nat -> (j < n)%nat -> mentry He' i j = mentry H i j) /\
    (forall i, (i < n)%nat -> nth i Te' 0 = nth i tau 0 - nth i T 0).
Proof.
  intros H1 H2 Lt LT A1 A2 A3.
  destruct (for_loop_inv (fun i (hr : Mat * list R) => let '(He', Te') := hr in mrows He' = n /\ mcols He' = n /\ length Te' = n /\
      (forall r j, (r < i)%nat -> (j < n)%nat -> mentry He' r j = mentry H r j) /\ (forall r, (r < i)%nat -> nth r Te' 0 = nth r tau 0 - nth r T 0))
     (fun i hr =>
          let '(He, Te) := hr in
          let! ti := aget tau i in
          let! zi := aget T i in
          let! Te' := aset Te i (ti - zi) in
          let! He' := for_loop n 0 (fun j m => let! x := mget H i j in mset m i j x) He in
          Ret (He', Te')) n 0 (He, Te)) as ([He' Te'] & E & S).
  - intros i [m t] Hi (B1 & B2 & B3 & B4 & B5). rewrite !agetR by lia. cbn [obind]. rewrite aset_ret by lia. cbn [obind].
    destruct (row_loop n H i m H1 H2 B1 B2 ltac:(lia)) as (m' & -> & C1 & C2 & C3 & C4). cbn [obind]. eexists; split; [reflexivity|].
    split; [exact C1|]. split; [exact C2|]. split; [rewrite upd_length; exact B3|]. split.
    + intros r j Hr Hj. destruct (Nat.eq_dec r i) as [->|]; [apply C3, Hj|rewrite C4 by auto; apply B4; lia].
    + intros r Hr. destruct (Nat.eq_dec r i) as [->|]; [apply nth_upd_same; lia|rewrite nth_upd_other by auto; apply B5; lia].
  - do 3 (split; [assumption|]). split; intros; lia.
  - exists He', Te'. split; [exact E|]. destruct S as (B1 & B2 & B3 & B4 & B5). do 3 (split; [assumption|]). split; [exact B4|exact B5].
Qed.
Lemma ldl_sizes A v L D t q n : mrows A = n -> mcols A = n -> length v = n -> mrows L = n -> mcols L = n ->
  length D = n -> length t = n -> length q = n ->
  exists L' D' y x, ldl_solver A v L D t q = Ret (E_NOERROR, (L', D', y, x)) /\ mrows L' = n /\ mcols L' = n /\ length D' = n /\ length y = n /\ length x = n /\
    (pivots_ok n (mentry A) -> solves n (mentry A) x v).
Proof.
  intros HA1 HA2 Hv HL1 HL2 HD Ht Hq.
  destruct (ldl_correct A v L D t q n HA1 HA2 Hv HL1 HL2 HD Ht Hq) as (L' & D' & y & x & E & R1 & R2 & R3 & R4 & _).
  exists L', D', y, x. split; [exact E|]. do 3 (split; [assumption|]). split; [|split; [assumption|]].
  - revert E. unfold ldl_solver. rewrite HA1, HA2, Hv, HL1, HL2, HD, Ht, Hq, !Nat.eqb_refl. cbn [andb negb].
    destruct (factor_loop A n (conj HA1 HA2) L D HL1 HL2 HD) as ([L1 D1] & -> & F). cbn [obind].
    pose proof F as (A1 & A2 & A3 & _ & _).
    destruct (fwd_loop A n (conj HA1 HA2) L1 v t A1 A2 Hv Ht) as (y' & -> & Hy & Ey). cbn [obind].
    destruct (back_loop A n (conj HA1 HA2) L1 D1 y' q A1 A2 A3 Hy Hq) as (x' & -> & Hx & Ex). cbn [obind].
    rewrite (diag_loop A n (conj HA1 HA2) L1 A1 A2). cbn [obind]. rewrite (upper_loop A n (conj HA1 HA2)) by reflexivity. cbn [obind].
    intros E. injection E as _ _ <- _. exact Hy.
  - intros (l & d & U & F & Z).
    destruct (ldl_finds A v L D t q n l d HA1 HA2 Hv HL1 HL2 HD Ht Hq U F Z) as (L2 & D2 & y2 & x2 & E2 & _ & _ & S).
    rewrite E in E2. injection E2 as <- <- <- <-. exact S.
Qed.

Lemma dyn_make_current c0 g c : same_counts c0 c -> dyn_current c (dyn_make c0 g).
Proof. intros [A B]. split; assumption. Qed.
Lemma rne_make_current c0 g c : same_counts c0 c -> rne_current c (rne_make c0 g).
Proof. intros [A B]. split; assumption. Qed.

Lemma fd_result g c0 c st q qd tau fext qdd : chain_ok c -> same_counts c0 c -> fd_inv g c0 st -> fd_current c st ->
  length q = ch_nj c -> length qd = ch_nj c -> length tau = ch_nj c -> length qdd = ch_nj c -> length fext = ch_ns c ->
  exists out st' M T0 z, fd_CartToJnt c st q qd tau fext qdd = Ret (E_NOERROR, out, st') /\ fd_inv g c0 st' /\ length out = ch_nj c /\
    dyn_JntToMass c (dyn_make c0 g) q (fd_H st) = Ret (E_NOERROR, M) /\
    length z = ch_nj c /\ (forall j, nth j z 0 = 0) /\
    rne_CartToJnt c (rne_make c0 g) q qd z fext (fd_T st) = Ret (E_NOERROR, T0) /\
    (pivots_ok (ch_nj c) (mentry M) -> forall i, (i < ch_nj c)%nat -> sumn (ch_nj c) (fun j => mentry M i j * nth j out 0) = nth i tau 0 - nth i T0 0).
Proof.
  intros Hok [N1 N2] I [F1 F2] Hq Hqd Ht Hqdd Hf. destruct I as (I1 & I2 & B1 & B2 & B3 & B4 & B5 & B6 & B7 & B8 & B9 & B10 & B11). rewrite N1 in *.
  unfold fd_CartToJnt. rewrite F1, F2, Hq, Hqd, Ht, Hqdd, Hf, !Nat.eqb_refl. cbn [andb orb negb]. cbv zeta. rewrite I1, I2.
  assert (Cd : dyn_current c (dyn_make c0 g)) by (split; assumption).
  assert (Cr : rne_current c (rne_make c0 g)) by (split; assumption).
  destruct (mass_result c (dyn_make c0 g) q (fd_H st) Hok Cd Hq B1 B2) as (M & EM & M1 & M2 & _). rewrite EM. cbn [obind]. change (E_NOERROR <? 0)%Z with false. cbn iota.
  destruct (zero_loop (ch_nj c) qdd Hqdd) as (z & -> & Lz & Z). cbn [obind].
  destruct (rne_result c (rne_make c0 g) q qd z fext (fd_T st) Hok Cr Hq Hqd Lz B3 Hf) as (T0 & ET & LT & _). rewrite ET. cbn [obind].
  change (E_NOERROR <? 0)%Z with false. cbn iota.
  destruct (load_loop (ch_nj c) M tau T0 (fd_Heig st) (fd_Teig st) M1 M2 Ht LT B4 B5 B6) as (He & Te & -> & C1 & C2 & C3 & C4 & C5). cbn [obind].
  destruct (ldl_sizes He Te (fd_L st) (fd_D st) (fd_r st) (fd_acc st) (ch_nj c) C1 C2 C3 B7 B8 B9 B10 B11) as (L' & D' & y & x & -> & D1 & D2 & D3 & D4 & D5 & S).
  cbn [obind]. rewrite copy_loop by assumption. cbn [obind].
  do 5 eexists. split; [reflexivity|]. split.
  { unfold fd_inv. cbn [fd_dyn fd_id fd_H fd_T fd_Heig fd_Teig fd_L fd_D fd_r fd_acc]. rewrite N1. do 12 (split; [first [assumption|reflexivity]|]). assumption. }
  split; [exact D5|]. split; [reflexivity|]. split; [exact Lz|]. split; [exact Z|]. split; [exact ET|].
  intros P i Hi. rewrite <- C5 by exact Hi.
  assert (P' : pivots_ok (ch_nj c) (mentry He)) by (apply (pivots_ext _ (mentry M)); [intros a b Ha Hb; symmetry; apply C4; auto|exact P]).
  rewrite <- (S P' i Hi). apply sumn_ext. intros j Hj. rewrite C4 by auto. reflexivity.
Qed.

(** RNE = RNE at zero acceleration plus H qdd *)
Lemma rne_slope g c rs ds q qd qdd z fext tau tau0 H M T T0 : chain_ok c -> inertias_symmetric c ->
  rne_reach g c rs -> rne_current c rs -> dyn_reach g c ds -> dyn_current c ds ->
  length q = ch_nj c -> length qd = ch_nj c -> length qdd = ch_nj c -> length z = ch_nj c -> (forall j, nth j z 0 = 0) ->
  length tau = ch_nj c -> length tau0 = ch_nj c -> length fext = ch_ns c -> mrows H = ch_nj c -> mcols H = ch_nj c ->
  dyn_JntToMass c ds q H = Ret (E_NOERROR, M) ->
  rne_CartToJnt c rs q qd qdd fext tau = Ret (E_NOERROR, T) -> rne_CartToJnt c rs q qd z fext tau0 = Ret (E_NOERROR, T0) ->
  forall j, (j < ch_nj c)%nat -> nth j T 0 = nth j T0 0 + sumn (ch_nj c) (fun m => mentry M j m * nth m qdd 0).
Proof.
  intros Hok Sy Rr Rc Dr Dc Hq Hqd Hqdd Hz Z Ht Ht0 Hf R1 R2 EM ET ET0 j Hj.
  destruct (rne_affine g c rs ds q qd qdd fext tau H q q Hok Sy Rr Rc Dr Dc Hq Hqd Hqdd Ht Hf R1 R2 Hq Hq)
    as (T' & M' & C & G & E1 & _ & E2 & _ & _ & E3 & _ & E4 & _ & K).
  destruct (rne_affine g c rs ds q qd z fext tau0 H q q Hok Sy Rr Rc Dr Dc Hq Hqd Hz Ht0 Hf R1 R2 Hq Hq)
    as (T2 & M2 & C2 & G2 & F1 & _ & F2 & _ & _ & F3 & _ & F4 & _ & K2).
  rewrite ET in E1. injection E1 as <-. rewrite ET0 in F1. injection F1 as <-. rewrite EM in E2, F2. injection E2 as <-. injection F2 as <-.
  rewrite E3 in F3. injection F3 as <-. rewrite E4 in F4. injection F4 as <-.
  rewrite (K j Hj), (K2 j Hj). rewrite (sumn_zero (ch_nj c) (fun m => mentry M j m * nth m z 0)) by (intros; rewrite Z; ring). ring.
Qed.
(** torques do not depend on the history of the solver object *)
Lemma rne_same g c rs rs' q qd qdd fext tau tau' : chain_ok c -> rne_reach g c rs -> rne_current c rs -> rne_reach g c rs' -> rne_current c rs' ->
  length q = ch_nj c -> length qd = ch_nj c -> length qdd = ch_nj c -> length tau = ch_nj c -> length tau' = ch_nj c -> length fext = ch_ns c ->
  rne_CartToJnt c rs q qd qdd fext tau = rne_CartToJnt c rs' q qd qdd fext tau'.
Proof.
  intros Hok Rr Rc Rr' Rc' Hq Hqd Hqdd Ht Ht' Hf.
  destruct (rne_result c rs q qd qdd fext tau Hok Rc Hq Hqd Hqdd Ht Hf) as (T & -> & LT & HT).
  destruct (rne_result c rs' q qd qdd fext tau' Hok Rc' Hq Hqd Hqdd Ht' Hf) as (T' & -> & LT' & HT').
  f_equal. f_equal. apply nth_ext_R; [congruence|]. rewrite LT. intros j Hj.
  destruct (joint_segment c j (proj1 Hok) Hj) as (i & Hi & Mi & <-). rewrite (HT i Hi Mi), (HT' i Hi Mi).
  rewrite (rne_reach_ag g c rs Rr), (rne_reach_ag g c rs' Rr'). reflexivity.
Qed.
Lemma rne_z_ext c rs q qd z z' fext tau : chain_ok c -> rne_current c rs ->
  length q = ch_nj c -> length qd = ch_nj c -> length z = ch_nj c -> length z' = ch_nj c -> (forall j, nth j z 0 = nth j z' 0) ->
  length tau = ch_nj c -> length fext = ch_ns c -> rne_CartToJnt c rs q qd z fext tau = rne_CartToJnt c rs q qd z' fext tau.
Proof. intros. f_equal. apply nth_ext_R; [congruence|]. auto. Qed.
Lemma mass_same g c ds ds' q H H' M M' : chain_ok c -> inertias_symmetric c -> dyn_reach g c ds -> dyn_current c ds -> dyn_reach g c ds' -> dyn_current c ds' ->
  length q = ch_nj c -> mrows H = ch_nj c -> mcols H = ch_nj c -> mrows H' = ch_nj c -> mcols H' = ch_nj c ->
  dyn_JntToMass c ds q H = Ret (E_NOERROR, M) -> dyn_JntToMass c ds' q H' = Ret (E_NOERROR, M') ->
  forall i j, (i < ch_nj c)%nat -> (j < ch_nj c)%nat -> mentry M i j = mentry M' i j.
Proof.
  intros Hok Sy Dr Dc Dr' Dc' Hq R1 R2 R1' R2' E E' a b Ha Hb. pose proof Hok as [Hw _].
  destruct (mass_entry c ds q H M Hok Sy Dc Hq R1 R2 E) as (_ & _ & K). destruct (mass_entry c ds' q H' M' Hok Sy Dc' Hq R1' R2' E') as (_ & _ & K').
  destruct (joint_segment c a Hw Ha) as (i & Hi & Mi & <-), (joint_segment c b Hw Hb) as (l & Hl & Ml & <-).
  rewrite K, K' by auto. reflexivity.
Qed.

Lemma same_counts_reach g c0 c : dyn_reach g c (dyn_make c0 g) /\ rne_reach g c (rne_make c0 g).
Proof. split; [apply (dyn_r_edit g c0), dyn_r_make|apply (rne_r_edit g c0), rne_r_make]. Qed.

(** stale embedded solvers: the call fails *)
Lemma fd_stale g c0 c st q qd tau fext qdd : ~ same_counts c0 c -> fd_inv g c0 st ->
  (exists st', fd_CartToJnt c st q qd tau fext qdd = Ret (E_NOT_UP_TO_DATE, qdd, st') /\ fd_inv g c0 st') \/
  fd_CartToJnt c st q qd tau fext qdd = Ret (E_SIZE_MISMATCH, qdd, st).
Proof.
  intros Ns I. unfold fd_CartToJnt. destruct (negb (Nat.eqb (fd_nj st) (ch_nj c)) || negb (Nat.eqb (fd_ns st) (ch_ns c))); [left; exists st; auto|].
  match goal with |- context [if negb ?b then Ret (E_SIZE_MISMATCH, _, _) else _] => destruct b end; cbn [negb]; [|auto]. cbv zeta.
  pose proof I as (I1 & I2 & K). rewrite I1. rewrite mass_stale by (intros [A B]; apply Ns; split; [exact A|exact B]). cbn [obind].
  change (E_NOT_UP_TO_DATE <? 0)%Z with true. cbn iota. left. eexists; split; [reflexivity|]. unfold fd_inv. cbn. split; [reflexivity|]. split; [exact I2|]. exact K.
Qed.
Lemma fd_reach_inv g c0 c st : chain_ok c0 -> fd_reach g c0 c st -> fd_inv g c0 st /\ chain_ok c.
Proof.
  intros H0. induction 1 as [|c c' st _ [IH _] Hc|c st _ [IH Hc]|c st q qd tau fext qdd code out st' _ [IH Hc] E].
  - split; [apply fd_inv_make|exact H0].
  - split; [exact IH|exact Hc].
  - split; [|exact Hc]. unfold fd_inv, fd_update in *. cbn. exact IH.
  - split; [|exact Hc].
    destruct (Nat.eq_dec (ch_nj c0) (ch_nj c)) as [N1|N1]; [destruct (Nat.eq_dec (ch_ns c0) (ch_ns c)) as [N2|N2]|].
    2,3: destruct (fd_stale g c0 c st q qd tau fext qdd (fun H => match H with conj a b => ltac:(tauto) end) IH) as [(st1 & E1 & I1)|E1];
         rewrite E in E1; injection E1 as -> -> ->; auto.
    destruct (Nat.eq_dec (fd_nj st) (ch_nj c)) as [F1|F1].
    2:{ revert E. unfold fd_CartToJnt. destruct (Nat.eqb_spec (fd_nj st) (ch_nj c)); [contradiction|]. cbn [negb orb]. intros E. injection E as _ _ <-. exact IH. }
    destruct (Nat.eq_dec (fd_ns st) (ch_ns c)) as [F2|F2].
    2:{ revert E. unfold fd_CartToJnt. destruct (Nat.eqb_spec (fd_nj st) (ch_nj c)), (Nat.eqb_spec (fd_ns st) (ch_ns c)); try contradiction. cbn [negb orb]. intros E. injection E as _ _ <-. exact IH. }
    destruct (Nat.eq_dec (length q) (ch_nj c)) as [L1|L1]; [destruct (Nat.eq_dec (length qd) (ch_nj c)) as [L2|L2]; [destruct (Nat.eq_dec (length qdd) (ch_nj c)) as [L3|L3];
      [destruct (Nat.eq_dec (length tau) (ch_nj c)) as [L4|L4]; [destruct (Nat.eq_dec (length fext) (ch_ns c)) as [L5|L5]|]|]|]|].
    1:{ destruct (fd_result g c0 c st q qd tau fext qdd Hc (conj N1 N2) IH (conj F1 F2) L1 L2 L4 L3 L5) as (o & s1 & _ & _ & _ & E1 & I1 & _).
        rewrite E in E1. injection E1 as _ _ ->. exact I1. }
    all: revert E; unfold fd_CartToJnt; rewrite F1, F2, !Nat.eqb_refl; cbn [negb orb];
      match goal with |- context [if negb ?b then Ret (E_SIZE_MISMATCH, _, _) else _] => destruct b eqn:Eb end; cbn [negb];
      [exfalso; rewrite !andb_true_iff, !Nat.eqb_eq in Eb; tauto|intros E; injection E as _ _ <-; exact IH].
Qed.

Theorem fd_then_id g c0 c st rs q qd tau fext qdd tau0 ds H M : chain_ok c0 -> fd_reach g c0 c st -> same_counts c0 c -> fd_current c st ->
  inertias_symmetric c -> rne_reach g c rs -> rne_current c rs -> dyn_reach g c ds -> dyn_current c ds -> mrows H = ch_nj c -> mcols H = ch_nj c ->
  length q = ch_nj c -> length qd = ch_nj c -> length tau = ch_nj c -> length qdd = ch_nj c -> length fext = ch_ns c -> length tau0 = ch_nj c ->
  dyn_JntToMass c ds q H = Ret (E_NOERROR, M) -> pivots_ok (ch_nj c) (mentry M) ->
  exists out st', fd_CartToJnt c st q qd tau fext qdd = Ret (E_NOERROR, out, st') /\ length out = ch_nj c /\
    rne_CartToJnt c rs q qd out fext tau0 = Ret (E_NOERROR, tau) /\
    (forall a, length a = ch_nj c -> rne_CartToJnt c rs q qd a fext tau0 = Ret (E_NOERROR, tau) -> out = a).
Proof.
  intros H0 Fr Sc Fc Sy Rr Rc Dr Dc R1 R2 Hq Hqd Ht Hqdd Hf Ht0 EM Pv. destruct (fd_reach_inv g c0 c st H0 Fr) as [I Hok].
  destruct (same_counts_reach g c0 c) as [Dr0 Rr0]. pose proof (dyn_make_current c0 g c Sc) as Dc0. pose proof (rne_make_current c0 g c Sc) as Rc0.
  destruct (fd_result g c0 c st q qd tau fext qdd Hok Sc I Fc Hq Hqd Ht Hqdd Hf) as (out & st' & M0 & T0 & z & E & I' & Lo & EM0 & Lz & Z & ET0 & S).
  assert (Hs : mrows (fd_H st) = ch_nj c /\ mcols (fd_H st) = ch_nj c /\ length (fd_T st) = ch_nj c).
  { destruct I as (_ & _ & B1 & B2 & B3 & _). destruct Sc as [N1 _]. rewrite <- N1. auto. }
  destruct Hs as (S1 & S2 & S3).
  pose proof (mass_same g c _ _ q _ _ _ _ Hok Sy Dr Dc Dr0 Dc0 Hq R1 R2 S1 S2 EM EM0) as EqM.
  assert (P0 : pivots_ok (ch_nj c) (mentry M0)) by (apply (pivots_ext _ (mentry M)); auto). specialize (S P0).
  rewrite (rne_same g c _ rs q qd z fext (fd_T st) tau0 Hok Rr0 Rc0 Rr Rc Hq Hqd Lz S3 Ht0 Hf) in ET0.
  exists out, st'. split; [exact E|]. split; [exact Lo|].
  assert (Sl : forall a, length a = ch_nj c -> exists T, rne_CartToJnt c rs q qd a fext tau0 = Ret (E_NOERROR, T) /\ length T = ch_nj c /\
     forall j, (j < ch_nj c)%nat -> nth j T 0 = nth j T0 0 + sumn (ch_nj c) (fun m => mentry M j m * nth m a 0)).
  { intros a La. destruct (rne_result c rs q qd a fext tau0 Hok Rc Hq Hqd La Ht0 Hf) as (T & ET & LT & _). exists T. split; [exact ET|]. split; [exact LT|].
    apply (rne_slope g c rs ds q qd a z fext tau0 tau0 H M T T0); auto. }
  split.
  - destruct (Sl out Lo) as (T & ET & LT & HT). rewrite ET. f_equal. f_equal. apply nth_ext_R; [congruence|]. rewrite LT. intros j Hj.
    rewrite (HT j Hj). rewrite (sumn_ext _ _ (fun m => mentry M0 j m * nth m out 0)) by (intros m Hm; rewrite EqM by auto; reflexivity).
    rewrite (S j Hj). ring.
  - intros a La Ea. destruct (Sl a La) as (T & ET & LT & HT). rewrite Ea in ET. injection ET as <-.
    set (b := tolist (ch_nj c) (fun i => nth i tau 0 - nth i T0 0)).
    apply (pivots_unique (ch_nj c) (mentry M) out a b Pv Lo La); intros i Hi; unfold b; rewrite tolist_nth by exact Hi.
    + rewrite (sumn_ext _ _ (fun m => mentry M0 i m * nth m out 0)) by (intros m Hm; rewrite EqM by auto; reflexivity). apply S, Hi.
    + rewrite (HT i Hi). ring.
Qed.

(** never recovers after the counters changed *)
Theorem fd_never_recovers g c0 c st q qd tau fext qdd : chain_ok c0 -> fd_reach g c0 c st -> ~ same_counts c0 c ->
  exists code st', fd_CartToJnt c st q qd tau fext qdd = Ret (code, qdd, st') /\ (code = E_NOT_UP_TO_DATE \/ code = E_SIZE_MISMATCH).
Proof.
  intros H0 Fr Ns. destruct (fd_reach_inv g c0 c st H0 Fr) as [I _].
  destruct (fd_stale g c0 c st q qd tau fext qdd Ns I) as [(st' & E & _)|E]; [exists E_NOT_UP_TO_DATE, st'|exists E_SIZE_MISMATCH, st]; auto.
Qed.

(** * Runge-Kutta *)
Lemma map2_nth (f : R -> R -> R) : forall a b i, (i < length a)%nat -> (i < length b)%nat -> nth i (map2 f a b) 0 = f (nth i a 0) (nth i b 0).
Proof. induction a as [|x a IH]; intros [|y b] [|i] Ha Hb; simpl in *; try lia; auto. apply IH; lia. Qed.
Lemma map2_length (f : R -> R -> R) : forall a b, length b = length a -> length (map2 f a b) = length a.
Proof. induction a as [|x a IH]; intros [|y b] H; simpl in *; try lia. rewrite IH; lia. Qed.
Lemma axpy_map2 h x y : axpy h x y = map2 (fun a b => a + h * b) x y.
Proof. revert y. induction x as [|a x IH]; intros [|b y]; try reflexivity. unfold axpy in *. simpl. rewrite IH. reflexivity. Qed.
Lemma map2_ext (f g : R -> R -> R) x y : (forall a b, f a b = g a b) -> map2 f x y = map2 g x y.
Proof. intros H. revert y. induction x as [|a x IH]; intros [|b y]; simpl; auto. rewrite H, IH. reflexivity. Qed.
Lemma map2_axpy (f : R -> R -> R) h x y : (forall a b, f a b = a + h * b) -> map2 f x y = axpy h x y.
Proof. intros H. rewrite axpy_map2. apply map2_ext, H. Qed.
Lemma map2_swap_length (f : R -> R -> R) x y n : length x = n -> length y = n -> length (map2 f x y) = n.
Proof. intros Hx Hy. rewrite map2_length by congruence. exact Hx. Qed.
Lemma axpy_length h x y n : length x = n -> length y = n -> length (axpy h x y) = n.
Proof. intros. rewrite axpy_map2. apply map2_swap_length; auto. Qed.

Section RKfacts.
Variables (fd : list R -> list R -> list R -> list R) (acc : list R -> list R -> list R) (n : nat).
Hypothesis Hfd : forall q v old, length q = n -> length v = n -> length old = n -> fd q v old = acc q v.
Hypothesis Hacc : forall q v, length q = n -> length v = n -> length (acc q v) = n.
Lemma Lfd q v old : length q = n -> length v = n -> length old = n -> length (fd q v old) = n.
Proof. intros. rewrite Hfd by assumption. apply Hacc; assumption. Qed.
Theorem rk4_velocity dt q v old : length q = n -> length v = n -> length old = n ->
  snd (rk4_step fd dt q v old) = snd (rk4_classical acc dt q v).
Proof.
  intros Hq Hv Ho. unfold rk4_step, rk4_classical. cbv zeta. cbn [snd].
  assert (A : forall h x y, map2 (fun x v => x + v * h / 2) x y = axpy (h / 2) x y) by (intros; apply map2_axpy; intros; field).
  assert (B : forall x y, map2 (fun d a => d + 2 * a) x y = axpy 2 x y) by (intros; apply map2_axpy; intros; ring).
  assert (C : forall h x y, map2 (fun x v => x + v * h) x y = axpy h x y) by (intros; apply map2_axpy; intros; ring).
  rewrite !A, !B, !C.
  assert (Lx : forall h x y, length x = n -> length y = n -> length (axpy h x y) = n) by (intros; apply axpy_length; auto).
  rewrite !Hfd by (repeat first [assumption | apply Lx | apply Hacc | apply Lfd]). 
  assert (D : forall h d a x, length x = n -> length d = n -> length a = n -> map2 Rplus x (map2 (fun d a => (d + a) * h / 6) d a) = axpy (h / 6) x (axpy 1 d a)).
  { intros h d a x L1 L2 L3. assert (L4 : length (axpy 1 d a) = n) by (apply Lx; auto). rewrite axpy_map2. apply nth_ext_R.
    { rewrite !map2_length; congruence || (rewrite ?map2_length; congruence). }
    rewrite map2_length by (rewrite map2_length; congruence). intros i Hi. rewrite !map2_nth by (rewrite ?map2_length; try lia).
    rewrite axpy_map2, map2_nth by lia. field. }
  rewrite D; [reflexivity|assumption| |]; repeat first [assumption | apply Lx | apply Hacc].
Qed.
(** the position update, with the stage velocities k1x .. k4x *)
Theorem rk4_position dt q v old : length q = n -> length v = n -> length old = n ->
  let k1v := acc q v in
  let k2x := axpy (dt / 2) v k1v in  let k2v := acc (axpy (dt / 2) q v) k2x in
  let k3x := axpy (dt / 2) v k2v in  let k3v := acc (axpy (dt / 2) q k2x) k3x in
  let k4x := axpy dt v k3v in
  fst (rk4_step fd dt q v old) = axpy (dt / 6) q (axpy 3 (axpy 2 v k3x) k4x).
Proof.
  intros Hq Hv Ho. unfold rk4_step. cbv zeta. cbn [fst].
  assert (A : forall h x y, map2 (fun x v => x + v * h / 2) x y = axpy (h / 2) x y) by (intros; apply map2_axpy; intros; field).
  assert (B : forall x y, map2 (fun d a => d + 2 * a) x y = axpy 2 x y) by (intros; apply map2_axpy; intros; ring).
  assert (C : forall h x y, map2 (fun x v => x + v * h) x y = axpy h x y) by (intros; apply map2_axpy; intros; ring).
  rewrite !A, !B, !C.
  assert (Lx : forall h x y, length x = n -> length y = n -> length (axpy h x y) = n) by (intros; apply axpy_length; auto).
  rewrite !Hfd by (repeat first [assumption | apply Lx | apply Hacc | apply Lfd]).
  set (k3 := axpy (dt / 2) v (acc (axpy (dt / 2) q v) (axpy (dt / 2) v (acc q v)))).
  set (k4 := axpy dt v _).
  assert (L3 : length k3 = n) by (unfold k3; repeat first [assumption | apply Lx | apply Hacc]).
  assert (L4 : length k4 = n) by (unfold k4; repeat first [assumption | apply Lx | apply Hacc]).
  clearbody k3 k4. rewrite !axpy_map2.
  assert (M : forall (f : R -> R -> R) x y, length x = n -> length y = n -> length (map2 f x y) = n) by (intros; apply map2_swap_length; auto).
  apply nth_ext_R. { rewrite !M by (repeat first [assumption | apply M]); reflexivity. }
  rewrite M by (repeat first [assumption | apply M]). intros i Hi.
  rewrite !map2_nth by (repeat first [assumption | rewrite M | lia | apply M]). field.
Qed.
End RKfacts.

Theorem rk4_refuted : forall a h x v, a <> 0 -> h <> 0 ->
  rk4_step (fun _ _ _ => [a]) h [x] [v] [0] = ([x + v * h + 2 / 3 * a * h * h], [v + a * h]) /\
  rk4_classical (fun _ _ => [a]) h [x] [v] = ([x + v * h + 1 / 2 * a * h * h], [v + a * h]) /\
  fst (rk4_step (fun _ _ _ => [a]) h [x] [v] [0]) <> fst (rk4_classical (fun _ _ => [a]) h [x] [v]).
Proof.
  intros a h x v Ha Hh.
  assert (E1 : rk4_step (fun _ _ _ => [a]) h [x] [v] [0] = ([x + v * h + 2 / 3 * a * h * h], [v + a * h])).
  { unfold rk4_step. cbn [map2]. f_equal; f_equal; field. }
  assert (E2 : rk4_classical (fun _ _ => [a]) h [x] [v] = ([x + v * h + 1 / 2 * a * h * h], [v + a * h])).
  { unfold rk4_classical, axpy. cbn [map combine fst snd]. f_equal; f_equal; field. }
  split; [exact E1|]. split; [exact E2|]. rewrite E1, E2. cbn [fst]. intros E. injection E as E.
  assert (a * h * h = 0) by lra. assert (a * h * h <> 0) by (apply Rmult_integral_contrapositive_currified; auto; apply Rmult_integral_contrapositive_currified; auto). auto.
Qed.

(** * Protocol (C26) *)
Lemma rne_protocol c st q qd qdd fext tau :
  (~ rne_current c st -> rne_CartToJnt c st q qd qdd fext tau = Ret (E_NOT_UP_TO_DATE, tau)) /\ rne_current c (rne_update c st).
Proof. split; [apply rne_stale|split; reflexivity]. Qed.
Lemma rne_recovers g c st q qd qdd fext tau : chain_ok c -> rne_reach g c st ->
  length q = ch_nj c -> length qd = ch_nj c -> length qdd = ch_nj c -> length tau = ch_nj c -> length fext = ch_ns c ->
  exists T, rne_CartToJnt c (rne_update c st) q qd qdd fext tau = Ret (E_NOERROR, T) /\
            rne_CartToJnt c (rne_make c g) q qd qdd fext tau = Ret (E_NOERROR, T).
Proof.
  intros Hok Hr Hq Hqd Hqdd Ht Hf.
  assert (R1 : rne_reach g c (rne_update c st)) by (apply rne_r_update; exact Hr).
  assert (C1 : rne_current c (rne_update c st)) by (split; reflexivity).
  assert (R2 : rne_reach g c (rne_make c g)) by apply rne_r_make.
  assert (C2 : rne_current c (rne_make c g)) by (split; reflexivity).
  destruct (rne_result c (rne_update c st) q qd qdd fext tau Hok C1 Hq Hqd Hqdd Ht Hf) as (T & E & _). exists T. split; [exact E|].
  rewrite <- E. apply (rne_same g); auto.
Qed.
Lemma dyn_stale c st q qd H out : dp_nj st = rn_nj (dp_coriolis st) -> dp_ns st = rn_ns (dp_coriolis st) ->
  dp_nj st = rn_nj (dp_gravity st) -> dp_ns st = rn_ns (dp_gravity st) -> ~ dyn_current c st ->
  dyn_JntToMass c st q H = Ret (E_NOT_UP_TO_DATE, H) /\
  dyn_JntToCoriolis c st q qd out = Ret (E_NOT_UP_TO_DATE, out) /\ dyn_JntToGravity c st q out = Ret (E_NOT_UP_TO_DATE, out).
Proof.
  intros A1 A2 A3 A4 N. split; [apply mass_stale, N|]. unfold dyn_JntToCoriolis, dyn_JntToGravity.
  split; apply rne_stale; intros [B1 B2]; apply N; split; congruence.
Qed.
Lemma dyn_protocol g c st q qd H out : dyn_reach g c st ->
  (~ dyn_current c st -> dyn_JntToMass c st q H = Ret (E_NOT_UP_TO_DATE, H) /\
     dyn_JntToCoriolis c st q qd out = Ret (E_NOT_UP_TO_DATE, out) /\ dyn_JntToGravity c st q out = Ret (E_NOT_UP_TO_DATE, out)) /\
  dyn_current c (dyn_update c st).
Proof.
  intros Hr. destruct (dyn_reach_inv g c st Hr) as (_ & _ & A3 & A4 & A5 & A6 & _).
  split; [apply dyn_stale; congruence|split; reflexivity].
Qed.
Lemma dyn_recovers g c st q qd H out : chain_ok c -> dyn_reach g c st ->
  length q = ch_nj c -> length qd = ch_nj c -> length out = ch_nj c -> mrows H = ch_nj c -> mcols H = ch_nj c -> inertias_symmetric c ->
  exists M M' C G, dyn_JntToMass c (dyn_update c st) q H = Ret (E_NOERROR, M) /\ dyn_JntToMass c (dyn_make c g) q H = Ret (E_NOERROR, M') /\
    (forall i j, (i < ch_nj c)%nat -> (j < ch_nj c)%nat -> mentry M i j = mentry M' i j) /\
    dyn_JntToCoriolis c (dyn_update c st) q qd out = Ret (E_NOERROR, C) /\ dyn_JntToCoriolis c (dyn_make c g) q qd out = Ret (E_NOERROR, C) /\
    dyn_JntToGravity c (dyn_update c st) q out = Ret (E_NOERROR, G) /\ dyn_JntToGravity c (dyn_make c g) q out = Ret (E_NOERROR, G).
Proof.
  intros Hok Hr Hq Hqd Ho R1 R2 Sy.
  assert (Q1 : dyn_reach g c (dyn_update c st)) by (apply dyn_r_update; exact Hr).
  assert (C1 : dyn_current c (dyn_update c st)) by (split; reflexivity).
  assert (Q2 : dyn_reach g c (dyn_make c g)) by apply dyn_r_make.
  assert (C2 : dyn_current c (dyn_make c g)) by (split; reflexivity).
  destruct (mass_result c _ q H Hok C1 Hq R1 R2) as (M & EM & _). destruct (mass_result c _ q H Hok C2 Hq R1 R2) as (M' & EM' & _).
  destruct (coriolis_result g c _ q qd out Hok Q1 C1 Hq Hqd Ho) as (C & EC & LC & HC).
  destruct (coriolis_result g c _ q qd out Hok Q2 C2 Hq Hqd Ho) as (C' & EC' & LC' & HC').
  destruct (gravity_result g c _ q out Hok Q1 C1 Hq Ho) as (G & EG & LG & HG).
  destruct (gravity_result g c _ q out Hok Q2 C2 Hq Ho) as (G' & EG' & LG' & HG').
  assert (Eq : forall (a b : list R), length a = ch_nj c -> length b = ch_nj c ->
     (forall i, (i < ch_ns c)%nat -> mv c i = true -> nth (kidx c i) a 0 = nth (kidx c i) b 0) -> a = b).
  { intros a b La Lb K. apply nth_ext_R; [congruence|]. rewrite La. intros j Hj. destruct (joint_segment c j (proj1 Hok) Hj) as (i & Hi & Mi & <-). apply K; auto. }
  assert (C' = C) as -> by (apply Eq; auto; intros i Hi Mi; rewrite HC, HC' by auto; reflexivity).
  assert (G' = G) as -> by (apply Eq; auto; intros i Hi Mi; rewrite HG, HG' by auto; reflexivity).
  exists M, M', C, G. split; [exact EM|]. split; [exact EM'|]. split; [apply (mass_same g c _ _ q H H M M' Hok Sy Q1 C1 Q2 C2 Hq R1 R2 R1 R2 EM EM')|]. auto.
Qed.
