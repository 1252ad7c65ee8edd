(** The solver: invariants of a used object, accuracy and termination of its calls. *)
From Coq Require Import Reals List ZArith Lra Lia Bool Arith.
From Verif Require Import FramesModel Outcome LoopProofs DualModel KinModel KinSpec JacDotProofs LinModel LinSpec SumProofs LmaSpec LmaProofs LmaProofs2 SvdModel SvdFinal
  VelIkModel VelIkSpec VelIkLin VelIkProofs GivensModel GivensSpec GivensLin GivensLoop GivensFactor.
Import ListNotations.
Local Open Scope list_scope.
Local Open Scope R_scope.

Lemma thr15_pos : 0 < thr15.
Proof. unfold thr15. lra. Qed.
Lemma nearly_ext rows n X Y : (forall a i, (a < rows)%nat -> (i < n)%nat -> X a i = Y a i) -> nearly rows n X -> nearly rows n Y.
Proof.
  intros H [H1 H2]. assert (Q : forall x, sq rows (mv n Y x) = sq rows (mv n X x)).
  { intros x. apply sq_ext. intros a Ha. apply mv_ext; [|reflexivity]. intros k Hk. symmetry. apply H; assumption. }
  split; intros x; rewrite Q; auto.
Qed.
Lemma nearly_eye m n : (n <= m)%nat -> nearly m n eye.
Proof.
  intros H. assert (Q : forall x, sq m (mv n eye x) = sq n x).
  { intros x. assert (M : forall a, mv n eye x a = if Nat.ltb a n then x a else 0).
    { intros a. unfold mv, eye. destruct (Nat.ltb_spec a n) as [L|L]; [apply (sumn_delta' n a x L)|]. apply sumn_zero. intros k Hk. eqbs. ring. }
    unfold sq. rewrite (sumn_trunc m n) by (first [exact H | intros i Hi; rewrite M; rewrite (proj2 (Nat.ltb_ge i n)) by lia; ring]).
    apply sumn_ext. intros i Hi. rewrite M, (proj2 (Nat.ltb_lt i n) Hi). reflexivity. }
  split; intros x; rewrite Q; pose proof (sq_nn n x); unfold eps6; lra.
Qed.
Lemma spun_nearly rows n B W B' W' : spun n B W B' W' -> nearly rows n W -> nearly rows n W'.
Proof. intros H [H1 H2]. split; [apply (spun_stretches rows n _ _ _ _ _ H), H1 | apply (spun_at_most rows n _ _ _ _ _ H), H2]. Qed.

(** ** The loop at the solver's threshold *)
Lemma moved_two rows n fuel B W F Sg W' F' Sg' k' : jacobi fuel thr15 rows n B W F Sg 0 = Ret (Some (W', F', Sg', k')) -> (0 < k')%nat -> (2 <= n)%nat.
Proof.
  intros E K. destruct (Nat.lt_ge_cases n 2) as [L|L]; [|exact L]. exfalso. destruct fuel as [|fuel]; [discriminate|].
  rewrite (jacobi_idle thr15 rows n thr15_pos) in E by (intros; lia). injection E as _ _ _ <-. lia.
Qed.
Lemma jacobi_factor rows n fuel B W F Sg W' F' Sg' k' : (n <= 6)%nat -> jacobi fuel thr15 rows n B W F Sg 0 = Ret (Some (W', F', Sg', k')) ->
  (forall r, nearly r n W -> nearly r n W') /\ (nearly rows n F -> nearly rows n F') /\
  exists Bf, spun n B W Bf W' /\ (forall i j, (i < j < n)%nat -> alone thr15 rows Bf i j) /\
  ((exists i j, (i < j < n)%nat /\ ~ alone thr15 rows B i j) -> (2 <= n)%nat /\ unitary rows n F' /\
     exists s, (forall i, (i < n)%nat -> Sg' i = Some (s i) /\ 0 < s i) /\ forall a i, (i < n)%nat -> F' a i * s i = Bf a i).
Proof.
  intros Hn E. destruct (jacobi_result thr15 rows n thr15_pos _ _ _ _ _ _ _ _ _ _ E) as (Bf & Sp & Al & _ & C).
  assert (Un : (0 < k')%nat -> F' = unit_columns rows n Bf -> unitary rows n F').
  { intros K ->. apply fresh_unitary; [apply (moved_two _ _ _ _ _ _ _ _ _ _ _ E K)|exact Al]. }
  split; [intros r; apply (spun_nearly r n B W Bf W' Sp)|]. split.
  - intros HF. destruct C as [(_ & _ & _ & -> & _) | (K & EF & _)]; [exact HF|]. apply unitary_nearly; [exact Hn|]. apply Un; assumption.
  - exists Bf. split; [exact Sp|]. split; [exact Al|]. intros (i & j & Hij & Na). destruct C as [(_ & -> & _) | (K & EF & Ls)]; [exfalso; apply Na, Al, Hij|].
    assert (N2 := moved_two _ _ _ _ _ _ _ _ _ _ _ E K). split; [exact N2|]. split; [apply Un; assumption|]. exists (len rows Bf). split.
    + intros a Ha. split; [apply Ls, Ha | apply (len_pos rows n Bf N2 Al a Ha)].
    + intros a b Hb. rewrite EF. apply (unit_entry rows n Bf N2 Al a b Hb).
Qed.

(** ** svd_eigen_Macie *)
Lemma macie_columns fuel m n A U Sg V U' Sg' V' k : (n <= 6)%nat -> svd_eigen_Macie fuel m n A U Sg V givens_threshold true = Ret (Some (U', Sg', V', k)) ->
  (forall r, nearly r n V -> nearly r n V') /\ (nearly m n U -> nearly m n U') /\
  exists Bf, (forall a x, mv n Bf x a = mv n A (mv n V' x) a) /\ (forall i j, (i < j < n)%nat -> alone thr15 m Bf i j) /\
  (skewed m n (fun a i => sumn n (fun k => A a k * V k i)) -> (2 <= n)%nat /\ unitary m n U' /\
    exists s, (forall i, (i < n)%nat -> Sg' i = Some (s i) /\ 0 < s i) /\ forall a i, (i < n)%nat -> sumn n (fun k => A a k * V' k i) = U' a i * s i).
Proof.
  intros Hn E. unfold svd_eigen_Macie in E. change givens_threshold with thr15 in E. apply obind_Ret_inv in E as (r & E & X).
  destruct r as [[[[W1 F1] S1] k1]|]; [|discriminate]. injection X as <- <- <- <-.
  destruct (jacobi_factor _ _ _ _ _ _ _ _ _ _ _ Hn E) as (N1 & N2 & Bf & Sp & Al & C). split; [exact N1|]. split; [exact N2|]. exists Bf.
  assert (Pr : forall a x, mv n Bf x a = mv n A (mv n W1 x) a).
  { intros a. apply (spun_product n n A _ _ _ _ a Sp). intros x. rewrite mv_mv. apply mv_ext; [|reflexivity]. intros. apply total_sum. }
  split; [exact Pr|]. split; [exact Al|]. intros Sk. destruct C as (H2 & Hu & s & Hs & He).
  - destruct Sk as (i & j & Hij & Na). exists i, j. split; [exact Hij|]. intros A1. apply Na. unfold alone, thr15 in A1.
    assert (G : forall a b, gram m (fun a b => total n (fun k => A a k * V k b)) a b = gram m (fun a i => sumn n (fun k => A a k * V k i)) a b)
      by (intros a b; apply sumn_ext; intros; rewrite !total_sum; reflexivity).
    rewrite !G in A1. exact A1.
  - split; [exact H2|]. split; [exact Hu|]. exists s. split; [exact Hs|]. intros a i Hi. rewrite (He a i Hi). rewrite <- (mv_basis n Bf i a Hi), Pr.
    apply sumn_ext. intros j Hj. rewrite mv_basis by exact Hi. reflexivity.
Qed.
Lemma macie_rows fuel m n A U Sg V U' Sg' V' k : (n <= 6)%nat -> svd_eigen_Macie fuel m n A U Sg V givens_threshold false = Ret (Some (U', Sg', V', k)) ->
  (forall r, nearly r n U -> nearly r n U') /\ (nearly n n V -> nearly n n V') /\
  exists Bf, (forall b x, mv n Bf x b = mv m (transposed A) (mv n U' x) b) /\ (forall i j, (i < j < n)%nat -> alone thr15 n Bf i j) /\
  (exists Q : (nat -> R) -> (nat -> R), forall x a, mv n U' x a = mv n U (Q x) a) /\
  (skewed n n (fun b i => sumn m (fun k => U k i * A k b)) -> (2 <= n)%nat /\ unitary n n V' /\
    exists s, (forall i, (i < n)%nat -> Sg' i = Some (s i) /\ 0 < s i) /\ forall b i, (i < n)%nat -> sumn m (fun k => U' k i * A k b) = s i * V' b i).
Proof.
  intros Hn E. unfold svd_eigen_Macie in E. change givens_threshold with thr15 in E. apply obind_Ret_inv in E as (r & E & X).
  destruct r as [[[[W1 F1] S1] k1]|]; [|discriminate]. injection X as <- <- <- <-.
  destruct (jacobi_factor _ _ _ _ _ _ _ _ _ _ _ Hn E) as (N1 & N2 & Bf & Sp & Al & C). split; [exact N1|]. split; [exact N2|]. exists Bf.
  assert (Pr : forall b x, mv n Bf x b = mv m (transposed A) (mv n W1 x) b).
  { intros b. apply (spun_product m n (transposed A) _ _ _ _ b Sp). intros x. rewrite mv_mv. apply mv_ext; [|reflexivity]. intros i _. rewrite total_sum. apply sumn_ext. intros; unfold transposed; ring. }
  split; [exact Pr|]. split; [exact Al|]. split; [destruct Sp as (Q & _ & _ & F); exists Q; exact F|]. intros Sk. destruct C as (H2 & Hu & s & Hs & He).
  - destruct Sk as (i & j & Hij & Na). exists i, j. split; [exact Hij|]. intros A1. apply Na. unfold alone, thr15 in A1.
    assert (G : forall a b, gram n (fun b i => total m (fun k => U k i * A k b)) a b = gram n (fun b i => sumn m (fun k => U k i * A k b)) a b)
      by (intros a b; apply sumn_ext; intros; rewrite !total_sum; reflexivity).
    rewrite !G in A1. exact A1.
  - split; [exact H2|]. split; [exact Hu|]. exists s. split; [exact Hs|]. intros b i Hi. rewrite (Rmult_comm (s i)), (He b i Hi). rewrite <- (mv_basis n Bf i b Hi), Pr.
    apply sumn_ext. intros j Hj. rewrite mv_basis by exact Hi. unfold transposed. ring.
Qed.

(** ** Objects in use *)
Definition gv_inv (c : Chain) (s : givens) : Prop :=
  gv_nj s = ch_nj c /\ gv_locked s = repeat false (ch_nj c) /\ length (gv_jac s) = ch_nj c /\
  nearly (gv_n (ch_nj c)) (gv_n (ch_nj c)) (gv_V s) /\ nearly (gv_m (ch_nj c)) (gv_n (ch_nj c)) (gv_U s).
Lemma gv_n6 nj : (gv_n nj <= 6)%nat.
Proof. unfold gv_n. lia. Qed.
Lemma gv_nm nj : (gv_n nj <= gv_m nj)%nat.
Proof. unfold gv_n, gv_m. lia. Qed.

Definition result_velocity (nj n : nat) (tr : bool) (U V : mat) (s : nat -> R) (v : Twist) : list R :=
  vlist nj (fun j => mv n (if tr then U else V) (fun i => 1 / s i * mv 6 (transposed (if tr then V else U)) (t_at v) i) j).
Definition jac_rows (c : Chain) (J : list Twist) : mat := fun i j =>
  if gv_transpose (ch_nj c) then t_at (nth i J t_zero) j else t_at (nth j J t_zero) i.
Lemma jac_rows_tall c q i j : jac_rows c (jacobian_at c (-1) q) i j = tall_jacobian c q i j.
Proof. reflexivity. Qed.

(** The accepted call *)
Lemma givens_now fuel c s q v qdot : chain_ok c -> gv_inv c s -> length q = ch_nj c -> length qdot = ch_nj c ->
  givens_CartToJnt fuel c s q v qdot =
  (let! r := svd_eigen_Macie fuel (gv_m (ch_nj c)) (gv_n (ch_nj c)) (tall_jacobian c q) (gv_U s) (gv_S s) (gv_V s) givens_threshold (negb (gv_toggle s)) in
   match r with
   | None => Ret None
   | Some (U, Sg, V, _) =>
     let! suy := entries (givens_suy Sg (fun i => if gv_transpose (ch_nj c) then total 6 (fun k => V k i * t_at v k) else total 6 (fun k => U k i * t_at v k))) 0 (gv_n (ch_nj c)) in
     Ret (Some (E_NOERROR,
       map (fun j => if gv_transpose (ch_nj c) then total (ch_nj c) (fun k => U j k * nth k suy 0) else total (ch_nj c) (fun k => V j k * nth k suy 0)) (seq 0 (ch_nj c)),
       mkGV (ch_nj c) (gv_locked s) (jacobian_at c (-1) q) (negb (gv_toggle s)) U Sg V E_NOERROR))
   end).
Proof.
  intros Hok (Hn & Hl & Hj & _) Hq Hd. unfold givens_CartToJnt. rewrite Hn, Hq, Hd, !Nat.eqb_refl. cbn [negb orb].
  rewrite Hl, (jac_now c q (gv_jac s) Hok Hq Hj). cbn [obind]. change (E_NOERROR <? 0)%Z with false. cbv iota. reflexivity.
Qed.
Lemma suy_entries n Sg uy s : (forall i, (i < n)%nat -> Sg i = Some (s i) /\ 0 < s i) -> entries (givens_suy Sg uy) 0 n = Ret (map (fun i => 1 / s i * uy i) (seq 0 n)).
Proof.
  intros H. apply entries_map. intros k Hk. unfold givens_suy. destruct (H k ltac:(lia)) as [-> P]. destruct (Req_EM_T (s k) 0); [lra|reflexivity].
Qed.
Lemma velocity_list c n U V s v : n = gv_n (ch_nj c) ->
  map (fun j => if gv_transpose (ch_nj c) then total (ch_nj c) (fun k => U j k * nth k (map (fun i => 1 / s i * (if gv_transpose (ch_nj c) then total 6 (fun k => V k i * t_at v k) else total 6 (fun k => U k i * t_at v k))) (seq 0 n)) 0)
    else total (ch_nj c) (fun k => V j k * nth k (map (fun i => 1 / s i * (if gv_transpose (ch_nj c) then total 6 (fun k => V k i * t_at v k) else total 6 (fun k => U k i * t_at v k))) (seq 0 n)) 0)) (seq 0 (ch_nj c))
  = result_velocity (ch_nj c) n (gv_transpose (ch_nj c)) U V s v.
Proof.
  intros ->. unfold result_velocity, vlist. apply map_ext_in. intros j Hj.
  assert (L : (gv_n (ch_nj c) <= ch_nj c)%nat) by (unfold gv_n; lia).
  destruct (gv_transpose (ch_nj c)); rewrite total_sum.
  - rewrite (sumn_trunc (ch_nj c) (gv_n (ch_nj c)) _ L).
    + apply sumn_ext. intros k Hk. rewrite nth_map_seq by exact Hk. rewrite total_sum. reflexivity.
    + intros k Hk. rewrite nth_overflow by (rewrite map_length, seq_length; lia). ring.
  - rewrite (sumn_trunc (ch_nj c) (gv_n (ch_nj c)) _ L).
    + apply sumn_ext. intros k Hk. rewrite nth_map_seq by exact Hk. rewrite total_sum. reflexivity.
    + intros k Hk. rewrite nth_overflow by (rewrite map_length, seq_length; lia). ring.
Qed.

Lemma make_inv c : gv_inv c (givens_make c).
Proof.
  unfold gv_inv, givens_make. cbn [gv_nj gv_locked gv_jac gv_V gv_U]. split; [reflexivity|]. split; [reflexivity|]. split; [apply repeat_length|].
  split; apply nearly_eye; [reflexivity|apply gv_nm].
Qed.
Lemma kept old X a i : (a < old)%nat -> (i < old)%nat -> keep_block old X a i = X a i.
Proof. intros Ha Hi. unfold keep_block. rewrite (proj2 (Nat.ltb_lt a old) Ha), (proj2 (Nat.ltb_lt i old) Hi). reflexivity. Qed.
Lemma update_inv c s : gv_inv c s -> gv_inv c (givens_update c s).
Proof.
  intros (Hn & Hl & Hj & HV & HU). unfold gv_inv, givens_update. cbn [gv_nj gv_locked gv_jac gv_V gv_U]. split; [reflexivity|].
  split; [rewrite Hl; unfold jacsolver_update; apply vec_resize_repeat|]. split; [apply vec_resize_length|]. rewrite Hn. pose proof (gv_nm (ch_nj c)).
  split; [apply (nearly_ext _ _ (gv_V s)); [|exact HV] | apply (nearly_ext _ _ (gv_U s)); [|exact HU]]; intros a i Ha Hi; symmetry; apply kept; lia.
Qed.
Lemma block_sq old n X x : (old <= n)%nat ->
  sq n (mv n (keep_block old X) x) - sq n x = sq old (mv old X x) - sq old x.
Proof.
  intros L. replace n with (old + (n - old))%nat by lia. set (d := (n - old)%nat). unfold sq. rewrite !sumn_split.
  assert (A : forall a, (a < old)%nat -> mv (old + d) (keep_block old X) x a = mv old X x a).
  { intros a Ha. unfold mv. rewrite sumn_split. rewrite (sumn_zero d).
    - rewrite Rplus_0_r. apply sumn_ext. intros k Hk. rewrite kept by assumption. reflexivity.
    - intros k Hk. unfold keep_block, eye. rewrite (proj2 (Nat.ltb_ge (old + k) old)) by lia. rewrite andb_false_r.
      destruct (Nat.eqb_spec a (old + k)); [lia|]. ring. }
  assert (B : forall i, (i < d)%nat -> mv (old + d) (keep_block old X) x (old + i) = x (old + i)%nat).
  { intros i Hi. unfold mv. rewrite (sumn_one (old + d) (old + i)%nat).
    2: lia.
    2:{ intros j Hj NE. unfold keep_block, eye. rewrite (proj2 (Nat.ltb_ge (old + i) old)) by lia. cbn [andb].
        destruct (Nat.eqb_spec (old + i) j); [lia|ring]. }
    unfold keep_block, eye. rewrite (proj2 (Nat.ltb_ge (old + i) old)) by lia. cbn [andb]. rewrite Nat.eqb_refl. ring. }
  rewrite (sumn_ext old (fun k => mv (old + d) (keep_block old X) x k * mv (old + d) (keep_block old X) x k) (fun k => mv old X x k * mv old X x k))
    by (intros i Hi; rewrite A by exact Hi; reflexivity).
  rewrite (sumn_ext d _ (fun i => x (old + i)%nat * x (old + i)%nat)) by (intros i Hi; rewrite B by exact Hi; reflexivity). ring.
Qed.
Lemma grown_V c c' s : chain_ok c -> gv_inv c s -> (ch_nj c <= ch_nj c')%nat ->
  nearly (gv_n (ch_nj c')) (gv_n (ch_nj c')) (gv_V (givens_update c' s)).
Proof.
  intros _ (Hn & _ & _ & HV & _) L. unfold givens_update. cbn [gv_V]. rewrite Hn. set (old := gv_n (ch_nj c)) in *. set (n := gv_n (ch_nj c')).
  assert (LE : (old <= n)%nat) by (unfold old, n, gv_n; lia). destruct HV as [H1 H2]. split; intros x.
  - pose proof (block_sq old n (gv_V s) x LE) as E. specialize (H1 x).
    assert (M : sq old x <= sq n x).
    { unfold sq. replace n with (old + (n - old))%nat by lia. rewrite sumn_split.
      assert (0 <= sumn (n - old) (fun i => x (old + i)%nat * x (old + i)%nat)) by (apply sumn_nonneg; intros; nra). lra. }
    unfold eps6 in *. lra.
  - pose proof (block_sq old n (gv_V s) x LE) as E. specialize (H2 x).
    assert (M : sq old x <= sq n x).
    { unfold sq. replace n with (old + (n - old))%nat by lia. rewrite sumn_split.
      assert (0 <= sumn (n - old) (fun i => x (old + i)%nat * x (old + i)%nat)) by (apply sumn_nonneg; intros; nra). lra. }
    unfold eps6 in *. lra.
Qed.
Lemma call_inv fuel c s q v qdot code out s' : chain_ok c -> gv_inv c s -> givens_CartToJnt fuel c s q v qdot = Ret (Some (code, out, s')) -> gv_inv c s'.
Proof.
  intros Hok Inv E. destruct (Nat.eq_dec (length q) (ch_nj c)) as [Hq|Hq]; [destruct (Nat.eq_dec (length qdot) (ch_nj c)) as [Hd|Hd]|].
  - rewrite (givens_now fuel c s q v qdot Hok Inv Hq Hd) in E. apply obind_Ret_inv in E as (r & E & X). destruct r as [[[[U Sg] V] k]|]; [|discriminate].
    apply obind_Ret_inv in X as (suy & _ & X). injection X as _ _ <-. destruct Inv as (Hn & Hl & Hj & HV & HU).
    unfold gv_inv. cbn [gv_nj gv_locked gv_jac gv_V gv_U]. split; [reflexivity|]. split; [exact Hl|]. split; [apply jacobian_at_length; assumption|]. destruct (negb (gv_toggle s)).
    + destruct (macie_columns _ _ _ _ _ _ _ _ _ _ _ (gv_n6 _) E) as (N1 & N2 & _). split; [apply N1, HV|apply N2, HU].
    + destruct (macie_rows _ _ _ _ _ _ _ _ _ _ _ (gv_n6 _) E) as (N1 & N2 & _). split; [apply N2, HV|apply N1, HU].
  - pose proof Inv as (Hn & _). unfold givens_CartToJnt in E. rewrite Hn, Nat.eqb_refl in E. cbn [negb] in E.
    replace (negb (Nat.eqb (ch_nj c) (length q)) || negb (Nat.eqb (ch_nj c) (length qdot))) with true in E.
    + injection E as _ _ <-. exact Inv.
    + destruct (Nat.eqb_spec (ch_nj c) (length qdot)); [congruence|]. destruct (Nat.eqb (ch_nj c) (length q)); reflexivity.
  - pose proof Inv as (Hn & _). unfold givens_CartToJnt in E. rewrite Hn, Nat.eqb_refl in E. cbn [negb] in E.
    replace (negb (Nat.eqb (ch_nj c) (length q)) || negb (Nat.eqb (ch_nj c) (length qdot))) with true in E.
    + injection E as _ _ <-. exact Inv.
    + destruct (Nat.eqb_spec (ch_nj c) (length q)); [congruence|]. reflexivity.
Qed.
Lemma used_inv c s : chain_ok c -> givens_used c s -> gv_inv c s.
Proof. intros Hok. induction 1 as [|s _ IH|s fuel q v qdot code out s' _ IH E]; [apply make_inv|apply update_inv, IH|apply (call_inv _ _ _ _ _ _ _ _ _ Hok IH E)]. Qed.

Lemma longer_chain c c' s : chain_ok c -> givens_used c s -> (ch_nj c <= ch_nj c')%nat ->
  stretches (Nat.min 6 (ch_nj c')) (Nat.min 6 (ch_nj c')) (1 - 1 / 10 ^ 6) (gv_V (givens_update c' s)) /\
  stretched_at_most (Nat.min 6 (ch_nj c')) (Nat.min 6 (ch_nj c')) (1 + 1 / 10 ^ 6) (gv_V (givens_update c' s)).
Proof. intros Hok U L. exact (grown_V c c' s Hok (used_inv c s Hok U) L). Qed.

(** ** Ending *)
Lemma columns_end c s q low : chain_ok c -> gv_inv c s -> 0 < low ->
  stretches (gv_m (ch_nj c)) (gv_n (ch_nj c)) low (tall_jacobian c q) ->
  exists enough r, forall fuel, (enough <= fuel)%nat ->
    svd_eigen_Macie fuel (gv_m (ch_nj c)) (gv_n (ch_nj c)) (tall_jacobian c q) (gv_U s) (gv_S s) (gv_V s) givens_threshold true = Ret (Some r).
Proof.
  intros Hok (_ & _ & _ & HV & _) L St. set (m := gv_m (ch_nj c)) in *. set (n := gv_n (ch_nj c)) in *.
  destruct (jacobi_terminates thr15 m n thr15_pos (low * (1 - eps6)) (fun a b => total n (fun k => tall_jacobian c q a k * gv_V s k b)) (gv_V s) (gv_U s) (gv_S s) 0%nat) as (N & [[[W F] S1] k] & H).
  - apply Rmult_lt_0_compat; [exact L|unfold eps6; lra].
  - intros x. rewrite (sq_ext m _ (mv n (tall_jacobian c q) (mv n (gv_V s) x))).
    + eapply Rle_trans; [|apply St]. rewrite Rmult_assoc. apply Rmult_le_compat_l; [lra|]. apply (proj1 HV).
    + intros a _. rewrite mv_mv. apply mv_ext; [|reflexivity]. intros; apply total_sum.
  - exists N, (F, S1, W, k). intros fuel Hf. unfold svd_eigen_Macie. change givens_threshold with thr15. cbv zeta. rewrite (H fuel Hf). reflexivity.
Qed.
Lemma rows_end c s q low : chain_ok c -> gv_inv c s -> 0 < low ->
  stretches (gv_n (ch_nj c)) (gv_m (ch_nj c)) low (transposed (tall_jacobian c q)) ->
  exists enough r, forall fuel, (enough <= fuel)%nat ->
    svd_eigen_Macie fuel (gv_m (ch_nj c)) (gv_n (ch_nj c)) (tall_jacobian c q) (gv_U s) (gv_S s) (gv_V s) givens_threshold false = Ret (Some r).
Proof.
  intros Hok (_ & _ & _ & _ & HU) L St. set (m := gv_m (ch_nj c)) in *. set (n := gv_n (ch_nj c)) in *.
  destruct (jacobi_terminates thr15 n n thr15_pos (low * (1 - eps6)) (fun b i => total m (fun k => gv_U s k i * tall_jacobian c q k b)) (gv_U s) (gv_V s) (gv_S s) 0%nat) as (N & [[[W F] S1] k] & H).
  - apply Rmult_lt_0_compat; [exact L|unfold eps6; lra].
  - intros x. match goal with |- _ <= sq n ?y => rewrite (sq_ext n y (mv m (transposed (tall_jacobian c q)) (mv n (gv_U s) x))) end.
    + eapply Rle_trans; [|apply St]. rewrite Rmult_assoc. apply Rmult_le_compat_l; [lra|]. apply (proj1 HU).
    + intros a _. rewrite mv_mv. apply mv_ext; [|reflexivity]. intros i _. rewrite total_sum. apply sumn_ext. intros; unfold transposed; ring.
  - exists N, (W, S1, F, k). intros fuel Hf. unfold svd_eigen_Macie. change givens_threshold with thr15. cbv zeta. rewrite (H fuel Hf). reflexivity.
Qed.

(** ** Accuracy *)
Lemma misfit_sq n J b x : misfit 6 n J b x = sq 6 (fun a => mv n J (fun j => nth j x 0) a - b a).
Proof. reflexivity. Qed.
Lemma velocity_nth nj n tr U V s v j : (j < nj)%nat ->
  nth j (result_velocity nj n tr U V s v) 0 = mv n (if tr then U else V) (fun i => 1 / s i * mv 6 (transposed (if tr then V else U)) (t_at v) i) j.
Proof. intros H. unfold result_velocity. rewrite vlist_nth by exact H. reflexivity. Qed.
Lemma tall_small c q : (ch_nj c <= 6)%nat -> tall_jacobian c q = tip_jacobian c q.
Proof. intros H. unfold tall_jacobian. rewrite (proj2 (Nat.ltb_ge 6 _) H). reflexivity. Qed.
Lemma tall_wide c q : (6 < ch_nj c)%nat -> tall_jacobian c q = transposed (tip_jacobian c q).
Proof. intros H. unfold tall_jacobian. rewrite (proj2 (Nat.ltb_lt 6 _) H). reflexivity. Qed.
Lemma small_sizes c : (ch_nj c <= 6)%nat -> gv_m (ch_nj c) = 6%nat /\ gv_n (ch_nj c) = ch_nj c /\ gv_transpose (ch_nj c) = false.
Proof. intros H. unfold gv_m, gv_n, gv_transpose. rewrite (proj2 (Nat.ltb_ge 6 _) H). repeat split; lia. Qed.
Lemma wide_sizes c : (6 < ch_nj c)%nat -> gv_m (ch_nj c) = ch_nj c /\ gv_n (ch_nj c) = 6%nat /\ gv_transpose (ch_nj c) = true.
Proof. intros H. unfold gv_m, gv_n, gv_transpose. rewrite (proj2 (Nat.ltb_lt 6 _) H). repeat split; lia. Qed.

Lemma accepted fuel c s q v qdot U Sg V k sv : chain_ok c -> gv_inv c s -> length q = ch_nj c -> length qdot = ch_nj c ->
  svd_eigen_Macie fuel (gv_m (ch_nj c)) (gv_n (ch_nj c)) (tall_jacobian c q) (gv_U s) (gv_S s) (gv_V s) givens_threshold (negb (gv_toggle s)) = Ret (Some (U, Sg, V, k)) ->
  (forall i, (i < gv_n (ch_nj c))%nat -> Sg i = Some (sv i) /\ 0 < sv i) ->
  givens_CartToJnt fuel c s q v qdot = Ret (Some (E_NOERROR, result_velocity (ch_nj c) (gv_n (ch_nj c)) (gv_transpose (ch_nj c)) U V sv v,
    mkGV (ch_nj c) (gv_locked s) (jacobian_at c (-1) q) (negb (gv_toggle s)) U Sg V E_NOERROR)).
Proof.
  intros Hok Inv Hq Hd E Hs. rewrite (givens_now fuel c s q v qdot Hok Inv Hq Hd), E. cbn [obind]. rewrite (suy_entries _ _ _ sv Hs). cbn [obind].
  rewrite (velocity_list c (gv_n (ch_nj c)) U V sv v eq_refl). reflexivity.
Qed.

Theorem column_call_least_squares c s q v qdot low : chain_ok c -> (ch_nj c <= 6)%nat -> givens_used c s -> column_call s ->
  length q = ch_nj c -> length qdot = ch_nj c -> 0 < low -> stretches 6 (ch_nj c) low (tip_jacobian c q) -> skewed 6 (ch_nj c) (column_start c s q) ->
  exists out s', finishes c s q v qdot out s' /\ length out = ch_nj c /\ row_call s' /\
  (forall y, length y = ch_nj c -> misfit 6 (ch_nj c) (tip_jacobian c q) (t_at v) out <= misfit 6 (ch_nj c) (tip_jacobian c q) (t_at v) y + 1 / 10 ^ 13 * sq 6 (t_at v)) /\
  (ch_nj c = 6%nat -> misfit 6 (ch_nj c) (tip_jacobian c q) (t_at v) out <= 1 / 10 ^ 13 * sq 6 (t_at v)).
Proof.
  intros Hok H6 Us Tg Hq Hd L St Sk. pose proof (used_inv c s Hok Us) as Inv. destruct (small_sizes c H6) as (Em & En & Et).
  destruct (columns_end c s q low Hok Inv L) as (N & [[[U Sg] V] k] & E). { rewrite Em, En, (tall_small c q H6). exact St. }
  pose proof (E N (le_n N)) as EN. rewrite Em, En in EN.
  destruct (macie_columns _ _ _ _ _ _ _ _ _ _ _ H6 EN) as (N1 & _ & Bf & _ & _ & C).
  destruct C as (_ & Hu & sv & Hs & He).
  { unfold column_start in Sk. replace (Nat.min 6 (ch_nj c)) with (ch_nj c) in Sk by lia. exact Sk. }
  assert (Ls : forall y, length y = ch_nj c -> misfit 6 (ch_nj c) (tip_jacobian c q) (t_at v) (result_velocity (ch_nj c) (ch_nj c) false U V sv v) <=
    misfit 6 (ch_nj c) (tip_jacobian c q) (t_at v) y + 1 / 10 ^ 13 * sq 6 (t_at v)).
  { intros y Hy. rewrite !misfit_sq. rewrite (tall_small c q H6) in He.
    pose proof (column_least_squares (ch_nj c) (tip_jacobian c q) V U sv (t_at v) (fun j => nth j y 0) H6) as B. cbv zeta in B.
    destruct Inv as (_ & _ & _ & HV & _). rewrite En in HV. specialize (B (N1 _ HV) Hu (fun i Hi => proj2 (Hs i Hi)) (fun a i _ Hi => He a i Hi)).
    eapply Rle_trans; [|exact B]. apply Req_le. apply sq_ext. intros a _. f_equal. apply mv_ext; [reflexivity|]. intros j Hj. apply velocity_nth, Hj. }
  exists (result_velocity (ch_nj c) (ch_nj c) false U V sv v). eexists. split; [|split; [apply vlist_length|split; [|split; [exact Ls|]]]].
  - exists N. intros fuel Hf. rewrite (accepted fuel c s q v qdot U Sg V k sv Hok Inv Hq Hd).
    + rewrite En, Et. reflexivity.
    + rewrite Tg. cbn [negb]. apply E, Hf.
    + rewrite En. exact Hs.
  - unfold row_call. cbn. rewrite Tg. reflexivity.
  - intros E6. rewrite E6 in St. destruct (stretches_onto 6 low _ L St (t_at v)) as (x & Hx).
    specialize (Ls (vlist (ch_nj c) x) (vlist_length _ x)).
    replace (misfit 6 (ch_nj c) (tip_jacobian c q) (t_at v) (vlist (ch_nj c) x)) with 0 in Ls; [lra|]. symmetry. rewrite misfit_sq. apply sq_zero_of. intros a Ha.
    rewrite (mv_ext (ch_nj c) _ (tip_jacobian c q) (fun j => nth j (vlist (ch_nj c) x) 0) x a) by (first [reflexivity | intros; apply vlist_nth; assumption]).
    rewrite E6, (Hx a Ha). ring.
Qed.
Theorem row_call_square c s q v qdot low high : chain_ok c -> ch_nj c = 6%nat -> givens_used c s -> row_call s ->
  length q = 6%nat -> length qdot = 6%nat -> 0 < low -> stretches 6 6 low (transposed (tip_jacobian c q)) -> stretched_at_most 6 6 high (transposed (tip_jacobian c q)) ->
  skewed 6 6 (row_start c s q) ->
  exists out s', finishes c s q v qdot out s' /\ length out = 6%nat /\ column_call s' /\
  low * misfit 6 6 (tip_jacobian c q) (t_at v) out <= 1 / 10 ^ 13 * (high * sq 6 (t_at v)).
Proof.
  intros Hok H6 Us Tg Hq Hd L St Am Sk. pose proof (used_inv c s Hok Us) as Inv. destruct (small_sizes c ltac:(lia)) as (Em & En & Et).
  pose proof (tall_small c q ltac:(lia)) as Ta.
  destruct (rows_end c s q low Hok Inv L) as (N & [[[U Sg] V] k] & E). { rewrite Em, En, H6, Ta. exact St. }
  pose proof (E N (le_n N)) as EN. rewrite Em, En, H6 in EN.
  destruct (macie_rows _ _ _ _ _ _ _ _ _ _ _ (le_n 6) EN) as (N1 & _ & Bf & _ & _ & _ & C).
  destruct C as (_ & Hu & sv & Hs & He).
  { unfold row_start in Sk. rewrite H6 in Sk. exact Sk. }
  exists (result_velocity 6 6 false U V sv v). eexists. split; [|split; [apply vlist_length|split]].
  - exists N. intros fuel Hf. rewrite (accepted fuel c s q v qdot U Sg V k sv Hok Inv); [rewrite En, Et, H6; reflexivity|congruence|congruence| |rewrite En, H6; exact Hs].
    rewrite Tg. cbn [negb]. apply E, Hf.
  - unfold column_call. cbn. rewrite Tg. reflexivity.
  - rewrite misfit_sq. rewrite Ta in He.
    pose proof (row_residual 6 6 (tip_jacobian c q) U V sv (t_at v) low high ltac:(lia)) as B. cbv zeta in B.
    destruct Inv as (_ & _ & _ & _ & HU). rewrite Em, En, H6 in HU.
    specialize (B (N1 _ HU) Hu (fun i Hi => proj2 (Hs i Hi)) (fun i j Hi _ => He j i Hi) L St Am).
    eapply Rle_trans; [|exact B]. apply Req_le. apply Rmult_eq_compat_l. apply sq_ext. intros a _. apply (f_equal (fun z => z - t_at v a)). apply mv_ext; [reflexivity|]. intros j Hj. apply (velocity_nth 6 6 false), Hj.
Qed.
Theorem column_call_redundant c s q v qdot low high : chain_ok c -> (6 < ch_nj c)%nat -> givens_used c s -> column_call s ->
  length q = ch_nj c -> length qdot = ch_nj c -> 0 < low ->
  stretches (ch_nj c) 6 low (transposed (tip_jacobian c q)) -> stretched_at_most (ch_nj c) 6 high (transposed (tip_jacobian c q)) ->
  skewed (ch_nj c) 6 (column_start c s q) ->
  exists out s', finishes c s q v qdot out s' /\ length out = ch_nj c /\
  low * misfit 6 (ch_nj c) (tip_jacobian c q) (t_at v) out <= 1 / 10 ^ 13 * (high * sq 6 (t_at v)) /\
  exists z, forall j, (j < ch_nj c)%nat -> nth j out 0 = sumn 6 (fun r => tip_jacobian c q r j * z r).
Proof.
  intros Hok H6 Us Tg Hq Hd L St Am Sk. pose proof (used_inv c s Hok Us) as Inv. destruct (wide_sizes c H6) as (Em & En & Et).
  pose proof (tall_wide c q H6) as Ta.
  destruct (columns_end c s q low Hok Inv L) as (N & [[[U Sg] V] k] & E). { rewrite Em, En, Ta. exact St. }
  pose proof (E N (le_n N)) as EN. rewrite Em, En in EN.
  destruct (macie_columns _ _ _ _ _ _ _ _ _ _ _ (le_n 6) EN) as (N1 & _ & Bf & _ & _ & C).
  destruct C as (_ & Hu & sv & Hs & He).
  { unfold column_start in Sk. replace (Nat.min 6 (ch_nj c)) with 6%nat in Sk by lia. exact Sk. }
  exists (result_velocity (ch_nj c) 6 true U V sv v). eexists. split; [|split; [apply vlist_length|split]].
  - exists N. intros fuel Hf. rewrite (accepted fuel c s q v qdot U Sg V k sv Hok Inv Hq Hd); [rewrite En, Et; reflexivity| |rewrite En; exact Hs].
    rewrite Tg. cbn [negb]. apply E, Hf.
  - rewrite misfit_sq. rewrite Ta in He.
    pose proof (row_residual 6 (ch_nj c) (tip_jacobian c q) V U sv (t_at v) low high ltac:(lia)) as B. cbv zeta in B.
    destruct Inv as (_ & _ & _ & HV & _). rewrite En in HV.
    specialize (B (N1 _ HV) Hu (fun i Hi => proj2 (Hs i Hi))).
    refine (Rle_trans _ _ _ _ (B _ L St Am)).
    + apply Req_le. apply Rmult_eq_compat_l. apply sq_ext. intros a _. f_equal. apply mv_ext; [reflexivity|]. intros j Hj. apply (velocity_nth (ch_nj c) 6 true), Hj.
    + intros i j Hi Hj. rewrite (Rmult_comm (sv i)), <- (He j i Hi). apply sumn_ext. intros; unfold transposed; ring.
  - set (w := fun i => 1 / sv i * mv 6 (transposed V) (t_at v) i).
    exists (mv 6 V (fun i => 1 / sv i * w i)). intros j Hj. rewrite velocity_nth by exact Hj. fold w. rewrite Ta in He.
    change (sumn 6 (fun r => tip_jacobian c q r j * mv 6 V (fun i => 1 / sv i * w i) r)) with (mv 6 (transposed (tip_jacobian c q)) (mv 6 V (fun i => 1 / sv i * w i)) j).
    rewrite mv_mv. apply sumn_ext. intros i Hi. rewrite (He j i Hi). destruct (Hs i Hi). unfold w. field. lra.
Qed.
