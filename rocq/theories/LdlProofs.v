(** Correctness of the LDL solver. *)
From Coq Require Import Reals List Arith Lia Lra ZArith FunctionalExtensionality Bool.
From Verif Require Import Outcome LoopProofs LinModel LinSpec SumProofs.
Import ListNotations.
Local Open Scope R_scope.

Section Ldl.
Variables (A : Mat) (n : nat).
Hypothesis HA : mrows A = n /\ mcols A = n.
Notation a := (mentry A).

Lemma d_loop (L : Mat) (D : list R) i x : mrows L = n -> mcols L = n -> length D = n -> (i < n)%nat ->
  for_loop i 0 (ldl_d_step L i) (upd D i x) =
  Ret (upd D i (x - sumn i (fun j => nth j D 0 * mentry L i j * mentry L i j))).
Proof.
  intros HL1 HL2 HD Hi.
  pose (F := fun k => upd D i (x - sumn k (fun j => nth j D 0 * mentry L i j * mentry L i j))).
  replace (upd D i x) with (F 0%nat) by (unfold F; simpl; f_equal; ring).
  change (for_loop i 0 (ldl_d_step L i) (F 0%nat) = Ret (F (0 + i)%nat)). apply for_loop_fun. intros k Hk. unfold F, ldl_d_step.
  rewrite !agetR by (rewrite upd_length; lia). cbn [obind]. rewrite nth_upd_same, nth_upd_other by lia. rewrite mget_ok by lia. cbn [obind].
  rewrite aset_upd by lia. cbn [sumn]. do 2 f_equal. ring.
Qed.

Definition newl (L : Mat) (D : list R) (i j : nat) : R :=
  a i j / nth i D 0 - sumn i (fun k => mentry L j k * mentry L i k * nth k D 0 / nth i D 0).

Lemma l_loop (L : Mat) (D : list R) i j x : mrows L = n -> mcols L = n -> length D = n -> (i < j)%nat -> (j < n)%nat ->
  for_loop i 0 (ldl_l_step D i j) (mupd L j i x) =
  Ret (mupd L j i (x - sumn i (fun k => mentry L j k * mentry L i k * nth k D 0 / nth i D 0))).
Proof.
  intros HL1 HL2 HD Hi Hj.
  pose (F := fun m => mupd L j i (x - sumn m (fun k => mentry L j k * mentry L i k * nth k D 0 / nth i D 0))).
  replace (mupd L j i x) with (F 0%nat) by (unfold F; simpl; f_equal; ring).
  change (for_loop i 0 (ldl_l_step D i j) (F 0%nat) = Ret (F (0 + i)%nat)). apply for_loop_fun. intros k Hk. unfold F, ldl_l_step.
  rewrite !mget_ok by (simpl; lia). cbn [obind]. rewrite !agetR by lia. cbn [obind]. rewrite mset_ok by (simpl; lia). rewrite mupd_mupd.
  rewrite mupd_same. rewrite !mupd_other by lia. cbn [sumn]. do 2 f_equal. ring.
Qed.
Lemma col_loop (L : Mat) (D : list R) i : mrows L = n -> mcols L = n -> length D = n -> (i < n)%nat ->
  for_loop (n - 1) 1 (ldl_col_body A D i) L =
  Ret (mkM n n (fun r c => if Nat.eqb c i && Nat.ltb i r && Nat.ltb r n then newl L D i r else mentry L r c)).
Proof.
  intros HL1 HL2 HD Hi.
  pose (F := fun m => mkM n n (fun r c => if Nat.eqb c i && Nat.ltb i r && Nat.ltb r m then newl L D i r else mentry L r c)).
  assert (E0 : L = F 1%nat).
  { unfold F. destruct L as [a1 b1 e]. simpl in *. subst. f_equal. extensionality r. extensionality c.
    destruct (Nat.ltb_spec i r), (Nat.ltb_spec r 1); simpl; rewrite ?andb_false_r; auto. lia. }
  rewrite E0 at 1. replace (mkM n n _) with (F (1 + (n - 1))%nat) by (unfold F; replace (1 + (n - 1))%nat with n by lia; reflexivity).
  apply for_loop_fun. intros k Hk. unfold ldl_col_body. destruct (Nat.ltb_spec i k) as [Hik|Hik].
  - rewrite mget_ok by lia. rewrite agetR by lia. cbn [obind]. rewrite mset_ok by (simpl; lia). cbn [obind]. rewrite l_loop by (simpl; lia || auto).
    unfold F, mupd. cbn [mrows mcols mentry]. do 2 f_equal. extensionality r. extensionality c.
    destruct (Nat.eqb_spec r k), (Nat.eqb_spec c i); simpl; try subst r; try subst c.
    + destruct (Nat.ltb_spec i k), (Nat.ltb_spec k (S k)); try lia; simpl. unfold newl. f_equal. apply sumn_ext. intros m Hm.
      destruct (Nat.eqb_spec m i); [lia|]. simpl. reflexivity.
    + reflexivity.
    + destruct (Nat.ltb_spec i r), (Nat.ltb_spec r k), (Nat.ltb_spec r (S k)); try lia; reflexivity.
    + reflexivity.
  - unfold F. do 2 f_equal. extensionality r. extensionality c.
    destruct (Nat.eqb_spec c i), (Nat.ltb_spec i r), (Nat.ltb_spec r k), (Nat.ltb_spec r (S k)); try lia; reflexivity.
Qed.

Definition factored (i : nat) (st : Mat * list R) : Prop :=
  let '(L, D) := st in mrows L = n /\ mcols L = n /\ length D = n /\
  (forall r, (r < i)%nat -> nth r D 0 = a r r - sumn r (fun j => nth j D 0 * mentry L r j * mentry L r j)) /\
  (forall r j, (r < i)%nat -> (r < j < n)%nat -> mentry L j r = newl L D r j).

Lemma factor_loop L D : mrows L = n -> mcols L = n -> length D = n ->
  exists st, for_loop n 0 (ldl_factor_body A n) (L, D) = Ret st /\ factored n st.
Proof.
  intros H1 H2 H3. apply (for_loop_inv factored); [|repeat split; auto; intros; lia].
  intros i [L0 D0] Hi (HL1 & HL2 & HD & HDs & HLs). unfold ldl_factor_body. rewrite mget_ok by lia. cbn [obind].
  rewrite aset_ret by lia. cbn [obind]. rewrite d_loop by (auto; lia). cbn [obind]. set (di := a i i - _). 
  rewrite col_loop by (try rewrite upd_length; auto; lia). cbn [obind]. eexists; split; [reflexivity|].
  set (D' := upd D0 i di).
  assert (Dn : forall r, (r < i)%nat -> nth r D' 0 = nth r D0 0) by (intros r Hr; apply nth_upd_other; lia).
  assert (Di : nth i D' 0 = di) by (apply nth_upd_same; lia).
  set (L' := fun r c => if Nat.eqb c i && Nat.ltb i r && Nat.ltb r n then newl L0 D' i r else mentry L0 r c).
  assert (Ln : forall r c, (c < i)%nat -> L' r c = mentry L0 r c).
  { intros r c Hc. unfold L'. destruct (Nat.eqb_spec c i); [lia|reflexivity]. }
  assert (Nl : forall r j, (r < i)%nat -> newl (mkM n n L') D' r j = newl L0 D0 r j).
  { intros r j Hr. unfold newl. cbn [mentry]. rewrite (Dn r Hr). f_equal. apply sumn_ext. intros k Hk.
    rewrite !Ln, Dn by lia. reflexivity. }
  unfold factored. cbn [mrows mcols mentry]. split; [auto|]. split; [auto|]. split; [unfold D'; rewrite upd_length; auto|]. split.
  - intros r Hr. destruct (Nat.eq_dec r i) as [->|Ne].
    + rewrite Di. unfold di. f_equal. apply sumn_ext. intros j Hj. rewrite Ln, Dn by lia. reflexivity.
    + rewrite Dn by lia. rewrite HDs by lia. f_equal. apply sumn_ext. intros j Hj. rewrite Ln, Dn by lia. reflexivity.
  - intros r j Hr Hj. destruct (Nat.eq_dec r i) as [->|Ne].
    + unfold L' at 1. rewrite Nat.eqb_refl. destruct (Nat.ltb_spec i j), (Nat.ltb_spec j n); try lia. simpl. unfold newl. f_equal.
      apply sumn_ext. intros k Hk. cbn [mentry]. rewrite !Ln by lia. reflexivity.
    + rewrite Nl by lia. rewrite Ln by lia. apply HLs; lia.
Qed.

Lemma fwd_loop L v y : mrows L = n -> mcols L = n -> length v = n -> length y = n ->
  exists z, for_loop n 0 (ldl_fwd_body L v) y = Ret z /\ length z = n /\
    forall r, (r < n)%nat -> nth r z 0 = nth r v 0 - sumn r (fun j => mentry L r j * nth j z 0).
Proof.
  intros HL1 HL2 Hv Hy.
  destruct (for_loop_inv (fun i z => length z = n /\ forall r, (r < i)%nat -> nth r z 0 = nth r v 0 - sumn r (fun j => mentry L r j * nth j z 0))
    (ldl_fwd_body L v) n 0 y) as (z & Hz & Hl & He); [|split; auto; intros; lia|eauto].
  intros i z Hi [Hl He]. unfold ldl_fwd_body. rewrite agetR by lia. cbn [obind]. rewrite aset_ret by lia. cbn [obind].
  pose (F := fun k => upd z i (nth i v 0 - sumn k (fun j => mentry L i j * nth j z 0))).
  assert (E : for_loop i 0 (ldl_fwd_step L i) (upd z i (nth i v 0)) = Ret (F (0 + i)%nat)).
  { replace (upd z i (nth i v 0)) with (F 0%nat) by (unfold F; simpl; f_equal; ring). apply for_loop_fun. intros k Hk. unfold F, ldl_fwd_step.
    rewrite !agetR by (rewrite upd_length; lia). rewrite mget_ok by lia. cbn [obind]. rewrite nth_upd_same, nth_upd_other by lia.
    rewrite aset_upd by lia. cbn [sumn]. do 2 f_equal. ring. }
  rewrite E. eexists; split; [reflexivity|]. unfold F. simpl. split; [rewrite upd_length; auto|]. intros r Hr.
  assert (Es : forall m, (m <= i)%nat -> sumn m (fun j => mentry L r j * nth j (upd z i (nth i v 0 - sumn i (fun j => mentry L i j * nth j z 0))) 0)
    = sumn m (fun j => mentry L r j * nth j z 0)).
  { intros m Hm. apply sumn_ext. intros j Hj. rewrite nth_upd_other by lia. reflexivity. }
  destruct (Nat.eq_dec r i) as [->|Ne].
  - rewrite nth_upd_same by lia. rewrite Es by lia. reflexivity.
  - rewrite nth_upd_other by lia. rewrite Es by lia. apply He. lia.
Qed.
Lemma back_loop L D y q : mrows L = n -> mcols L = n -> length D = n -> length y = n -> length q = n ->
  exists x, for_loop n 0 (ldl_back_body L D y n) q = Ret x /\ length x = n /\
    forall r, (r < n)%nat -> nth r x 0 = nth r y 0 / nth r D 0 - sumn (n - S r) (fun t => mentry L (S r + t) r * nth (S r + t) x 0).
Proof.
  intros HL1 HL2 HD Hy Hq.
  destruct (for_loop_inv (fun t z => length z = n /\ forall r, (n - t <= r < n)%nat -> nth r z 0 =
      nth r y 0 / nth r D 0 - sumn (n - S r) (fun t => mentry L (S r + t) r * nth (S r + t) z 0))
    (ldl_back_body L D y n) n 0 q) as (z & Hz & Hl & He); [|split; auto; intros; lia|exists z; split; auto; split; auto; intros; apply He; lia].
  intros t z Ht [Hl He]. unfold ldl_back_body. set (i := (n - 1 - t)%nat). assert (Hi : (i < n)%nat) by lia.
  rewrite !agetR by lia. cbn [obind]. rewrite aset_ret by lia. cbn [obind].
  pose (F := fun k => upd z i (nth i y 0 / nth i D 0 - sumn (k - S i) (fun t => mentry L (S i + t) i * nth (S i + t) z 0))).
  assert (E : for_loop (n - S i) (S i) (ldl_back_step L i) (upd z i (nth i y 0 / nth i D 0)) = Ret (F (S i + (n - S i))%nat)).
  { replace (upd z i (nth i y 0 / nth i D 0)) with (F (S i)) by (unfold F; rewrite Nat.sub_diag; simpl; f_equal; ring).
    apply for_loop_fun. intros k Hk. unfold F, ldl_back_step.
    rewrite !agetR by (rewrite upd_length; lia). rewrite mget_ok by lia. cbn [obind]. rewrite nth_upd_same, nth_upd_other by lia.
    rewrite aset_upd by lia. replace (S k - S i)%nat with (S (k - S i)) by lia. cbn [sumn]. replace (S i + (k - S i))%nat with k by lia.
    do 2 f_equal. ring. }
  rewrite E. eexists; split; [reflexivity|]. unfold F. replace (S i + (n - S i))%nat with n by lia. split; [rewrite upd_length; auto|]. intros r Hr.
  assert (Es : (i <= r)%nat -> forall w, sumn (n - S r) (fun t => mentry L (S r + t) r * nth (S r + t) (upd z i w) 0)
    = sumn (n - S r) (fun t => mentry L (S r + t) r * nth (S r + t) z 0)).
  { intros Hm w. apply sumn_ext. intros j Hj. rewrite nth_upd_other by lia. reflexivity. }
  rewrite Es by lia. destruct (Nat.eq_dec r i) as [->|Ne].
  - rewrite nth_upd_same by lia. reflexivity.
  - rewrite nth_upd_other by lia. apply He. lia.
Qed.
Lemma diag_loop L : mrows L = n -> mcols L = n ->
  for_loop n 0 ldl_diag_body L = Ret (mkM n n (fun r c => if Nat.eqb r c && Nat.ltb r n then 1 else mentry L r c)).
Proof.
  intros H1 H2. pose (F := fun m => mkM n n (fun r c => if Nat.eqb r c && Nat.ltb r m then 1 else mentry L r c)).
  assert (E0 : L = F 0%nat).
  { unfold F. destruct L; simpl in *; subst. f_equal. extensionality r. extensionality c. rewrite andb_false_r. reflexivity. }
  rewrite E0 at 1. change (for_loop n 0 ldl_diag_body (F 0%nat) = Ret (F (0 + n)%nat)). apply for_loop_fun. intros k Hk.
  unfold ldl_diag_body. rewrite mset_ok by (simpl; lia). unfold F, mupd. cbn [mrows mcols mentry]. do 2 f_equal. extensionality r. extensionality c.
  destruct (Nat.eqb_spec r k), (Nat.eqb_spec c k), (Nat.eqb_spec r c), (Nat.ltb_spec r k), (Nat.ltb_spec r (S k)); try lia; reflexivity.
Qed.
Lemma upper_loop L : mrows L = n -> mcols L = n ->
  for_loop n 0 (ldl_upper_body n) L = Ret (mkM n n (fun r c => if Nat.ltb r c && Nat.ltb c n then 0 else mentry L r c)).
Proof.
  intros H1 H2. pose (F := fun m => mkM n n (fun r c => if Nat.ltb r c && Nat.ltb c n && Nat.ltb r m then 0 else mentry L r c)).
  assert (E0 : L = F 0%nat).
  { unfold F. destruct L; simpl in *; subst. f_equal. extensionality r. extensionality c. rewrite andb_false_r. reflexivity. }
  assert (E1 : mkM n n (fun r c => if Nat.ltb r c && Nat.ltb c n then 0 else mentry L r c) = F (0 + n)%nat).
  { unfold F. f_equal. extensionality r. extensionality c. simpl. destruct (Nat.ltb_spec r c), (Nat.ltb_spec c n), (Nat.ltb_spec r n); try lia; reflexivity. }
  rewrite E1. rewrite E0 at 1. apply for_loop_fun. intros i Hi. unfold ldl_upper_body.
  pose (G := fun m => mkM n n (fun r c => if Nat.eqb r i && Nat.ltb r c && Nat.ltb c m then 0 else mentry (F i) r c)).
  assert (E2 : F i = G (S i)).
  { unfold G, F. f_equal. extensionality r. extensionality c. cbn [mentry].
    destruct (Nat.eqb_spec r i), (Nat.ltb_spec r c), (Nat.ltb_spec c (S i)); simpl; auto. lia. }
  assert (E3 : F (S i) = G (S i + (n - S i))%nat).
  { unfold G, F. f_equal. extensionality r. extensionality c. cbn [mentry]. replace (S i + (n - S i))%nat with n by lia.
    destruct (Nat.eqb_spec r i), (Nat.ltb_spec r c), (Nat.ltb_spec c n), (Nat.ltb_spec r i), (Nat.ltb_spec r (S i)); try lia; reflexivity. }
  rewrite E2 at 1. rewrite E3. apply for_loop_fun. intros k Hk. rewrite mset_ok by (simpl; lia). unfold G, mupd. cbn [mrows mcols mentry].
  do 2 f_equal. extensionality r. extensionality c.
  destruct (Nat.eqb_spec r i), (Nat.eqb_spec c k), (Nat.ltb_spec r c), (Nat.ltb_spec c k), (Nat.ltb_spec c (S k)); try lia; reflexivity.
Qed.

(** the factorisation identity, up to a bound on the indices *)
Lemma factored_entry (L : Mat) (D : list R) m : (m <= n)%nat -> factored n (L, D) ->
  (forall r, (r < m)%nat -> nth r D 0 <> 0) -> forall r j, (r <= j < n)%nat -> (r < m \/ r = j)%nat ->
  a r j = sumn r (fun k => mentry L r k * nth k D 0 * mentry L j k) + nth r D 0 * (if Nat.eqb r j then 1 else mentry L j r).
Proof.
  intros Hm (_ & _ & _ & HDs & HLs) Nz r j Hj Hr. destruct (Nat.eqb_spec r j) as [<-|Ne].
  - rewrite (HDs r) by lia. rewrite (sumn_ext r _ (fun j => nth j D 0 * mentry L r j * mentry L r j)); [ring|]. intros; ring.
  - rewrite (HLs r j) by lia. unfold newl.
    rewrite (sumn_ext r (fun k => mentry L j k * mentry L r k * nth k D 0 / nth r D 0)
              (fun k => (mentry L r k * nth k D 0 * mentry L j k) * / nth r D 0)) by (intros; unfold Rdiv; ring).
    rewrite sumn_scale_r. field. apply Nz. lia.
Qed.
End Ldl.

Definition unit_entry (L : Mat) (r c : nat) : R := if Nat.eqb r c then 1 else if Nat.ltb r c then 0 else mentry L r c.

Lemma ldl_runs A v L D t q n : mrows A = n -> mcols A = n -> length v = n -> mrows L = n -> mcols L = n ->
  length D = n -> length t = n -> length q = n ->
  exists L1 L' D' y x, ldl_solver A v L D t q = Ret (E_NOERROR, (L', D', y, x)) /\ factored A n n (L1, D') /\
    mrows L' = n /\ mcols L' = n /\ (forall r c, (r < n)%nat -> (c < n)%nat -> mentry L' r c = unit_entry L1 r c) /\ length x = n /\
    (forall r, (r < n)%nat -> nth r y 0 = nth r v 0 - sumn r (fun j => mentry L1 r j * nth j y 0)) /\
    (forall r, (r < n)%nat -> nth r x 0 = nth r y 0 / nth r D' 0 - sumn (n - S r) (fun t => mentry L1 (S r + t) r * nth (S r + t) x 0)).
Proof.
  intros HA1 HA2 Hv HL1 HL2 HD Ht Hq. unfold ldl_solver. rewrite HA1, HA2, Hv, HL1, HL2, HD, Ht, Hq, !Nat.eqb_refl. cbn [andb negb].
  destruct (factor_loop A n (conj HA1 HA2) L D HL1 HL2 HD) as ([L1 D1] & -> & F). cbn [obind].
  pose proof F as (A1 & A2 & A3 & _ & _).
  destruct (fwd_loop A n (conj HA1 HA2) L1 v t A1 A2 Hv Ht) as (y & -> & Hy & Ey). cbn [obind].
  destruct (back_loop A n (conj HA1 HA2) L1 D1 y q A1 A2 A3 Hy Hq) as (x & -> & Hx & Ex). cbn [obind].
  rewrite (diag_loop A n (conj HA1 HA2) L1 A1 A2). cbn [obind]. rewrite (upper_loop A n (conj HA1 HA2)) by reflexivity. cbn [obind].
  exists L1. do 4 eexists. split; [reflexivity|]. split; [exact F|]. cbn [mrows mcols mentry]. do 2 (split; [reflexivity|]).
  split; [|auto]. intros r c Hr Hc. unfold unit_entry.
  destruct (Nat.eqb_spec r c), (Nat.ltb_spec r c), (Nat.ltb_spec c n), (Nat.ltb_spec r n); try lia; reflexivity.
Qed.

Lemma factored_ldl A n L1 D : mrows A = n -> mcols A = n -> factored A n n (L1, D) -> symmetric n (mentry A) -> (forall r, (r < n)%nat -> nth r D 0 <> 0) ->
  ldl_of n (mentry A) (unit_entry L1) (fun k => nth k D 0).
Proof.
  intros HA1 HA2 F Sy Nz.
  assert (G : forall i j, (i <= j)%nat -> (j < n)%nat -> mentry A i j = sumn n (fun k => unit_entry L1 i k * nth k D 0 * unit_entry L1 j k)).
  { intros i j Hij Hj. rewrite (factored_entry A n (conj HA1 HA2) L1 D n (le_n _) F Nz i j) by lia.
    rewrite (sumn_split3 n i) by lia. rewrite (sumn_zero (n - S i)).
    2:{ intros k Hk. unfold unit_entry at 1. destruct (Nat.eqb_spec i (S i + k)), (Nat.ltb_spec i (S i + k)); try lia. ring. }
    rewrite Rplus_0_r. f_equal.
    - apply sumn_ext. intros k Hk. unfold unit_entry. destruct (Nat.eqb_spec i k), (Nat.ltb_spec i k), (Nat.eqb_spec j k), (Nat.ltb_spec j k); try lia. reflexivity.
    - unfold unit_entry. rewrite Nat.eqb_refl. rewrite (Nat.eqb_sym i j). destruct (Nat.eqb_spec j i), (Nat.ltb_spec j i); try lia; ring. }
  intros i j Hi Hj. destruct (le_ge_dec i j) as [H|H]; [apply G; auto|]. rewrite (Sy i j Hi Hj), (G j i) by lia. apply sumn_ext. intros; ring.
Qed.

Lemma unit_sum_lower L n r f : (r < n)%nat -> sumn n (fun j => unit_entry L r j * f j) = sumn r (fun j => mentry L r j * f j) + f r.
Proof.
  intros H. rewrite (sumn_split3 n r) by auto. rewrite (sumn_zero (n - S r)).
  2:{ intros k Hk. unfold unit_entry. destruct (Nat.eqb_spec r (S r + k)), (Nat.ltb_spec r (S r + k)); try lia. ring. }
  rewrite Rplus_0_r. f_equal.
  - apply sumn_ext. intros j Hj. unfold unit_entry. destruct (Nat.eqb_spec r j), (Nat.ltb_spec r j); try lia. reflexivity.
  - unfold unit_entry. rewrite Nat.eqb_refl. ring.
Qed.
Lemma unit_sum_upper L n r f : (r < n)%nat ->
  sumn n (fun j => unit_entry L j r * f j) = f r + sumn (n - S r) (fun t => mentry L (S r + t) r * f (S r + t)%nat).
Proof.
  intros H. rewrite (sumn_split3 n r) by auto. rewrite (sumn_zero r).
  2:{ intros k Hk. unfold unit_entry. destruct (Nat.eqb_spec k r), (Nat.ltb_spec k r); try lia. ring. }
  rewrite Rplus_0_l. f_equal.
  - unfold unit_entry. rewrite Nat.eqb_refl. ring.
  - apply sumn_ext. intros j Hj. unfold unit_entry. destruct (Nat.eqb_spec (S r + j) r), (Nat.ltb_spec (S r + j) r); try lia. reflexivity.
Qed.

Lemma ldl_of_ext n a l l' d : (forall r c, (r < n)%nat -> (c < n)%nat -> l r c = l' r c) -> ldl_of n a l d -> ldl_of n a l' d.
Proof. intros E H i j Hi Hj. rewrite (H i j Hi Hj). apply sumn_ext. intros k Hk. rewrite !E by auto. reflexivity. Qed.

Theorem ldl_correct A v L D t q n : mrows A = n -> mcols A = n -> length v = n -> mrows L = n -> mcols L = n ->
  length D = n -> length t = n -> length q = n ->
  exists L' D' y x, ldl_solver A v L D t q = Ret (E_NOERROR, (L', D', y, x)) /\
    mrows L' = n /\ mcols L' = n /\ length D' = n /\ length x = n /\ unit_lower n (mentry L') /\
    (symmetric n (mentry A) -> (forall r, (r < n)%nat -> nth r D' 0 <> 0) ->
       ldl_of n (mentry A) (mentry L') (fun k => nth k D' 0) /\ solves n (mentry A) x v) /\
    (symmetric n (mentry A) -> positive_definite n (mentry A) -> forall r, (r < n)%nat -> 0 < nth r D' 0).
Proof.
  intros HA1 HA2 Hv HL1 HL2 HD Ht Hq.
  destruct (ldl_runs A v L D t q n HA1 HA2 Hv HL1 HL2 HD Ht Hq) as (L1 & L' & D' & y & x & E & F & R1 & R2 & Lu & Hx & Ey & Ex).
  exists L', D', y, x. split; [exact E|]. split; [auto|]. split; [auto|]. split; [apply F|]. split; [auto|]. split; [|split].
  - intros i j Hi Hj. rewrite Lu by auto. unfold unit_entry. split; [intros ->; rewrite Nat.eqb_refl; auto|]. intros Hij.
    destruct (Nat.eqb_spec i j), (Nat.ltb_spec i j); try lia; auto.
  - intros Sy Nz. pose proof (factored_ldl A n L1 D' HA1 HA2 F Sy Nz) as LD. split.
    { eapply ldl_of_ext; [|exact LD]. intros r c Hr Hc. symmetry. apply Lu; auto. }
    intros i Hi. 
    rewrite (sumn_ext n _ (fun j => sumn n (fun k => unit_entry L1 i k * (nth k D' 0 * (unit_entry L1 j k * nth j x 0))))).
    2:{ intros j Hj. rewrite (LD i j Hi Hj), <- sumn_scale_r. apply sumn_ext. intros; ring. }
    rewrite sumn_swap. rewrite (sumn_ext n _ (fun k => unit_entry L1 i k * nth k y 0)).
    + rewrite unit_sum_lower by auto. rewrite (Ey i Hi). ring.
    + intros k Hk. rewrite sumn_scale, sumn_scale. f_equal. rewrite (unit_sum_upper L1 n k (fun j => nth j x 0)) by auto.
      rewrite (Ex k Hk). field. auto.
  - intros Sy PD. apply (well_founded_induction lt_wf (fun r => (r < n)%nat -> 0 < nth r D' 0)). intros r IH Hr.
    assert (Nz : forall k, (k < r)%nat -> nth k D' 0 <> 0) by (intros k Hk; specialize (IH k Hk ltac:(lia)); lra).
    (* a vector supported on 0..r with (L^T x)_k = 0 for k < r *)
    assert (Ez : forall m, (m <= r)%nat -> exists z, z r = 1 /\ (forall j, (r < j)%nat -> z j = 0) /\ (forall j, (j < r - m)%nat -> z j = 0) /\
      forall k, (r - m <= k < r)%nat -> z k + sumn (n - S k) (fun t => mentry L1 (S k + t) k * z (S k + t)%nat) = 0).
    { induction m as [|m IHm]; intros Hm.
      - exists (fun j => if Nat.eqb j r then 1 else 0). rewrite Nat.eqb_refl. split; auto. split; [intros j Hj; destruct (Nat.eqb_spec j r); [lia|auto]|].
        split; [intros j Hj; destruct (Nat.eqb_spec j r); [lia|auto]|intros; lia].
      - destruct IHm as (z & Z1 & Z2 & Z3 & Z4); [lia|]. set (i := (r - S m)%nat).
        set (s := sumn (n - S i) (fun t => mentry L1 (S i + t) i * z (S i + t)%nat)).
        assert (Es : forall w k, (i <= k)%nat -> sumn (n - S k) (fun t => mentry L1 (S k + t) k * (fun j => if Nat.eqb j i then w else z j) (S k + t)%nat)
           = sumn (n - S k) (fun t => mentry L1 (S k + t) k * z (S k + t)%nat)).
        { intros w k Hk. apply sumn_ext. intros t0 Ht0. cbv beta. destruct (Nat.eqb_spec (S k + t0) i); [lia|reflexivity]. }
        exists (fun j => if Nat.eqb j i then - s else z j). split; [destruct (Nat.eqb_spec r i); [lia|auto]|].
        split; [intros j Hj; destruct (Nat.eqb_spec j i); [lia|auto]|]. split; [intros j Hj; destruct (Nat.eqb_spec j i); [lia|apply Z3; lia]|].
        intros k Hk. rewrite Es by lia. destruct (Nat.eqb_spec k i) as [->|Ne]; [unfold s; ring|]. apply Z4. lia. }
    destruct (Ez r (le_n _)) as (z & Z1 & Z2 & _ & Z4). rewrite Nat.sub_diag in Z4.
    assert (P : 0 < quadratic n (mentry A) z) by (apply PD; exists r; split; auto; rewrite Z1; lra).
    (* the entries of the leading block *)
    assert (Ent : forall i j, (i <= r)%nat -> (j <= r)%nat -> mentry A i j = sumn (S r) (fun k => unit_entry L1 i k * nth k D' 0 * unit_entry L1 j k)).
    { assert (G : forall i j, (i <= j)%nat -> (j <= r)%nat -> mentry A i j = sumn (S r) (fun k => unit_entry L1 i k * nth k D' 0 * unit_entry L1 j k)).
      { intros i j Hij Hj. rewrite (factored_entry A n (conj HA1 HA2) L1 D' r ltac:(lia) F Nz i j) by lia.
        rewrite (sumn_split3 (S r) i) by lia. rewrite (sumn_zero (S r - S i)).
        2:{ intros k Hk. unfold unit_entry at 1. destruct (Nat.eqb_spec i (S i + k)), (Nat.ltb_spec i (S i + k)); try lia. ring. }
        rewrite Rplus_0_r. f_equal.
        - apply sumn_ext. intros k Hk. unfold unit_entry. destruct (Nat.eqb_spec i k), (Nat.ltb_spec i k), (Nat.eqb_spec j k), (Nat.ltb_spec j k); try lia. reflexivity.
        - unfold unit_entry. rewrite Nat.eqb_refl. rewrite (Nat.eqb_sym i j). destruct (Nat.eqb_spec j i), (Nat.ltb_spec j i); try lia; ring. }
      intros i j Hi Hj. destruct (le_ge_dec i j) as [H|H]; [apply G; auto|]. rewrite (Sy i j), (G j i) by lia. apply sumn_ext. intros; ring. }
    assert (Q : quadratic n (mentry A) z = nth r D' 0).
    { unfold quadratic. rewrite (sumn_trunc n (S r)) by (try lia; intros i Hi; apply sumn_zero; intros; rewrite (Z2 i) by lia; ring).
      rewrite (sumn_ext (S r) _ (fun i => sumn (S r) (fun j => sumn (S r) (fun k => nth k D' 0 * (unit_entry L1 i k * z i) * (unit_entry L1 j k * z j))))).
      2:{ intros i Hi. rewrite (sumn_trunc n (S r)) by (try lia; intros j Hj; rewrite (Z2 j) by lia; ring). apply sumn_ext. intros j Hj.
          rewrite Ent by lia. rewrite <- sumn_scale, <- sumn_scale_r. apply sumn_ext. intros; ring. }
      rewrite (sumn_ext (S r) _ (fun i => sumn (S r) (fun k => nth k D' 0 * (unit_entry L1 i k * z i) * sumn (S r) (fun j => unit_entry L1 j k * z j)))).
      2:{ intros i Hi. rewrite sumn_swap. apply sumn_ext. intros k Hk. rewrite sumn_scale. reflexivity. }
      rewrite sumn_swap.
      assert (Ek : forall k, (k <= r)%nat -> sumn (S r) (fun j => unit_entry L1 j k * z j) = if Nat.eqb k r then 1 else 0).
      { intros k Hk. assert (T : sumn (S r) (fun j => unit_entry L1 j k * z j) = sumn n (fun j => unit_entry L1 j k * z j)).
        { symmetry. apply sumn_trunc; [lia|]. intros j Hj. rewrite (Z2 j) by lia. ring. }
        rewrite T, unit_sum_upper by lia. destruct (Nat.eqb_spec k r) as [->|Ne].
        - rewrite sumn_zero; [rewrite Z1; ring|]. intros t0 Ht0. rewrite (Z2 (S r + t0)%nat) by lia. ring.
        - apply Z4. lia. }
      rewrite (sumn_one (S r) r); [|lia|].
      - rewrite (sumn_ext (S r) _ (fun i => nth r D' 0 * (unit_entry L1 i r * z i))) by (intros i Hi; rewrite Ek, Nat.eqb_refl by lia; ring).
        rewrite sumn_scale, Ek, Nat.eqb_refl by lia. ring.
      - intros k Hk Ne. apply sumn_zero. intros i Hi. rewrite Ek by lia. destruct (Nat.eqb_spec k r); [lia|]. ring. }
    rewrite <- Q. exact P.
Qed.

Lemma ldl_mismatch A v L D t q : 
  ~ (mcols A = mrows A /\ length v = mrows A /\ mrows L = mrows A /\ mcols L = mrows A /\ length D = mrows A /\ length t = mrows A /\ length q = mrows A) ->
  ldl_solver A v L D t q = Ret (E_SIZE_MISMATCH, (L, D, t, q)).
Proof.
  intros H. unfold ldl_solver.
  destruct (Nat.eqb_spec (mcols A) (mrows A)), (Nat.eqb_spec (length v) (mrows A)), (Nat.eqb_spec (mrows L) (mrows A)),
    (Nat.eqb_spec (mcols L) (mrows A)), (Nat.eqb_spec (length D) (mrows A)), (Nat.eqb_spec (length t) (mrows A)), (Nat.eqb_spec (length q) (mrows A));
  cbn [andb negb]; try reflexivity. exfalso. apply H. repeat split; assumption.
Qed.

(** A symmetric matrix has at most one factorisation with non-zero D, and the
    algorithm finds it. *)
Lemma factored_unique A n L1 D l d : mrows A = n -> mcols A = n -> factored A n n (L1, D) ->
  unit_lower n l -> ldl_of n (mentry A) l d -> (forall r, (r < n)%nat -> d r <> 0) ->
  forall r, (r < n)%nat -> nth r D 0 = d r /\ forall j, (r < j < n)%nat -> mentry L1 j r = l j r.
Proof.
  intros HA1 HA2 (_ & _ & _ & HDs & HLs) U F Nz r.
  assert (G : forall i j, (i <= j)%nat -> (j < n)%nat -> mentry A i j = sumn i (fun k => l i k * d k * l j k) + d i * l j i).
  { intros i j Hij Hj. rewrite (F i j) by lia. rewrite (sumn_split3 n i) by lia. rewrite (sumn_zero (n - S i)).
    2:{ intros k Hk. rewrite (proj2 (U i (S i + k)%nat ltac:(lia) ltac:(lia))) by lia. ring. }
    rewrite (proj1 (U i i ltac:(lia) ltac:(lia)) eq_refl). ring. }
  induction r as [r IH] using lt_wf_ind. intros Hr.
  assert (HD : nth r D 0 = d r).
  { rewrite HDs by auto. rewrite (G r r) by lia. rewrite (proj1 (U r r Hr Hr) eq_refl).
    rewrite (sumn_ext r (fun j => nth j D 0 * mentry L1 r j * mentry L1 r j) (fun k => l r k * d k * l r k)); [ring|].
    intros k Hk. destruct (IH k Hk ltac:(lia)) as [-> K]. rewrite K by lia. ring. }
  split; [exact HD|]. intros j Hj. rewrite HLs by lia. unfold newl. rewrite HD.
  rewrite (sumn_ext r (fun k => mentry L1 j k * mentry L1 r k * nth k D 0 / d r) (fun k => (l r k * d k * l j k) * / d r)).
  2:{ intros k Hk. destruct (IH k Hk ltac:(lia)) as [-> K]. rewrite !K by lia. unfold Rdiv. ring. }
  rewrite sumn_scale_r. rewrite (G r j) by lia. field. apply Nz. auto.
Qed.

Theorem ldl_finds A v L D t q n l d : mrows A = n -> mcols A = n -> length v = n -> mrows L = n -> mcols L = n ->
  length D = n -> length t = n -> length q = n ->
  unit_lower n l -> ldl_of n (mentry A) l d -> (forall r, (r < n)%nat -> d r <> 0) ->
  exists L' D' y x, ldl_solver A v L D t q = Ret (E_NOERROR, (L', D', y, x)) /\
    (forall i, (i < n)%nat -> nth i D' 0 = d i) /\
    (forall i j, (i < n)%nat -> (j < n)%nat -> mentry L' i j = l i j) /\
    solves n (mentry A) x v.
Proof.
  intros HA1 HA2 Hv HL1 HL2 HD Ht Hq U F Nz.
  destruct (ldl_runs A v L D t q n HA1 HA2 Hv HL1 HL2 HD Ht Hq) as (L1 & L' & D' & y & x & E & Fa & R1 & R2 & Lu & Hx & Ey & Ex).
  pose proof (factored_unique A n L1 D' l d HA1 HA2 Fa U F Nz) as K.
  assert (Sy : symmetric n (mentry A)).
  { intros i j Hi Hj. rewrite (F i j), (F j i) by auto. apply sumn_ext. intros; ring. }
  destruct (ldl_correct A v L D t q n HA1 HA2 Hv HL1 HL2 HD Ht Hq) as (L2 & D2 & y2 & x2 & E2 & _ & _ & _ & _ & _ & C & _).
  rewrite E in E2. injection E2 as <- <- <- <-.
  exists L', D', y, x. split; [exact E|]. split; [intros i Hi; apply (K i Hi)|]. split.
  - intros i j Hi Hj. rewrite Lu by auto. unfold unit_entry. destruct (Nat.eqb_spec i j) as [->|Ne].
    + symmetry. apply (proj1 (U j j Hj Hj) eq_refl).
    + destruct (Nat.ltb_spec i j) as [Hl|Hl]; [symmetry; apply (proj2 (U i j Hi Hj) Hl)|]. apply (K j Hj). lia.
  - apply C; [exact Sy|]. intros r Hr. rewrite (proj1 (K r Hr)). apply Nz, Hr.
Qed.
