(** Linear algebra for plane rotations. *)
From Coq Require Import Reals List ZArith Lra Lia Bool Arith.
From Verif Require Import FramesModel Outcome LinModel LinSpec SumProofs LmaSpec LmaProofs SvdModel SvdFinal VelIkModel VelIkSpec VelIkLin GivensModel GivensSpec.
Import ListNotations.
Local Open Scope list_scope.
Local Open Scope R_scope.

Lemma cdot_gram rows B i j : cdot rows B i j = gram rows B i j.
Proof. apply total_sum. Qed.
Lemma gram_sym rows B i j : gram rows B i j = gram rows B j i.
Proof. apply sumn_ext; intros; ring. Qed.
Lemma sq_nn n x : 0 <= sq n x.
Proof. apply sumn_nonneg. intros. apply Rle_0_sqr. Qed.
Lemma gram_nn rows B i : 0 <= gram rows B i i.
Proof. apply (sq_nn rows (fun a => B a i)). Qed.
Lemma sq_ext n x y : (forall i, (i < n)%nat -> x i = y i) -> sq n x = sq n y.
Proof. intros H. apply sumn_ext. intros i Hi. rewrite (H i Hi). reflexivity. Qed.
Lemma mv_ext n A B x y a : (forall k, (k < n)%nat -> A a k = B a k) -> (forall k, (k < n)%nat -> x k = y k) -> mv n A x a = mv n B y a.
Proof. intros H1 H2. apply sumn_ext. intros k Hk. rewrite H1, H2 by exact Hk. reflexivity. Qed.
Lemma sq_zero n x : sq n x <= 0 -> forall i, (i < n)%nat -> x i = 0.
Proof. apply sumn_sq_zero. Qed.
Lemma sq_zero_of n x : (forall i, (i < n)%nat -> x i = 0) -> sq n x = 0.
Proof. intros H. apply sumn_zero. intros i Hi. rewrite (H i Hi). ring. Qed.
Lemma mv_basis n A i a : (i < n)%nat -> mv n A (delta i) a = A a i.
Proof. intros Hi. unfold mv. rewrite (sumn_ext n _ (fun k => delta i k * A a k)) by (intros; ring). apply (sumn_delta' n i (fun k => A a k) Hi). Qed.
Lemma sq_basis n i : (i < n)%nat -> sq n (delta i) = 1.
Proof. intros Hi. unfold sq. rewrite (sumn_delta' n i (fun k => delta i k) Hi). unfold delta. rewrite Nat.eqb_refl. reflexivity. Qed.
Lemma gram_basis rows n B i : (i < n)%nat -> gram rows B i i = sq rows (mv n B (delta i)).
Proof. intros Hi. unfold gram, sq. apply sumn_ext. intros a _. rewrite !mv_basis by exact Hi. reflexivity. Qed.
Lemma mv_mv m n A V x a : mv m A (mv n V x) a = mv n (fun a b => sumn m (fun k => A a k * V k b)) x a.
Proof.
  unfold mv. rewrite (sumn_ext m _ (fun k => sumn n (fun b => A a k * V k b * x b))) by (intros; rewrite <- sumn_scale; apply sumn_ext; intros; ring).
  rewrite sumn_swap. apply sumn_ext. intros b _. rewrite sumn_scale_r. reflexivity.
Qed.
Lemma adjoint m n A x y : sumn m (fun r => mv n A x r * y r) = sumn n (fun k => x k * mv m (transposed A) y k).
Proof.
  unfold mv, transposed. rewrite (sumn_ext m _ (fun r => sumn n (fun k => A r k * x k * y r))) by (intros; rewrite <- sumn_scale_r; reflexivity).
  rewrite sumn_swap. apply sumn_ext. intros k _. rewrite <- sumn_scale. apply sumn_ext. intros; ring.
Qed.

(** ** Changing two terms of a sum *)
Lemma sumn_two n i j f g : (i < j < n)%nat -> (forall k, (k < n)%nat -> k <> i -> k <> j -> g k = f k) ->
  sumn n g = sumn n f + (g i - f i) + (g j - f j).
Proof.
  intros Hij H.
  rewrite (sumn_split3 n j g), (sumn_split3 n j f) by lia. rewrite (sumn_split3 j i g), (sumn_split3 j i f) by lia.
  rewrite (sumn_ext i g f), (sumn_ext (j - S i) (fun t => g (S i + t)%nat) (fun t => f (S i + t)%nat)),
    (sumn_ext (n - S j) (fun t => g (S j + t)%nat) (fun t => f (S j + t)%nat)) by (intros; apply H; lia). ring.
Qed.

(** ** Turning a pair of columns *)
Definition spin (i j : nat) (cs sn : R) (x : nat -> R) : nat -> R := fun k =>
  if Nat.eqb k i then cs * x i - sn * x j else if Nat.eqb k j then sn * x i + cs * x j else x k.
Ltac eqbs := repeat match goal with |- context [Nat.eqb ?a ?b] => destruct (Nat.eqb_spec a b); try lia; try congruence end.
Lemma mv_turn n i j cs sn X x a : (i < j < n)%nat -> mv n (turn i j cs sn X) x a = mv n X (spin i j cs sn x) a.
Proof.
  intros H. unfold mv. symmetry.
  rewrite (sumn_two n i j (fun k => X a k * x k) (fun k => X a k * spin i j cs sn x k) H).
  2:{ intros k _ N1 N2. unfold spin. eqbs. }
  rewrite (sumn_two n i j (fun k => X a k * x k) (fun k => turn i j cs sn X a k * x k) H).
  2:{ intros k _ N1 N2. unfold turn. eqbs. }
  unfold spin, turn. rewrite !Nat.eqb_refl. eqbs. ring.
Qed.
Lemma sq_spin n i j cs sn x : (i < j < n)%nat -> cs * cs + sn * sn = 1 -> sq n (spin i j cs sn x) = sq n x.
Proof.
  intros H E. unfold sq. rewrite (sumn_two n i j (fun k => x k * x k) _ H).
  2:{ intros k _ N1 N2. unfold spin. eqbs. }
  unfold spin. rewrite !Nat.eqb_refl. eqbs.
  assert (Q : forall s u w : R, u - x i * x i + (w - x j * x j) = 0 -> s + (u - x i * x i) + (w - x j * x j) = s) by (intros; lra). apply Q.
  replace ((cs * x i - sn * x j) * (cs * x i - sn * x j) - x i * x i + ((sn * x i + cs * x j) * (sn * x i + cs * x j) - x j * x j))
    with ((cs * cs + sn * sn - 1) * (x i * x i + x j * x j)) by ring. rewrite E. ring.
Qed.
Lemma turn_gram rows i j cs sn B : (i < j)%nat ->
  gram rows (turn i j cs sn B) i i = cs * cs * gram rows B i i + 2 * cs * sn * gram rows B i j + sn * sn * gram rows B j j /\
  gram rows (turn i j cs sn B) j j = sn * sn * gram rows B i i - 2 * cs * sn * gram rows B i j + cs * cs * gram rows B j j /\
  gram rows (turn i j cs sn B) i j = (cs * cs - sn * sn) * gram rows B i j - cs * sn * (gram rows B i i - gram rows B j j) /\
  (forall k, k <> i -> k <> j -> gram rows (turn i j cs sn B) k k = gram rows B k k).
Proof.
  intros H. unfold gram. repeat split.
  - rewrite <- !sumn_scale, <- !sumn_add. apply sumn_ext. intros a _. unfold turn. rewrite !Nat.eqb_refl. ring.
  - rewrite <- !sumn_scale. rewrite <- sumn_sub, <- sumn_add. apply sumn_ext. intros a _. unfold turn. rewrite !Nat.eqb_refl. eqbs. ring.
  - rewrite <- sumn_sub, <- !sumn_scale, <- sumn_sub. apply sumn_ext. intros a _. unfold turn. rewrite !Nat.eqb_refl. eqbs. ring.
  - intros k N1 N2. apply sumn_ext. intros a _. unfold turn. eqbs.
Qed.

(** ** The rotation *)
Lemma plane_spec p q cs sn : plane p q = Ret (cs, sn) -> cs * cs + sn * sn = 1 /\ (cs * cs - sn * sn) * p - cs * sn * q = 0.
Proof.
  unfold plane. set (c := sqrt (4 * (p * p) + q * q)).
  assert (P : 0 <= 4 * (p * p) + q * q) by nra.
  assert (C2 : c * c = 4 * (p * p) + q * q) by (apply sqrt_sqrt; exact P).
  assert (C0 : 0 <= c) by apply sqrt_pos.
  destruct (Req_EM_T c 0) as [_|N]; [discriminate|]. assert (Cp : 0 < c) by lra. clearbody c.
  assert (B : q <= c /\ - q <= c) by (split; nra).
  destruct (Rle_dec 0 q) as [Q|Q].
  - intros E; injection E as Ec Es.
    assert (A0 : 0 <= (c + q) / (2 * c)) by (apply Rmult_le_pos; [lra | left; apply Rinv_0_lt_compat; lra]).
    assert (Cs2 : cs * cs = (c + q) / (2 * c)) by (rewrite <- Ec; apply sqrt_sqrt, A0).
    assert (Cn : 0 < cs). { rewrite <- Ec. apply sqrt_lt_R0. apply Rmult_lt_0_compat; [lra | apply Rinv_0_lt_compat; lra]. }
    rewrite Ec in Es. assert (M : cs * sn = p / c) by (rewrite <- Es; field; lra).
    assert (Sn2 : sn * sn = (c - q) / (2 * c)).
    { apply (Rmult_eq_reg_l (cs * cs)); [|nra]. replace (cs * cs * (sn * sn)) with ((cs * sn) * (cs * sn)) by ring. rewrite M, Cs2.
      apply (Rmult_eq_reg_l (c * c)); [|nra]. replace (c * c * (p / c * (p / c))) with (p * p) by (field; lra).
      replace (c * c * ((c + q) / (2 * c) * ((c - q) / (2 * c)))) with ((c * c - q * q) / 4) by (field; lra). rewrite C2. field. }
    rewrite M, Cs2, Sn2. split; field; lra.
  - intros E; injection E as Ec Es. assert (Qn : q < 0) by lra.
    assert (A0 : 0 <= (c - q) / (2 * c)) by (apply Rmult_le_pos; [lra | left; apply Rinv_0_lt_compat; lra]).
    assert (Sn2 : sn * sn = (c - q) / (2 * c)).
    { rewrite <- Es. destruct (Rlt_dec p 0); [|apply sqrt_sqrt, A0].
      replace (- sqrt ((c - q) / (2 * c)) * - sqrt ((c - q) / (2 * c))) with (sqrt ((c - q) / (2 * c)) * sqrt ((c - q) / (2 * c))) by ring. apply sqrt_sqrt, A0. }
    assert (Sn : 0 < sn * sn). { rewrite Sn2. apply Rmult_lt_0_compat; [lra | apply Rinv_0_lt_compat; lra]. }
    assert (Nz : sn <> 0) by nra. rewrite Es in Ec. assert (M : cs * sn = p / c) by (rewrite <- Ec; field; lra).
    assert (Cs2 : cs * cs = (c + q) / (2 * c)).
    { apply (Rmult_eq_reg_r (sn * sn)); [|lra]. replace (cs * cs * (sn * sn)) with ((cs * sn) * (cs * sn)) by ring. rewrite M, Sn2.
      apply (Rmult_eq_reg_l (c * c)); [|nra]. replace (c * c * (p / c * (p / c))) with (p * p) by (field; lra).
      replace (c * c * ((c + q) / (2 * c) * ((c - q) / (2 * c)))) with ((c * c - q * q) / 4) by (field; lra). rewrite C2. field. }
    rewrite M, Cs2, Sn2. split; field; lra.
Qed.
Lemma plane_defined p q : p <> 0 \/ q <> 0 -> exists cs sn, plane p q = Ret (cs, sn).
Proof.
  intros H. unfold plane. destruct (Req_EM_T (sqrt (4 * (p * p) + q * q)) 0) as [E|N].
  - exfalso. apply sqrt_eq_0 in E; [|nra]. destruct H; nra.
  - destruct (Rle_dec 0 q); do 2 eexists; reflexivity.
Qed.
(** One rotation makes the pair orthogonal, keeps the sum of the squared lengths and
    increases the sum of their squares by 2 p^2. *)
Lemma turn_pair rows i j B cs sn : (i < j)%nat -> plane (gram rows B i j) (gram rows B i i - gram rows B j j) = Ret (cs, sn) ->
  let B' := turn i j cs sn B in
  gram rows B' i j = 0 /\ gram rows B' i i + gram rows B' j j = gram rows B i i + gram rows B j j /\
  gram rows B' i i * gram rows B' i i + gram rows B' j j * gram rows B' j j =
  gram rows B i i * gram rows B i i + gram rows B j j * gram rows B j j + 2 * (gram rows B i j * gram rows B i j).
Proof.
  intros H E. destruct (plane_spec _ _ _ _ E) as [U O]. destruct (turn_gram rows i j cs sn B H) as (G1 & G2 & G3 & _). cbv zeta. rewrite G1, G2, G3.
  clear G1 G2 G3 E. generalize dependent (gram rows B i i). generalize (gram rows B j j) (gram rows B i j). intros qj p qi O.
  split; [lra|]. split.
  - replace (cs * cs * qi + 2 * cs * sn * p + sn * sn * qj + (sn * sn * qi - 2 * cs * sn * p + cs * cs * qj)) with ((cs * cs + sn * sn) * (qi + qj)) by ring. rewrite U. ring.
  - set (P' := (cs * cs - sn * sn) * p - cs * sn * (qi - qj)) in O.
    replace ((cs * cs * qi + 2 * cs * sn * p + sn * sn * qj) * (cs * cs * qi + 2 * cs * sn * p + sn * sn * qj) +
      (sn * sn * qi - 2 * cs * sn * p + cs * cs * qj) * (sn * sn * qi - 2 * cs * sn * p + cs * cs * qj))
      with ((cs * cs + sn * sn) * (cs * cs + sn * sn) * (qi * qi + qj * qj + 2 * (p * p)) - 2 * (P' * P')) by (unfold P'; ring).
    rewrite U, O. ring.
Qed.

(** ** More vectors than dimensions are linearly dependent *)
Lemma pivot (f : nat -> R) n : (forall j, (j < n)%nat -> f j = 0) \/ exists p, (p < n)%nat /\ f p <> 0.
Proof.
  induction n as [|n [IH|(p & Hp & N)]]; [left; intros; lia| |right; exists p; split; [lia|exact N]].
  destruct (Req_EM_T (f n) 0) as [E|N]; [left|right; exists n; split; [lia|exact N]].
  intros j Hj. destruct (Nat.eq_dec j n) as [->|]; [exact E|apply IH; lia].
Qed.
(** Index [j] with a gap at [p] *)
Definition skip (p j : nat) : nat := if Nat.ltb j p then j else S j.
Lemma sumn_skip n p f : (p <= n)%nat -> sumn (S n) f = f p + sumn n (fun j => f (skip p j)).
Proof.
  intros H. rewrite (sumn_split3 (S n) p f) by lia. replace n with (p + (S n - S p))%nat at 2 by lia. rewrite sumn_split.
  rewrite (sumn_ext p (fun j => f (skip p j)) f) by (intros i Hi; unfold skip; rewrite (proj2 (Nat.ltb_lt i p) Hi); reflexivity).
  rewrite (sumn_ext (S n - S p) (fun i => f (skip p (p + i)%nat)) (fun t => f (S p + t)%nat)).
  - ring.
  - intros i Hi. unfold skip. rewrite (proj2 (Nat.ltb_ge (p + i) p)) by lia. reflexivity.
Qed.
Definition unskip (p i : nat) : nat := if Nat.ltb i p then i else (i - 1)%nat.
Lemma unskip_skip p j : unskip p (skip p j) = j.
Proof. unfold unskip, skip. destruct (Nat.ltb_spec j p) as [H|H]; [rewrite (proj2 (Nat.ltb_lt j p) H); reflexivity|]. rewrite (proj2 (Nat.ltb_ge (S j) p)) by lia. lia. Qed.
Lemma skip_neq p j : skip p j <> p.
Proof. unfold skip. destruct (Nat.ltb_spec j p); lia. Qed.
Lemma dependent : forall k (A : nat -> nat -> R), exists x, (exists j, (j <= k)%nat /\ x j <> 0) /\ forall r, (r < k)%nat -> mv (S k) A x r = 0.
Proof.
  induction k as [|k IH]; intros A.
  - exists (fun _ => 1). split; [exists 0%nat; split; [lia|lra] | intros; lia].
  - destruct (pivot (A k) (S (S k))) as [Z'|(p & Hp & Nz)].
    + destruct (IH A) as (x & (j & Hj & Nz) & E). exists (fun i => if Nat.leb i k then x i else 0). split.
      * exists j. split; [lia|]. rewrite (proj2 (Nat.leb_le j k) Hj). exact Nz.
      * intros r Hr. unfold mv. destruct (Nat.eq_dec r k) as [->|N].
        -- apply sumn_zero. intros i Hi. rewrite Z' by lia. ring.
        -- rewrite (sumn_trunc (S (S k)) (S k)) by (first [lia | intros i Hi; rewrite (proj2 (Nat.leb_gt i k)) by lia; ring]).
           rewrite <- (E r ltac:(lia)). apply sumn_ext. intros i Hi. rewrite (proj2 (Nat.leb_le i k)) by lia. reflexivity.
    + destruct (IH (fun r j => A r (skip p j) - A k (skip p j) / A k p * A r p)) as (x & (j & Hj & Nx) & E).
      set (xp := - sumn (S k) (fun j => A k (skip p j) / A k p * x j)).
      exists (fun i => if Nat.eqb i p then xp else x (unskip p i)). split.
      * exists (skip p j). split; [unfold skip; destruct (Nat.ltb_spec j p); lia|].
        pose proof (skip_neq p j). eqbs. rewrite unskip_skip. exact Nx.
      * intros r Hr. unfold mv. rewrite (sumn_skip (S k) p) by lia. rewrite Nat.eqb_refl.
        rewrite (sumn_ext (S k) _ (fun j => A r (skip p j) * x j)).
        2:{ intros i Hi. pose proof (skip_neq p i). eqbs. rewrite unskip_skip. reflexivity. }
        assert (Xp : A r p * xp = - sumn (S k) (fun j => A k (skip p j) / A k p * A r p * x j)).
        { unfold xp. rewrite Ropp_mult_distr_r_reverse, <- sumn_scale. f_equal. apply sumn_ext. intros; ring. }
        destruct (Nat.eq_dec r k) as [->|N].
        -- rewrite Xp. rewrite (sumn_ext (S k) (fun j => A k (skip p j) / A k p * A k p * x j) (fun j => A k (skip p j) * x j)); [ring|].
           intros i Hi. field. exact Nz.
        -- rewrite Xp. specialize (E r ltac:(lia)). unfold mv in E.
           rewrite (sumn_ext (S k) _ (fun j => A r (skip p j) * x j - A k (skip p j) / A k p * A r p * x j)) in E by (intros; ring).
           rewrite sumn_sub in E. lra.
Qed.
(** An injective square matrix is onto. *)
Lemma onto n A : (forall x, (forall r, (r < n)%nat -> mv n A x r = 0) -> forall j, (j < n)%nat -> x j = 0) ->
  forall b, exists x, forall r, (r < n)%nat -> mv n A x r = b r.
Proof.
  intros Inj b. destruct (dependent n (fun r j => if Nat.ltb j n then A r j else b r)) as (x & (j & Hj & Nx) & E).
  assert (E' : forall r, (r < n)%nat -> mv n A x r + b r * x n = 0).
  { intros r Hr. rewrite <- (E r Hr). unfold mv. cbn [sumn]. rewrite (proj2 (Nat.ltb_ge n n) (le_n n)). f_equal.
    apply sumn_ext. intros i Hi. rewrite (proj2 (Nat.ltb_lt i n) Hi). reflexivity. }
  destruct (Req_EM_T (x n) 0) as [Z|N].
  - exfalso. apply Nx. destruct (Nat.eq_dec j n) as [->|]; [exact Z|]. apply (Inj x); [|lia]. intros r Hr. specialize (E' r Hr). rewrite Z in E'. lra.
  - exists (fun k => - x k / x n). intros r Hr. specialize (E' r Hr). unfold mv in *.
    rewrite (sumn_ext n _ (fun k => - / x n * (A r k * x k))) by (intros; field; exact N). rewrite sumn_scale.
    apply (Rmult_eq_reg_l (x n)); [|exact N]. replace (x n * (- / x n * sumn n (fun k => A r k * x k))) with (- sumn n (fun k => A r k * x k)) by (field; exact N). lra.
Qed.

(** ** Stretching *)
Lemma stretches_injective rows n low A : 0 < low -> stretches rows n low A ->
  forall x, (forall r, (r < rows)%nat -> mv n A x r = 0) -> forall j, (j < n)%nat -> x j = 0.
Proof.
  intros L St x Z. apply sq_zero. specialize (St x). rewrite (sq_zero_of rows (mv n A x) Z) in St. pose proof (sq_nn n x). nra.
Qed.
Lemma stretches_onto n low A : 0 < low -> stretches n n low A -> forall b, exists x, forall r, (r < n)%nat -> mv n A x r = b r.
Proof. intros L St. apply onto. apply (stretches_injective n n low A L St). Qed.
(** The transpose of a square matrix stretches as much. *)
Lemma stretches_transposed n low A : 0 < low -> stretches n n low A -> stretches n n low (transposed A).
Proof.
  intros L St y. destruct (stretches_onto n low A L St y) as (x & Hx).
  assert (Ey : sq n y = sq n (mv n A x)) by (apply sq_ext; intros; symmetry; apply Hx; assumption).
  pose proof (St x) as B. rewrite <- Ey in B.
  assert (D : sq n y = sumn n (fun k => x k * mv n (transposed A) y k)).
  { rewrite <- (adjoint n n A x y). apply sumn_ext. intros r Hr. rewrite (Hx r Hr). reflexivity. }
  pose proof (cauchy1 n x (mv n (transposed A) y)) as C. rewrite <- D in C. fold (sq n x) in C. fold (sq n (mv n (transposed A) y)) in C.
  pose proof (sq_nn n x). pose proof (sq_nn n y). pose proof (sq_nn n (mv n (transposed A) y)).
  destruct (Req_EM_T (sq n y) 0) as [Z|N]; [rewrite Z; lra|]. assert (0 < sq n y) by lra.
  apply (Rmult_le_reg_l (sq n y)); [assumption|].
  apply Rle_trans with (low * (sq n x * sq n (mv n (transposed A) y))); [|nra].
  replace (sq n y * (low * sq n y)) with (low * (sq n y * sq n y)) by ring. apply Rmult_le_compat_l; lra.
Qed.
Lemma at_most_transposed m n high A : 0 <= high -> stretched_at_most m n high A -> stretched_at_most n m high (transposed A).
Proof.
  intros L St y. set (w := mv m (transposed A) y). pose proof (St w) as B.
  assert (D : sq n w = sumn m (fun r => mv n A w r * y r)) by (rewrite adjoint; reflexivity).
  pose proof (cauchy1 m (mv n A w) y) as C. rewrite <- D in C. fold (sq m (mv n A w)) in C. fold (sq m y) in C.
  pose proof (sq_nn n w). pose proof (sq_nn m y). pose proof (sq_nn m (mv n A w)).
  destruct (Req_EM_T (sq n w) 0) as [Z|N]; [rewrite Z; nra|]. assert (0 < sq n w) by lra.
  apply (Rmult_le_reg_l (sq n w)); [assumption|].
  apply Rle_trans with (sq m (mv n A w) * sq m y); [assumption|]. replace (sq n w * (high * sq m y)) with (high * sq n w * sq m y) by ring.
  apply Rmult_le_compat_r; assumption.
Qed.
