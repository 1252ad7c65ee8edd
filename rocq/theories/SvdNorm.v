(** Proofs about the singular value routines: rotations and the size of what was neglected. *)
From Coq Require Import Reals List ZArith Bool Arith Lia Lra Psatz.
From Verif Require Import Outcome LinModel LinSpec SumProofs LmaSpec VelIkLin SvdModel SvdHouse SvdBidiag SvdAccum.
Import ListNotations.
Local Open Scope R_scope.

(** * Sums *)
Lemma sumn_two n (f g : nat -> R) a b : (a < n)%nat -> (b < n)%nat -> a <> b ->
  (forall i, (i < n)%nat -> i <> a -> i <> b -> f i = g i) -> f a + f b = g a + g b -> sumn n f = sumn n g.
Proof.
  intros Ha Hb N H E. apply Rminus_diag_uniq. rewrite <- sumn_sub.
  rewrite (sumn_ext n _ (fun i => (if Nat.eqb i a then f a - g a else 0) + (if Nat.eqb i b then f b - g b else 0))).
  - rewrite sumn_add, (sumn_one n a), (sumn_one n b); try assumption.
    + rewrite !Nat.eqb_refl. lra.
    + intros j _ Nj. destruct (Nat.eqb_spec j b); [contradiction|reflexivity].
    + intros j _ Nj. destruct (Nat.eqb_spec j a); [contradiction|reflexivity].
  - intros i Hi. destruct (Nat.eqb_spec i a) as [Ea|Na].
    + subst i. destruct (Nat.eqb_spec a b); [contradiction|]. ring.
    + destruct (Nat.eqb_spec i b) as [Eb|Nb]; [subst i; ring|]. rewrite (H i Hi Na Nb). ring.
Qed.
Definition dsum (n m : nat) (f : nat -> nat -> R) : R := sumn n (fun i => sumn m (fun j => f i j)).
Lemma dsum_ext n m f g : (forall i j, (i < n)%nat -> (j < m)%nat -> f i j = g i j) -> dsum n m f = dsum n m g.
Proof. intros H. apply sumn_ext. intros i Hi. apply sumn_ext. intros j Hj. apply H; assumption. Qed.
Lemma dsum_add n m f g : dsum n m (fun i j => f i j + g i j) = dsum n m f + dsum n m g.
Proof. unfold dsum. rewrite <- sumn_add. apply sumn_ext. intros. apply sumn_add. Qed.
Lemma dsum_scale n m c f : dsum n m (fun i j => c * f i j) = c * dsum n m f.
Proof. unfold dsum. rewrite <- sumn_scale. apply sumn_ext. intros. apply sumn_scale. Qed.
Lemma dsum_nonneg n m f : (forall i j, (i < n)%nat -> (j < m)%nat -> 0 <= f i j) -> 0 <= dsum n m f.
Proof. intros H. apply sumn_nonneg. intros i Hi. apply sumn_nonneg. intros j Hj. apply H; assumption. Qed.
Lemma dsum_swap n m f : dsum n m f = dsum m n (fun j i => f i j).
Proof. apply sumn_swap. Qed.
Lemma dsum_pick n m f i j : (i < n)%nat -> (j < m)%nat -> (forall a b, (a < n)%nat -> (b < m)%nat -> a <> i \/ b <> j -> f a b = 0) -> dsum n m f = f i j.
Proof.
  intros Hi Hj H. unfold dsum. rewrite (sumn_one n i); [|exact Hi|].
  - apply sumn_one; [exact Hj|]. intros b Hb N. apply H; auto.
  - intros a Ha N. apply sumn_zero. intros b Hb. apply H; auto.
Qed.

(** The square of the Frobenius norm of an n x m matrix. *)
Definition fro2 (n m : nat) (X : mat) : R := dsum n m (fun i j => X i j * X i j).
Lemma fro2_ext n m X Y : (forall i j, (i < n)%nat -> (j < m)%nat -> X i j = Y i j) -> fro2 n m X = fro2 n m Y.
Proof. intros H. apply dsum_ext. intros. now rewrite H. Qed.
Lemma fro2_nonneg n m X : 0 <= fro2 n m X.
Proof. apply dsum_nonneg. intros. apply Rle_0_sqr. Qed.
Lemma cauchy n m X Y : dsum n m (fun i j => X i j * Y i j) * dsum n m (fun i j => X i j * Y i j) <= fro2 n m X * fro2 n m Y.
Proof.
  set (p := dsum n m (fun i j => X i j * Y i j)).
  assert (H : forall t, 0 <= fro2 n m X + 2 * t * p + t * t * fro2 n m Y).
  { intros t. replace (fro2 n m X + 2 * t * p + t * t * fro2 n m Y) with (fro2 n m (fun i j => X i j + t * Y i j)).
    - apply fro2_nonneg.
    - unfold fro2, p. rewrite <- !dsum_scale, <- !dsum_add. apply dsum_ext. intros. ring. }
  pose proof (fro2_nonneg n m X). pose proof (fro2_nonneg n m Y).
  destruct (Req_dec (fro2 n m Y) 0) as [Z|N].
  - rewrite Z in *. destruct (Req_dec p 0) as [->|Np]; [lra|]. specialize (H (- (fro2 n m X + 1) / (2 * p))).
    replace (2 * (- (fro2 n m X + 1) / (2 * p)) * p) with (- (fro2 n m X + 1)) in H by (field; exact Np). lra.
  - specialize (H (- p / fro2 n m Y)).
    replace (fro2 n m X + 2 * (- p / fro2 n m Y) * p + - p / fro2 n m Y * (- p / fro2 n m Y) * fro2 n m Y)
      with ((fro2 n m X * fro2 n m Y - p * p) / fro2 n m Y) in H by (field; exact N).
    assert (0 < fro2 n m Y) by lra. apply (Rmult_le_compat_r (fro2 n m Y)) in H; [|lra].
    unfold Rdiv in H. rewrite Rmult_assoc, Rinv_l, Rmult_1_r, Rmult_0_l in H by exact N. lra.
Qed.
Lemma minkowski n m X Y e d : 0 <= e -> 0 <= d -> fro2 n m X <= e * e -> fro2 n m Y <= d * d ->
  fro2 n m (fun i j => X i j + Y i j) <= (e + d) * (e + d).
Proof.
  intros He Hd HX HY. set (p := dsum n m (fun i j => X i j * Y i j)).
  assert (E : fro2 n m (fun i j => X i j + Y i j) = fro2 n m X + 2 * p + fro2 n m Y).
  { unfold fro2, p. rewrite <- !dsum_scale, <- !dsum_add. apply dsum_ext. intros. ring. }
  pose proof (cauchy n m X Y) as C. fold p in C. pose proof (fro2_nonneg n m X). pose proof (fro2_nonneg n m Y).
  assert (p * p <= (e * d) * (e * d)).
  { apply Rle_trans with (fro2 n m X * fro2 n m Y); [exact C|]. replace (e * d * (e * d)) with ((e * e) * (d * d)) by ring.
    apply Rmult_le_compat; lra. }
  assert (p <= e * d). { apply Rnot_lt_le. intros L. assert (0 <= e * d) by (apply Rmult_le_pos; assumption). nra. }
  rewrite E. lra.
Qed.
Lemma entry_le n m X e i j : (i < n)%nat -> (j < m)%nat -> 0 <= e -> fro2 n m X <= e * e -> Rabs (X i j) <= e.
Proof.
  intros Hi Hj He H.
  assert (X i j * X i j <= fro2 n m X).
  { apply Rle_trans with (dsum n m (fun a b => if Nat.eqb a i && Nat.eqb b j then X a b * X a b else 0)).
    - right. symmetry. rewrite (dsum_pick n m _ i j Hi Hj); [now rewrite !Nat.eqb_refl|].
      intros a b _ _ N. destruct (Nat.eqb_spec a i); destruct (Nat.eqb_spec b j); try reflexivity. exfalso. tauto.
    - apply Rminus_le. replace (dsum n m (fun a b => if Nat.eqb a i && Nat.eqb b j then X a b * X a b else 0) - fro2 n m X)
        with (- dsum n m (fun a b => X a b * X a b + -1 * (if Nat.eqb a i && Nat.eqb b j then X a b * X a b else 0))).
      + assert (0 <= dsum n m (fun a b => X a b * X a b + -1 * (if Nat.eqb a i && Nat.eqb b j then X a b * X a b else 0))); [|lra].
        apply dsum_nonneg. intros a b _ _. pose proof (Rle_0_sqr (X a b)) as Q. unfold Rsqr in Q. destruct (Nat.eqb a i && Nat.eqb b j); lra.
      + rewrite dsum_add, dsum_scale. unfold fro2. ring. }
  apply Rabs_le. split; nra.
Qed.

(** * Rotations *)
Definition rowrot (X : mat) (a b : nat) (c s : R) : mat := fun i j =>
  if Nat.eqb i a then c * X a j + s * X b j else if Nat.eqb i b then c * X b j - s * X a j else X i j.
Definition colrot (X : mat) (a b : nat) (c s : R) : mat := fun i j =>
  if Nat.eqb j a then X i a * c + X i b * s else if Nat.eqb j b then X i b * c - X i a * s else X i j.
Lemma rot_colrot n M a b c s r j : (r < n)%nat -> rot n M a b c s r j = colrot M a b c s r j.
Proof. intros H. unfold rot, colrot. replace (within 0 n r) with true by (symmetry; apply within_true; lia). reflexivity. Qed.

Lemma rowrot_fro2 n m X a b c s : (a < n)%nat -> (b < n)%nat -> a <> b -> c * c + s * s = 1 -> fro2 n m (rowrot X a b c s) = fro2 n m X.
Proof.
  intros Ha Hb N E. unfold fro2, dsum. apply (sumn_two n _ _ a b Ha Hb N).
  - intros i _ Na Nb. apply sumn_ext. intros j _. unfold rowrot. destruct (Nat.eqb_spec i a); [contradiction|]. destruct (Nat.eqb_spec i b); [contradiction|reflexivity].
  - rewrite <- !sumn_add. apply sumn_ext. intros j _. unfold rowrot. rewrite !Nat.eqb_refl. destruct (Nat.eqb_spec b a); [congruence|].
    replace ((c * X a j + s * X b j) * (c * X a j + s * X b j) + (c * X b j - s * X a j) * (c * X b j - s * X a j))
      with ((c * c + s * s) * (X a j * X a j + X b j * X b j)) by ring. rewrite E. ring.
Qed.
Lemma colrot_fro2 n m X a b c s : (a < m)%nat -> (b < m)%nat -> a <> b -> c * c + s * s = 1 -> fro2 n m (colrot X a b c s) = fro2 n m X.
Proof.
  intros Ha Hb N E. unfold fro2, dsum. apply sumn_ext. intros i _. apply (sumn_two m _ _ a b Ha Hb N).
  - intros j _ Na Nb. unfold colrot. destruct (Nat.eqb_spec j a); [contradiction|]. destruct (Nat.eqb_spec j b); [contradiction|reflexivity].
  - unfold colrot. rewrite !Nat.eqb_refl. destruct (Nat.eqb_spec b a); [congruence|].
    replace ((X i a * c + X i b * s) * (X i a * c + X i b * s) + (X i b * c - X i a * s) * (X i b * c - X i a * s))
      with ((c * c + s * s) * (X i a * X i a + X i b * X i b)) by ring. rewrite E. ring.
Qed.
(** columns stay orthonormal *)
Lemma colrot_orth n m Q a b c s : (a < m)%nat -> (b < m)%nat -> a <> b -> c * c + s * s = 1 ->
  (forall i j, (i < m)%nat -> (j < m)%nat -> sumn n (fun r => Q r i * Q r j) = delta i j) ->
  forall i j, (i < m)%nat -> (j < m)%nat -> sumn n (fun r => colrot Q a b c s r i * colrot Q a b c s r j) = delta i j.
Proof.
  intros Ha Hb N E H i j Hi Hj.
  assert (L : forall (p q u v : R) w x y z, (w < m)%nat -> (x < m)%nat -> (y < m)%nat -> (z < m)%nat ->
    sumn n (fun r => (Q r w * p + Q r x * q) * (Q r y * u + Q r z * v)) = p * u * delta w y + p * v * delta w z + q * u * delta x y + q * v * delta x z).
  { intros p q u v w x y z Hw Hx Hy Hz. rewrite <- !H by assumption. rewrite <- !sumn_scale, <- !sumn_add. apply sumn_ext. intros; ring. }
  assert (G : forall k, (k < m)%nat -> exists w x p q, (w < m)%nat /\ (x < m)%nat /\ (forall r, colrot Q a b c s r k = Q r w * p + Q r x * q) /\
     ((k = a /\ w = a /\ x = b /\ p = c /\ q = s) \/ (k = b /\ w = a /\ x = b /\ p = - s /\ q = c) \/ (k <> a /\ k <> b /\ w = k /\ x = k /\ p = 1 /\ q = 0))).
  { intros k Hk. unfold colrot. destruct (Nat.eqb_spec k a) as [Ek|Nk].
    - exists a, b, c, s. split; [exact Ha|]. split; [exact Hb|]. split; [intros; ring|]. left. auto.
    - destruct (Nat.eqb_spec k b) as [Ek|Nk'].
      + exists a, b, (- s), c. split; [exact Ha|]. split; [exact Hb|]. split; [intros; ring|]. right. left. auto.
      + exists k, k, 1, 0. split; [exact Hk|]. split; [exact Hk|]. split; [intros; ring|]. right. right. auto 10. }
  destruct (G i Hi) as (w & x & p & q & Hw & Hx & E1 & C1). destruct (G j Hj) as (y & z & u & v & Hy & Hz & E2 & C2).
  rewrite (sumn_ext n _ (fun r => (Q r w * p + Q r x * q) * (Q r y * u + Q r z * v))) by (intros; now rewrite E1, E2).
  rewrite (L p q u v w x y z Hw Hx Hy Hz).
  destruct C1 as [(-> & -> & -> & -> & ->)|[(-> & -> & -> & -> & ->)|(N1 & N2 & -> & -> & -> & ->)]];
  destruct C2 as [(-> & -> & -> & -> & ->)|[(-> & -> & -> & -> & ->)|(M1 & M2 & -> & -> & -> & ->)]];
  rewrite ?delta_same, ?(delta_other a b), ?(delta_other b a), ?(delta_other a j), ?(delta_other b j), ?(delta_other i a), ?(delta_other i b) by congruence; try lra; try ring.
Qed.

Section Tri.
Variable cols : nat.
Lemma tri_rowrot U X V M a b c s r j : (r < M)%nat -> (a < cols)%nat -> (b < cols)%nat -> a <> b -> c * c + s * s = 1 ->
  tri cols (rot M U a b c s) (rowrot X a b c s) V r j = tri cols U X V r j.
Proof.
  intros Hr Ha Hb N E. unfold tri. apply (sumn_two cols _ _ a b Ha Hb N).
  - intros i _ Na Nb. rewrite rot_colrot by exact Hr. unfold colrot, rowrot. destruct (Nat.eqb_spec i a); [contradiction|]. destruct (Nat.eqb_spec i b); [contradiction|reflexivity].
  - rewrite !rot_colrot by exact Hr. unfold colrot, rowrot. rewrite !Nat.eqb_refl. destruct (Nat.eqb_spec b a); [congruence|].
    rewrite (sumn_ext cols (fun d => (c * X a d + s * X b d) * V j d) (fun d => c * (X a d * V j d) + s * (X b d * V j d))) by (intros; ring).
    rewrite (sumn_ext cols (fun d => (c * X b d - s * X a d) * V j d) (fun d => c * (X b d * V j d) + - s * (X a d * V j d))) by (intros; ring).
    rewrite !sumn_add, !sumn_scale. set (p := sumn cols (fun i => X a i * V j i)). set (q := sumn cols (fun i => X b i * V j i)).
    replace ((U r a * c + U r b * s) * (c * p + s * q) + (U r b * c - U r a * s) * (c * q + - s * p)) with ((c * c + s * s) * (U r a * p + U r b * q)) by ring.
    rewrite E. ring.
Qed.
Lemma tri_colrot U X V a b c s r j : (j < cols)%nat -> (a < cols)%nat -> (b < cols)%nat -> a <> b -> c * c + s * s = 1 ->
  tri cols U (colrot X a b c s) (rot cols V a b c s) r j = tri cols U X V r j.
Proof.
  intros Hj Ha Hb N E. unfold tri. apply sumn_ext. intros e _. f_equal. apply (sumn_two cols _ _ a b Ha Hb N).
  - intros i _ Na Nb. rewrite rot_colrot by exact Hj. unfold colrot. destruct (Nat.eqb_spec i a); [contradiction|]. destruct (Nat.eqb_spec i b); [contradiction|reflexivity].
  - rewrite !rot_colrot by exact Hj. unfold colrot. rewrite !Nat.eqb_refl. destruct (Nat.eqb_spec b a); [congruence|].
    replace ((X e a * c + X e b * s) * (V j a * c + V j b * s) + (X e b * c - X e a * s) * (V j b * c - V j a * s))
      with ((c * c + s * s) * (X e a * V j a + X e b * V j b)) by ring. rewrite E. ring.
Qed.
(** U X V^T is as large as X when the columns of U and V are orthonormal. *)
Lemma left_fro2 M m Q Y : (forall i j, (i < cols)%nat -> (j < cols)%nat -> sumn M (fun a => Q a i * Q a j) = delta i j) ->
  fro2 M m (fun a b => sumn cols (fun c => Q a c * Y c b)) = fro2 cols m Y.
Proof.
  intros HQ. unfold fro2. rewrite dsum_swap, (dsum_swap cols m). unfold dsum. apply sumn_ext. intros b _.
  rewrite (sumn_ext M _ (fun a => sumn cols (fun c => sumn cols (fun d => Y c b * (Y d b * (Q a c * Q a d)))))).
  2:{ intros a _. rewrite <- sumn_scale_r. apply sumn_ext. intros c _. rewrite <- sumn_scale. apply sumn_ext. intros d _. ring. }
  rewrite sumn_swap. apply sumn_ext. intros c Hc. rewrite sumn_swap.
  rewrite (sumn_ext cols _ (fun d => delta c d * (Y c b * Y d b))).
  - apply (sumn_delta' cols c (fun d => Y c b * Y d b) Hc).
  - intros d Hd. rewrite <- (HQ c d Hc Hd). rewrite <- sumn_scale_r. apply sumn_ext. intros; ring.
Qed.
Lemma fro2_transpose n m X : fro2 n m X = fro2 m n (fun i j => X j i).
Proof. unfold fro2. apply dsum_swap. Qed.
Lemma tri_fro2 M Q X V : (forall i j, (i < cols)%nat -> (j < cols)%nat -> sumn M (fun a => Q a i * Q a j) = delta i j) ->
  (forall i j, (i < cols)%nat -> (j < cols)%nat -> sumn cols (fun a => V a i * V a j) = delta i j) ->
  fro2 M cols (tri cols Q X V) = fro2 cols cols X.
Proof.
  intros HQ HV. unfold tri. rewrite (left_fro2 M cols Q (fun c b => sumn cols (fun d => X c d * V b d)) HQ).
  rewrite (fro2_transpose cols cols X). rewrite <- (left_fro2 cols cols V (fun i j => X j i) HV), (fro2_transpose cols cols).
  apply fro2_ext. intros i j _ _. apply sumn_ext. intros. ring.
Qed.
Lemma tri_sub Q X Y V a b : tri cols Q (fun i j => X i j - Y i j) V a b = tri cols Q X V a b - tri cols Q Y V a b.
Proof.
  unfold tri. rewrite <- sumn_sub. apply sumn_ext. intros c _. rewrite <- Rmult_minus_distr_l, <- sumn_sub. f_equal. apply sumn_ext. intros; ring.
Qed.
End Tri.
