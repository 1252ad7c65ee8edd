(** Least squares from a singular value decomposition with filter factors. *)
From Coq Require Import Reals List ZArith Lra Lia Bool.
From Verif Require Import FramesModel Outcome LinModel LinSpec SumProofs LmaSpec LmaProofs VelIkModel VelIkSpec.
Import ListNotations.
Local Open Scope list_scope.
Local Open Scope R_scope.

Lemma total_sum n f : total n f = sumn n f.
Proof. induction n; cbn; congruence. Qed.
Lemma sumn_delta' k i f : (i < k)%nat -> sumn k (fun j => delta i j * f j) = f i.
Proof. intros H. rewrite <- (sumn_delta k i f H). apply sumn_ext; intros; ring. Qed.
Lemma delta_sym i j : delta i j = delta j i.
Proof. unfold delta. rewrite Nat.eqb_sym. reflexivity. Qed.

Definition vlist (n : nat) (f : nat -> R) : list R := map f (seq 0 n).
Lemma vlist_length n f : length (vlist n f) = n.
Proof. unfold vlist. rewrite map_length, seq_length; reflexivity. Qed.
Lemma vlist_nth n f j : (j < n)%nat -> nth j (vlist n f) 0 = f j.
Proof. apply nth_map_seq. Qed.

Definition vsub (n : nat) (x y : list R) : list R := vlist n (fun j => nth j x 0 - nth j y 0).

Section Filter.
Variables m n : nat.
Variable A : nat -> nat -> R.
Variable b : nat -> R.
Variables (U : nat -> nat -> R) (S : nat -> R) (V : nat -> nat -> R) (f mu : nat -> R).
Hypothesis HA : forall r j, (r < m)%nat -> (j < n)%nat -> A r j = sumn n (fun i => U r i * S i * V j i).
Hypothesis HV : forall i k, (i < n)%nat -> (k < n)%nat -> sumn n (fun j => V j i * V j k) = delta i k.
Hypothesis HU : forall i k, (i < n)%nat -> (k < n)%nat -> S i <> 0 -> S k <> 0 -> sumn m (fun r => U r i * U r k) = delta i k.
Hypothesis Hmu : forall i, (i < n)%nat -> 0 <= mu i.
Hypothesis Hf : forall i, (i < n)%nat -> f i * (S i * S i + mu i) = S i.

Definition coef (i : nat) : R := sumn m (fun r => U r i * b r).
Definition part (i : nat) (x : list R) : R := sumn n (fun j => V j i * nth j x 0).
Definition sol : list R := vlist n (fun j => sumn n (fun i => V j i * (f i * coef i))).

Lemma sol_part i : (i < n)%nat -> part i sol = f i * coef i.
Proof.
  intros Hi. unfold part.
  rewrite (sumn_ext n _ (fun j => sumn n (fun k => V j i * V j k * (f k * coef k)))).
  2:{ intros j Hj. unfold sol. rewrite vlist_nth by exact Hj. rewrite <- sumn_scale. apply sumn_ext; intros; ring. }
  rewrite sumn_swap.
  rewrite (sumn_ext n _ (fun k => delta i k * (f k * coef k))).
  2:{ intros k Hk. rewrite sumn_scale_r, HV by assumption. reflexivity. }
  apply sumn_delta'; exact Hi.
Qed.
Lemma image_parts x r : (r < m)%nat -> image n A x r = sumn n (fun i => U r i * S i * part i x).
Proof.
  intros Hr. unfold image, part.
  rewrite (sumn_ext n _ (fun j => sumn n (fun i => U r i * S i * (V j i * nth j x 0)))).
  2:{ intros j Hj. rewrite HA by assumption. rewrite <- sumn_scale_r. apply sumn_ext; intros; ring. }
  rewrite sumn_swap. apply sumn_ext; intros i Hi. rewrite sumn_scale. reflexivity.
Qed.
(** S_i (U_i . A x) = S_i^2 (V_i . x) *)
Lemma image_back x i : (i < n)%nat -> S i * sumn m (fun r => U r i * image n A x r) = S i * S i * part i x.
Proof.
  intros Hi. destruct (Req_dec (S i) 0) as [Z | NZ]; [rewrite Z; ring | ].
  rewrite (sumn_ext m _ (fun r => sumn n (fun k => U r i * U r k * (S k * part k x)))).
  2:{ intros r Hr. rewrite image_parts by exact Hr. rewrite <- sumn_scale. apply sumn_ext; intros; ring. }
  rewrite sumn_swap.
  rewrite (sumn_ext n _ (fun k => delta i k * (S k * part k x))).
  2:{ intros k Hk. rewrite sumn_scale_r. destruct (Req_dec (S k) 0) as [Zk | NZk].
      - rewrite Zk. ring.
      - rewrite HU by assumption. reflexivity. }
  rewrite sumn_delta' by exact Hi. ring.
Qed.
Lemma part_sub i x y : (i < n)%nat -> part i (vsub n x y) = part i x - part i y.
Proof.
  intros Hi. unfold part. rewrite <- sumn_sub. apply sumn_ext; intros j Hj. unfold vsub. rewrite vlist_nth by exact Hj. ring.
Qed.
Lemma image_sub x y r : image n A (vsub n x y) r = image n A x r - image n A y r.
Proof.
  unfold image. rewrite <- sumn_sub. apply sumn_ext; intros j Hj. unfold vsub. rewrite vlist_nth by exact Hj. ring.
Qed.
(** The normal equations, tested against a direction. *)
Lemma normal z : sumn m (fun r => image n A z r * (image n A sol r - b r)) +
  sumn n (fun i => mu i * (part i z * part i sol)) = 0.
Proof.
  rewrite (sumn_ext m _ (fun r => sumn n (fun i => S i * part i z * (U r i * (image n A sol r - b r))))).
  2:{ intros r Hr. rewrite (image_parts z) by exact Hr. rewrite <- sumn_scale_r. apply sumn_ext; intros; ring. }
  rewrite sumn_swap, <- sumn_add. apply sumn_zero. intros i Hi.
  rewrite sumn_scale.
  rewrite (sumn_ext m _ (fun r => U r i * image n A sol r - U r i * b r)) by (intros; ring).
  rewrite sumn_sub. fold (coef i).
  pose proof (image_back sol i Hi) as B. rewrite sol_part in * by exact Hi.
  set (q := sumn m (fun r => U r i * image n A sol r)) in *.
  replace (S i * part i z * (q - coef i) + mu i * (part i z * (f i * coef i)))
    with (part i z * ((S i * q) - S i * coef i + mu i * f i * coef i)) by ring.
  rewrite B. pose proof (Hf i Hi) as F.
  replace (S i * S i * (f i * coef i) - S i * coef i + mu i * f i * coef i)
    with (coef i * (f i * (S i * S i + mu i) - S i)) by ring.
  rewrite F. ring.
Qed.
Definition pen (x : list R) : R := sumn n (fun i => mu i * (part i x * part i x)).
Lemma cost_gap y : misfit m n A b y + pen y = misfit m n A b sol + pen sol +
  (sumn m (fun r => image n A (vsub n y sol) r * image n A (vsub n y sol) r) + pen (vsub n y sol)).
Proof.
  unfold misfit, pen. set (z := vsub n y sol).
  pose proof (normal z) as N.
  rewrite (sumn_ext m (fun r => (image n A y r - b r) * (image n A y r - b r))
    (fun r => (image n A sol r - b r) * (image n A sol r - b r) + image n A z r * image n A z r +
              2 * (image n A z r * (image n A sol r - b r)))).
  2:{ intros r Hr. unfold z. rewrite image_sub. ring. }
  rewrite (sumn_ext n (fun i => mu i * (part i y * part i y))
    (fun i => mu i * (part i sol * part i sol) + mu i * (part i z * part i z) + 2 * (mu i * (part i z * part i sol)))).
  2:{ intros i Hi. unfold z. rewrite part_sub by exact Hi. ring. }
  rewrite !sumn_add, !sumn_scale. lra.
Qed.
Lemma pen_nonneg x : 0 <= pen x.
Proof. apply sumn_nonneg. intros i Hi. apply Rmult_le_pos; [auto | apply Rle_0_sqr]. Qed.
Lemma sq_nonneg k g : 0 <= sumn k (fun r => g r * g r).
Proof. apply sumn_nonneg. intros; apply Rle_0_sqr. Qed.
Lemma sol_min y : misfit m n A b sol + pen sol <= misfit m n A b y + pen y.
Proof.
  rewrite (cost_gap y). pose proof (pen_nonneg (vsub n y sol)).
  pose proof (sq_nonneg m (fun r => image n A (vsub n y sol) r)) as H0. cbv beta in H0. lra.
Qed.
Lemma sumn_sq_zero k g : sumn k (fun r => g r * g r) <= 0 -> forall r, (r < k)%nat -> g r = 0.
Proof.
  induction k; intros H r Hr; [lia | ]. cbn in H.
  pose proof (sq_nonneg k g). pose proof (Rle_0_sqr (g k)) as Q. unfold Rsqr in Q.
  destruct (Nat.eq_dec r k) as [-> | ].
  - assert (g k * g k = 0) by lra. destruct (Rmult_integral _ _ H1); assumption.
  - apply IHk; [lra | lia].
Qed.
(** d . z, d the solution, through the right singular vectors *)
Lemma sol_dot z : sumn n (fun j => nth j sol 0 * nth j z 0) = sumn n (fun i => f i * coef i * part i z).
Proof.
  rewrite (sumn_ext n _ (fun j => sumn n (fun i => f i * coef i * (V j i * nth j z 0)))).
  2:{ intros j Hj. unfold sol. rewrite vlist_nth by exact Hj. rewrite <- sumn_scale_r. apply sumn_ext; intros; ring. }
  rewrite sumn_swap. apply sumn_ext; intros i Hi. rewrite sumn_scale. reflexivity.
Qed.
Lemma sol_norm2 : norm2 n sol = sumn n (fun i => f i * coef i * (f i * coef i)).
Proof. unfold norm2. rewrite sol_dot. apply sumn_ext; intros i Hi. rewrite sol_part by exact Hi. reflexivity. Qed.

(** With no penalty and zero factors for zero singular values: shortest least squares. *)
Hypothesis Hmu0 : forall i, (i < n)%nat -> mu i = 0.
Hypothesis Hf0 : forall i, (i < n)%nat -> S i = 0 -> f i = 0.
Lemma pen_zero x : pen x = 0.
Proof. unfold pen. apply sumn_zero. intros i Hi. rewrite Hmu0 by exact Hi. ring. Qed.
Lemma sol_shortest : shortest_least_squares m n A b sol.
Proof.
  assert (L : least_squares m n A b sol).
  { split; [apply vlist_length | ]. intros y _. pose proof (sol_min y). rewrite !pen_zero in H. lra. }
  split; [exact L | ]. intros y [Ly My] NE.
  pose proof (cost_gap y) as G. rewrite !pen_zero in G.
  assert (Hz : forall r, (r < m)%nat -> image n A (vsub n y sol) r = 0).
  { apply (sumn_sq_zero m (fun r => image n A (vsub n y sol) r)). specialize (My sol (vlist_length _ _)). lra. }
  assert (Hp : forall i, (i < n)%nat -> f i * coef i * part i (vsub n y sol) = 0).
  { intros i Hi. destruct (Req_dec (S i) 0) as [Z | NZ]; [rewrite Hf0 by assumption; ring | ].
    pose proof (image_back (vsub n y sol) i Hi) as B.
    rewrite (sumn_zero m) in B by (intros r Hr; rewrite Hz by exact Hr; ring).
    assert (P : part i (vsub n y sol) = 0); [ | rewrite P; ring].
    rewrite Rmult_0_r in B. symmetry in B. destruct (Rmult_integral _ _ B) as [E | E]; [ | exact E].
    destruct (Rmult_integral _ _ E); contradiction. }
  pose proof (sol_dot (vsub n y sol)) as D. rewrite (sumn_zero n (fun i => f i * coef i * part i (vsub n y sol)) Hp) in D.
  assert (E : norm2 n y = norm2 n sol + norm2 n (vsub n y sol)).
  { unfold norm2.
    rewrite (sumn_ext n (fun j => nth j y 0 * nth j y 0) (fun j => nth j sol 0 * nth j sol 0 +
       nth j (vsub n y sol) 0 * nth j (vsub n y sol) 0 + 2 * (nth j sol 0 * nth j (vsub n y sol) 0))).
    2:{ intros j Hj. unfold vsub. rewrite vlist_nth by exact Hj. ring. }
    rewrite !sumn_add, sumn_scale, D. ring. }
  rewrite E. destruct (Rlt_dec 0 (norm2 n (vsub n y sol))) as [ | NP]; [lra | exfalso].
  apply NE. apply nth_ext_R; [rewrite Ly; symmetry; apply vlist_length | ]. intros j Hj. rewrite Ly in Hj.
  assert (Q : nth j (vsub n y sol) 0 = 0).
  { apply (sumn_sq_zero n (fun k => nth k (vsub n y sol) 0)); [unfold norm2 in NP; lra | exact Hj]. }
  unfold vsub in Q. rewrite vlist_nth in Q by exact Hj. lra.
Qed.
End Filter.

(** Bessel: the part of b seen by orthonormal columns of U is no longer than b. *)
Lemma bessel m n (U : nat -> nat -> R) (b : nat -> R) (on : nat -> bool) :
  (forall i k, (i < n)%nat -> (k < n)%nat -> on i = true -> on k = true -> sumn m (fun r => U r i * U r k) = delta i k) ->
  sumn n (fun i => if on i then coef m b U i * coef m b U i else 0) <= sumn m (fun r => b r * b r).
Proof.
  intros H. set (g i := if on i then coef m b U i else 0).
  pose proof (sq_nonneg m (fun r => b r - sumn n (fun i => U r i * g i))) as P. cbv beta in P.
  assert (E1 : sumn m (fun r => b r * sumn n (fun i => U r i * g i)) = sumn n (fun i => g i * g i)).
  { rewrite (sumn_ext m _ (fun r => sumn n (fun i => g i * (U r i * b r)))).
    2:{ intros. rewrite <- sumn_scale. apply sumn_ext; intros; ring. }
    rewrite sumn_swap. apply sumn_ext; intros i Hi. rewrite sumn_scale. fold (coef m b U i). unfold g.
    destruct (on i); ring. }
  assert (E2 : sumn m (fun r => sumn n (fun i => U r i * g i) * sumn n (fun i => U r i * g i)) = sumn n (fun i => g i * g i)).
  { rewrite (sumn_ext m _ (fun r => sumn n (fun i => sumn n (fun k => U r i * U r k * (g i * g k))))).
    2:{ intros. rewrite <- sumn_scale_r. apply sumn_ext; intros. rewrite <- sumn_scale. apply sumn_ext; intros; ring. }
    rewrite sumn_swap. apply sumn_ext; intros i Hi. rewrite sumn_swap.
    rewrite (sumn_ext n _ (fun k => delta i k * (g i * g k))).
    2:{ intros k Hk. rewrite sumn_scale_r. unfold g. destruct (on i) eqn:Oi, (on k) eqn:Ok; try (ring).
        rewrite H by assumption. reflexivity. }
    apply (sumn_delta' n i (fun k => g i * g k) Hi). }
  rewrite (sumn_ext m _ (fun r => b r * b r - 2 * (b r * sumn n (fun i => U r i * g i)) +
     sumn n (fun i => U r i * g i) * sumn n (fun i => U r i * g i))) in P by (intros; ring).
  rewrite sumn_add, sumn_sub, sumn_scale, E1, E2 in P.
  rewrite (sumn_ext n _ (fun i => g i * g i)); [lra | ]. intros i Hi. unfold g. destruct (on i); ring.
Qed.

(** The shortest least squares solution is unique. *)
Lemma shortest_unique m n A b x y : shortest_least_squares m n A b x -> shortest_least_squares m n A b y -> x = y.
Proof.
  intros [Lx Sx] [Ly Sy]. destruct (list_eq_dec Req_EM_T x y) as [E | NE]; [exact E | exfalso].
  pose proof (Sx y Ly (not_eq_sym NE)). pose proof (Sy x Lx NE). lra.
Qed.
