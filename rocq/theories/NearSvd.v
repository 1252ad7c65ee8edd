(** A nearly exact singular value decomposition gives a nearly exact pseudo-inverse. *)
From Coq Require Import Reals List ZArith Lra Lia Bool Arith Psatz.
From Verif Require Import FramesModel Outcome LinModel LinSpec SumProofs LmaSpec LmaProofs SvdModel SvdSpec SvdNorm SvdFinal VelIkModel VelIkSpec VelIkLin VelIkProofs GivensModel GivensSpec GivensLin GivensFactor.
Import ListNotations.
Local Open Scope list_scope.
Local Open Scope R_scope.

Lemma sq_mv_fro m n M x e : 0 <= e -> fro2 m n M <= e * e -> sq m (mv n M x) <= e * e * sq n x.
Proof.
  intros He HM. eapply Rle_trans; [|apply Rmult_le_compat_r; [apply sq_nn|exact HM]].
  unfold fro2, dsum. rewrite <- sumn_scale_r. unfold sq at 1. apply sumn_le. intros r Hr. apply (dot_bound n (M r) x).
Qed.
Lemma sq_scaled n c x : sq n (fun i => c * x i) = c * c * sq n x.
Proof. unfold sq. rewrite <- sumn_scale. apply sumn_ext. intros; ring. Qed.
Lemma sq_add n x y a b L : 0 <= a -> 0 <= b -> 0 <= L -> sq n x <= a * a * L -> sq n y <= b * b * L -> sq n (fun i => x i + y i) <= (a + b) * (a + b) * L.
Proof.
  intros Ha Hb HL Hx Hy. pose proof (dot_bound n x y) as C. set (p := sumn n (fun i => x i * y i)) in *.
  assert (E : sq n (fun i => x i + y i) = sq n x + 2 * p + sq n y).
  { unfold sq, p. rewrite <- sumn_scale, <- !sumn_add. apply sumn_ext. intros; ring. }
  rewrite E. assert (P : p <= a * b * L).
  { destruct (Rle_lt_dec p (a * b * L)) as [|N]; [assumption|exfalso].
    assert (0 <= a * b * L) by (apply Rmult_le_pos; [apply Rmult_le_pos|]; assumption).
    assert (a * b * L * (a * b * L) < p * p) by (apply Rmult_le_0_lt_compat; assumption).
    assert (sq n x * sq n y <= (a * a * L) * (b * b * L)) by (apply Rmult_le_compat; try apply sq_nn; assumption). nra. }
  lra.
Qed.
Lemma fro_entries n m M b : 0 <= b -> (forall i k, (i < n)%nat -> (k < m)%nat -> Rabs (M i k) <= b) -> fro2 n m M <= INR n * INR m * (b * b).
Proof.
  intros Hb H. unfold fro2, dsum. eapply Rle_trans; [apply (sumn_le n _ (fun _ => INR m * (b * b)))|rewrite sumn_const; right; ring].
  intros i Hi. eapply Rle_trans; [apply (sumn_le m _ (fun _ => b * b))|rewrite sumn_const; lra].
  intros k Hk. specialize (H i k Hi Hk). rewrite <- (Rabs_right (M i k * M i k)) by (apply Rle_ge, Rle_0_sqr). rewrite Rabs_mult. apply Rmult_le_compat; try apply Rabs_pos; assumption.
Qed.

Lemma delta_same i : delta i i = 1.
Proof. unfold delta. rewrite Nat.eqb_refl. reflexivity. Qed.

Section Near.
Variables (m n : nat) (A U : nat -> nat -> R) (S : nat -> R) (V : nat -> nat -> R) (err eps : R).
Hypothesis eps_pos : 0 < eps.
Hypothesis err_nn : 0 <= err.
Hypothesis near : svd_within err m n A U S V.

Let w (i : nat) : R := if Rlt_dec (Rabs (S i)) eps then 0 else 1.
Let f (i : nat) : R := if Rlt_dec (Rabs (S i)) eps then 0 else / S i.
Let E (r j : nat) : R := A r j - product n U S V r j.
Let rho : R := err / eps.
Hypothesis many : INR m <= sumn n w.

Let W1 : fro2 m n E <= err * err := proj1 near.
Let HV : forall i k, (i < n)%nat -> (k < n)%nat -> sumn n (fun j => V j i * V j k) = delta i k := proj1 (proj2 near).
Let W3 := proj2 (proj2 near).
Let G := gram m U.

Lemma rho_nn : 0 <= rho. Proof. unfold rho, Rdiv. apply Rmult_le_pos; [exact err_nn|]. left. apply Rinv_0_lt_compat, eps_pos. Qed.
Lemma err_rho : err = eps * rho. Proof. unfold rho. field. lra. Qed.
Lemma w_f i : S i * f i = w i.
Proof. unfold w, f. destruct (Rlt_dec (Rabs (S i)) eps) as [|N]; [ring|]. field. apply (not_small eps); assumption. Qed.
Lemma w_w i : w i * w i = w i. Proof. unfold w. destruct (Rlt_dec (Rabs (S i)) eps); ring. Qed.
Lemma f_w i : f i = f i * w i. Proof. unfold w, f. destruct (Rlt_dec (Rabs (S i)) eps); ring. Qed.
Lemma w_01 i : 0 <= w i <= 1. Proof. unfold w. destruct (Rlt_dec (Rabs (S i)) eps); lra. Qed.
Lemma f_le i : f i * f i <= w i * / (eps * eps).
Proof.
  unfold w, f. destruct (Rlt_dec (Rabs (S i)) eps) as [|N]; [lra|]. pose proof (not_small _ _ eps_pos N) as NZ.
  rewrite Rmult_1_l, <- Rinv_mult. apply Rinv_le_contravar; [apply Rmult_lt_0_compat; exact eps_pos|].
  rewrite <- (Rabs_right (S i * S i)) by (apply Rle_ge, Rle_0_sqr). rewrite Rabs_mult. apply Rmult_le_compat; lra.
Qed.
Lemma gram_near i k : (i < n)%nat -> (k < n)%nat -> Rabs (S i) * Rabs (G i k - delta i k) <= err.
Proof. exact (W3 i k). Qed.

(** The columns that are used: w_i w_k (G_ik - delta_ik) is small. *)
Definition defect (i k : nat) : R := w i * w k * (G i k - delta i k).
Lemma defect_entry i k : (i < n)%nat -> (k < n)%nat -> Rabs (defect i k) <= rho.
Proof.
  intros Hi Hk. unfold defect. pose proof (gram_near i k Hi Hk) as B. unfold w. destruct (Rlt_dec (Rabs (S i)) eps) as [|N].
  - rewrite !Rmult_0_l, Rabs_R0. apply rho_nn.
  - destruct (Rlt_dec (Rabs (S k)) eps).
    + rewrite Rmult_0_r, Rmult_0_l, Rabs_R0. apply rho_nn.
    + rewrite !Rmult_1_l. unfold rho. apply Rmult_le_reg_l with eps; [exact eps_pos|]. replace (eps * (err / eps)) with err by (field; lra).
      eapply Rle_trans; [|exact B]. apply Rmult_le_compat_r; [apply Rabs_pos|lra].
Qed.
Lemma defect_fro : fro2 n n defect <= INR n * rho * (INR n * rho).
Proof. eapply Rle_trans; [apply (fro_entries n n defect rho rho_nn defect_entry)|]. right. ring. Qed.

Definition outer (r s : nat) : R := sumn n (fun i => w i * (U r i * U s i)) - delta r s.
Lemma outer_fro : fro2 m m outer = fro2 n n defect + INR m - sumn n w.
Proof.
  assert (E1 : dsum m m (fun r s => sumn n (fun i => w i * (U r i * U s i)) * sumn n (fun i => w i * (U r i * U s i))) = dsum n n (fun i k => w i * w k * (G i k * G i k))).
  { unfold dsum. rewrite (sumn_ext m _ (fun r => sumn n (fun i => sumn n (fun k => w i * w k * (U r i * U r k * G i k))))).
    2:{ intros r Hr. rewrite (sumn_ext m _ (fun s => sumn n (fun i => sumn n (fun k => w i * w k * (U r i * U r k) * (U s i * U s k))))).
        2:{ intros s Hs. rewrite <- sumn_scale_r. apply sumn_ext; intros i Hi. rewrite <- sumn_scale. apply sumn_ext; intros; ring. }
        rewrite sumn_swap. apply sumn_ext; intros i Hi. rewrite sumn_swap. apply sumn_ext; intros k Hk. rewrite sumn_scale. fold (gram m U i k). fold G. ring. }
    rewrite sumn_swap. apply sumn_ext; intros i Hi. rewrite sumn_swap. apply sumn_ext; intros k Hk.
    rewrite (sumn_ext m _ (fun r => w i * w k * G i k * (U r i * U r k))) by (intros; ring). rewrite sumn_scale. fold (gram m U i k). fold G. ring. }
  assert (E2 : dsum m m (fun r s => delta r s * sumn n (fun i => w i * (U r i * U s i))) = sumn n (fun i => w i * G i i)).
  { unfold dsum. rewrite (sumn_ext m _ (fun r => sumn n (fun i => w i * (U r i * U r i)))).
    2:{ intros r Hr. apply (sumn_delta' m r (fun s => sumn n (fun i => w i * (U r i * U s i))) Hr). }
    rewrite sumn_swap. apply sumn_ext; intros i Hi. rewrite sumn_scale. reflexivity. }
  assert (E3 : dsum m m (fun r s => delta r s * delta r s) = INR m).
  { unfold dsum. rewrite (sumn_ext m _ (fun _ => 1)); [rewrite sumn_const; ring|]. intros r Hr.
    rewrite (sumn_delta' m r (fun s => delta r s) Hr). apply delta_same. }
  assert (E4 : dsum n n (fun i k => delta i k * (w i * w k * G i k)) = sumn n (fun i => w i * G i i)).
  { unfold dsum. apply sumn_ext; intros i Hi. rewrite (sumn_delta' n i (fun k => w i * w k * G i k) Hi). rewrite w_w. reflexivity. }
  assert (E5 : dsum n n (fun i k => delta i k * (w i * w k * delta i k)) = sumn n w).
  { unfold dsum. apply sumn_ext; intros i Hi. rewrite (sumn_delta' n i (fun k => w i * w k * delta i k) Hi). rewrite delta_same, w_w. ring. }
  unfold fro2. rewrite (dsum_ext m m _ (fun r s => sumn n (fun i => w i * (U r i * U s i)) * sumn n (fun i => w i * (U r i * U s i)) +
     ((-2) * (delta r s * sumn n (fun i => w i * (U r i * U s i))) + delta r s * delta r s))) by (intros; unfold outer; ring).
  rewrite !dsum_add, dsum_scale, E1, E2, E3.
  rewrite (dsum_ext n n (fun i k => defect i k * defect i k) (fun i k => w i * w k * (G i k * G i k) + ((-2) * (delta i k * (w i * w k * G i k)) + delta i k * (w i * w k * delta i k)))).
  2:{ intros i k Hi Hk. transitivity ((w i * w i) * (w k * w k) * ((G i k - delta i k) * (G i k - delta i k))); [unfold defect; ring|]. rewrite (w_w i), (w_w k). ring. }
  rewrite !dsum_add, dsum_scale, E4, E5. ring.
Qed.
Lemma nrho_nn : 0 <= INR n * rho. Proof. apply Rmult_le_pos; [apply pos_INR|apply rho_nn]. Qed.
Lemma outer_le : fro2 m m outer <= INR n * rho * (INR n * rho).
Proof. rewrite outer_fro. pose proof defect_fro. lra. Qed.
Lemma outer_mv z : sq m (mv m outer z) <= INR n * rho * (INR n * rho) * sq m z.
Proof. apply sq_mv_fro; [apply nrho_nn|apply outer_le]. Qed.

(** Coefficients along the columns that are used. *)
Definition back (z : nat -> R) (i : nat) : R := sumn m (fun r => U r i * z r).
Lemma back_form z : sumn n (fun i => w i * (back z i * back z i)) = sumn m (fun r => z r * (mv m outer z r + z r)).
Proof.
  rewrite (sumn_ext m _ (fun r => sumn n (fun i => w i * back z i * (U r i * z r)))).
  2:{ intros r Hr. unfold mv, outer.
      rewrite (sumn_ext m _ (fun s => sumn n (fun i => w i * (U r i * U s i)) * z s - delta r s * z s)) by (intros; ring).
      rewrite sumn_sub, (sumn_delta' m r z Hr).
      rewrite (sumn_ext m _ (fun s => sumn n (fun i => w i * U r i * (U s i * z s)))) by (intros; rewrite <- sumn_scale_r; apply sumn_ext; intros; ring).
      rewrite sumn_swap. rewrite (sumn_ext n _ (fun i => w i * U r i * back z i)) by (intros i Hi; rewrite sumn_scale; reflexivity).
      replace (sumn n (fun i => w i * U r i * back z i) - z r + z r) with (sumn n (fun i => w i * U r i * back z i)) by ring.
      rewrite <- sumn_scale. apply sumn_ext; intros; ring. }
  rewrite sumn_swap. apply sumn_ext; intros i Hi. rewrite sumn_scale. unfold back. ring.
Qed.
Lemma back_le z : sumn n (fun i => w i * (back z i * back z i)) <= (1 + INR n * rho) * (1 + INR n * rho) * sq m z.
Proof.
  rewrite back_form. pose proof (outer_mv z) as B. pose proof nrho_nn as P. set (k := INR n * rho) in *.
  assert (Q : sq m (fun r => mv m outer z r + z r) <= (k + 1) * (k + 1) * sq m z).
  { apply sq_add; [exact P|lra|apply sq_nn|exact B|lra]. }
  pose proof (dot_bound m z (fun r => mv m outer z r + z r)) as C. set (d := sumn m (fun r => z r * (mv m outer z r + z r))) in *.
  pose proof (sq_nn m z) as Z0. set (s := sq m z) in *.
  assert (d * d <= ((k + 1) * s) * ((k + 1) * s)) by (eapply Rle_trans; [exact C|]; nra).
  assert (d <= (k + 1) * s). { destruct (Rle_lt_dec d ((k + 1) * s)) as [|L]; [assumption|exfalso]. assert (0 <= (k + 1) * s) by (apply Rmult_le_pos; lra). nra. }
  assert ((k + 1) * s <= (1 + k) * (1 + k) * s) by (apply Rmult_le_compat_r; [exact Z0|nra]). lra.
Qed.

(** A vector with coefficients g along the columns of V. *)
Definition along_V (g : nat -> R) (j : nat) : R := sumn n (fun i => V j i * g i).
Lemma along_V_back g i : (i < n)%nat -> sumn n (fun j => V j i * along_V g j) = g i.
Proof.
  intros Hi. unfold along_V. rewrite (sumn_ext n _ (fun j => sumn n (fun k => V j i * V j k * g k))) by (intros; rewrite <- sumn_scale; apply sumn_ext; intros; ring).
  rewrite sumn_swap, (sumn_ext n _ (fun k => delta i k * g k)) by (intros; rewrite sumn_scale_r, HV by assumption; reflexivity). apply sumn_delta', Hi.
Qed.
Lemma along_V_sq g : sq n (along_V g) = sq n g.
Proof.
  unfold sq at 1. rewrite (sumn_ext n _ (fun j => sumn n (fun i => g i * (V j i * along_V g j)))).
  2:{ intros j Hj. unfold along_V at 1. rewrite <- sumn_scale_r. apply sumn_ext; intros; ring. }
  rewrite sumn_swap. apply sumn_ext; intros i Hi. rewrite sumn_scale, along_V_back by exact Hi. reflexivity.
Qed.
Lemma product_mv x r : mv n (product n U S V) x r = sumn n (fun i => U r i * S i * sumn n (fun j => V j i * x j)).
Proof.
  unfold mv, product. rewrite (sumn_ext n _ (fun j => sumn n (fun i => U r i * S i * (V j i * x j)))) by (intros; rewrite <- sumn_scale_r; apply sumn_ext; intros; ring).
  rewrite sumn_swap. apply sumn_ext; intros i Hi. apply sumn_scale.
Qed.
Lemma A_mv x r : mv n A x r = mv n (product n U S V) x r + mv n E x r.
Proof. unfold mv, E. rewrite <- sumn_add. apply sumn_ext. intros; ring. Qed.
Lemma E_mv x : sq m (mv n E x) <= err * err * sq n x. Proof. apply sq_mv_fro; [exact err_nn|exact W1]. Qed.

(** The bound: with rho = err / eps, rho (n + 1 + n rho). *)
Definition delta_near : R := rho * (INR n + 1 + INR n * rho).
Variable b : nat -> R.
Definition near_sol : nat -> R := along_V (fun i => f i * back b i).
Lemma weighted_back z : sq n (fun i => f i * back z i) <= / eps * (1 + INR n * rho) * (/ eps * (1 + INR n * rho)) * sq m z.
Proof.
  eapply Rle_trans; [apply (sumn_le n _ (fun i => / (eps * eps) * (w i * (back z i * back z i))))|].
  - intros i Hi. pose proof (f_le i). pose proof (Rle_0_sqr (back z i)) as Q. unfold Rsqr in Q. nra.
  - rewrite sumn_scale. pose proof (back_le z). assert (0 < / (eps * eps)) by (apply Rinv_0_lt_compat, Rmult_lt_0_compat; exact eps_pos).
    rewrite Rinv_mult in *. nra.
Qed.
Lemma near_sol_sq : sq n near_sol <= / eps * (1 + INR n * rho) * (/ eps * (1 + INR n * rho)) * sq m b.
Proof. unfold near_sol. rewrite along_V_sq. apply weighted_back. Qed.
Lemma near_residual : sq m (fun r => mv n A near_sol r - b r) <= delta_near * delta_near * sq m b.
Proof.
  rewrite (sq_ext m _ (fun r => mv m outer b r + mv n E near_sol r)).
  - unfold delta_near. replace (rho * (INR n + 1 + INR n * rho)) with (INR n * rho + rho * (1 + INR n * rho)) by ring.
    pose proof nrho_nn as P. pose proof rho_nn as P0. apply sq_add; [exact P|apply Rmult_le_pos; lra|apply sq_nn|apply outer_mv|].
    eapply Rle_trans; [apply E_mv|]. pose proof near_sol_sq as Q.
    eapply Rle_trans; [apply Rmult_le_compat_l; [apply Rle_0_sqr|exact Q]|]. right. unfold rho. field. lra.
  - intros r Hr. rewrite A_mv, product_mv.
    rewrite (sumn_ext n _ (fun i => w i * U r i * back b i)).
    2:{ intros i Hi. unfold near_sol. rewrite along_V_back by exact Hi. rewrite <- (w_f i). ring. }
    assert (Q : sumn n (fun i => w i * U r i * back b i) = mv m outer b r + b r).
    { unfold mv, outer.
      rewrite (sumn_ext m _ (fun s => sumn n (fun i => w i * U r i * (U s i * b s)) - delta r s * b s)).
      2:{ intros s Hs. rewrite Rmult_minus_distr_r. f_equal. rewrite <- sumn_scale_r. apply sumn_ext; intros; ring. }
      rewrite sumn_sub, (sumn_delta' m r b Hr), sumn_swap. rewrite (sumn_ext n (fun j => sumn m _) (fun i => w i * U r i * back b i)) by (intros; rewrite sumn_scale; reflexivity). ring. }
    rewrite Q. ring.
Qed.
Lemma near_short y : (forall r, (r < m)%nat -> mv n A y r = b r) -> sq n near_sol <= (1 + delta_near) * (1 + delta_near) * sq n y.
Proof.
  intros Hy. unfold near_sol. rewrite along_V_sq. set (p := fun k => sumn n (fun j => V j k * y j)).
  assert (Py : sq n p <= sq n y).
  { pose proof (bessel n n V y (fun _ => true) (fun i k Hi Hk _ _ => HV i k Hi Hk)) as Q. cbv beta iota in Q. exact Q. }
  set (F := fun i k => (G i k - delta i k) * S k).
  assert (FE : fro2 n n F <= INR n * err * (INR n * err)).
  { eapply Rle_trans; [apply (fro_entries n n F err err_nn)|right; ring]. intros i k Hi Hk. unfold F. rewrite Rabs_mult, Rmult_comm.
    replace (G i k - delta i k) with (G k i - delta k i) by (unfold G; rewrite gram_sym, delta_sym; reflexivity). apply gram_near; assumption. }
  assert (EQ : forall i, (i < n)%nat -> f i * back b i = w i * p i + (f i * mv n F p i + f i * back (mv n E y) i)).
  { intros i Hi. assert (back b i = S i * p i + mv n F p i + back (mv n E y) i).
    { unfold back. rewrite (sumn_ext m _ (fun r => U r i * mv n (product n U S V) y r + U r i * mv n E y r)) by (intros r Hr; rewrite <- Hy, A_mv by exact Hr; ring).
      rewrite sumn_add. f_equal.
      rewrite (sumn_ext m _ (fun r => sumn n (fun k => S k * p k * (U r i * U r k)))) by (intros r Hr; rewrite product_mv, <- sumn_scale; apply sumn_ext; intros; unfold p; ring).
      rewrite sumn_swap. rewrite (sumn_ext n _ (fun k => delta i k * (S k * p k) + F i k * p k)) by (intros k Hk; rewrite sumn_scale; unfold F, G, gram; ring).
      rewrite sumn_add, (sumn_delta' n i (fun k => S k * p k) Hi). reflexivity. }
    rewrite H, <- (w_f i). ring. }
  rewrite (sq_ext n _ _ EQ).
  unfold delta_near. replace (1 + rho * (INR n + 1 + INR n * rho)) with (1 + (INR n * rho + rho * (1 + INR n * rho))) by ring.
  pose proof nrho_nn as P. pose proof rho_nn as P0. pose proof (sq_nn n y) as Y0.
  assert (P1 : 0 <= rho * (1 + INR n * rho)) by (apply Rmult_le_pos; lra).
  apply sq_add; [lra|lra|exact Y0| |].
  - rewrite !Rmult_1_l. eapply Rle_trans; [|exact Py]. apply sumn_le. intros i Hi. pose proof (w_01 i). pose proof (Rle_0_sqr (p i)) as Q. unfold Rsqr in Q.
    replace (w i * p i * (w i * p i)) with (w i * w i * (p i * p i)) by ring. rewrite w_w. nra.
  - apply sq_add; [exact P|exact P1|exact Y0| |].
    + eapply Rle_trans; [apply (sumn_le n _ (fun i => / (eps * eps) * (mv n F p i * mv n F p i)))|].
      * intros i Hi. pose proof (f_le i). pose proof (w_01 i). pose proof (Rle_0_sqr (mv n F p i)) as Q. unfold Rsqr in Q.
        assert (0 < / (eps * eps)) by (apply Rinv_0_lt_compat, Rmult_lt_0_compat; exact eps_pos).
        assert (f i * f i <= / (eps * eps)) by nra. nra.
      * rewrite sumn_scale. fold (sq n (mv n F p)).
        assert (B : sq n (mv n F p) <= INR n * err * (INR n * err) * sq n y).
        { eapply Rle_trans; [apply sq_mv_fro; [|exact FE]|]; [apply Rmult_le_pos; [apply pos_INR|exact err_nn]|]. apply Rmult_le_compat_l; [apply Rle_0_sqr|exact Py]. }
        eapply Rle_trans; [apply Rmult_le_compat_l; [left; apply Rinv_0_lt_compat, Rmult_lt_0_compat; exact eps_pos|exact B]|]. right. unfold rho. field. lra.
    + eapply Rle_trans; [apply weighted_back|]. eapply Rle_trans; [apply Rmult_le_compat_l; [apply Rle_0_sqr|apply E_mv]|]. right. unfold rho. field. lra.
Qed.
End Near.
