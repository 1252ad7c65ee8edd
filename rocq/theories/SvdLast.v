(** Proofs about the singular value routines: the statements about the result. *)
From Coq Require Import Reals List ZArith Bool Arith Lia Lra Psatz.
From Verif Require Import Outcome LinModel LinSpec SumProofs LmaSpec VelIkLin VelIkModel VelIkSpec SvdModel SvdSpec SvdHouse SvdBidiag SvdAccum SvdNorm SvdQr SvdDiag SvdFinal SvdEps.
Import ListNotations.
Local Open Scope R_scope.

Lemma eigen_close rnd tol rows cols A S0 V0 T0 maxiter a0 : keeps_units rnd -> rounds_within rnd tol ->
  0 <= a0 -> size2 rows cols A <= a0 * a0 -> a0 + bound cols maxiter tol + tol < 2 ->
  exists e0, 0 < e0 /\ forall eps, 0 <= eps < e0 ->
  exists rc d used, svd_eigen_HH rnd rows cols A S0 V0 T0 maxiter eps = Go (rc, d, used) /\ descending cols (sS d) /\
    (converged cols maxiter used ->
       svd_within (bound cols maxiter tol) rows cols A (sU d) (sS d) (sV d) /\ forall k, (k < cols)%nat -> 0 <= sS d k).
Proof.
  intros HU HR H0 HA HB. destruct (near_eigen rnd rows cols maxiter A S0 V0 T0) as (e0 & P & E). exists e0. split; [exact P|]. intros eps He. rewrite (E eps He).
  destruct (eigen_run rnd rows cols A S0 V0 T0 maxiter 0 HU (Rle_refl 0)) as (d & used & E1 & _ & _ & D & N & W).
  exists (code_of cols maxiter), d, used. split; [exact E1|]. split; [exact D|]. intros C. destruct (W tol a0 HR H0 eq_refl HA) as (W1 & W2).
  split; [|exact (N C)]. apply (converged_within rnd rows cols A maxiter tol a0 d (proj1 HR) W2 (W1 C)). apply (not_fooled_below_two rnd tol _ HR HB).
Qed.
Lemma eigen_close_any rnd tol rows cols A S0 V0 T0 maxiter a0 : keeps_units rnd -> rounds_within rnd tol ->
  0 <= a0 -> size2 rows cols A <= a0 * a0 ->
  exists e0, 0 < e0 /\ forall eps, 0 <= eps < e0 ->
  exists rc d used, svd_eigen_HH rnd rows cols A S0 V0 T0 maxiter eps = Go (rc, d, used) /\ descending cols (sS d) /\
    (a0 + budget cols maxiter tol (sT d) + tol < 2 -> svd_within (budget cols maxiter tol (sT d)) rows cols A (sU d) (sS d) (sV d)).
Proof.
  intros HU HR H0 HA. destruct (near_eigen rnd rows cols maxiter A S0 V0 T0) as (e0 & P & E). exists e0. split; [exact P|]. intros eps He. rewrite (E eps He).
  destruct (eigen_run rnd rows cols A S0 V0 T0 maxiter 0 HU (Rle_refl 0)) as (d & used & E1 & _ & _ & D & N & W).
  exists (code_of cols maxiter), d, used. split; [exact E1|]. split; [exact D|]. intros B. apply (proj2 (W tol a0 HR H0 eq_refl HA)). apply (not_fooled_below_two rnd tol _ HR B).
Qed.
Lemma hh_close rnd tol rows cols A S0 V0 T0 maxiter a0 : keeps_units rnd -> rounds_within rnd tol ->
  0 <= a0 -> size2 rows cols A <= a0 * a0 -> a0 + bound cols maxiter tol + tol < 2 ->
  exists rc d used, svd_HH_calculate rnd rows cols A S0 V0 T0 maxiter = Go (rc, d, used) /\
    (converged cols maxiter used ->
       svd_within (bound cols maxiter tol) rows cols A (sU d) (sS d) (sV d) /\ forall k, (k < cols)%nat -> 0 <= sS d k).
Proof.
  intros HU HR H0 HA HB.
  destruct (hh_run rnd rows cols A S0 V0 T0 maxiter HU) as (d & used & E1 & _ & _ & N & W).
  exists (code_of cols maxiter), d, used. split; [exact E1|]. intros C. destruct (W tol a0 HR H0 HA) as (W1 & W2).
  split; [|intros k Hk; exact (N k Hk (C k Hk))]. apply (converged_within rnd rows cols A maxiter tol a0 d (proj1 HR) W2 (W1 C)). apply (not_fooled_below_two rnd tol _ HR HB).
Qed.
(** No limit on the matrix: the run does what it would do if nothing were taken for -2. *)
Lemma size_any s : 0 <= s -> exists a0, 0 <= a0 /\ s <= a0 * a0.
Proof. intros P. exists (sqrt s). split; [apply sqrt_pos|rewrite sqrt_sqrt by exact P; lra]. Qed.
Lemma eigen_unless rnd tol rows cols A S0 V0 T0 maxiter : keeps_units rnd -> rounds_within rnd tol ->
  exists e0, 0 < e0 /\ forall eps, 0 <= eps < e0 ->
  exists rc d used, svd_eigen_HH rnd rows cols A S0 V0 T0 maxiter eps = Go (rc, d, used) /\ descending cols (sS d) /\
    (svd_eigen_HH (guarded rnd) rows cols A S0 V0 T0 maxiter eps = svd_eigen_HH rnd rows cols A S0 V0 T0 maxiter eps ->
     converged cols maxiter used ->
       svd_within (bound cols maxiter tol) rows cols A (sU d) (sS d) (sV d) /\ forall k, (k < cols)%nat -> 0 <= sS d k).
Proof.
  intros HU HR. destruct (near_eigen rnd rows cols maxiter A S0 V0 T0) as (e0 & P & E).
  destruct (near_eigen (guarded rnd) rows cols maxiter A S0 V0 T0) as (e1 & P1 & E').
  exists (Rmin e0 e1). split; [apply Rmin_pos; assumption|]. intros eps He. pose proof (Rmin_l e0 e1). pose proof (Rmin_r e0 e1).
  rewrite (E eps ltac:(lra)), (E' eps ltac:(lra)).
  destruct (eigen_run rnd rows cols A S0 V0 T0 maxiter 0 HU (Rle_refl 0)) as (d & used & E1 & _ & _ & D & N & _).
  exists (code_of cols maxiter), d, used. split; [exact E1|]. split; [exact D|]. rewrite E1. intros EG C. split; [|exact (N C)].
  destruct (eigen_run (guarded rnd) rows cols A S0 V0 T0 maxiter 0 (guarded_units rnd HU) (Rle_refl 0)) as (d' & used' & E2 & _ & _ & _ & _ & W).
  rewrite E2 in EG. injection EG as -> ->. destruct (size_any _ (fro2_nonneg rows cols A)) as (a0 & A0 & HA).
  destruct (W tol a0 (guarded_within rnd tol HR) A0 eq_refl HA) as (W1 & W2).
  apply (converged_within (guarded rnd) rows cols A maxiter tol a0 d (proj1 HR) W2 (W1 C)). apply guarded_not_fooled.
Qed.
Lemma hh_unless rnd tol rows cols A S0 V0 T0 maxiter : keeps_units rnd -> rounds_within rnd tol ->
  exists rc d used, svd_HH_calculate rnd rows cols A S0 V0 T0 maxiter = Go (rc, d, used) /\
    (svd_HH_calculate (guarded rnd) rows cols A S0 V0 T0 maxiter = svd_HH_calculate rnd rows cols A S0 V0 T0 maxiter ->
     converged cols maxiter used ->
       svd_within (bound cols maxiter tol) rows cols A (sU d) (sS d) (sV d) /\ forall k, (k < cols)%nat -> 0 <= sS d k).
Proof.
  intros HU HR.
  destruct (hh_run rnd rows cols A S0 V0 T0 maxiter HU) as (d & used & E1 & _ & _ & N & _).
  exists (code_of cols maxiter), d, used. split; [exact E1|]. rewrite E1. intros EG C. split; [|intros k Hk; exact (N k Hk (C k Hk))].
  destruct (hh_run (guarded rnd) rows cols A S0 V0 T0 maxiter (guarded_units rnd HU)) as (d' & used' & E2 & _ & _ & _ & W).
  rewrite E2 in EG. injection EG as -> ->. destruct (size_any _ (fro2_nonneg rows cols A)) as (a0 & A0 & HA).
  destruct (W tol a0 (guarded_within rnd tol HR) A0 HA) as (W1 & W2).
  apply (converged_within (guarded rnd) rows cols A maxiter tol a0 d (proj1 HR) W2 (W1 C)). apply guarded_not_fooled.
Qed.

(** Exact decompositions *)
Lemma within_exact rows cols A U S V rc : svd_within 0 rows cols A U S V -> svd_of rows cols A (mkD rc U S V).
Proof.
  intros (W1 & W2 & W3). split; [|split]; cbn [dc_U dc_S dc_V].
  - intros r j Hr Hj. pose proof (entry_le rows cols _ 0 r j Hr Hj (Rle_refl 0) W1) as E. cbv beta in E.
    pose proof (Rle_abs (A r j - product cols U S V r j)). pose proof (Rle_abs (- (A r j - product cols U S V r j))). rewrite Rabs_Ropp in *. unfold product in *. lra.
  - exact W2.
  - intros i k Hi Hk Ni _. pose proof (W3 i k Hi Hk) as E. apply Rabs_pos_lt in Ni.
    set (w := sumn rows (fun a => U a i * U a k) - delta i k) in *. destruct (Req_dec w 0) as [Z|N]; [unfold w in Z; lra|].
    apply Rabs_pos_lt in N. pose proof (Rmult_lt_0_compat _ _ Ni N). lra.
Qed.
Lemma within_sorted rows cols A U S V rc : svd_within 0 rows cols A U S V -> descending cols S -> (forall k, (k < cols)%nat -> 0 <= S k) ->
  svd_sorted rows cols (mkD rc U S V).
Proof.
  intros W D P. destruct (within_exact rows cols A U S V rc W) as (_ & _ & HU). cbn [dc_U dc_S dc_V] in HU.
  split; [exact D|]. split; [exact P|]. cbn [dc_S]. intros i Hi. destruct (Req_dec (S i) 0) as [Z|N]; [exact Z|exfalso].
  assert (NZ : forall k, (k <= i)%nat -> S k <> 0). { intros k Hk. pose proof (D k i Hk ltac:(lia)). pose proof (P i ltac:(lia)). lra. }
  (* rows + 1 orthonormal columns with rows entries *)
  set (on := fun k : nat => Nat.leb k i).
  assert (B : forall a, (a < rows)%nat -> sumn cols (fun k => if on k then U a k * U a k else 0) <= 1).
  { intros a Ha. pose proof (bessel rows cols U (fun r => delta a r) on) as Q.
    assert (Q1 : forall x y, (x < cols)%nat -> (y < cols)%nat -> on x = true -> on y = true -> sumn rows (fun r => U r x * U r y) = delta x y).
    { intros x y Hx Hy Ox Oy. unfold on in *. apply Nat.leb_le in Ox, Oy. apply HU; auto. }
    specialize (Q Q1). cbv beta in Q. rewrite (sumn_delta' rows a (fun r => delta a r) Ha) in Q. rewrite delta_same in Q.
    eapply Rle_trans; [|exact Q]. right. apply sumn_ext. intros k Hk. unfold coef. 
    rewrite (sumn_ext rows (fun r => U r k * delta a r) (fun r => delta a r * U r k)) by (intros; ring). rewrite (sumn_delta' rows a (fun r => U r k) Ha). reflexivity. }
  assert (T1 : sumn rows (fun a => sumn cols (fun k => if on k then U a k * U a k else 0)) <= INR rows).
  { apply Rle_trans with (sumn rows (fun _ => 1)); [apply sum_le; exact B|right]. clear. induction rows as [|n IH]; [reflexivity|]. rewrite S_INR, <- IH. reflexivity. }
  rewrite sumn_swap in T1.
  rewrite (sumn_ext cols _ (fun k => if on k then 1 else 0)) in T1.
  2:{ intros k Hk. unfold on. destruct (Nat.leb_spec k i) as [L|L].
      - rewrite HU by auto. apply delta_same.
      - apply sumn_zero. reflexivity. }
  assert (T2 : sumn cols (fun k => if on k then 1 else 0) = INR (i + 1)).
  { unfold on. destruct Hi as [_ Hi]. replace cols with ((i + 1) + (cols - (i + 1)))%nat by lia. rewrite sumn_split, (sumn_zero (cols - (i + 1))), Rplus_0_r.
    - rewrite (sumn_ext (i + 1) _ (fun _ => 1)) by (intros k Hk; destruct (Nat.leb_spec k i); [reflexivity|lia]).
      generalize (i + 1)%nat as m. induction m as [|m IH]; [reflexivity|]. rewrite S_INR, <- IH. reflexivity.
    - intros k _. destruct (Nat.leb_spec (i + 1 + k) i); [lia|reflexivity]. }
  rewrite T2 in T1. apply INR_le in T1. lia.
Qed.
Lemma bound_zero cols maxiter : bound cols maxiter 0 = 0. Proof. unfold bound. ring. Qed.
Lemma size_below_two s : 0 <= s -> s < 4 -> exists a0, 0 <= a0 /\ s <= a0 * a0 /\ a0 < 2.
Proof.
  intros P L. exists (sqrt s). split; [apply sqrt_pos|]. split; [rewrite sqrt_sqrt by exact P; lra|].
  rewrite <- (sqrt_square 2) by lra. apply sqrt_lt_1; lra.
Qed.
Lemma eigen_exact rnd rows cols A S0 V0 T0 maxiter : keeps_units rnd -> rounds_within rnd 0 -> size2 rows cols A < 4 ->
  exists e0, 0 < e0 /\ forall eps, 0 <= eps < e0 ->
  exists rc d used, svd_eigen_HH rnd rows cols A S0 V0 T0 maxiter eps = Go (rc, d, used) /\
    (converged cols maxiter used -> svd_of rows cols A (mkD rc (sU d) (sS d) (sV d)) /\ svd_sorted rows cols (mkD rc (sU d) (sS d) (sV d))).
Proof.
  intros HU HR HA. destruct (size_below_two _ (fro2_nonneg rows cols A) HA) as (a0 & P0 & Pa & L).
  destruct (eigen_close rnd 0 rows cols A S0 V0 T0 maxiter a0 HU HR P0 Pa) as (e0 & P & H); [rewrite bound_zero; lra|].
  exists e0. split; [exact P|]. intros eps He. destruct (H eps He) as (rc & d & used & E & D & C). exists rc, d, used. split; [exact E|].
  intros HC. destruct (C HC) as (W & N). rewrite bound_zero in W. split; [apply (within_exact _ _ _ _ _ _ rc W)|apply (within_sorted _ _ _ _ _ _ rc W D N)].
Qed.
Lemma hh_exact rnd rows cols A S0 V0 T0 maxiter : keeps_units rnd -> rounds_within rnd 0 -> size2 rows cols A < 4 ->
  exists rc d used, svd_HH_calculate rnd rows cols A S0 V0 T0 maxiter = Go (rc, d, used) /\
    (converged cols maxiter used -> svd_of rows cols A (mkD rc (sU d) (sS d) (sV d))).
Proof.
  intros HU HR HA. destruct (size_below_two _ (fro2_nonneg rows cols A) HA) as (a0 & P0 & Pa & L).
  destruct (hh_close rnd 0 rows cols A S0 V0 T0 maxiter a0 HU HR P0 Pa) as (rc & d & used & E & C); [rewrite bound_zero; lra|].
  exists rc, d, used. split; [exact E|]. intros HC. destruct (C HC) as (W & _). rewrite bound_zero in W. apply (within_exact _ _ _ _ _ _ rc W).
Qed.
