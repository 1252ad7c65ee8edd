(** ChainIkSolverVel_pinv near a configuration where the Jacobian has full rank. *)
From Coq Require Import Reals String List ZArith Bool Arith Lia Lra Psatz.
From Verif Require Import FramesModel FramesSpec FramesProofs FrameOpsProofs Outcome InertiaModel DualModel KinModel KinSpec DerivProofs KinProofs JacProofs JacDotProofs JntModel
  LinModel LinSpec SumProofs LmaModel LmaSpec LmaProofs IkModel IkSpec IkProofs IkGeoProofs VelIkModel VelIkSpec VelIkLin VelIkProofs VelIkWitness GivensSpec SvdSpec SvdNorm SvdFinal GivensFactor NearSvd PinvSpec PinvProofs RotNear LipProofs TaylorProofs NewtonSpec NewtonProofs NewtonLoop.
Import ListNotations.
Local Open Scope R_scope.

(** ** Least squares with a surjective matrix *)
Section Exact.
Variables m n : nat.
Variable A : nat -> nat -> R.
Variable low : R.
Hypothesis Hlow : 0 < low.
Hypothesis Hst : stretches n m low (transposed A).

Lemma image_shifted x z s r : image n A (shifted n x z s) r = image n A x r + s * image n A z r.
Proof.
  unfold image. rewrite <- sumn_scale, <- sumn_add. apply sumn_ext. intros j Hj. unfold shifted. rewrite nth_map_seq by exact Hj. ring.
Qed.
Lemma ls_orthogonal b x z : least_squares m n A b x -> length z = n -> sumn m (fun r => image n A z r * (image n A x r - b r)) = 0.
Proof.
  intros (Lx & H) Lz. set (p := sumn m (fun r => image n A z r * (image n A x r - b r))). set (w := sumn m (fun r => image n A z r * image n A z r)).
  assert (E : forall s, misfit m n A b (shifted n x z s) = misfit m n A b x + 2 * s * p + s * s * w).
  { intros s. unfold misfit, p, w. rewrite <- !sumn_scale, <- !sumn_add. apply sumn_ext. intros r Hr. rewrite image_shifted. ring. }
  assert (W : 0 <= w) by apply sq_nonneg.
  specialize (H (shifted n x z (- p / (1 + w)))). rewrite E in H.
  assert (length (shifted n x z (- p / (1 + w))) = n) by (unfold shifted; rewrite map_length, seq_length; reflexivity).
  specialize (H ltac:(assumption)).
  assert (G : 2 * (- p / (1 + w)) * p + (- p / (1 + w)) * (- p / (1 + w)) * w = - (p * p) * (2 + w) / ((1 + w) * (1 + w))) by (field; lra).
  assert (0 <= - (p * p) * (2 + w) / ((1 + w) * (1 + w))) as Q by lra.
  assert (Q2 : 0 <= - (p * p) * (2 + w)).
  { apply Rmult_le_reg_r with (/ ((1 + w) * (1 + w))); [apply Rinv_0_lt_compat; nra|]. rewrite Rmult_0_l. exact Q. }
  assert (p * p <= 0) by nra. nra.
Qed.
Lemma ls_exact b x : least_squares m n A b x -> forall r, (r < m)%nat -> image n A x r = b r.
Proof.
  intros H. set (e := fun r => image n A x r - b r).
  assert (Z : sq n (mv m (transposed A) e) = 0).
  { pose proof (ls_orthogonal b x (vlist n (mv m (transposed A) e)) H (vlist_length _ _)) as O.
    rewrite <- O. unfold sq. unfold image at 1.
    rewrite (sumn_ext m _ (fun r => sumn n (fun j => A r j * mv m (transposed A) e j * e r))).
    2:{ intros r Hr. rewrite <- sumn_scale_r. apply sumn_ext. intros j Hj. rewrite vlist_nth by exact Hj. reflexivity. }
    rewrite sumn_swap. apply sumn_ext. intros j Hj. unfold mv at 1, transposed. rewrite <- sumn_scale_r. apply sumn_ext. intros; ring. }
  specialize (Hst e). rewrite Z in Hst. assert (Q : sq m e <= 0) by nra.
  intros r Hr. pose proof (sumn_sq_zero m e Q r Hr). unfold e in *. lra.
Qed.

(** Singular values. *)
Variable d : Decomp.
Hypothesis Hd : svd_of m n A d.
Lemma sv_large i : (i < n)%nat -> dc_S d i <> 0 -> low <= dc_S d i * dc_S d i.
Proof.
  destruct Hd as (HA & HV & HU). intros Hi Hs. specialize (Hst (fun r => dc_U d r i)).
  unfold sq at 1 in Hst. rewrite HU in Hst by assumption. unfold delta in Hst. rewrite Nat.eqb_refl in Hst.
  assert (E : sq n (mv m (transposed A) (fun r => dc_U d r i)) = dc_S d i * dc_S d i); [|lra].
  assert (M : forall j, (j < n)%nat -> mv m (transposed A) (fun r => dc_U d r i) j = dc_S d i * dc_V d j i).
  { intros j Hj. unfold mv, transposed. rewrite (sumn_ext m _ (fun r => sumn n (fun l => dc_U d r i * dc_U d r l * (dc_S d l * dc_V d j l)))).
    2:{ intros r Hr. rewrite HA by assumption. rewrite <- sumn_scale_r. apply sumn_ext. intros; ring. }
    rewrite sumn_swap. rewrite (sumn_ext n _ (fun l => delta i l * (dc_S d l * dc_V d j l))).
    - apply sumn_delta'. exact Hi.
    - intros l Hl. rewrite sumn_scale_r. destruct (Req_dec (dc_S d l) 0) as [Zl|Nl]; [rewrite Zl; ring|]. rewrite HU by assumption. reflexivity. }
  unfold sq. rewrite (sumn_ext n _ (fun j => dc_S d i * dc_S d i * (dc_V d j i * dc_V d j i))) by (intros j Hj; rewrite M by exact Hj; ring).
  rewrite sumn_scale, HV by assumption. unfold delta. rewrite Nat.eqb_refl. ring.
Qed.
Lemma sv_no_small eps : 0 < eps -> eps * eps <= low -> no_small n eps d.
Proof.
  intros He Hl i Hi Hs. destruct (Req_dec (dc_S d i) 0) as [Z|N]; [exact Z|]. pose proof (sv_large i Hi N).
  assert (Rabs (dc_S d i) * Rabs (dc_S d i) = dc_S d i * dc_S d i) by (rewrite <- Rabs_mult; apply Rabs_pos_eq; nra).
  pose proof (Rabs_pos (dc_S d i)). nra.
Qed.
Lemma sv_count eps : 0 < eps -> eps * eps <= low ->
  (forall r, (r < m)%nat -> exists x, forall r', (r' < m)%nat -> image n A x r' = delta r r') ->
  length (large_values n eps d) = m.
Proof.
  intros He Hl Sur. apply INR_eq. rewrite <- (large_sum eps d n). destruct Hd as (HA & HV & HU).
  assert (Row : forall r, (r < m)%nat -> 1 = sumn n (fun i => (if Rlt_dec (Rabs (dc_S d i)) eps then 0 else 1) * (dc_U d r i * dc_U d r i))).
  { intros r Hr. destruct (Sur r Hr) as (x & Hx). rewrite <- (NearSvd.delta_same r), <- (Hx r Hr) at 1.
    rewrite (image_parts m n A (dc_U d) (dc_S d) (dc_V d) HA x r Hr). apply sumn_ext. intros i Hi.
    pose proof (sv_no_small eps He Hl i Hi) as NS.
    destruct (Rlt_dec (Rabs (dc_S d i)) eps) as [Sm|Lg]; [rewrite (NS Sm); ring|].
    assert (NZ : dc_S d i <> 0) by (intros Z; apply Lg; rewrite Z, Rabs_R0; exact He).
    pose proof (image_back m n A (dc_U d) (dc_S d) (dc_V d) HA HU x i Hi) as IB.
    rewrite (sumn_ext m _ (fun r' => delta r r' * dc_U d r' i)) in IB by (intros r' Hr'; rewrite Hx by exact Hr'; ring).
    rewrite sumn_delta' in IB by exact Hr.
    assert (dc_U d r i = dc_S d i * part n (dc_V d) i x) by (apply Rmult_eq_reg_l with (dc_S d i); [lra|exact NZ]).
    rewrite H at 3. ring. }
  assert (T : INR m = sumn m (fun _ => 1)). { clear. induction m as [|k IH]; [reflexivity|]. rewrite S_INR. cbn [sumn]. lra. }
  rewrite T. rewrite (sumn_ext m _ (fun r => sumn n (fun i => (if Rlt_dec (Rabs (dc_S d i)) eps then 0 else 1) * (dc_U d r i * dc_U d r i)))) by exact Row.
  rewrite sumn_swap. apply sumn_ext. intros i Hi. rewrite sumn_scale.
  destruct (Rlt_dec (Rabs (dc_S d i)) eps) as [Sm|Lg]; [ring|].
  assert (NZ : dc_S d i <> 0) by (intros Z; apply Lg; rewrite Z, Rabs_R0; exact He).
  rewrite HU by assumption. unfold delta. rewrite Nat.eqb_refl. ring.
Qed.
End Exact.

(** ** The rank survives small changes *)
Lemma stretches_near m n low low' A : 0 < low' < low -> stretches n m low (transposed A) ->
  exists eps, 0 < eps /\ forall A', (forall r j, (r < m)%nat -> (j < n)%nat -> Rabs (A' r j - A r j) <= eps) -> stretches n m low' (transposed A').
Proof.
  intros Hl H. set (th := (low - low') / (2 * low)).
  assert (Th : 0 < th < 1). { unfold th. split; [apply Rdiv_lt_0_compat; lra|]. apply Rmult_lt_reg_r with (2 * low); [lra|]. unfold Rdiv. rewrite Rmult_assoc, Rinv_l by lra. lra. }
  set (N := INR n * INR m + 1). assert (HN : 1 <= N) by (unfold N; pose proof (pos_INR n); pose proof (pos_INR m); nra).
  set (e2 := th * (low - low') / (2 * N)). assert (He2 : 0 < e2) by (unfold e2; apply Rdiv_lt_0_compat; nra).
  exists (sqrt e2). split; [apply sqrt_lt_R0; exact He2|]. intros A' HA y.
  set (a := mv m (transposed A) y). set (b := mv m (fun j r => A' r j - A r j) y).
  assert (E : forall j, mv m (transposed A') y j = a j + b j).
  { intros j. unfold a, b, mv, transposed. rewrite <- sumn_add. apply sumn_ext. intros; ring. }
  assert (Bb : sq n b <= N * e2 * sq m y).
  { pose proof (sq_mv_fro n m (fun j r => A' r j - A r j) y (sqrt (N * e2)) (sqrt_pos _)) as F. rewrite sqrt_sqrt in F by nra. apply F.
    eapply Rle_trans; [apply (fro_entries n m _ (sqrt e2) (sqrt_pos _))|].
    - intros i k Hi Hk. apply HA; assumption.
    - rewrite sqrt_sqrt by lra. unfold N. nra. }
  specialize (H y). fold a in H.
  assert (P : (1 - th) * sq n a - / th * sq n b <= sq n (mv m (transposed A') y)).
  { unfold sq. rewrite <- !sumn_scale, <- sumn_sub. apply sumn_le. intros j Hj. rewrite E.
    assert (I : 0 <= th * (a j * a j) + / th * (b j * b j) + 2 * (a j * b j)).
    { replace (th * (a j * a j) + / th * (b j * b j) + 2 * (a j * b j)) with (/ th * ((th * a j + b j) * (th * a j + b j))) by (field; apply Rgt_not_eq; apply Th).
      apply Rmult_le_pos; [left; apply Rinv_0_lt_compat; lra|apply Rle_0_sqr]. }
    nra. }
  eapply Rle_trans; [|exact P].
  assert (Y : 0 <= sq m y) by apply sq_nonneg.
  assert (Q1 : (1 - th) * (low * sq m y) <= (1 - th) * sq n a) by (apply Rmult_le_compat_l; lra).
  assert (Q2 : / th * sq n b <= / th * (N * e2 * sq m y)) by (apply Rmult_le_compat_l; [left; apply Rinv_0_lt_compat; lra|exact Bb]).
  assert (Q3 : / th * (N * e2 * sq m y) = (low - low') / 2 * sq m y) by (unfold e2; field; lra).
  assert (Q4 : (1 - th) * (low * sq m y) = (low - (low - low') / 2) * sq m y) by (unfold th; field; lra).
  lra.
Qed.

Lemma jac_lip c q0 : chain_ok c -> length q0 = ch_nj c ->
  exists L, 0 <= L /\ forall q r j, length q = length q0 -> d1 q q0 <= 1 -> (r < 6)%nat -> (j < ch_nj c)%nat ->
    Rabs (tip_jacobian c q r j - tip_jacobian c q0 r j) <= L * d1 q q0.
Proof.
  intros Hok Hq. pose proof Hok as [[Hs Hj] _]. destruct (lip_chain (ch_segs c) q0 ltac:(lia)) as (_ & J).
  assert (P : forall r j, (r < 6)%nat -> lip q0 (fun q => t_at (nth j (jacl (ch_segs c) q) t_zero) r)).
  { intros r j Hr. destruct (J j) as ((A & B & C) & (D & E & F)). do 6 (destruct r as [|r]; [assumption|]). lia. }
  assert (G : forall n k, exists L, 0 <= L /\ forall q r j, length q = length q0 -> d1 q q0 <= 1 -> (r < k)%nat -> (k <= 6)%nat -> (j < n)%nat ->
    Rabs (t_at (nth j (jacl (ch_segs c) q0) t_zero) r - t_at (nth j (jacl (ch_segs c) q) t_zero) r) <= L * d1 q q0).
  { induction n as [|n IHn]; intros k.
    - exists 0. split; [lra|]. intros. lia.
    - induction k as [|k IHk].
      + exists 0. split; [lra|]. intros. lia.
      + destruct (IHn 6%nat) as (L1 & P1 & H1). destruct IHk as (L2 & P2 & H2).
        destruct (le_lt_dec 6 k) as [K|K].
        * exists 0. split; [lra|]. intros. lia.
        * destruct (lip_at _ _ (P k n K)) as (L3 & P3 & H3). exists (L1 + L2 + L3). split; [lra|].
          intros q r j Hl N Hr Hk Hjn. pose proof (d1_nn q q0) as Dn.
          destruct (Nat.eq_dec j n) as [->|Nj]; [destruct (Nat.eq_dec r k) as [->|Nr]|].
          -- eapply Rle_trans; [apply H3; assumption|]. nra.
          -- eapply Rle_trans; [apply H2; lia || lra|]. nra.
          -- eapply Rle_trans; [apply H1; lia || lra|]. nra. }
  destruct (G (ch_nj c) 6%nat) as (L & P0 & H). exists L. split; [exact P0|]. intros q r j Hl N Hr Hjn.
  unfold tip_jacobian. rewrite !jac_is_jacl by (auto; lia). rewrite Rabs_minus_sym. apply H; lia || lra.
Qed.

(** ** The solver *)
Definition pinv_ready (c : Chain) (eps : R) (k : Z) (s : pinv) : Prop :=
  pinv_clean s /\ pv_nj s = ch_nj c /\ pv_eps s = eps /\ pv_maxiter s = k.
Lemma twist_of (b : nat -> R) : exists t, forall r, (r < 6)%nat -> t_at t r = b r.
Proof. exists (mkT (mkV (b 0%nat) (b 1%nat) (b 2%nat)) (mkV (b 3%nat) (b 4%nat) (b 5%nat))). intros r Hr. do 6 (destruct r as [|r]; [reflexivity|]). lia. Qed.
Lemma image_ext n A B x r : (forall j, (j < n)%nat -> A r j = B r j) -> image n A x r = image n B x r.
Proof. intros H. apply sumn_ext. intros j Hj. rewrite H by exact Hj. reflexivity. Qed.

Lemma pinv_exact svd c s q v qdot low : chain_ok c -> pinv_ready c (pv_eps s) (pv_maxiter s) s -> 0 < pv_eps s -> (Z.of_nat (ch_nj c) < 2 ^ 32)%Z ->
  length q = ch_nj c -> length qdot = ch_nj c -> pv_eps s * pv_eps s <= low -> stretches (ch_nj c) 6 low (transposed (tip_jacobian c q)) ->
  let d := svd (pv_maxiter s) (mkM 6 (ch_nj c) (tip_jacobian c q)) in
  dc_rc d = 0%Z -> svd_of 6 (ch_nj c) (tip_jacobian c q) d ->
  exists out s', pinv_CartToJnt svd c s q v qdot = Ret (E_NOERROR, out, s') /\ pinv_ready c (pv_eps s) (pv_maxiter s) s' /\ length out = ch_nj c /\
    (forall r, (r < 6)%nat -> image (ch_nj c) (tip_jacobian c q) out r = t_at v r) /\
    pv_eps s * pv_eps s * norm2 (ch_nj c) out <= sumn 6 (fun r => t_at v r * t_at v r).
Proof.
  intros Hok (Cl & Nj & _ & _) He Hn Lq Ld Hl Hst d Rc Sv.
  assert (Hl0 : 0 < low) by nra.
  assert (NS : no_small (ch_nj c) (pv_eps s) d) by (apply (sv_no_small 6 (ch_nj c) (tip_jacobian c q) low Hst d Sv); assumption).
  assert (Any : forall v, exists code out s', pinv_CartToJnt svd c s q v qdot = Ret (code, out, s') /\ pinv_ready c (pv_eps s) (pv_maxiter s) s' /\
    (code = E_CONVERGE_PINV_SINGULAR \/ code = E_NOERROR) /\
    (code = E_CONVERGE_PINV_SINGULAR <-> (6 <= ch_nj c)%nat /\ (length (large_values (ch_nj c) (pv_eps s) d) < 6)%nat) /\ length out = ch_nj c /\
    (forall r, (r < 6)%nat -> image (ch_nj c) (tip_jacobian c q) out r = t_at v r) /\
    pv_eps s * pv_eps s * norm2 (ch_nj c) out <= sumn 6 (fun r => t_at v r * t_at v r)).
  { intros v0. destruct (pinv_call svd c s q v0 qdot Hok Cl He Hn) as (code & out & s' & R1 & _ & Cl' & Nj' & Ep' & Mi' & H). cbv zeta in H.
    destruct H as (_ & _ & H). destruct (H Nj (conj Lq Ld)) as (_ & _ & H1). fold d in H1. destruct (H1 Rc) as (C1 & C2 & _ & H2).
    destruct (H2 Sv) as (_ & LS & Nm). specialize (LS NS). exists code, out, s'. split; [exact R1|].
    split; [repeat split; try apply Cl'; congruence|]. split; [exact C1|]. split; [exact C2|]. split; [apply LS|]. split; [|exact Nm].
    apply (ls_exact 6 (ch_nj c) (tip_jacobian c q) low Hl0 Hst). apply LS. }
  destruct (Any v) as (code & out & s' & R1 & Rd & C1 & C2 & Lo & Im & Nm).
  assert (Cnt : length (large_values (ch_nj c) (pv_eps s) d) = 6%nat).
  { apply (sv_count 6 (ch_nj c) (tip_jacobian c q) low Hst d Sv); auto. intros r Hr. destruct (twist_of (delta r)) as (t & Ht).
    destruct (Any t) as (_ & x & _ & _ & _ & _ & _ & _ & Ix & _). exists x. intros r' Hr'. rewrite Ix, Ht by exact Hr'. reflexivity. }
  assert (code = E_NOERROR) as -> by (destruct C1 as [->|E]; [exfalso; destruct (proj1 C2 eq_refl); lia|exact E]).
  exists out, s'. auto.
Qed.

Lemma sum6_sq t : sumn 6 (fun r => t_at t r * t_at t r) <= tn t * tn t.
Proof.
  assert (K : forall a b : R, 0 <= a -> 0 <= b -> a * a + b * b <= (a + b) * (a + b)) by (intros; nra).
  unfold tn. pose proof (vn_nn (tvel t)). pose proof (vn_nn (trot t)). pose proof (K _ _ (vn_nn (tvel t)) (vn_nn (trot t))).
  pose proof (norm2_vn (tvel t)). pose proof (norm2_vn (trot t)). cbn [sumn t_at]. lra.
Qed.
Lemma norm2_entry n x j : (j < n)%nat -> nth j x 0 * nth j x 0 <= norm2 n x.
Proof.
  intros H. unfold norm2. rewrite (sumn_split3 n j _ H).
  assert (0 <= sumn j (fun j => nth j x 0 * nth j x 0)) by (apply sumn_nonneg; intros; nra).
  assert (0 <= sumn (n - S j) (fun t => nth (S j + t) x 0 * nth (S j + t) x 0)) by (apply sumn_nonneg; intros; nra). lra.
Qed.

Lemma pinv_velocity_solver svd c q0 rho0 eps k low : chain_ok c -> length q0 = ch_nj c -> (Z.of_nat (ch_nj c) < 2 ^ 32)%Z -> 0 < rho0 -> 0 < eps -> eps * eps < low ->
  stretches (ch_nj c) 6 low (transposed (tip_jacobian c q0)) ->
  (forall q, joints_within rho0 q q0 -> let d := svd k (mkM 6 (ch_nj c) (tip_jacobian c q)) in dc_rc d = 0%Z /\ svd_of 6 (ch_nj c) (tip_jacobian c q) d) ->
  exists rho, 0 < rho <= rho0 /\ velocity_solver c q0 rho (INR (ch_nj c) / eps) 0 (pinv_ready c eps k) (pinv_CartToJnt svd c).
Proof.
  intros Hok Hq Hn Hrho He Hl Hst Hsvd.
  destruct (stretches_near 6 (ch_nj c) low (eps * eps) (tip_jacobian c q0)) as (e & Pe & Near); [nra|exact Hst|].
  destruct (jac_lip c q0 Hok Hq) as (L & PL & HL).
  set (N := INR (ch_nj c) + 1). assert (HN : 1 <= N) by (unfold N; pose proof (pos_INR (ch_nj c)); lra).
  set (x := Rmin (/ N) (e / (N * (L + 1)))).
  assert (X1 : x <= / N) by apply Rmin_l. assert (X2 : x <= e / (N * (L + 1))) by apply Rmin_r.
  assert (X0 : 0 < x). { unfold x. apply Rmin_glb_lt; [apply Rinv_0_lt_compat; lra|apply Rdiv_lt_0_compat; [lra|nra]]. }
  exists (Rmin rho0 x). split; [split; [apply Rmin_glb_lt; lra|apply Rmin_l]|].
  intros s q t d (Cl & Nj & Ep & Mi) Wq Ld.
  assert (Wq' : joints_within x q q0). { destruct Wq as (W1 & W2). split; [exact W1|]. intros i Hi. eapply Rle_trans; [apply W2; exact Hi|apply Rmin_r]. }
  assert (Wq0 : joints_within rho0 q q0). { destruct Wq as (W1 & W2). split; [exact W1|]. intros i Hi. eapply Rle_trans; [apply W2; exact Hi|apply Rmin_l]. }
  assert (Lq : length q = ch_nj c) by (destruct Wq as (W1 & _); lia).
  apply within_d1 in Wq'. rewrite Hq in Wq'.
  assert (Dx : d1 q q0 <= N * x) by (unfold N; nra).
  assert (Nx1 : N * x <= 1). { apply Rle_trans with (N * / N); [apply Rmult_le_compat_l; lra|right; field; lra]. }
  assert (Nx2 : L * (N * x) <= e).
  { apply Rle_trans with ((L + 1) * (N * (e / (N * (L + 1))))); [|right; field; lra]. apply Rle_trans with ((L + 1) * (N * x)); [nra|].
    apply Rmult_le_compat_l; [lra|]. apply Rmult_le_compat_l; lra. }
  destruct (Hsvd q Wq0) as (Rc & Sv). pose proof (pinv_exact svd c s q t d (eps * eps) Hok) as PE. rewrite Ep, Mi in PE.
  destruct PE as (out & s' & R1 & Rd & Lo & Im & Nm); auto.
  - repeat split; try apply Cl; assumption.
  - lra.
  - apply Near. intros r j Hr Hj. eapply Rle_trans; [apply HL; [lia|lra|exact Hr|exact Hj]|]. nra.
  - exists out, s'. split; [exact R1|]. split; [exact Rd|]. split; [exact Lo|]. split.
    + unfold size. rewrite twist_size_tn. pose proof (sum6_sq t) as S6. pose proof (tn_nn t) as T0.
      assert (Ent : forall i, (i < ch_nj c)%nat -> Rabs (nth i out 0) <= tn t / eps).
      { intros i Hi. pose proof (norm2_entry (ch_nj c) out i Hi) as Ne.
        assert (Q : (eps * Rabs (nth i out 0)) * (eps * Rabs (nth i out 0)) <= tn t * tn t).
        { replace ((eps * Rabs (nth i out 0)) * (eps * Rabs (nth i out 0))) with (eps * eps * (Rabs (nth i out 0) * Rabs (nth i out 0))) by ring.
          rewrite <- Rabs_mult, Rabs_pos_eq by nra. eapply Rle_trans; [|exact S6]. eapply Rle_trans; [|exact Nm]. apply Rmult_le_compat_l; nra. }
        pose proof (Rabs_pos (nth i out 0)).
        assert (eps * Rabs (nth i out 0) <= tn t) by (apply Rnot_lt_le; intros C; nra).
        apply Rmult_le_reg_l with eps; [exact He|]. replace (eps * (tn t / eps)) with (tn t) by (field; lra). assumption. }
      replace (INR (ch_nj c) / eps * tn t) with (sumn (ch_nj c) (fun _ => tn t / eps)).
      * apply sumn_le. exact Ent.
      * assert (SC : forall n x, sumn n (fun _ => x) = INR n * x). { clear. induction n as [|n IH]; intros x; [cbn; ring|]. rewrite S_INR. cbn [sumn]. rewrite IH. ring. }
        rewrite SC. field. lra.
    + intros i Hi. rewrite Im, Rminus_diag_eq, Rabs_R0 by (auto; reflexivity). lra.
Qed.
Lemma pinv_make_ready c eps k : pinv_ready c eps k (pinv_make c eps k).
Proof. repeat split. cbn. apply repeat_length. Qed.
