(** Nearly orthonormal factors, and the velocities computed from them. *)
From Coq Require Import Reals List ZArith Lra Lia Bool Arith.
From Verif Require Import FramesModel Outcome LoopProofs LinModel LinSpec SumProofs LmaSpec LmaProofs SvdModel SvdFinal VelIkModel VelIkSpec VelIkLin GivensModel GivensSpec GivensLin GivensLoop.
Import ListNotations.
Local Open Scope list_scope.
Local Open Scope R_scope.

Definition eps6 : R := 1 / 10 ^ 6.
Definition thr15 : R := 1 / 10 ^ 15.
(** Columns of length one with squared cosines below 1e-15. *)
Definition unitary (rows n : nat) (U : mat) : Prop :=
  (forall i, (i < n)%nat -> gram rows U i i = 1) /\
  forall i k, (i < n)%nat -> (k < n)%nat -> (gram rows U i k - delta i k) * (gram rows U i k - delta i k) <= thr15.
Definition nearly (rows n : nat) (W : mat) : Prop := stretches rows n (1 - eps6) W /\ stretched_at_most rows n (1 + eps6) W.

Lemma sumn_le n f g : (forall i, (i < n)%nat -> f i <= g i) -> sumn n f <= sumn n g.
Proof. induction n as [|n IH]; intros H; cbn [sumn]; [lra|]. pose proof (H n ltac:(lia)). assert (sumn n f <= sumn n g) by (apply IH; intros; apply H; lia). lra. Qed.
Lemma sumn_const n b : sumn n (fun _ => b) = INR n * b.
Proof. induction n as [|n IH]; [cbn; ring|]. cbn [sumn]. rewrite IH, S_INR. ring. Qed.
Lemma INR6 n : (n <= 6)%nat -> 0 <= INR n <= 6.
Proof. intros H. split; [apply pos_INR|]. apply le_INR in H. cbn in H. lra. Qed.

(** Entries at most sqrt b: the matrix enlarges squared lengths at most by 36 b. *)
Lemma small_matrix n M b w : (n <= 6)%nat -> 0 <= b -> (forall i k, (i < n)%nat -> (k < n)%nat -> M i k * M i k <= b) ->
  sq n (mv n M w) <= 36 * b * sq n w.
Proof.
  intros Hn Hb HM. pose proof (sq_nn n w) as W0. destruct (INR6 n Hn) as [N0 N6].
  assert (R1 : forall i, (i < n)%nat -> mv n M w i * mv n M w i <= 6 * b * sq n w).
  { intros i Hi. eapply Rle_trans; [apply (cauchy1 n (M i) w)|]. fold (sq n w). apply Rmult_le_compat_r; [exact W0|].
    eapply Rle_trans; [apply (sumn_le n _ (fun _ => b)); intros; apply HM; assumption|]. rewrite sumn_const. nra. }
  unfold sq at 1. eapply Rle_trans; [apply (sumn_le n _ (fun _ => 6 * b * sq n w)); exact R1|]. rewrite sumn_const.
  assert (0 <= b * sq n w) by (apply Rmult_le_pos; assumption). nra.
Qed.
Lemma dot_bound n x y : sumn n (fun i => x i * y i) * sumn n (fun i => x i * y i) <= sq n x * sq n y.
Proof. apply cauchy1. Qed.
Lemma sq_mv_gram rows n U x : sq rows (mv n U x) = sumn n (fun i => x i * mv n (gram rows U) x i).
Proof.
  unfold sq. rewrite (adjoint rows n U x (mv n U x)). apply sumn_ext. intros i Hi. f_equal. unfold mv, transposed, gram.
  rewrite (sumn_ext rows _ (fun r => sumn n (fun k => U r i * U r k * x k))) by (intros; rewrite <- sumn_scale; apply sumn_ext; intros; ring).
  rewrite sumn_swap. apply sumn_ext. intros k _. rewrite sumn_scale_r. reflexivity.
Qed.
Lemma unitary_nearly rows n U : (n <= 6)%nat -> unitary rows n U -> nearly rows n U.
Proof.
  intros Hn [H1 HE]. set (E := fun i k => gram rows U i k - delta i k).
  assert (B : forall x, Rabs (sq rows (mv n U x) - sq n x) <= eps6 * sq n x).
  { intros x. set (e := sumn n (fun i => x i * mv n E x i)).
    assert (D : sq rows (mv n U x) - sq n x = e).
    { unfold e, sq. fold (sq rows (mv n U x)). rewrite sq_mv_gram, <- sumn_sub. apply sumn_ext. intros i Hi. unfold mv, E.
      rewrite (sumn_ext n (fun k => (gram rows U i k - delta i k) * x k) (fun k => gram rows U i k * x k - delta i k * x k)) by (intros; ring).
      rewrite sumn_sub, (sumn_delta' n i x Hi). ring. }
    rewrite D. pose proof (dot_bound n x (mv n E x)) as C. fold e in C. pose proof (sq_nn n x) as X0.
    assert (S6 := small_matrix n E thr15 x Hn ltac:(unfold thr15; lra) HE).
    assert (P : 0 <= eps6 * sq n x) by (apply Rmult_le_pos; [unfold eps6; lra|exact X0]).
    rewrite <- (Rabs_pos_eq (eps6 * sq n x)) by exact P. apply Rsqr_le_abs_0. unfold Rsqr.
    apply Rle_trans with (sq n x * (36 * thr15 * sq n x)); [eapply Rle_trans; [exact C|]; apply Rmult_le_compat_l; assumption|].
    replace (eps6 * sq n x * (eps6 * sq n x)) with (eps6 * eps6 * (sq n x * sq n x)) by ring.
    replace (sq n x * (36 * thr15 * sq n x)) with (36 * thr15 * (sq n x * sq n x)) by ring. apply Rmult_le_compat_r; [nra|]. unfold thr15, eps6. lra. }
  split; intros x; specialize (B x); apply Rabs_def2_le in B || (unfold Rabs in B; destruct (Rcase_abs _) in B); lra.
Qed.

(** ** The factor left by the loop *)
Section Fresh.
Variables (rows n : nat) (Bf : mat).
Hypothesis N2 : (2 <= n)%nat.
Hypothesis Al : forall i j, (i < j < n)%nat -> alone thr15 rows Bf i j.
Lemma fresh_positive i : (i < n)%nat -> 0 < gram rows Bf i i.
Proof.
  intros Hi. assert (P : forall a b, (a < b < n)%nat -> 0 < gram rows Bf a a * gram rows Bf b b).
  { intros a b Hab. pose proof (Al a b Hab) as H. unfold alone in H. pose proof (Rle_0_sqr (gram rows Bf a b)) as Z. unfold Rsqr in Z. unfold thr15 in H. lra. }
  pose proof (gram_nn rows Bf i). destruct (Req_EM_T (gram rows Bf i i) 0) as [Z|]; [|lra]. exfalso.
  destruct (Nat.eq_dec i 0) as [->|N0].
  - pose proof (P 0%nat 1%nat ltac:(lia)) as Q. rewrite Z in Q. lra.
  - pose proof (P 0%nat i ltac:(lia)) as Q. rewrite Z in Q. lra.
Qed.
Definition len (i : nat) : R := sqrt (gram rows Bf i i).
Lemma len_pos i : (i < n)%nat -> 0 < len i.
Proof. intros H. apply sqrt_lt_R0, fresh_positive, H. Qed.
Lemma len_sq i : len i * len i = gram rows Bf i i.
Proof. apply sqrt_sqrt, gram_nn. Qed.
Lemma unit_entry a i : (i < n)%nat -> unit_columns rows n Bf a i * len i = Bf a i.
Proof.
  intros Hi. unfold unit_columns. rewrite (proj2 (Nat.ltb_lt i n) Hi), cdot_gram. fold (len i). pose proof (len_pos i Hi).
  destruct (Req_EM_T (len i) 0); [lra|]. field. lra.
Qed.
Lemma unit_gram i k : (i < n)%nat -> (k < n)%nat -> gram rows (unit_columns rows n Bf) i k * (len i * len k) = gram rows Bf i k.
Proof. intros Hi Hk. unfold gram. rewrite <- sumn_scale_r. apply sumn_ext. intros a _. rewrite <- (unit_entry a i Hi), <- (unit_entry a k Hk). ring. Qed.
Lemma fresh_unitary : unitary rows n (unit_columns rows n Bf).
Proof.
  assert (D : forall i, (i < n)%nat -> gram rows (unit_columns rows n Bf) i i = 1).
  { intros i Hi. pose proof (unit_gram i i Hi Hi) as G. rewrite len_sq in G. pose proof (fresh_positive i Hi). nra. }
  split; [exact D|]. intros i k Hi Hk. unfold delta. destruct (Nat.eqb_spec i k) as [->|N].
  - rewrite (D k Hk). unfold thr15. lra.
  - pose proof (unit_gram i k Hi Hk) as G. pose proof (len_pos i Hi) as Pi. pose proof (len_pos k Hk) as Pk.
    assert (P : 0 < len i * len k) by (apply Rmult_lt_0_compat; assumption).
    assert (A : gram rows Bf i k * gram rows Bf i k < thr15 * ((len i * len i) * (len k * len k))).
    { rewrite !len_sq. destruct (Nat.lt_ge_cases i k) as [L|L].
      - apply Al; lia.
      - pose proof (Al k i ltac:(lia)) as H. unfold alone in H. rewrite (gram_sym rows Bf i k). lra. }
    rewrite <- G in A. set (g := gram rows (unit_columns rows n Bf) i k) in *. set (l := len i * len k) in *.
    replace (g * l * (g * l)) with (g * g * (l * l)) in A by ring. replace (len i * len i * (len k * len k)) with (l * l) in A by (unfold l; ring).
    assert (0 < l * l) by (apply Rmult_lt_0_compat; assumption). rewrite Rminus_0_r. apply Rlt_le. nra.
Qed.
End Fresh.

(** ** Least squares from J V = U S *)
Lemma column_least_squares n (J V U : mat) (s v y : nat -> R) : (n <= 6)%nat -> nearly n n V -> unitary 6 n U ->
  (forall i, (i < n)%nat -> 0 < s i) ->
  (forall a i, (a < 6)%nat -> (i < n)%nat -> sumn n (fun k => J a k * V k i) = U a i * s i) ->
  let w := mv 6 (transposed U) v in
  let out := mv n V (fun i => 1 / s i * w i) in
  sq 6 (fun a => mv n J out a - v a) <= sq 6 (fun a => mv n J y a - v a) + 1 / 10 ^ 13 * sq 6 v.
Proof.
  intros Hn HV HU Hs HJ w out.
  assert (Jout : forall z a, (a < 6)%nat -> mv n J (mv n V z) a = mv n U (fun i => s i * z i) a).
  { intros z a Ha. rewrite mv_mv. unfold mv. apply sumn_ext. intros i Hi. rewrite HJ by assumption. ring. }
  destruct (stretches_onto n (1 - eps6) V ltac:(unfold eps6; lra) (proj1 HV) (fun j => y j - out j)) as (z & Hz).
  set (t := fun i => s i * z i). set (r := fun a => mv n U w a - v a).
  assert (E1 : sq 6 (fun a => mv n J out a - v a) = sq 6 r).
  { apply sq_ext. intros a Ha. unfold r, out. rewrite (Jout _ a Ha). f_equal. apply sumn_ext. intros i Hi. pose proof (Hs i Hi). field. lra. }
  assert (E2 : sq 6 (fun a => mv n J y a - v a) = sq 6 (fun a => r a + mv n U t a)).
  { apply sq_ext. intros a Ha. unfold t. rewrite <- (Jout z a Ha). rewrite (mv_ext n J J (mv n V z) (fun j => y j - out j) a) by auto.
    replace (mv n J (fun j => y j - out j) a) with (mv n J y a - mv n J out a) by (unfold mv; rewrite <- sumn_sub; apply sumn_ext; intros; ring).
    assert (Q : r a = mv n J out a - v a).
    { unfold r, out. rewrite (Jout _ a Ha). f_equal. apply sumn_ext. intros i Hi. pose proof (Hs i Hi). field. lra. }
    rewrite Q. ring. }
  rewrite E1, E2. clear E1 E2.
  set (E := fun i k => gram 6 U i k - delta i k).
  assert (G : forall i, (i < n)%nat -> mv 6 (transposed U) r i = mv n E w i).
  { intros i Hi. unfold mv at 1, transposed, r.
    rewrite (sumn_ext 6 _ (fun a => sumn n (fun k => U a i * U a k * w k) - U a i * v a)).
    2:{ intros a _. rewrite (sumn_ext n _ (fun k => U a i * (U a k * w k))) by (intros; ring). rewrite sumn_scale. unfold mv. ring. }
    rewrite sumn_sub, sumn_swap. unfold mv at 1, E.
    rewrite (sumn_ext n (fun k => (gram 6 U i k - delta i k) * w k) (fun k => gram 6 U i k * w k - delta i k * w k)) by (intros; ring).
    rewrite sumn_sub, (sumn_delta' n i w Hi). f_equal. apply sumn_ext. intros k _. rewrite sumn_scale_r. reflexivity. }
  assert (X : sq 6 (fun a => r a + mv n U t a) = sq 6 r + 2 * sumn n (fun i => t i * mv n E w i) + sq 6 (mv n U t)).
  { rewrite (sumn_ext n _ (fun i => t i * mv 6 (transposed U) r i)) by (intros; rewrite G by assumption; reflexivity).
    rewrite <- (adjoint 6 n U t r). unfold sq. rewrite <- sumn_scale, <- !sumn_add. apply sumn_ext. intros; ring. }
  rewrite X. set (T := sumn n (fun i => t i * mv n E w i)).
  pose proof (dot_bound n t (mv n E w)) as C. fold T in C.
  pose proof (small_matrix n E thr15 w Hn ltac:(unfold thr15; lra) (proj2 HU)) as S6.
  assert (Wv : sq n w <= (1 + eps6) * sq 6 v).
  { apply (at_most_transposed 6 n (1 + eps6) U); [unfold eps6; lra|]. apply (unitary_nearly 6 n U Hn HU). }
  pose proof (proj1 (unitary_nearly 6 n U Hn HU) t) as Q.
  pose proof (sq_nn n t) as P1. pose proof (sq_nn n (mv n E w)) as P2. pose proof (sq_nn 6 v) as P3. pose proof (sq_nn n w) as P4.
  set (gg := sq n (mv n E w)) in *. set (tt := sq n t) in *. set (qq := sq 6 (mv n U t)) in *. set (vv := sq 6 v) in *. set (ww := sq n w) in *. set (rr := sq 6 r).
  assert (gg <= 1 / 2 * (1 / 10 ^ 13 * vv)) by (unfold thr15, eps6 in *; lra).
  assert (tt / 2 <= qq) by (unfold eps6 in Q; lra).
  assert (- (tt / 2 + 2 * gg) <= 2 * T). { assert (4 * (T * T) <= (tt / 2 + 2 * gg) * (tt / 2 + 2 * gg)) by (pose proof (Rle_0_sqr (tt / 2 - 2 * gg)) as Z; unfold Rsqr in Z; lra). apply Rnot_lt_le. intros L. clear - L H1 P1 P2. nra. }
  lra.
Qed.

(** ** Velocities from X^T M = S Y^T *)
Lemma row_residual d N (M X Y : mat) (s v : nat -> R) low high : (0 < d <= 6)%nat -> nearly d d X -> unitary N d Y ->
  (forall i, (i < d)%nat -> 0 < s i) ->
  (forall i j, (i < d)%nat -> (j < N)%nat -> sumn d (fun r => X r i * M r j) = s i * Y j i) ->
  0 < low -> stretches N d low (transposed M) -> stretched_at_most N d high (transposed M) ->
  let w := mv d (transposed X) v in
  let out := mv d Y (fun i => 1 / s i * w i) in
  low * sq d (fun a => mv N M out a - v a) <= 1 / 10 ^ 13 * (high * sq d v).
Proof.
  intros [Hd0 Hd6] HX HY Hs HM Hlow St Am w out.
  assert (Len : forall i, (i < d)%nat -> low * (1 - eps6) <= s i * s i <= high * (1 + eps6)).
  { intros i Hi. assert (Xi : sq d (fun r => X r i) = sq d (mv d X (delta i))) by (apply sq_ext; intros; rewrite mv_basis by exact Hi; reflexivity).
    assert (L : sq N (mv d (transposed M) (fun r => X r i)) = s i * s i).
    { rewrite (sq_ext N _ (fun j => s i * Y j i)).
      - unfold sq. rewrite (sumn_ext N _ (fun j => s i * s i * (Y j i * Y j i))) by (intros; ring). rewrite sumn_scale. fold (gram N Y i i). rewrite (proj1 HY i Hi). ring.
      - intros j Hj. rewrite <- (HM i j Hi Hj). unfold mv, transposed. apply sumn_ext. intros; ring. }
    pose proof (St (fun r => X r i)) as A1. pose proof (Am (fun r => X r i)) as A2. rewrite L, Xi in A1, A2.
    pose proof (proj1 HX (delta i)) as B1. pose proof (proj2 HX (delta i)) as B2. rewrite sq_basis in B1, B2 by exact Hi.
    split.
    - eapply Rle_trans; [|exact A1]. apply Rmult_le_compat_l; lra.
    - eapply Rle_trans; [exact A2|]. apply Rmult_le_compat_l; [|lra]. pose proof (Hs i Hi). pose proof (sq_nn d (mv d X (delta i))).
      assert (0 < s i * s i) by (apply Rmult_lt_0_compat; assumption). apply Rnot_lt_le. intros Ng. nra. }
  set (r := fun a => mv N M out a - v a). set (E := fun i k => gram N Y i k - delta i k). set (K := fun i k => s i * E i k / s k).
  assert (G : forall i, (i < d)%nat -> mv d (transposed X) r i = mv d K w i).
  { clear Len. intros i Hi. unfold mv at 1, transposed, r.
    rewrite (sumn_ext d _ (fun a => sumn N (fun j => X a i * M a j * out j) - X a i * v a)).
    2:{ intros a _. rewrite (sumn_ext N _ (fun j => X a i * (M a j * out j))) by (intros; ring). rewrite sumn_scale. unfold mv. ring. }
    rewrite sumn_sub, sumn_swap. rewrite (sumn_ext N _ (fun j => s i * sumn d (fun k => Y j i * Y j k * (1 / s k * w k)))).
    2:{ intros j Hj. rewrite sumn_scale_r, (HM i j Hi Hj). unfold out, mv. rewrite Rmult_assoc, <- sumn_scale. f_equal. apply sumn_ext. intros; ring. }
    rewrite sumn_scale, sumn_swap. rewrite (sumn_ext d _ (fun k => gram N Y i k * (1 / s k * w k))) by (intros; rewrite sumn_scale_r; reflexivity).
    change (sumn d (fun a => X a i * v a)) with (w i). clearbody w. rewrite <- sumn_scale. unfold mv, K, E.
    rewrite (sumn_ext d (fun k => s i * (gram N Y i k - delta i k) / s k * w k) (fun k => s i * (gram N Y i k * (1 / s k * w k)) - delta i k * (s i / s k * w k))).
    2:{ intros k Hk. pose proof (Hs k Hk). field. lra. }
    rewrite sumn_sub, (sumn_delta' d i (fun k => s i / s k * w k) Hi). pose proof (Hs i Hi). f_equal. field. lra. }
  pose proof (stretches_transposed d (1 - eps6) X ltac:(unfold eps6; lra) (proj1 HX) r) as B.
  rewrite (sq_ext d (mv d (transposed X) r) (mv d K w) G) in B.
  set (b := high * (1 + eps6) / (low * (1 - eps6)) * thr15).
  assert (Lp : 0 < low * (1 - eps6)) by (apply Rmult_lt_0_compat; [exact Hlow|unfold eps6; lra]).
  assert (Hh : 0 < high * (1 + eps6)) by (pose proof (Len 0%nat ltac:(lia)); lra).
  assert (Kb : forall i k, (i < d)%nat -> (k < d)%nat -> K i k * K i k <= b).
  { intros i k Hi Hk. pose proof (Len i Hi) as [_ L1]. pose proof (Len k Hk) as [L2 _]. pose proof (Hs i Hi). pose proof (Hs k Hk).
    replace (K i k * K i k) with ((s i * s i) / (s k * s k) * (E i k * E i k)) by (unfold K; field; lra). unfold b.
    assert (0 < s i * s i) by (apply Rmult_lt_0_compat; assumption). assert (0 < s k * s k) by (apply Rmult_lt_0_compat; assumption).
    apply Rmult_le_compat; [left; apply Rmult_lt_0_compat; [assumption|apply Rinv_0_lt_compat; assumption] | apply Rle_0_sqr | | apply (proj2 HY i k Hi Hk)].
    apply Rmult_le_compat; [lra|left; apply Rinv_0_lt_compat; assumption|exact L1|]. apply Rinv_le_contravar; assumption. }
  assert (B0 : 0 <= b) by (unfold b; apply Rmult_le_pos; [left; apply Rmult_lt_0_compat; [assumption|apply Rinv_0_lt_compat; assumption] | unfold thr15; lra]).
  pose proof (small_matrix d K b w Hd6 B0 Kb) as Sm.
  assert (Wv : sq d w <= (1 + eps6) * sq d v) by (apply (at_most_transposed d d (1 + eps6) X); [unfold eps6; lra | apply HX]).
  pose proof (sq_nn d v) as P1. pose proof (sq_nn d w) as P2. fold r.
  assert (Bl : low * (1 - eps6) * b = high * (1 + eps6) * thr15) by (unfold b; field; split; [unfold eps6; lra | lra]).
  assert (F : low * (1 - eps6) * ((1 - eps6) * sq d r) <= 36 * (high * (1 + eps6) * thr15) * ((1 + eps6) * sq d v)).
  { apply Rle_trans with (low * (1 - eps6) * (36 * b * sq d w)); [apply Rmult_le_compat_l; lra|].
    replace (low * (1 - eps6) * (36 * b * sq d w)) with (36 * (low * (1 - eps6) * b) * sq d w) by ring. rewrite Bl. apply Rmult_le_compat_l; [|exact Wv].
    apply Rmult_le_pos; [lra|]. apply Rmult_le_pos; [lra|unfold thr15; lra]. }
  assert (Hp : 0 < high) by (unfold eps6 in Hh; nra).
  assert (0 <= high * sq d v) by (apply Rmult_le_pos; lra).
  replace (low * (1 - eps6) * ((1 - eps6) * sq d r)) with ((1 - eps6) * (1 - eps6) * (low * sq d r)) in F by ring.
  replace (36 * (high * (1 + eps6) * thr15) * ((1 + eps6) * sq d v)) with (36 * thr15 * ((1 + eps6) * (1 + eps6)) * (high * sq d v)) in F by ring.
  assert (0 <= low * sq d r) by (apply Rmult_le_pos; [lra|apply sq_nn]).
  unfold eps6, thr15 in F. lra.
Qed.
