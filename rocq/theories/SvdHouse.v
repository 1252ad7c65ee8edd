(** Proofs about the singular value routines: sums, reflections and one
    Householder step. *)
From Coq Require Import Reals List ZArith Bool Arith Lia Lra Psatz.
From Verif Require Import Outcome LinModel LinSpec SumProofs SvdModel.
Import ListNotations.
Local Open Scope R_scope.

(** * Sums over lo <= k < hi *)
Lemma from_sumn lo hi f : from lo hi f = sumn hi (fun k => if Nat.leb lo k then f k else 0).
Proof. induction hi as [|h IH]; simpl; [reflexivity|]. now rewrite IH. Qed.
Lemma from_ext lo hi f g : (forall k, (lo <= k < hi)%nat -> f k = g k) -> from lo hi f = from lo hi g.
Proof.
  intros H. rewrite !from_sumn. apply sumn_ext. intros k Hk. destruct (Nat.leb_spec lo k); [apply H; lia|reflexivity].
Qed.
Lemma from_scale lo hi c f : from lo hi (fun k => c * f k) = c * from lo hi f.
Proof. induction hi as [|h IH]; simpl; [ring|]. rewrite IH. destruct (Nat.leb lo h); ring. Qed.
Lemma from_add lo hi f g : from lo hi (fun k => f k + g k) = from lo hi f + from lo hi g.
Proof. induction hi as [|h IH]; simpl; [ring|]. rewrite IH. destruct (Nat.leb lo h); ring. Qed.
Lemma from_nonneg lo hi f : (forall k, (lo <= k < hi)%nat -> 0 <= f k) -> 0 <= from lo hi f.
Proof.
  induction hi as [|h IH]; simpl; intros H; [lra|].
  assert (0 <= from lo h f) by (apply IH; intros; apply H; lia).
  destruct (Nat.leb_spec lo h); [specialize (H h ltac:(lia))|]; lra.
Qed.
Lemma from_pick lo hi i f : (lo <= i < hi)%nat -> (forall k, (lo <= k < hi)%nat -> k <> i -> f k = 0) -> from lo hi f = f i.
Proof.
  intros Hi H. rewrite from_sumn, (sumn_one hi i); [|lia|].
  - destruct (Nat.leb_spec lo i); [reflexivity|lia].
  - intros j Hj N. destruct (Nat.leb_spec lo j); [apply H; lia|reflexivity].
Qed.
Lemma from_zero lo hi f : (forall k, (lo <= k < hi)%nat -> f k = 0) -> from lo hi f = 0.
Proof. intros H. rewrite from_sumn. apply sumn_zero. intros k Hk. destruct (Nat.leb_spec lo k); [apply H; lia|reflexivity]. Qed.
Lemma from_nonneg_zero lo hi f : (forall k, (lo <= k < hi)%nat -> 0 <= f k) -> from lo hi f <= 0 ->
  forall k, (lo <= k < hi)%nat -> f k = 0.
Proof.
  induction hi as [|h IH]; simpl; intros P H k Hk; [lia|].
  assert (P0 : 0 <= from lo h f) by (apply from_nonneg; intros; apply P; lia).
  destruct (Nat.leb_spec lo h) as [L|L]; [|lia].
  pose proof (P h ltac:(lia)) as P1.
  destruct (Nat.eq_dec k h) as [->|N]; [lra|]. apply IH; [intros; apply P; lia|lra|lia].
Qed.
Lemma from_first lo hi f : (lo < hi)%nat -> from lo hi f = f lo + from (lo + 1) hi f.
Proof.
  induction hi as [|h IH]; intros L; [lia|]. simpl.
  destruct (Nat.eq_dec lo h) as [->|N].
  - rewrite Nat.leb_refl. replace (Nat.leb (h + 1) h) with false by (symmetry; apply Nat.leb_gt; lia).
    rewrite (from_zero h h), (from_zero (h + 1) h) by (intros; lia). ring.
  - rewrite IH by lia. replace (Nat.leb lo h) with true by (symmetry; apply Nat.leb_le; lia).
    replace (Nat.leb (lo + 1) h) with true by (symmetry; apply Nat.leb_le; lia). ring.
Qed.
Lemma within_true lo hi k : within lo hi k = true <-> (lo <= k < hi)%nat.
Proof. unfold within. rewrite andb_true_iff, Nat.leb_le, Nat.ltb_lt. tauto. Qed.
Lemma within_false lo hi k : within lo hi k = false <-> ~ (lo <= k < hi)%nat.
Proof. rewrite <- within_true. destruct (within lo hi k); split; congruence. Qed.

(** * pythag and sign *)
Lemma pythag_sqrt a b : pythag a b = sqrt (a * a + b * b).
Proof.
  assert (E : forall t u, 0 < t -> 0 <= u -> t * sqrt (1 + u / t * (u / t)) = sqrt (t * t + u * u)).
  { intros t u Ht Hu. rewrite <- (sqrt_square t) at 1 by lra.
    rewrite <- sqrt_mult_alt by nra. f_equal. field. lra. }
  assert (Q : forall x, Rabs x * Rabs x = x * x) by (intros x; rewrite <- Rabs_mult; apply Rabs_right; nra).
  unfold pythag. pose proof (Rabs_pos a). pose proof (Rabs_pos b).
  destruct (Rlt_dec (Rabs b) (Rabs a)).
  - rewrite E by lra. f_equal. rewrite !Q. ring.
  - destruct (Req_EM_T (Rabs b) 0) as [Z|Z].
    + rewrite <- (Q a), <- (Q b), Z. replace (Rabs a) with 0 by lra. rewrite Rmult_0_l, Rplus_0_l. symmetry. apply sqrt_0.
    + rewrite E by lra. f_equal. rewrite !Q. ring.
Qed.
Lemma pythag_square a b : pythag a b * pythag a b = a * a + b * b.
Proof. rewrite pythag_sqrt. apply sqrt_sqrt. nra. Qed.
Lemma pythag_nonneg a b : 0 <= pythag a b.
Proof. rewrite pythag_sqrt. apply sqrt_pos. Qed.
Lemma pythag_nonzero a b : a <> 0 \/ b <> 0 -> pythag a b <> 0.
Proof.
  intros H E. pose proof (pythag_square a b) as Q. rewrite E in Q.
  assert (a * a = 0) by nra. assert (b * b = 0) by nra.
  destruct H as [H|H]; apply H; nra.
Qed.
Lemma sign_square a b : sign a b * sign a b = a * a.
Proof. unfold sign. destruct (Rle_dec 0 b); unfold Rabs; destruct (Rcase_abs a); ring. Qed.
Lemma sign_agrees a b : 0 <= a -> 0 <= b * sign a b /\ (a <> 0 -> b + sign a b <> 0).
Proof.
  intros Ha. unfold sign. rewrite Rabs_right by lra. destruct (Rle_dec 0 b); split; intros; nra.
Qed.

(** * Reflections *)
(** x + beta (u.x) u applied twice is x again when beta (u.u) = -2. *)
Lemma reflect_back lo hi (u x y : vec) beta :
  beta * from lo hi (fun k => u k * u k) = -2 ->
  (forall k, (lo <= k < hi)%nat -> y k = x k + beta * from lo hi (fun l => u l * x l) * u k) ->
  forall k, (lo <= k < hi)%nat -> x k = y k + beta * from lo hi (fun l => u l * y l) * u k.
Proof.
  intros HB HY k Hk. rewrite HY by exact Hk.
  assert (E : from lo hi (fun l => u l * y l) = - from lo hi (fun l => u l * x l)).
  { rewrite (from_ext _ _ _ (fun l => u l * x l + beta * from lo hi (fun l => u l * x l) * (u l * u l)))
      by (intros l Hl; rewrite HY by exact Hl; ring).
    rewrite from_add, from_scale. set (q := from lo hi (fun l => u l * x l)) in *.
    replace (beta * q * from lo hi (fun k => u k * u k)) with (beta * from lo hi (fun k => u k * u k) * q) by ring.
    rewrite HB. ring. }
  rewrite E. ring.
Qed.

(** The numbers of one Householder vector: x with sum of magnitudes scale > 0. *)
Lemma house lo hi (x w : vec) scale s f g h : (lo < hi)%nat -> scale <> 0 -> scale = from lo hi (fun k => Rabs (x k)) ->
  (forall k, (lo <= k < hi)%nat -> w k = x k / scale) ->
  s = from lo hi (fun k => w k * w k) -> f = w lo -> g = - sign (sqrt s) f -> h = f * g - s ->
  0 < s /\ h <> 0 /\ g <> 0 /\ f - g <> 0 /\ h = g * (f - g) /\
  from lo hi (fun k => (if Nat.eqb k lo then f - g else w k) * (if Nat.eqb k lo then f - g else w k)) = -2 * h.
Proof.
  intros L HS HE Hw Es Ef Eg Eh.
  assert (Hs0 : 0 <= s) by (rewrite Es; apply from_nonneg; intros; nra).
  assert (Hs : 0 < s).
  { destruct (Req_dec s 0) as [Z|Z]; [|lra]. exfalso. apply HS.
    assert (W : forall k, (lo <= k < hi)%nat -> w k * w k = 0) by (apply from_nonneg_zero; [intros; nra|rewrite <- Es; lra]).
    assert (X : forall k, (lo <= k < hi)%nat -> x k = 0).
    { intros k Hk. specialize (W k Hk). apply Rmult_integral in W. rewrite (Hw k Hk) in W.
      destruct W as [W|W]; unfold Rdiv in W; apply Rmult_integral in W; destruct W as [W|W]; auto; exfalso; apply (Rinv_neq_0_compat scale HS W). }
    rewrite HE. apply from_zero. intros k Hk. rewrite (X k Hk). apply Rabs_R0. }
  assert (Hq : sqrt s * sqrt s = s) by (apply sqrt_sqrt; lra).
  assert (Hq0 : 0 < sqrt s) by (apply sqrt_lt_R0; exact Hs).
  assert (Hg2 : g * g = s) by (rewrite Eg; replace (- sign (sqrt s) f * - sign (sqrt s) f) with (sign (sqrt s) f * sign (sqrt s) f) by ring; rewrite sign_square; exact Hq).
  destruct (sign_agrees (sqrt s) f ltac:(lra)) as [A1 A2].
  assert (Hfg : f * g <= 0) by (rewrite Eg; lra).
  assert (Hh : h < 0) by (rewrite Eh; lra).
  assert (Hg : g <> 0) by (intro Z; rewrite Z in Hg2; lra).
  assert (Hd : f - g <> 0) by (rewrite Eg; replace (f - - sign (sqrt s) f) with (f + sign (sqrt s) f) by ring; apply A2; lra).
  assert (Hhg : h = g * (f - g)) by (rewrite Eh, <- Hg2; ring).
  repeat split; try assumption; try lra.
  rewrite (from_first lo hi) by exact L. rewrite Nat.eqb_refl.
  assert (E1 : s = f * f + from (lo + 1) hi (fun k => w k * w k)) by (rewrite Es, Ef, (from_first lo hi) by exact L; reflexivity).
  rewrite (from_ext (lo + 1) hi _ (fun k => w k * w k)).
  - rewrite Eh. nra.
  - intros k Hk. destruct (Nat.eqb_spec k lo); [lia|reflexivity].
Qed.

Section House.
Variables (checked : bool) (eps : R) (rows cols : nat).
Hypothesis eps_ok : 0 <= eps.

(** Column i: either nothing was done, or the column was reflected. *)
Lemma hh_col_ok i U : (i < cols)%nat -> exists U' sc g, hh_col checked eps rows cols i U = Go (U', sc, g) /\
  (forall a b, ~ ((i <= a < rows)%nat /\ (i <= b < cols)%nat) -> U' a b = U a b) /\
  ((sc * g = 0 /\ (forall a b, U' a b = U a b) /\ (eps = 0 -> forall k, (i <= k < rows)%nat -> U k i = 0)) \/
   ((i < rows)%nat /\ U' i i <> 0 /\ sc * g <> 0 /\
    from i rows (fun k => U' k i * U' k i) = -2 * (U' i i * (sc * g)) /\
    (forall k, (i <= k < rows)%nat -> U k i = (if Nat.eqb k i then sc * g else 0) + U' k i) /\
    forall k j, (i <= k < rows)%nat -> (i < j < cols)%nat ->
      U k j = U' k j + 1 / (U' i i * (sc * g)) * from i rows (fun l => U' l i * U' l j) * U' k i)).
Proof.
  intros Hi. destruct (Nat.ltb_spec i rows) as [L|L].
  2:{ exists U, 0, 0. split; [unfold hh_col; destruct (Nat.ltb_spec i rows); [lia|reflexivity]|]. split; [reflexivity|]. left. split; [ring|]. split; [reflexivity|]. intros _ k Hk. lia. }
  set (scale := from i rows (fun k => Rabs (U k i))).
  assert (Sp : 0 <= scale) by (apply from_nonneg; intros; apply Rabs_pos).
  destruct (Rlt_dec eps (Rabs scale)) as [B|B].
  2:{ exists U, scale, 0. split; [unfold hh_col; destruct (Nat.ltb_spec i rows); [fold scale; cbv zeta; destruct (Rlt_dec eps (Rabs scale)); [contradiction|reflexivity]|lia]|]. split; [reflexivity|]. left. split; [ring|]. split; [reflexivity|].
      intros E k Hk. rewrite Rabs_right in B by lra. assert (Z : Rabs (U k i) = 0).
      { apply (from_nonneg_zero i rows (fun k => Rabs (U k i))); [intros; apply Rabs_pos|fold scale; lra|exact Hk]. }
      destruct (Req_dec (U k i) 0) as [|N]; [assumption|]. apply Rabs_no_R0 in N. contradiction. }
  rewrite Rabs_right in B by lra.
  assert (NZ : scale <> 0) by lra.
  set (U1 := fun k j => if Nat.eqb j i && within i rows k then U k j / scale else U k j).
  set (w := fun k => U1 k i).
  assert (W1 : forall k, (i <= k < rows)%nat -> w k = U k i / scale).
  { intros k Hk. unfold w, U1. rewrite Nat.eqb_refl. replace (within i rows k) with true by (symmetry; apply within_true; exact Hk). reflexivity. }
  set (s := from i rows (fun k => U1 k i * U1 k i)). set (f := U1 i i). set (g := - sign (sqrt s) f). set (h := f * g - s).
  destruct (house i rows (fun k => U k i) w scale s f g h L NZ eq_refl W1 eq_refl eq_refl eq_refl eq_refl) as (Hs & Hh & Hg & Hd & Hhg & Hsq).
  assert (DV : (if Nat.ltb (i + 1) cols then divisor checked (-4) h else Go tt) = Go tt).
  { destruct (Nat.ltb (i + 1) cols); [|reflexivity]. unfold divisor. destruct (Req_EM_T h 0); [contradiction|reflexivity]. }
  set (U2 := eset U1 i i (f - g)).
  set (w' := fun k => if Nat.eqb k i then f - g else w k).
  assert (W2 : forall k, (i <= k < rows)%nat -> U2 k i = w' k).
  { intros k Hk. unfold U2, eset, w'. rewrite Nat.eqb_refl, andb_true_r. reflexivity. }
  assert (K2 : forall k j, j <> i -> U2 k j = U k j).
  { intros k j N. unfold U2, eset, U1. destruct (Nat.eqb_spec j i); [contradiction|]. now rewrite andb_false_r. }
  set (U3 := fun k j => if within (i + 1) cols j && within i rows k
                        then U2 k j + from i rows (fun l => U2 l i * U2 l j) / h * U2 k i else U2 k j).
  set (U4 := fun k j => if Nat.eqb j i && within i rows k then U3 k j * scale else U3 k j).
  assert (C4 : forall k, (i <= k < rows)%nat -> U4 k i = w' k * scale).
  { intros k Hk. unfold U4, U3. rewrite Nat.eqb_refl. replace (within i rows k) with true by (symmetry; apply within_true; exact Hk).
    replace (within (i + 1) cols i) with false by (symmetry; apply within_false; lia). cbn [andb]. now rewrite W2. }
  assert (J4 : forall k j, (i <= k < rows)%nat -> (i < j < cols)%nat ->
     U4 k j = U k j + 1 / h * from i rows (fun l => w' l * U l j) * w' k).
  { intros k j Hk Hj. unfold U4. destruct (Nat.eqb_spec j i); [lia|]. cbn [andb]. unfold U3.
    replace (within (i + 1) cols j) with true by (symmetry; apply within_true; lia).
    replace (within i rows k) with true by (symmetry; apply within_true; exact Hk). cbn [andb].
    rewrite (K2 k j), (W2 k) by (assumption || lia).
    rewrite (from_ext i rows (fun l => U2 l i * U2 l j) (fun l => w' l * U l j)) by (intros l Hl; rewrite (W2 l), (K2 l j) by (assumption || lia); reflexivity).
    unfold Rdiv. ring. }
  assert (E : hh_col checked eps rows cols i U = Go (U4, scale, g)).
  { change (hh_col checked eps rows cols i U) with
      (if Nat.ltb i rows then if Rlt_dec eps (Rabs scale) then
         rbind (bare_divisor scale) (fun _ => rbind (radicand checked (-3) s) (fun _ =>
         rbind (if Nat.ltb (i + 1) cols then divisor checked (-4) h else Go tt) (fun _ => Go (U4, scale, g))))
       else Go (U, scale, 0) else Go (U, 0, 0)).
    destruct (Nat.ltb_spec i rows) as [_|]; [|lia].
    destruct (Rlt_dec eps (Rabs scale)) as [_|N]; [|rewrite Rabs_right in N by lra; contradiction].
    unfold bare_divisor. destruct (Req_EM_T scale 0) as [|_]; [contradiction|].
    unfold radicand. destruct (Rle_dec 0 s) as [_|NR]; [|exfalso; apply NR; left; exact Hs].
    rewrite DV. reflexivity. }
  rewrite E.
  exists U4, scale, g. split; [reflexivity|]. split.
  { intros a b Hab. unfold U4, U3, U2, eset, U1.
    assert (W0 : within (i + 1) cols b && within i rows a = false).
    { destruct (within (i + 1) cols b) eqn:E1; [|reflexivity]. destruct (within i rows a) eqn:E2; [|reflexivity].
      apply within_true in E1, E2. exfalso. apply Hab. lia. }
    rewrite W0. destruct (Nat.eqb_spec b i) as [->|Nb].
    - destruct (within i rows a) eqn:E2; [apply within_true in E2; exfalso; apply Hab; lia|]. cbn [andb].
      destruct (Nat.eqb_spec a i); [subst a; apply within_false in E2; exfalso; lia|reflexivity].
    - cbn [andb]. now rewrite andb_false_r. }
  right. assert (Uii : U4 i i = (f - g) * scale) by (rewrite C4 by lia; unfold w'; now rewrite Nat.eqb_refl).
  assert (Sq : from i rows (fun k => U4 k i * U4 k i) = -2 * (U4 i i * (scale * g))).
  { rewrite (from_ext i rows _ (fun k => scale * scale * (w' k * w' k))) by (intros k Hk; rewrite (C4 k Hk); ring).
    rewrite from_scale. unfold w'. rewrite Hsq, Uii, Hhg. ring. }
  assert (BH : U4 i i * (scale * g) = scale * scale * h) by (rewrite Uii, Hhg; ring).
  split; [exact L|]. split; [rewrite Uii; apply Rmult_integral_contrapositive_currified; assumption|].
  split; [apply Rmult_integral_contrapositive_currified; assumption|]. split; [exact Sq|]. split.
  - intros k Hk. rewrite (C4 k Hk). unfold w'. destruct (Nat.eqb_spec k i) as [->|N].
    + change f with (w i). rewrite W1 by lia. field. exact NZ.
    + rewrite (W1 k Hk). field. exact NZ.
  - intros k j Hk Hj.
    apply (reflect_back i rows (fun k => U4 k i) (fun k => U k j) (fun k => U4 k j) (1 / (U4 i i * (scale * g)))); [| |exact Hk].
    + rewrite Sq. field. split; [assumption|]. split; [exact NZ|]. rewrite Uii. apply Rmult_integral_contrapositive_currified; assumption.
    + intros l Hl. rewrite (J4 l j Hl Hj), (C4 l Hl). rewrite BH.
      rewrite (from_ext i rows (fun l0 => U4 l0 i * U l0 j) (fun l0 => scale * (w' l0 * U l0 j))) by (intros l0 Hl0; rewrite (C4 l0 Hl0); ring).
      rewrite from_scale. field. split; assumption.
Qed.

(** Row i. *)
Lemma hh_row_ok i U tmp : (i < cols)%nat -> exists U' tmp' sc g, hh_row checked eps rows cols i U tmp = Go (U', tmp', sc, g) /\
  (forall k, (k <= i)%nat -> tmp' k = tmp k) /\
  (forall a b, ~ ((i <= a < rows)%nat /\ (i + 1 <= b < cols)%nat) -> U' a b = U a b) /\
  ((sc * g = 0 /\ (forall a b, U' a b = U a b) /\ (eps = 0 -> (i < rows)%nat -> forall k, (i + 1 <= k < cols)%nat -> U i k = 0)) \/
   ((i < rows)%nat /\ (i + 1 < cols)%nat /\ U' i (i + 1)%nat <> 0 /\ sc * g <> 0 /\
    from (i + 1) cols (fun k => U' i k * U' i k) = -2 * (U' i (i + 1)%nat * (sc * g)) /\
    (forall k, (i + 1 <= k < cols)%nat -> U i k = (if Nat.eqb k (i + 1) then sc * g else 0) + U' i k) /\
    forall a k, (i < a < rows)%nat -> (i + 1 <= k < cols)%nat ->
      U a k = U' a k + 1 / (U' i (i + 1)%nat * (sc * g)) * from (i + 1) cols (fun l => U' i l * U' a l) * U' i k)).
Proof.
  intros Hi. set (p := (i + 1)%nat).
  destruct (Nat.ltb_spec i rows) as [L|L].
  2:{ exists U, tmp, 0, 0. split; [unfold hh_row; destruct (Nat.ltb_spec i rows); [lia|reflexivity]|]. split; [reflexivity|]. split; [reflexivity|]. left. split; [ring|]. split; [reflexivity|]. intros _ Hk. lia. }
  destruct (Nat.eqb_spec (i + 1) cols) as [C|C].
  { exists U, tmp, 0, 0. split; [unfold hh_row; destruct (Nat.eqb_spec (i + 1) cols); [rewrite andb_false_r; reflexivity|lia]|]. split; [reflexivity|]. split; [reflexivity|]. left. split; [ring|]. split; [reflexivity|]. intros _ _ k Hk. unfold p in Hk. lia. }
  assert (Lp : (p < cols)%nat) by (unfold p; lia).
  fold p. set (scale := from p cols (fun k => Rabs (U i k))).
  assert (Sp : 0 <= scale) by (apply from_nonneg; intros; apply Rabs_pos).
  destruct (Rlt_dec eps (Rabs scale)) as [B|B].
  2:{ exists U, tmp, scale, 0. split; [unfold hh_row; destruct (Nat.ltb_spec i rows); [|lia]; destruct (Nat.eqb_spec (i + 1) cols); [lia|];
        cbn [andb negb]; cbv zeta; fold p; fold scale; destruct (Rlt_dec eps (Rabs scale)); [contradiction|reflexivity]|]. split; [reflexivity|]. split; [reflexivity|]. left. split; [ring|]. split; [reflexivity|].
      intros E _ k Hk. rewrite Rabs_right in B by lra. assert (Z : Rabs (U i k) = 0).
      { apply (from_nonneg_zero p cols (fun k => Rabs (U i k))); [intros; apply Rabs_pos|fold scale; lra|exact Hk]. }
      destruct (Req_dec (U i k) 0) as [|N]; [assumption|]. apply Rabs_no_R0 in N. contradiction. }
  rewrite Rabs_right in B by lra.
  assert (NZ : scale <> 0) by lra.
  set (U1 := fun a k => if Nat.eqb a i && within p cols k then U a k / scale else U a k).
  set (w := fun k => U1 i k).
  assert (W1 : forall k, (p <= k < cols)%nat -> w k = U i k / scale).
  { intros k Hk. unfold w, U1. rewrite Nat.eqb_refl. replace (within p cols k) with true by (symmetry; apply within_true; exact Hk). reflexivity. }
  set (s := from p cols (fun k => U1 i k * U1 i k)). set (f := U1 i p). set (g := - sign (sqrt s) f). set (h := f * g - s).
  destruct (house p cols (fun k => U i k) w scale s f g h Lp NZ eq_refl W1 eq_refl eq_refl eq_refl eq_refl) as (Hs & Hh & Hg & Hd & Hhg & Hsq).
  assert (DV : divisor checked (-6) h = Go tt) by (unfold divisor; destruct (Req_EM_T h 0); [contradiction|reflexivity]).
  set (U2 := eset U1 i p (f - g)).
  set (w' := fun k => if Nat.eqb k p then f - g else w k).
  assert (W2 : forall k, (p <= k < cols)%nat -> U2 i k = w' k).
  { intros k Hk. unfold U2, eset, w'. rewrite Nat.eqb_refl. cbn [andb]. reflexivity. }
  assert (K2 : forall a k, a <> i -> U2 a k = U a k).
  { intros a k N. unfold U2, eset, U1. destruct (Nat.eqb_spec a i); [contradiction|]. reflexivity. }
  set (tmp1 := fun k => if within p cols k then U2 i k / h else tmp k).
  set (U3 := fun j k => if within p rows j && within p cols k
                        then U2 j k + from p cols (fun l => U2 j l * U2 i l) * tmp1 k else U2 j k).
  set (U4 := fun a k => if Nat.eqb a i && within p cols k then U3 a k * scale else U3 a k).
  assert (C4 : forall k, (p <= k < cols)%nat -> U4 i k = w' k * scale).
  { intros k Hk. unfold U4, U3. rewrite Nat.eqb_refl. replace (within p cols k) with true by (symmetry; apply within_true; exact Hk).
    replace (within p rows i) with false by (symmetry; apply within_false; unfold p; lia). cbn [andb]. now rewrite W2. }
  assert (J4 : forall a k, (i < a < rows)%nat -> (p <= k < cols)%nat ->
     U4 a k = U a k + 1 / h * from p cols (fun l => w' l * U a l) * w' k).
  { intros a k Ha Hk. unfold U4. destruct (Nat.eqb_spec a i); [lia|]. cbn [andb]. unfold U3.
    replace (within p cols k) with true by (symmetry; apply within_true; lia).
    replace (within p rows a) with true by (symmetry; apply within_true; unfold p; lia). cbn [andb].
    unfold tmp1. replace (within p cols k) with true by (symmetry; apply within_true; lia).
    rewrite (K2 a k), (W2 k) by (assumption || lia).
    rewrite (from_ext p cols (fun l => U2 a l * U2 i l) (fun l => w' l * U a l)) by (intros l Hl; rewrite (W2 l), (K2 a l) by (assumption || lia); ring).
    unfold Rdiv. ring. }
  assert (E : hh_row checked eps rows cols i U tmp = Go (U4, tmp1, scale, g)).
  { change (hh_row checked eps rows cols i U tmp) with
      (if Nat.ltb i rows && negb (Nat.eqb (i + 1) cols) then if Rlt_dec eps (Rabs scale) then
         rbind (bare_divisor scale) (fun _ => rbind (radicand checked (-5) s) (fun _ =>
         rbind (divisor checked (-6) h) (fun _ => Go (U4, tmp1, scale, g))))
       else Go (U, tmp, scale, 0) else Go (U, tmp, 0, 0)).
    destruct (Nat.ltb_spec i rows) as [_|]; [|lia]. destruct (Nat.eqb_spec (i + 1) cols) as [|_]; [lia|]. cbn [andb negb].
    destruct (Rlt_dec eps (Rabs scale)) as [_|N]; [|rewrite Rabs_right in N by lra; contradiction].
    unfold bare_divisor. destruct (Req_EM_T scale 0) as [|_]; [contradiction|].
    unfold radicand. destruct (Rle_dec 0 s) as [_|NR]; [|exfalso; apply NR; left; exact Hs].
    rewrite DV. reflexivity. }
  rewrite E.
  exists U4, tmp1, scale, g. split; [reflexivity|]. split.
  { intros k Hk. unfold tmp1. replace (within p cols k) with false by (symmetry; apply within_false; unfold p; lia). reflexivity. }
  split.
  { intros a b Hab. unfold U4, U3, U2, eset, U1.
    assert (W0 : within p rows a && within p cols b = false).
    { destruct (within p rows a) eqn:E1; [|reflexivity]. destruct (within p cols b) eqn:E2; [|reflexivity].
      apply within_true in E1, E2. exfalso. apply Hab. unfold p in *. lia. }
    rewrite W0. destruct (Nat.eqb_spec a i) as [->|Na]; [|reflexivity].
    destruct (within p cols b) eqn:E2; [apply within_true in E2; exfalso; apply Hab; lia|]. cbn [andb].
    destruct (Nat.eqb_spec b p); [subst b; apply within_false in E2; exfalso; lia|reflexivity]. }
  right. assert (Uii : U4 i p = (f - g) * scale) by (rewrite C4 by lia; unfold w'; now rewrite Nat.eqb_refl).
  assert (Sq : from p cols (fun k => U4 i k * U4 i k) = -2 * (U4 i p * (scale * g))).
  { rewrite (from_ext p cols _ (fun k => scale * scale * (w' k * w' k))) by (intros k Hk; rewrite (C4 k Hk); ring).
    rewrite from_scale. unfold w'. rewrite Hsq, Uii, Hhg. ring. }
  assert (BH : U4 i p * (scale * g) = scale * scale * h) by (rewrite Uii, Hhg; ring).
  split; [exact L|]. split; [exact Lp|]. split; [rewrite Uii; apply Rmult_integral_contrapositive_currified; assumption|].
  split; [apply Rmult_integral_contrapositive_currified; assumption|]. split; [exact Sq|]. split.
  - intros k Hk. rewrite (C4 k Hk). unfold w'. destruct (Nat.eqb_spec k p) as [->|N].
    + change f with (w p). rewrite W1 by lia. field. exact NZ.
    + rewrite (W1 k Hk). field. exact NZ.
  - intros a k Ha Hk.
    apply (reflect_back p cols (fun k => U4 i k) (fun k => U a k) (fun k => U4 a k) (1 / (U4 i p * (scale * g)))); [| |exact Hk].
    + rewrite Sq. field. split; [assumption|]. split; [exact NZ|]. rewrite Uii. apply Rmult_integral_contrapositive_currified; assumption.
    + intros l Hl. rewrite (J4 a l Ha Hl), (C4 l Hl). rewrite BH.
      rewrite (from_ext p cols (fun l0 => U4 i l0 * U a l0) (fun l0 => scale * (w' l0 * U a l0))) by (intros l0 Hl0; rewrite (C4 l0 Hl0); ring).
      rewrite from_scale. field. split; assumption.
Qed.
End House.
