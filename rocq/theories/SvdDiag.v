(** Proofs about the singular value routines: what an iteration keeps. *)
From Coq Require Import Reals List ZArith Bool Arith Lia Lra Psatz.
From Verif Require Import Outcome LinModel LinSpec SumProofs LmaSpec VelIkLin SvdModel SvdSpec SvdHouse SvdBidiag SvdAccum SvdNorm SvdQr.
Import ListNotations.
Local Open Scope R_scope.

Section Good.
Variables (rows cols : nat) (A : mat).
Definition padded : mat := fun a b => if Nat.ltb a rows then A a b else 0.
(** A, with rows of zeroes below it, is Q X V^T with X within e of B; U is the top of Q *)
Definition good (e : R) (U V B : mat) : Prop := 0 <= e /\ exists Q X,
  top_of rows cols U Q /\ orthonormal (rows + cols) cols Q /\ orthonormal cols cols V /\
  (forall a b, (a < rows + cols)%nat -> (b < cols)%nat -> padded a b = tri cols Q X V a b) /\
  fro2 cols cols (fun i j => X i j - B i j) <= e * e.

Lemma good_rowrot e U V B a b c s : good e U V B -> (a < cols)%nat -> (b < cols)%nat -> a <> b -> c * c + s * s = 1 ->
  good e (rot rows U a b c s) V (rowrot B a b c s).
Proof.
  intros [He (Q & X & HU & HQ & HV & HA & HB)] Ha Hb N E. split; [exact He|].
  exists (rot (rows + cols) Q a b c s), (rowrot X a b c s). split; [|split; [|split; [exact HV|split]]].
  - intros r j Hr Hj. rewrite !rot_colrot by lia. unfold colrot. rewrite !HU by assumption. reflexivity.
  - intros i j Hi Hj. rewrite <- (colrot_orth (rows + cols) cols Q a b c s Ha Hb N E HQ i j Hi Hj).
    apply sumn_ext. intros r Hr. now rewrite !rot_colrot by exact Hr.
  - intros r j Hr Hj. rewrite tri_rowrot by assumption. apply HA; assumption.
  - rewrite <- (rowrot_fro2 cols cols (fun i j => X i j - B i j) a b c s Ha Hb N E) in HB. eapply Rle_trans; [|exact HB]. right.
    apply fro2_ext. intros i j _ _. unfold rowrot. destruct (Nat.eqb i a); [ring|]. destruct (Nat.eqb i b); ring.
Qed.
Lemma good_colrot e U V B a b c s : good e U V B -> (a < cols)%nat -> (b < cols)%nat -> a <> b -> c * c + s * s = 1 ->
  good e U (rot cols V a b c s) (colrot B a b c s).
Proof.
  intros [He (Q & X & HU & HQ & HV & HA & HB)] Ha Hb N E. split; [exact He|].
  exists Q, (colrot X a b c s). split; [exact HU|split; [exact HQ|split; [|split]]].
  - intros i j Hi Hj. rewrite <- (colrot_orth cols cols V a b c s Ha Hb N E HV i j Hi Hj).
    apply sumn_ext. intros r Hr. now rewrite !rot_colrot by exact Hr.
  - intros r j Hr Hj. rewrite tri_colrot by assumption. apply HA; assumption.
  - rewrite <- (colrot_fro2 cols cols (fun i j => X i j - B i j) a b c s Ha Hb N E) in HB. eapply Rle_trans; [|exact HB]. right.
    apply fro2_ext. intros i j _ _. unfold colrot. destruct (Nat.eqb j a); [ring|]. destruct (Nat.eqb j b); ring.
Qed.
Lemma good_ext e U V B B' : good e U V B -> (forall a b, (a < cols)%nat -> (b < cols)%nat -> B a b = B' a b) -> good e U V B'.
Proof.
  intros [He (Q & X & HU & HQ & HV & HA & HB)] H. split; [exact He|]. exists Q, X. do 4 (split; [assumption|]).
  rewrite <- (fro2_ext cols cols (fun i j => X i j - B i j)); [exact HB|]. intros. now rewrite H.
Qed.
(** one entry may change *)
Lemma good_drop e d U V B B' i j x : good e U V B -> (i < cols)%nat -> (j < cols)%nat -> Rabs x <= d ->
  (forall a b, (a < cols)%nat -> (b < cols)%nat -> B a b = B' a b + (if Nat.eqb a i && Nat.eqb b j then x else 0)) -> good (e + d) U V B'.
Proof.
  intros [He (Q & X & HU & HQ & HV & HA & HB)] Hi Hj Hx H. pose proof (Rabs_pos x) as Px.
  split; [lra|]. exists Q, X. do 4 (split; [assumption|]).
  rewrite (fro2_ext cols cols _ (fun a b => (X a b - B a b) + (if Nat.eqb a i && Nat.eqb b j then x else 0))).
  - apply minkowski; try assumption; try lra.
    unfold fro2. rewrite (dsum_pick cols cols _ i j Hi Hj).
    + rewrite !Nat.eqb_refl. cbn [andb]. assert (Q1 : x * x = Rabs x * Rabs x). { unfold Rabs. destruct (Rcase_abs x); ring. } rewrite Q1.
      apply Rmult_le_compat; lra.
    + intros a b _ _ N. destruct (Nat.eqb_spec a i); destruct (Nat.eqb_spec b j); try (cbn [andb]; ring). exfalso. tauto.
  - intros a b Ha Hb. rewrite (H a b Ha Hb). ring.
Qed.
Lemma good_weaken e e' U V B : good e U V B -> e <= e' -> good e' U V B.
Proof.
  intros [He (Q & X & HU & HQ & HV & HA & HB)] H. split; [lra|]. exists Q, X. do 4 (split; [assumption|]).
  eapply Rle_trans; [exact HB|]. apply Rmult_le_compat; lra.
Qed.
Lemma good_negate e U V B k : good e U V B -> (k < cols)%nat ->
  good e U (fun a b => if Nat.eqb b k && within 0 cols a then - V a b else V a b) (fun a b => if Nat.eqb b k then - B a b else B a b).
Proof.
  intros [He (Q & X & HU & HQ & HV & HA & HB)] Hk. split; [exact He|]. exists Q, (fun a b => if Nat.eqb b k then - X a b else X a b).
  assert (W : forall a b, (a < cols)%nat -> (if Nat.eqb b k && within 0 cols a then - V a b else V a b) = (if Nat.eqb b k then -1 else 1) * V a b).
  { intros a b Ha. replace (within 0 cols a) with true by (symmetry; apply within_true; lia). rewrite andb_true_r. destruct (Nat.eqb b k); ring. }
  split; [exact HU|split; [exact HQ|split; [|split]]].
  - intros i j Hi Hj. rewrite (sumn_ext cols _ (fun a => ((if Nat.eqb i k then -1 else 1) * (if Nat.eqb j k then -1 else 1)) * (V a i * V a j))).
    + rewrite sumn_scale, (HV i j Hi Hj). destruct (Nat.eqb_spec i k); destruct (Nat.eqb_spec j k); try ring; rewrite delta_other by congruence; ring.
    + intros a Ha. rewrite !W by exact Ha. ring.
  - intros r j Hr Hj. rewrite (HA r j Hr Hj). apply sumn_ext. intros c _. f_equal. apply sumn_ext. intros d _. rewrite W by exact Hj. destruct (Nat.eqb d k); ring.
  - eapply Rle_trans; [|exact HB]. right. unfold fro2. apply dsum_ext. intros i j _ _. destruct (Nat.eqb j k); ring.
Qed.
(** no entry of B is much larger than A *)
Lemma good_entry e a0 U V B i j : good e U V B -> 0 <= a0 -> fro2 rows cols A <= a0 * a0 -> (i < cols)%nat -> (j < cols)%nat -> Rabs (B i j) <= a0 + e.
Proof.
  intros [He (Q & X & HU & HQ & HV & HA & HB)] H0 HA0 Hi Hj.
  assert (HX : fro2 cols cols X <= a0 * a0).
  { rewrite <- (tri_fro2 cols (rows + cols) Q X V HQ HV).
    rewrite <- (fro2_ext (rows + cols) cols padded) by (intros; apply HA; assumption).
    eapply Rle_trans; [|exact HA0]. right. unfold fro2, dsum. rewrite sumn_split. rewrite (sumn_zero cols).
    - rewrite Rplus_0_r. apply sumn_ext. intros a Ha. apply sumn_ext. intros b _. unfold padded. destruct (Nat.ltb_spec a rows); [reflexivity|lia].
    - intros a _. apply sumn_zero. intros b _. unfold padded. destruct (Nat.ltb_spec (rows + a) rows); [lia|ring]. }
  pose proof (entry_le cols cols X a0 i j Hi Hj H0 HX). pose proof (entry_le cols cols _ e i j Hi Hj He HB) as H1. cbv beta in H1.
  replace (B i j) with (X i j - (X i j - B i j)) by ring. eapply Rle_trans; [apply Rabs_triang|]. rewrite Rabs_Ropp. lra.
Qed.
End Good.

Lemma not_fooled_less rnd m m' : not_fooled rnd m -> m' <= m -> not_fooled rnd m'.
Proof. intros H L x Hx. apply H. lra. Qed.
Lemma not_fooled_below_two rnd tol m : rounds_within rnd tol -> m + tol < 2 -> not_fooled rnd m.
Proof.
  intros (_ & _ & _ & R2) L x Hx E. apply R2 in E. replace (x + 1 + 1) with (2 - - x) in E by ring.
  pose proof (Rabs_triang (2 - - x) (- x)) as T. replace (2 - - x + - x) with 2 in T by ring. rewrite Rabs_Ropp, (Rabs_right 2) in T by lra. lra.
Qed.
Lemma guarded_not_fooled rnd m : not_fooled (guarded rnd) m.
Proof. intros x _. unfold guarded. destruct (Req_EM_T (rnd (x + 1)) (-1)); lra. Qed.
Lemma guarded_units rnd : keeps_units rnd -> keeps_units (guarded rnd).
Proof. intros [A B]. unfold keeps_units, guarded. rewrite A, B. destruct (Req_EM_T 0 (-1)); destruct (Req_EM_T 1 (-1)); lra. Qed.
Lemma guarded_within rnd tol : rounds_within rnd tol -> rounds_within (guarded rnd) tol.
Proof.
  intros (T & A & B & C). unfold guarded. split; [exact T|]. repeat split; intros x; destruct (Req_EM_T (rnd x) (-1)); intros E; try lra; auto.
Qed.

Section Diag.
Variables (rnd : R -> R) (checked : bool) (eps : R) (rows cols : nat) (A : mat).
Hypothesis eps_ok : 0 <= eps.
Hypothesis units : keeps_units rnd.
Notation good := (good rows cols A).
Variable anorm : R.
Hypothesis anorm_ok : anorm = 0 \/ anorm = 1.
Variables (tol a0 : R).
Hypothesis tol_ok : 0 <= tol.
Hypothesis a0_ok : 0 <= a0.

Lemma absorbed_zero : absorbed rnd anorm 0 = true.
Proof.
  unfold absorbed. rewrite Rabs_R0, Rplus_0_l. destruct units as [R0 R1].
  destruct (Req_EM_T (rnd anorm) anorm); [reflexivity|]. exfalso. destruct anorm_ok; subst; congruence.
Qed.
Lemma absorbed_inside_zero : absorbed_inside rnd anorm 0 = true.
Proof.
  unfold absorbed_inside. rewrite Rplus_0_l. destruct units as [R0 R1].
  destruct (Req_EM_T (Rabs (rnd anorm)) anorm) as [|N]; [reflexivity|]. exfalso. apply N. destruct anorm_ok; subst; [rewrite R0, Rabs_R0|rewrite R1, Rabs_R1]; reflexivity.
Qed.
Lemma absorbed_false x : absorbed rnd anorm x = false -> x <> 0.
Proof. intros H ->. rewrite absorbed_zero in H. discriminate. Qed.
Lemma absorbed_inside_false x : absorbed_inside rnd anorm x = false -> x <> 0.
Proof. intros H ->. rewrite absorbed_inside_zero in H. discriminate. Qed.
Lemma absorbed_small x : rounds_within rnd tol -> absorbed rnd anorm x = true -> Rabs x <= tol.
Proof.
  intros (_ & R0 & R1 & _). unfold absorbed. destruct (Req_EM_T (rnd (Rabs x + anorm)) anorm) as [E|]; [|discriminate]. intros _.
  destruct anorm_ok; subst.
  - apply R0 in E. rewrite Rplus_0_r, Rabs_Rabsolu in E. exact E.
  - apply R1 in E. replace (Rabs x + 1 - 1) with (Rabs x) in E by ring. rewrite Rabs_Rabsolu in E. exact E.
Qed.
Lemma absorbed_inside_small m x : rounds_within rnd tol -> not_fooled rnd m -> Rabs x <= m -> absorbed_inside rnd anorm x = true -> Rabs x <= tol.
Proof.
  intros (_ & R0 & R1 & R2) B LB. unfold absorbed_inside. destruct (Req_EM_T (Rabs (rnd (x + anorm))) anorm) as [E|]; [|discriminate]. intros _.
  destruct anorm_ok; subst.
  - rewrite Rplus_0_r in E. apply R0. destruct (Req_dec (rnd x) 0) as [Z|N]; [exact Z|]. apply Rabs_no_R0 in N. contradiction.
  - unfold Rabs in E. destruct (Rcase_abs (rnd (x + 1))).
    + exfalso. apply (B x LB). lra.
    + apply R1 in E. replace (x + 1 - 1) with x in E by ring. exact E.
Qed.

Lemma split_ok S T k : T O = 0 -> exists p flag, split_at rnd anorm S T k = Go (p, flag) /\ (p <= k)%nat /\
  (forall i, (p < i <= k)%nat -> T i <> 0) /\ (forall i, (p <= i < k)%nat -> S i <> 0) /\
  (flag = false -> absorbed rnd anorm (T p) = true) /\
  (flag = true -> (0 < p)%nat /\ T p <> 0 /\ absorbed_inside rnd anorm (S (p - 1)%nat) = true).
Proof.
  intros T0. induction k as [|k IH]; cbn [split_at].
  - rewrite T0, absorbed_zero. exists O, false. split; [reflexivity|]. split; [lia|]. split; [intros; lia|]. split; [intros; lia|].
    split; [intros _; rewrite T0; apply absorbed_zero|discriminate].
  - destruct (absorbed rnd anorm (T (Datatypes.S k))) eqn:E.
    + exists (Datatypes.S k), false. split; [reflexivity|]. split; [lia|]. split; [intros; lia|]. split; [intros; lia|]. split; [intros _; exact E|discriminate].
    + destruct (absorbed_inside rnd anorm (S k)) eqn:E2.
      * exists (Datatypes.S k), true. split; [reflexivity|]. split; [lia|]. split; [intros; lia|]. split; [intros; lia|]. split; [discriminate|].
        intros _. split; [lia|]. split; [apply absorbed_false, E|]. replace (Datatypes.S k - 1)%nat with k by lia. exact E2.
      * destruct IH as (p & flag & E3 & Hp & HT & HS & Hf & Ht). exists p, flag. split; [exact E3|]. split; [lia|].
        split; [|split; [|split; assumption]].
        -- intros i Hi. destruct (Nat.eq_dec i (Datatypes.S k)) as [->|N]; [apply absorbed_false, E|apply HT; lia].
        -- intros i Hi. destruct (Nat.eq_dec i k) as [->|N]; [apply absorbed_inside_false, E2|apply HS; lia].
Qed.

Lemma divisor_ok code x : x <> 0 -> divisor checked code x = Go tt.
Proof. intros N. unfold divisor. destruct (Req_EM_T x 0); [contradiction|reflexivity]. Qed.
Lemma bare_divisor_ok x : x <> 0 -> bare_divisor x = Go tt.
Proof. intros N. unfold bare_divisor. destruct (Req_EM_T x 0); [contradiction|reflexivity]. Qed.

Lemma cancel_ok (G : Prop) V nm k e : (nm < k)%nat -> (k < cols)%nat -> (G -> rounds_within rnd tol) ->
  forall n i c s U S T, (i + n = k + 1)%nat -> (nm < i)%nat -> (forall j, (i <= j < k)%nat -> S j <> 0) -> (forall j, (i <= j <= k)%nat -> T j <> 0) ->
  ((i = nm + 1)%nat -> c = 0) -> ((nm + 1 < i)%nat -> T (nm + 1)%nat = 0) ->
  (G -> good e U V (clearing nm (k + 1) i c s S T)) ->
  exists U' S' T', cancel rnd checked rows anorm nm n i c s U S T = Go (U', S', T') /\
    (forall j, (j < i \/ k < j)%nat -> S' j = S j /\ T' j = T j) /\
    (forall j, (i <= j < k)%nat -> S' j <> 0) /\ (forall j, (i < j <= k)%nat -> T' j <> 0) /\
    ((i <= k)%nat -> c <> 0 -> T' i <> 0) /\ ((i <= k)%nat -> c = 0 -> T' i = 0) /\
    (G -> good (e + tol) U' V (fun a b => if Nat.eqb a nm && Nat.eqb b nm then 0 else bidl (k + 1) S' T' a b)).
Proof.
  intros Hnm Hk HR. induction n as [|n IH]; intros i c s U S T Hin Hi HS HT Hc Hz HG; cbn [cancel].
  - exists U, S, T. split; [reflexivity|]. split; [auto|]. split; [intros; lia|]. split; [intros; lia|]. split; [intros; lia|]. split; [intros; lia|].
    intros g. apply good_weaken with e; [|lra]. eapply good_ext; [exact (HG g)|]. intros a b _ _. apply clearing_end. lia.
  - destruct (absorbed rnd anorm (s * T i)) eqn:EA.
    + exists U, S, (vset T i (c * T i)). split; [reflexivity|]. split; [intros j Hj; split; [reflexivity|apply vset_other; lia]|].
      split; [assumption|]. split; [intros j Hj; rewrite vset_other by lia; apply HT; lia|].
      split; [intros _ Nc; rewrite vset_same; apply Rmult_integral_contrapositive_currified; [exact Nc|apply HT; lia]|].
      split; [intros _ ->; rewrite vset_same; ring|].
      intros g. apply (good_drop rows cols A e tol U V _ _ nm i (s * T i) (HG g)); [lia|lia|apply absorbed_small; auto|].
      intros a b _ _. apply clearing_break; [exact Hi|exact Hc|lia].
    + pose proof (absorbed_false _ EA) as Nf. set (h := pythag (s * T i) (S i)).
      assert (Nh : h <> 0) by (apply pythag_nonzero; left; exact Nf).
      assert (Hh : h * h = s * T i * (s * T i) + S i * S i) by apply pythag_square.
      rewrite divisor_ok by exact Nh. cbn [rbind].
      set (c1 := S i * (1 / h)). set (s1 := - (s * T i) * (1 / h)).
      assert (E1 : c1 * (s * T i) + s1 * S i = 0) by (unfold c1, s1; ring).
      assert (E2 : c1 * S i - s1 * (s * T i) = h).
      { unfold c1, s1. replace (S i * (1 / h) * S i - - (s * T i) * (1 / h) * (s * T i)) with ((s * T i * (s * T i) + S i * S i) * (1 / h)) by ring.
        rewrite <- Hh. field. exact Nh. }
      assert (E3 : c1 * c1 + s1 * s1 = 1).
      { unfold c1, s1. replace (S i * (1 / h) * (S i * (1 / h)) + - (s * T i) * (1 / h) * (- (s * T i) * (1 / h))) with ((s * T i * (s * T i) + S i * S i) * (1 / h) * (1 / h)) by ring.
        rewrite <- Hh. field. exact Nh. }
      destruct (IH (i + 1)%nat c1 s1 (rot rows U nm i c1 s1) (vset S i h) (vset T i (c * T i))) as (U' & S' & T' & E & K & HS' & HT' & Hc' & _ & HG').
      * lia.
      * lia.
      * intros j Hj. rewrite vset_other by lia. apply HS. lia.
      * intros j Hj. rewrite vset_other by lia. apply HT. lia.
      * intros; lia.
      * intros _. destruct (Nat.eq_dec i (nm + 1)) as [Ei|Ni]; [rewrite <- Ei, vset_same, Hc by exact Ei; ring|rewrite vset_other by lia; apply Hz; lia].
      * intros g. eapply good_ext; [apply (good_rowrot rows cols A e U V _ nm i c1 s1 (HG g)); [lia|lia|lia|exact E3]|].
        intros a b _ _. symmetry. apply clearing_step; try assumption; lia.
      * exists U', S', T'. split; [exact E|]. split.
        { intros j Hj. destruct (K j ltac:(lia)) as [K1 K2]. rewrite K1, K2, !vset_other by lia. auto. }
        split. { intros j Hj. destruct (Nat.eq_dec j i) as [->|N]; [destruct (K i ltac:(lia)) as [K1 _]; rewrite K1, vset_same; exact Nh|apply HS'; lia]. }
        split. { intros j Hj. destruct (Nat.eq_dec j (i + 1)) as [->|N].
                 - apply Hc'; [lia|]. unfold c1. apply Rmult_integral_contrapositive_currified; [apply HS; lia|]. unfold Rdiv. rewrite Rmult_1_l. apply Rinv_neq_0_compat, Nh.
                 - apply HT'. lia. }
        destruct (K i ltac:(lia)) as [_ K2]. rewrite K2, vset_same.
        split; [intros _ Nc; apply Rmult_integral_contrapositive_currified; [exact Nc|apply HT; lia]|]. split; [intros _ ->; ring|exact HG'].
Qed.

(** one step of a sweep *)
Definition sweeping (G : Prop) (e : R) (p k : nat) (S0 T0 : vec) (j : nat) (r : qr) : Prop :=
  ((j < k)%nat -> qs r <> 0) /\ (forall i, (j < i <= k)%nat -> qT r i <> 0) /\ (forall i, (j < i < k)%nat -> qS r i <> 0) /\
  (forall i, (i < p \/ k < i)%nat -> qS r i = S0 i /\ qT r i = T0 i) /\
  (G -> good e (qU r) (qV r) (chasing p (k + 1) j r)).
Lemma sweep_ok (G : Prop) e p k S0 T0 j r : (G -> eps = 0) -> (p <= j < k)%nat -> (k < cols)%nat -> sweeping G e p k S0 T0 j r ->
  exists r', sweep_step checked eps rows cols j r = Go r' /\ sweeping G e p k S0 T0 (Datatypes.S j) r'.
Proof.
  intros Ge Hj Hk (Hs & HT & HS & HK & HG). destruct r as [U V S T c s f x]. cbn [qU qV qS qT qc qs qf qx] in *.
  unfold sweep_step. cbn [qU qV qS qT qc qs qf qx].
  set (h0 := s * T (j + 1)%nat). set (z0 := pythag f h0).
  assert (Nh0 : h0 <> 0) by (apply Rmult_integral_contrapositive_currified; [apply Hs; lia|apply HT; lia]).
  assert (Nz0 : z0 <> 0) by (apply pythag_nonzero; right; exact Nh0).
  assert (Hz0 : z0 * z0 = f * f + h0 * h0) by apply pythag_square.
  rewrite divisor_ok by exact Nz0. cbn [rbind].
  set (c1 := f / z0). set (s1 := h0 / z0).
  assert (Ns1 : s1 <> 0) by (unfold s1, Rdiv; apply Rmult_integral_contrapositive_currified; [exact Nh0|apply Rinv_neq_0_compat, Nz0]).
  assert (A1 : f * c1 + h0 * s1 = z0).
  { unfold c1, s1. replace (f * (f / z0) + h0 * (h0 / z0)) with ((f * f + h0 * h0) / z0) by (field; exact Nz0). rewrite <- Hz0. field. exact Nz0. }
  assert (A2 : h0 * c1 - f * s1 = 0) by (unfold c1, s1; field; exact Nz0).
  assert (A3 : c1 * c1 + s1 * s1 = 1).
  { unfold c1, s1. replace (f / z0 * (f / z0) + h0 / z0 * (h0 / z0)) with ((f * f + h0 * h0) / (z0 * z0)) by (field; exact Nz0). rewrite <- Hz0. field. exact Nz0. }
  set (f1 := x * c1 + c * T (j + 1)%nat * s1). set (h1 := S (j + 1)%nat * s1). set (z1 := pythag f1 h1).
  assert (Hz1 : z1 * z1 = f1 * f1 + h1 * h1) by apply pythag_square.
  assert (P : exists c2 s2, (if Rlt_dec eps (Rabs z1) then do! _ := bare_divisor z1 in Go (f1 * (1 / z1), h1 * (1 / z1)) else Go (c1, s1)) = Go (c2, s2) /\
     (h1 <> 0 -> s2 <> 0) /\ (eps = 0 -> c2 * f1 + s2 * h1 = z1 /\ c2 * h1 - s2 * f1 = 0 /\ c2 * c2 + s2 * s2 = 1)).
  { destruct (Rlt_dec eps (Rabs z1)) as [L|L].
    - assert (Nz1 : z1 <> 0) by (intros Z; rewrite Z, Rabs_R0 in L; lra).
      rewrite bare_divisor_ok by exact Nz1. cbn [rbind]. exists (f1 * (1 / z1)), (h1 * (1 / z1)). split; [reflexivity|]. split.
      + intros N. apply Rmult_integral_contrapositive_currified; [exact N|]. unfold Rdiv. rewrite Rmult_1_l. apply Rinv_neq_0_compat, Nz1.
      + intros _. split; [|split].
        * replace (f1 * (1 / z1) * f1 + h1 * (1 / z1) * h1) with ((f1 * f1 + h1 * h1) * (1 / z1)) by ring. rewrite <- Hz1. field. exact Nz1.
        * ring.
        * replace (f1 * (1 / z1) * (f1 * (1 / z1)) + h1 * (1 / z1) * (h1 * (1 / z1))) with ((f1 * f1 + h1 * h1) * (1 / z1) * (1 / z1)) by ring. rewrite <- Hz1. field. exact Nz1.
    - exists c1, s1. split; [reflexivity|]. split; [intros _; exact Ns1|]. intros E. rewrite E in L.
      assert (Z : z1 = 0). { destruct (Req_dec z1 0) as [Z|N]; [exact Z|]. exfalso. apply L. apply Rabs_pos_lt, N. }
      rewrite Z in Hz1. assert (f1 = 0) by nra. assert (h1 = 0) by nra. rewrite H, H0, Z. split; [ring|split; [ring|exact A3]]. }
  destruct P as (c2 & s2 & E & Ns2 & B). rewrite E. cbn [rbind].
  eexists. split; [reflexivity|]. unfold sweeping. cbn [qU qV qS qT qc qs qf qx]. replace (Datatypes.S j) with (j + 1)%nat by lia.
  split. { intros L. apply Ns2. apply Rmult_integral_contrapositive_currified; [apply HS; lia|exact Ns1]. }
  split. { intros i Hi. rewrite vset_other by lia. apply HT. lia. }
  split. { intros i Hi. rewrite vset_other by lia. apply HS. lia. }
  split. { intros i Hi. rewrite !vset_other by lia. apply HK, Hi. }
  intros g. destruct (B (Ge g)) as (B1 & B2 & B3).
  pose proof (good_colrot rows cols A e U V _ j (j + 1) c1 s1 (HG g) ltac:(lia) ltac:(lia) ltac:(lia) A3) as G1.
  eapply good_ext; [exact (good_rowrot rows cols A e U _ _ j (j + 1) c2 s2 G1 ltac:(lia) ltac:(lia) ltac:(lia) B3)|].
  intros a b _ _. symmetry. apply chasing_step; try assumption; lia.
Qed.

Lemma qr_step_ok (G : Prop) e p k st : (G -> eps = 0) -> (p < k)%nat -> (k < cols)%nat -> sT st O = 0 ->
  (forall i, (p < i <= k)%nat -> sT st i <> 0) -> (forall i, (p <= i < k)%nat -> sS st i <> 0) ->
  (G -> good e (sU st) (sV st) (bidl (k + 1) (sS st) (vset (sT st) p 0))) ->
  exists st', qr_step checked eps rows cols p k st = Go st' /\ sT st' O = 0 /\
    (forall i, (k < i)%nat -> sS st' i = sS st i /\ sT st' i = sT st i) /\
    (G -> good e (sU st') (sV st') (bidl (k + 1) (sS st') (sT st'))).
Proof.
  intros Ge Hp Hk T0 HT HS HG. unfold qr_step.
  rewrite (divisor_ok (-10) (sT st k)) by (apply HT; lia). cbn [rbind].
  rewrite (divisor_ok (-10) (sS st (k - 1)%nat)) by (apply HS; lia). cbn [rbind].
  rewrite (divisor_ok (-11) (sS st p)) by (apply HS; lia). cbn [rbind].
  set (f := ((sS st (k - 1)%nat - sS st k) * (sS st (k - 1)%nat + sS st k) + (sT st (k - 1)%nat - sT st k) * (sT st (k - 1)%nat + sT st k)) / (2 * sT st k * sS st (k - 1)%nat)).
  assert (Nf : f + sign (pythag f 1) f <> 0).
  { apply sign_agrees; [apply pythag_nonneg|]. apply pythag_nonzero. right. lra. }
  rewrite (divisor_ok (-12)) by exact Nf. cbn [rbind].
  match goal with |- context[iter _ _ _ ?z] => set (r0 := z) end.
  assert (I0 : sweeping G e p k (sS st) (sT st) p r0).
  { unfold sweeping, r0. cbn [qU qV qS qT qc qs qf qx]. split; [intros; lra|]. split; [assumption|]. split; [intros; apply HS; lia|]. split; [auto|].
    intros g. eapply good_ext; [exact (HG g)|]. intros a b _ _. symmetry. apply chasing_start. lia. }
  destruct (iter_ok (fun j => sweeping G e p k (sS st) (sT st) j) (sweep_step checked eps rows cols) (k - p) p r0 I0) as (r & E & I).
  { intros j s Hj Hs. apply sweep_ok; try assumption. lia. }
  rewrite E. cbn [rbind]. eexists. split; [reflexivity|]. cbn [sU sS sV sT]. replace (p + (k - p))%nat with k in I by lia.
  destruct I as (_ & _ & _ & HK & HG').
  split. { rewrite vset_other by lia. destruct (Nat.eq_dec p 0) as [->|N]; [apply vset_same|]. rewrite vset_other by lia. destruct (HK O ltac:(lia)) as [_ ->]. exact T0. }
  split. { intros i Hi. rewrite !vset_other by lia. apply HK. lia. }
  intros g. eapply good_ext; [exact (HG' g)|]. intros a b _ _. apply chasing_end. exact Hp.
Qed.

Lemma pass_ok (G : Prop) e k st : (G -> eps = 0) -> (G -> rounds_within rnd tol) -> (G -> fro2 rows cols A <= a0 * a0) -> (G -> not_fooled rnd (a0 + e)) ->
  (k < cols)%nat -> sT st O = 0 -> (G -> good e (sU st) (sV st) (bidl (k + 1) (sS st) (sT st))) ->
  exists st' out, qr_pass rnd checked eps rows cols anorm k st = Go (st', out) /\ sT st' O = 0 /\
    (k = O -> out = true) /\
    (forall i, (k < i)%nat -> sS st' i = sS st i /\ sT st' i = sT st i) /\
    (out = true -> 0 <= sS st' k /\ absorbed rnd anorm (sT st' k) = true) /\
    (out = false -> G -> good (e + 3 * tol) (sU st') (sV st') (bidl (k + 1) (sS st') (sT st'))) /\
    (out = true -> G -> good (e + 3 * tol + Rabs (sT st' k)) (sU st') (sV st') (bidl k (sS st') (sT st'))).
Proof.
  intros Ge GR GA GB Hk T0 HG. unfold qr_pass.
  destruct (split_ok (sS st) (sT st) k T0) as (p & flag & E & Hp & HT & HS & Hf & Ht). rewrite E. cbn [rbind].
  assert (P : exists U1 S1 T1, (if flag then cancel rnd checked rows anorm (p - 1) (k + 1 - p) p 0 1 (sU st) (sS st) (sT st) else Go (sU st, sS st, sT st)) = Go (U1, S1, T1) /\
    T1 O = 0 /\ (forall i, (k < i)%nat -> S1 i = sS st i /\ T1 i = sT st i) /\
    (forall i, (p < i <= k)%nat -> T1 i <> 0) /\ (forall i, (p <= i < k)%nat -> S1 i <> 0) /\
    absorbed rnd anorm (T1 p) = true /\
    ((p < k)%nat -> G -> good (e + 3 * tol) U1 (sV st) (bidl (k + 1) S1 (vset T1 p 0))) /\
    (p = k -> G -> good (e + 3 * tol) U1 (sV st) (bidl (k + 1) S1 T1))).
  { destruct flag.
    - destruct (Ht eq_refl) as (P0 & NTp & AI).
      assert (SM : G -> Rabs (sS st (p - 1)%nat) <= tol).
      { intros g. apply (absorbed_inside_small (a0 + e)); [auto|exact (GB g)| |exact AI].
        pose proof (good_entry rows cols A e a0 _ _ _ (p - 1) (p - 1) (HG g) a0_ok (GA g) ltac:(lia) ltac:(lia)) as B.
        unfold bidl in B. rewrite Nat.eqb_refl in B. lra. }
      destruct (cancel_ok G (sV st) (p - 1) k (e + tol) ltac:(lia) Hk GR (k + 1 - p) p 0 1 (sU st) (sS st) (sT st)) as (U' & S' & T' & E' & K & HS' & HT' & _ & HZ & HG').
      + lia.
      + lia.
      + exact HS.
      + intros j Hj. destruct (Nat.eq_dec j p) as [->|N]; [exact NTp|apply HT; lia].
      + reflexivity.
      + intros; lia.
      + intros g. apply (good_drop rows cols A e tol _ _ _ _ (p - 1) (p - 1) (sS st (p - 1)%nat) (HG g)); [lia|lia|exact (SM g)|].
        intros a b _ _. rewrite clearing_start by lia.
        destruct (Nat.eqb_spec a (p - 1)) as [->|]; cbn [andb]; [destruct (Nat.eqb_spec b (p - 1)) as [->|]; [unfold bidl; rewrite Nat.eqb_refl|]|]; ring.
      + specialize (HZ Hp eq_refl).
        assert (FIN : G -> good (e + 3 * tol) U' (sV st) (bidl (k + 1) S' T')).
        { intros g. replace (e + 3 * tol) with (e + tol + tol + tol) by ring.
          apply (good_drop rows cols A (e + tol + tol) tol _ _ _ _ (p - 1) (p - 1) (- S' (p - 1)%nat) (HG' g)); [lia|lia| |].
          - rewrite Rabs_Ropp. destruct (K (p - 1)%nat ltac:(lia)) as [-> _]. exact (SM g).
          - intros a b _ _. destruct (Nat.eqb_spec a (p - 1)) as [->|]; cbn [andb]; [destruct (Nat.eqb_spec b (p - 1)) as [->|]; [unfold bidl; rewrite Nat.eqb_refl|]|]; ring. }
        exists U', S', T'. split; [exact E'|]. split; [destruct (K O ltac:(lia)) as [_ ->]; exact T0|]. split; [intros i Hi; apply K; lia|].
        split; [exact HT'|]. split; [exact HS'|]. split; [rewrite HZ; apply absorbed_zero|]. split; [|intros _; exact FIN].
        intros _ g. eapply good_ext; [exact (FIN g)|]. intros a b _ _. unfold bidl, vset. nats; try reflexivity. subst. exact HZ.
    - exists (sU st), (sS st), (sT st). split; [reflexivity|]. split; [exact T0|]. split; [auto|]. split; [exact HT|]. split; [exact HS|].
      split; [exact (Hf eq_refl)|]. split.
      + intros L g. apply good_weaken with (e + tol); [|lra]. destruct (Nat.eq_dec p 0) as [->|Np].
        * apply good_weaken with e; [|lra]. eapply good_ext; [exact (HG g)|]. intros a b _ _. unfold bidl, vset. nats; reflexivity.
        * apply (good_drop rows cols A e tol _ _ _ _ (p - 1) p (sT st p) (HG g)); [lia|lia|apply absorbed_small; auto|].
          intros a b _ _. unfold bidl, vset. nats; subst; try ring.
      + intros _ g. apply good_weaken with e; [exact (HG g)|lra]. }
  destruct P as (U1 & S1 & T1 & E1 & T10 & K1 & HT1 & HS1 & HA1 & HG1 & HG1'). rewrite E1. cbn [rbind].
  destruct (Nat.eqb_spec p k) as [Epk|Npk].
  - subst p.
    assert (DROP : G -> good (e + 3 * tol + Rabs (T1 k)) U1 (sV st) (bidl k S1 T1)).
    { intros g. destruct (Nat.eq_dec k 0) as [->|Nk].
      - apply good_weaken with (e + 3 * tol); [|pose proof (Rabs_pos (T1 O)); lra]. eapply good_ext; [exact (HG1' eq_refl g)|]. intros a b _ _. unfold bidl. nats; reflexivity.
      - apply (good_drop rows cols A (e + 3 * tol) (Rabs (T1 k)) _ _ _ _ (k - 1) k (T1 k) (HG1' eq_refl g)); [lia|lia|apply Rle_refl|].
        intros a b _ _. unfold bidl. nats; subst; try ring; replace (k - 1 + 1)%nat with k by lia; ring. }
    destruct (Rlt_dec (S1 k) 0) as [L|L].
    + eexists _, true. split; [reflexivity|]. cbn [sU sS sV sT]. split; [exact T10|]. split; [reflexivity|].
      split. { intros i Hi. rewrite vset_other by lia. auto. }
      split. { intros _. rewrite vset_same. split; [lra|exact HA1]. }
      split; [discriminate|]. intros _ g. eapply good_ext; [apply good_negate; [exact (DROP g)|exact Hk]|].
      intros a b _ _. unfold bidl, vset. nats; subst; try ring; try reflexivity.
    + eexists _, true. split; [reflexivity|]. cbn [sU sS sV sT]. split; [exact T10|]. split; [reflexivity|]. split; [exact K1|].
      split. { intros _. split; [lra|exact HA1]. }
      split; [discriminate|]. intros _. exact DROP.
  - destruct (qr_step_ok G (e + 3 * tol) p k (mkSV U1 S1 (sV st) T1) Ge ltac:(lia) Hk T10 HT1 HS1 (HG1 ltac:(lia))) as (st' & E2 & T0' & K' & HG2).
    rewrite E2. cbn [rbind]. exists st', false. split; [reflexivity|]. split; [exact T0'|]. split; [lia|].
    split. { intros i Hi. destruct (K' i Hi) as [K2 K3]. destruct (K1 i Hi) as [K4 K5]. cbn [sS sT] in K2, K3. rewrite K2, K3. auto. }
    split; [discriminate|]. split; [intros _; exact HG2|discriminate].
Qed.

Lemma loop_ok (G : Prop) k N : (G -> eps = 0) -> (G -> rounds_within rnd tol) -> (G -> fro2 rows cols A <= a0 * a0) ->
  (k < cols)%nat -> forall e its st, (G -> not_fooled rnd (a0 + e + 3 * tol * INR N)) ->
  sT st O = 0 -> (G -> good e (sU st) (sV st) (bidl (k + 1) (sS st) (sT st))) ->
  exists st' its', qr_loop rnd checked eps rows cols anorm k N its st = Go (st', its') /\ sT st' O = 0 /\
    (k = O -> its' = its) /\
    (forall i, (k < i)%nat -> sS st' i = sS st i /\ sT st' i = sT st i) /\
    ((its' < its + Z.of_nat N)%Z -> 0 <= sS st' k /\ absorbed rnd anorm (sT st' k) = true) /\
    (its <= its' <= its + Z.of_nat N)%Z /\
    (G -> good (e + 3 * tol * INR N + Rabs (sT st' k)) (sU st') (sV st') (bidl k (sS st') (sT st'))).
Proof.
  intros Ge GR GA Hk. induction N as [|N IH]; intros e its st GB T0 HG; cbn [qr_loop].
  - exists st, its. split; [reflexivity|]. split; [exact T0|]. split; [reflexivity|]. split; [auto|]. split; [lia|]. split; [lia|].
    intros g. cbn [INR]. rewrite Rmult_0_r, Rplus_0_r. destruct (Nat.eq_dec k 0) as [->|Nk].
    + apply good_weaken with e; [|pose proof (Rabs_pos (sT st O)); lra]. eapply good_ext; [exact (HG g)|]. intros a b _ _. unfold bidl. nats; reflexivity.
    + apply (good_drop rows cols A e (Rabs (sT st k)) _ _ _ _ (k - 1) k (sT st k) (HG g)); [lia|lia|apply Rle_refl|].
      intros a b _ _. unfold bidl. nats; subst; try ring; replace (k - 1 + 1)%nat with k by lia; ring.
  - assert (PN : 0 <= 3 * tol * INR N) by (pose proof (pos_INR N); apply Rmult_le_pos; lra).
    assert (EN : 3 * tol * INR (Datatypes.S N) = 3 * tol * INR N + 3 * tol) by (rewrite S_INR; ring).
    destruct (pass_ok G e k st Ge GR GA) as (st1 & out & E & T1 & K0 & K & HO & HF & HGd); [intros g; apply (not_fooled_less _ _ _ (GB g)); lra|exact Hk|exact T0|exact HG|].
    rewrite E. cbn [rbind]. destruct out.
    + exists st1, its. split; [reflexivity|]. split; [exact T1|]. split; [reflexivity|]. split; [exact K|]. split; [intros _; exact (HO eq_refl)|]. split; [lia|].
      intros g. apply good_weaken with (1 := HGd eq_refl g). lra.
    + destruct (IH (e + 3 * tol) (its + 1)%Z st1) as (st' & its' & E' & T' & K0' & K' & HO' & Hits & HG').
      * intros g. apply (not_fooled_less _ _ _ (GB g)). lra.
      * exact T1.
      * exact (HF eq_refl).
      * exists st', its'. split; [exact E'|]. split; [exact T'|]. split; [intros Z; specialize (K0 Z); discriminate|].
        split. { intros i Hi. destruct (K' i Hi) as [-> ->]. apply K, Hi. }
        split; [intros L; apply HO'; lia|]. split; [lia|]. intros g. apply good_weaken with (1 := HG' g). lra.
Qed.
End Diag.
