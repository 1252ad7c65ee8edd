(** Proofs about the singular value routines: accumulation of the reflections. *)
From Coq Require Import Reals List ZArith Bool Arith Lia Lra Psatz.
From Verif Require Import Outcome LinModel LinSpec SumProofs LmaSpec VelIkLin SvdModel SvdHouse SvdBidiag.
Import ListNotations.
Local Open Scope R_scope.

Definition view (i : nat) (M : mat) : mat := fun a b => if Nat.leb i a && Nat.leb i b then M a b else delta a b.
Lemma delta_same a : delta a a = 1.
Proof. unfold delta. now rewrite Nat.eqb_refl. Qed.
Lemma delta_other a b : a <> b -> delta a b = 0.
Proof. intros. unfold delta. destruct (Nat.eqb_spec a b); [contradiction|reflexivity]. Qed.
Lemma view_low i M a b : (a < i \/ b < i)%nat -> view i M a b = delta a b.
Proof. intros H. unfold view. destruct (Nat.leb_spec i a); destruct (Nat.leb_spec i b); try reflexivity. lia. Qed.
Lemma view_high i M a b : (i <= a)%nat -> (i <= b)%nat -> view i M a b = M a b.
Proof. intros. unfold view. destruct (Nat.leb_spec i a); destruct (Nat.leb_spec i b); try reflexivity; lia. Qed.
Lemma abs_pos x : x <> 0 -> 0 < Rabs x. Proof. apply Rabs_pos_lt. Qed.

(** x + beta (u.x) u keeps scalar products. *)
Lemma refl_dot n (u x y : vec) beta : beta = 0 \/ beta * sumn n (fun c => u c * u c) = -2 ->
  sumn n (fun a => (x a + beta * sumn n (fun c => u c * x c) * u a) * (y a + beta * sumn n (fun c => u c * y c) * u a)) =
  sumn n (fun a => x a * y a).
Proof.
  intros H. set (p := sumn n (fun c => u c * x c)). set (q := sumn n (fun c => u c * y c)).
  rewrite (sumn_ext n _ (fun a => (x a * y a + beta * q * (u a * x a)) + (beta * p * (u a * y a) + beta * p * (beta * q) * (u a * u a)))) by (intros; ring).
  rewrite !sumn_add, !sumn_scale. fold p q.
  replace (beta * p * (beta * q) * sumn n (fun i => u i * u i)) with (beta * p * q * (beta * sumn n (fun c => u c * u c))) by ring.
  destruct H as [H|H]; rewrite H; ring.
Qed.

Section Accum.
Variables (rows cols : nat) (checked : bool) (eps : R).
Hypothesis eps_ok : 0 <= eps.
Variables (U0 : mat) (S T : vec).
Hypothesis HST : stored rows cols cols U0 S T.

Definition rfac i := factor (U0 i (i + 1)%nat) (T (i + 1)%nat).
Definition lfac i := factor (U0 i i) (S i).
Lemma rfac_ok i : (i < cols)%nat -> rfac i = 0 \/ rfac i * sumn cols (fun c => rv U0 i c * rv U0 i c) = -2.
Proof.
  intros Hi. unfold rfac. destruct (Req_dec (T (i + 1)%nat) 0) as [Z|N]; [left; apply factor_zero; exact Z|right].
  destruct (st_r _ _ _ _ _ _ HST i Hi N) as (_ & _ & HU & HQ). rewrite (factor_nonzero _ _ N).
  rewrite (sum_rv cols U0 i (rv U0 i)).
  rewrite (from_ext (i + 1) cols _ (fun d => U0 i d * U0 i d)), HQ; [field; auto|].
  intros d Hd. unfold rv. destruct (Nat.leb_spec (i + 1) d); [ring|lia].
Qed.
Lemma lfac_ok i : (i < cols)%nat -> lfac i = 0 \/ lfac i * sumn rows (fun c => lv U0 i c * lv U0 i c) = -2.
Proof.
  intros Hi. unfold lfac. destruct (Req_dec (S i) 0) as [Z|N]; [left; apply factor_zero; exact Z|right].
  destruct (st_l _ _ _ _ _ _ HST i Hi N) as (_ & HU & HQ). rewrite (factor_nonzero _ _ N).
  rewrite (sum_lv rows U0 i (lv U0 i)).
  rewrite (from_ext i rows _ (fun d => U0 d i * U0 d i)), HQ; [field; auto|].
  intros d Hd. unfold lv. destruct (Nat.leb_spec i d); [ring|lia].
Qed.
Lemma rfac_low i : (rows <= i)%nat -> (i < cols)%nat -> rfac i = 0.
Proof.
  intros L Hi. unfold rfac. destruct (Req_dec (T (i + 1)%nat) 0) as [Z|N]; [apply factor_zero; exact Z|].
  destruct (st_r _ _ _ _ _ _ HST i Hi N). lia.
Qed.
Lemma lfac_low i : (rows <= i)%nat -> (i < cols)%nat -> lfac i = 0.
Proof.
  intros L Hi. unfold lfac. destruct (Req_dec (S i) 0) as [Z|N]; [apply factor_zero; exact Z|].
  destruct (st_l _ _ _ _ _ _ HST i Hi N). lia.
Qed.

(** One step on V. *)
Lemma right_step_ok (hT : vec) i V g : (i < cols)%nat -> (forall k, (k < cols)%nat -> T k = hT k) -> ((i + 1 < cols)%nat -> g = T (i + 1)%nat) ->
  exists V', right_step checked eps rows cols U0 hT i (V, g) = Go (V', T i) /\
  (eps = 0 -> forall a b, (a < cols)%nat -> (b < cols)%nat ->
     view i V' a b = reflL cols (rv U0 i) (rfac i) (view (i + 1) V) a b).
Proof.
  intros Hi HT Hg. unfold right_step.
  destruct (Nat.ltb_spec i (cols - 1)) as [L|L].
  2:{ cbn [rbind]. rewrite <- HT by exact Hi. eexists. split; [reflexivity|]. intros _ a b Ha Hb.
      unfold reflL. replace (rv U0 i a) with 0 by (unfold rv; destruct (Nat.leb_spec (i + 1) a); [lia|reflexivity]).
      rewrite Rmult_0_r, Rplus_0_r. rewrite (view_low (i + 1)) by lia.
      destruct (Nat.eq_dec a i) as [->|Na]; [|apply view_low; lia]. destruct (Nat.eq_dec b i) as [->|Nb]; [|apply view_low; lia].
      rewrite view_high by lia. unfold eset. rewrite Nat.eqb_refl, delta_same. reflexivity. }
  rewrite (Hg ltac:(lia)). set (t := T (i + 1)%nat) in *.
  set (Va := fun a b => if Nat.eqb b i && within (i + 1) cols a then U0 i a / U0 i (i + 1)%nat / t else V a b).
  set (Vb := fun k j => if within (i + 1) cols k && within (i + 1) cols j
                        then Va k j + from (i + 1) cols (fun l => U0 i l * Va l j) * Va k i else Va k j).
  assert (Fin : forall W, (eps = 0 -> forall a b, (i < a < cols)%nat -> (i < b < cols)%nat ->
                  W a b = reflL cols (rv U0 i) (rfac i) (view (i + 1) V) a b) ->
     eps = 0 -> forall a b, (a < cols)%nat -> (b < cols)%nat ->
     view i (eset (fun a b => if Nat.eqb a i && within (i + 1) cols b || Nat.eqb b i && within (i + 1) cols a then 0 else W a b) i i 1) a b =
     reflL cols (rv U0 i) (rfac i) (view (i + 1) V) a b).
  { intros W HW E0 a b Ha Hb. destruct (Nat.le_gt_cases a i) as [La|La].
    - unfold reflL. replace (rv U0 i a) with 0 by (unfold rv; destruct (Nat.leb_spec (i + 1) a); [lia|reflexivity]).
      rewrite Rmult_0_r, Rplus_0_r, (view_low (i + 1)) by lia.
      destruct (Nat.eq_dec a i) as [->|Na]; [|apply view_low; lia].
      destruct (Nat.lt_ge_cases b i) as [Lb|Lb]; [apply view_low; lia|]. rewrite view_high by lia. unfold eset. rewrite Nat.eqb_refl. cbn [andb].
      destruct (Nat.eqb_spec b i) as [->|Nb]; [now rewrite delta_same|]. replace (within (i + 1) cols b) with true by (symmetry; apply within_true; lia).
      cbn [orb]. rewrite delta_other by lia. reflexivity.
    - destruct (Nat.le_gt_cases b i) as [Lb|Lb].
      + unfold reflL. rewrite (view_low (i + 1)) by lia.
        rewrite (sumn_zero cols).
        * rewrite Rmult_0_r, Rmult_0_l, Rplus_0_r. rewrite delta_other by lia.
          destruct (Nat.lt_ge_cases b i) as [Lb'|Lb']; [rewrite view_low, delta_other by lia; reflexivity|]. assert (b = i) by lia. subst b.
          rewrite view_high by lia. unfold eset. destruct (Nat.eqb_spec a i); [lia|]. cbn [andb]. rewrite Nat.eqb_refl.
          replace (within (i + 1) cols a) with true by (symmetry; apply within_true; lia). reflexivity.
        * intros c Hc. unfold rv. destruct (Nat.leb_spec (i + 1) c); [|ring]. rewrite view_low, delta_other by lia. ring.
      + rewrite <- (HW E0 a b) by lia. rewrite view_high by lia. unfold eset. destruct (Nat.eqb_spec a i); [lia|]. destruct (Nat.eqb_spec b i); [lia|]. reflexivity. }
  destruct (Rlt_dec eps (Rabs t)) as [B|B].
  - assert (Nt : t <> 0) by (intros Z; rewrite Z, Rabs_R0 in B; lra).
    destruct (st_r _ _ _ _ _ _ HST i Hi Nt) as (Hr & Hc & HU & _).
    destruct (Nat.ltb_spec i rows) as [_|]; [|lia]. cbn [rbind].
    unfold divisor, bare_divisor. destruct (Req_EM_T (U0 i (i + 1)%nat) 0); [contradiction|]. cbn [rbind].
    destruct (Req_EM_T t 0); [contradiction|].
    rewrite <- HT by exact Hi.
    match goal with |- exists V', ?X = _ /\ _ => change X with (Go (eset (fun a b => if Nat.eqb a i && within (i + 1) cols b || Nat.eqb b i && within (i + 1) cols a then 0 else Vb a b) i i 1, T i)) end.
    eexists. split; [reflexivity|]. apply Fin. intros _ a b Ha Hb. unfold Vb.
    replace (within (i + 1) cols a) with true by (symmetry; apply within_true; lia).
    replace (within (i + 1) cols b) with true by (symmetry; apply within_true; lia). cbn [andb].
    assert (Eb : forall l, Va l b = V l b) by (intros l; unfold Va; destruct (Nat.eqb_spec b i); [lia|reflexivity]).
    assert (Ei : Va a i = U0 i a / U0 i (i + 1)%nat / t) by (unfold Va; rewrite Nat.eqb_refl; replace (within (i + 1) cols a) with true by (symmetry; apply within_true; lia); reflexivity).
    rewrite Eb, Ei. unfold reflL. rewrite view_high by lia. unfold rfac. fold t. rewrite (factor_nonzero _ _ Nt).
    rewrite (sumn_ext cols (fun c => rv U0 i c * view (i + 1) V c b) (fun c => (if Nat.leb (i + 1) c then U0 i c * V c b else 0))).
    2:{ intros c Hc0. unfold rv. destruct (Nat.leb_spec (i + 1) c); [rewrite view_high by lia; ring|ring]. }
    rewrite <- (from_sumn (i + 1) cols (fun c => U0 i c * V c b)).
    rewrite (from_ext (i + 1) cols (fun l => U0 i l * Va l b) (fun c => U0 i c * V c b)) by (intros; now rewrite Eb).
    unfold rv at 1. destruct (Nat.leb_spec (i + 1) a); [|lia]. field. split; assumption.
  - cbn [rbind]. rewrite <- HT by exact Hi. eexists. split; [reflexivity|]. apply Fin. intros E0 a b Ha Hb.
    assert (Z : t = 0). { destruct (Req_dec t 0); [assumption|]. exfalso. apply B. rewrite E0. apply abs_pos. assumption. }
    unfold reflL, rfac. fold t. rewrite (factor_zero _ _ Z), view_high by lia. ring.
Qed.

Definition right_hist (i : nat) (V : mat) (Ws : nat -> mat) : Prop :=
  (forall a b, (a < cols)%nat -> (b < cols)%nat -> Ws cols a b = delta a b) /\
  (forall a b, (a < cols)%nat -> (b < cols)%nat -> Ws i a b = view i V a b) /\
  (forall k, (i <= k < cols)%nat -> forall a b, (a < cols)%nat -> (b < cols)%nat -> Ws k a b = reflL cols (rv U0 k) (rfac k) (Ws (k + 1)%nat) a b).
Lemma right_ok (hT : vec) V g : (forall k, (k < cols)%nat -> T k = hT k) ->
  exists V' g', iter_down cols (right_step checked eps rows cols U0 hT) (V, g) = Go (V', g') /\
  (eps = 0 -> exists Ws, right_hist 0 V' Ws).
Proof.
  intros HT.
  destruct (iter_down_ok (fun i (st : mat * R) => ((i < cols)%nat -> snd st = T i) /\ (eps = 0 -> exists Ws, right_hist i (fst st) Ws))
              (right_step checked eps rows cols U0 hT) cols (V, g)) as ([V' g'] & E & _ & H).
  - split; [intros; lia|]. intros _. exists (fun _ => delta). split; [reflexivity|]. split; [|intros; lia].
    intros a b Ha Hb. rewrite view_low by lia. reflexivity.
  - intros k [W h] Hk [Hg HW]. cbn [fst snd] in *.
    destruct (right_step_ok hT k W h Hk HT) as (W' & E & HE).
    { intros L. replace (k + 1)%nat with (Datatypes.S k) by lia. apply Hg. lia. }
    exists (W', T k). split; [exact E|]. cbn [fst snd]. split; [reflexivity|]. intros E0. destruct (HW E0) as (Ws & H1 & H2 & H3).
    exists (fun i => if Nat.eqb i k then view k W' else Ws i). split; [|split].
    + intros a b Ha Hb. destruct (Nat.eqb_spec cols k); [lia|]. apply H1; assumption.
    + intros a b Ha Hb. rewrite Nat.eqb_refl. reflexivity.
    + intros i Hi a b Ha Hb. destruct (Nat.eqb_spec (i + 1) k); [lia|]. destruct (Nat.eqb_spec i k) as [->|N].
      * rewrite (HE E0 a b Ha Hb). apply reflL_ext; [exact Ha|reflexivity|reflexivity|].
        intros c Hc. replace (k + 1)%nat with (Datatypes.S k) by lia. symmetry. apply H2; assumption.
      * apply H3; [lia|assumption|assumption].
  - exists V', g'. split; [exact E|]. exact H.
Qed.

(** One step on U; U still has the stored column i. *)
Lemma left_step_ok i U : (i < cols)%nat -> (i < rows)%nat -> (forall a, U a i = U0 a i) ->
  exists U', left_step checked eps rows cols S i U = Go U' /\ (forall a b, (b < i)%nat -> U' a b = U a b) /\
  (eps = 0 -> forall a b, (a < rows)%nat -> (b < cols)%nat ->
     view i U' a b = reflL rows (lv U0 i) (lfac i) (view (i + 1) U) a b).
Proof.
  intros Hi Hr HU. unfold left_step. set (s := S i).
  set (Uz := fun a b => if Nat.eqb a i && within (i + 1) cols b then 0 else U a b).
  assert (Zc : forall a, Uz a i = U0 a i).
  { intros a. unfold Uz. replace (within (i + 1) cols i) with false by (symmetry; apply within_false; lia). rewrite andb_false_r. apply HU. }
  destruct (Rlt_dec eps (Rabs s)) as [B|B].
  - assert (Ns : s <> 0) by (intros Z; rewrite Z, Rabs_R0 in B; lra).
    destruct (st_l _ _ _ _ _ _ HST i Hi Ns) as (_ & HUi & _).
    set (U1 := fun k j => if within (i + 1) cols j && within i rows k
                          then Uz k j + from (i + 1) rows (fun l => Uz l i * Uz l j) / Uz i i * (1 / s) * Uz k i else Uz k j).
    set (U2 := fun a b => if Nat.eqb b i && within i rows a then U1 a b * (1 / s) else U1 a b).
    exists (eset U2 i i (U2 i i + 1)). split; [|split].
    + unfold bare_divisor. destruct (Req_EM_T s 0); [contradiction|]. cbn [rbind]. fold Uz.
      assert (DV : (if Nat.ltb (i + 1) cols then divisor checked (-8) (Uz i i) else Go tt) = Go tt).
      { destruct (Nat.ltb (i + 1) cols); [|reflexivity]. unfold divisor. rewrite Zc. destruct (Req_EM_T (U0 i i) 0); [contradiction|reflexivity]. }
      match goal with |- ?X = _ => change X with (rbind (rbind (if Nat.ltb (i + 1) cols then divisor checked (-8) (Uz i i) else Go tt) (fun _ => Go U2)) (fun U2 => Go (eset U2 i i (U2 i i + 1)))) end.
      rewrite DV. reflexivity.
    + intros a b Hb. unfold eset. destruct (Nat.eqb_spec b i); [lia|]. rewrite andb_false_r. unfold U2, U1, Uz.
      destruct (Nat.eqb_spec b i); [lia|]. cbn [andb]. replace (within (i + 1) cols b) with false by (symmetry; apply within_false; lia).
      cbn [andb]. rewrite andb_false_r. reflexivity.
    + intros E0 a b Ha Hb. unfold reflL. unfold lfac. fold s. rewrite (factor_nonzero _ _ Ns).
      destruct (Nat.lt_ge_cases a i) as [La|La].
      { unfold lv at 2. destruct (Nat.leb_spec i a); [lia|]. rewrite !view_low by lia. ring. }
      destruct (Nat.lt_ge_cases b i) as [Lb|Lb].
      { rewrite !view_low by lia. rewrite (sumn_zero rows); [ring|]. intros c Hc. unfold lv. destruct (Nat.leb_spec i c); [|ring].
        rewrite view_low, delta_other by lia. ring. }
      rewrite view_high by lia. unfold lv at 2. destruct (Nat.leb_spec i a) as [_|]; [|lia].
      destruct (Nat.eq_dec b i) as [->|Nb].
      * rewrite (view_low (i + 1)) by lia. rewrite (sumn_one rows i); [|exact Hr|].
        2:{ intros c Hc Nc. rewrite view_low, delta_other by lia. ring. }
        rewrite (view_low (i + 1)), delta_same by lia. unfold lv. rewrite Nat.leb_refl.
        assert (E2 : U2 a i = U0 a i * (1 / s)).
        { unfold U2. rewrite Nat.eqb_refl. replace (within i rows a) with true by (symmetry; apply within_true; lia). cbn [andb].
          unfold U1. replace (within (i + 1) cols i) with false by (symmetry; apply within_false; lia). cbn [andb]. now rewrite Zc. }
        unfold eset. rewrite Nat.eqb_refl, andb_true_r. destruct (Nat.eqb_spec a i) as [->|Na].
        -- rewrite E2, delta_same. field. auto.
        -- rewrite E2, delta_other by lia. field. auto.
      * unfold eset. destruct (Nat.eqb_spec b i); [contradiction|]. rewrite andb_false_r. unfold U2. destruct (Nat.eqb_spec b i); [contradiction|]. cbn [andb].
        unfold U1. replace (within (i + 1) cols b) with true by (symmetry; apply within_true; lia).
        replace (within i rows a) with true by (symmetry; apply within_true; lia). cbn [andb]. rewrite !Zc.
        rewrite (sumn_ext rows (fun c => lv U0 i c * view (i + 1) U c b) (fun c => if Nat.leb (i + 1) c then U0 c i * U c b else 0)).
        2:{ intros c Hc. unfold lv. destruct (Nat.leb_spec (i + 1) c).
            - destruct (Nat.leb_spec i c); [|lia]. rewrite view_high by lia. ring.
            - destruct (Nat.leb_spec i c); [|ring]. rewrite view_low, delta_other by lia. ring. }
        rewrite <- (from_sumn (i + 1) rows (fun c => U0 c i * U c b)).
        rewrite (from_ext (i + 1) rows (fun l => Uz l i * Uz l b) (fun c => U0 c i * U c b)).
        2:{ intros l Hl. rewrite Zc. unfold Uz. destruct (Nat.eqb_spec l i); [lia|]. reflexivity. }
        assert (Ez : Uz a b = view (i + 1) U a b).
        { unfold Uz. destruct (Nat.eqb_spec a i) as [->|Na].
          - replace (within (i + 1) cols b) with true by (symmetry; apply within_true; lia). cbn [andb]. rewrite view_low, delta_other by lia. reflexivity.
          - rewrite view_high by lia. reflexivity. }
        rewrite Ez. field. auto.
  - exists (eset (fun a b => if Nat.eqb b i && within i rows a then 0 else Uz a b) i i ((if Nat.eqb i i && within i rows i then 0 else Uz i i) + 1)).
    split; [reflexivity|]. split.
    + intros a b Hb. unfold eset. destruct (Nat.eqb_spec b i); [lia|]. rewrite andb_false_r. cbn [andb]. unfold Uz.
      replace (within (i + 1) cols b) with false by (symmetry; apply within_false; lia). rewrite andb_false_r. reflexivity.
    + intros E0 a b Ha Hb.
      assert (Z : s = 0). { destruct (Req_dec s 0); [assumption|]. exfalso. apply B. rewrite E0. apply abs_pos. assumption. }
      unfold reflL, lfac. fold s. rewrite (factor_zero _ _ Z), !Rmult_0_l, Rplus_0_r.
      destruct (Nat.lt_ge_cases a i) as [La|La]; [rewrite !view_low by lia; reflexivity|].
      destruct (Nat.lt_ge_cases b i) as [Lb|Lb]; [rewrite !view_low by lia; reflexivity|].
      rewrite view_high by lia. unfold eset. rewrite Nat.eqb_refl. replace (within i rows i) with true by (symmetry; apply within_true; lia). cbn [andb].
      destruct (Nat.eqb_spec b i) as [->|Nb].
      * rewrite andb_true_r. rewrite (view_low (i + 1)) by lia. destruct (Nat.eqb_spec a i) as [->|Na]; [rewrite delta_same; ring|].
        rewrite delta_other by lia. replace (within i rows a) with true by (symmetry; apply within_true; lia). reflexivity.
      * rewrite andb_false_r. cbn [andb]. unfold Uz. destruct (Nat.eqb_spec a i) as [->|Na].
        -- replace (within (i + 1) cols b) with true by (symmetry; apply within_true; lia). cbn [andb]. rewrite view_low, delta_other by lia. reflexivity.
        -- cbn [andb]. rewrite view_high by lia. reflexivity.
Qed.

(** a product U B V^T *)
Definition tri (U B V : mat) : mat := fun a b => sumn cols (fun c => U a c * sumn cols (fun d => B c d * V b d)).
Lemma tri_ext U U' B B' V V' a b : (forall c, (c < cols)%nat -> U a c = U' a c) ->
  (forall c d, (c < cols)%nat -> (d < cols)%nat -> B c d = B' c d) -> (forall d, (d < cols)%nat -> V b d = V' b d) -> tri U B V a b = tri U' B' V' a b.
Proof.
  intros HU HB HV. unfold tri. apply sumn_ext. intros c Hc. rewrite (HU c Hc). f_equal. apply sumn_ext. intros d Hd. now rewrite (HB c d Hc Hd), (HV d Hd).
Qed.
Lemma tri_reflL u beta U B V a b : tri (reflL rows u beta U) B V a b = reflL rows u beta (tri U B V) a b.
Proof.
  unfold tri, reflL. rewrite (sumn_ext cols _ (fun c => U a c * sumn cols (fun d => B c d * V b d) +
     beta * u a * (sumn rows (fun e => u e * U e c) * sumn cols (fun d => B c d * V b d)))) by (intros; ring).
  rewrite sumn_add, sumn_scale. f_equal.
  rewrite (sumn_ext cols (fun c => sumn rows (fun e => u e * U e c) * sumn cols (fun d => B c d * V b d))
             (fun c => sumn rows (fun e => u e * (U e c * sumn cols (fun d => B c d * V b d))))).
  2:{ intros c Hc. rewrite <- sumn_scale_r. apply sumn_ext. intros; ring. }
  rewrite sumn_swap. rewrite (sumn_ext rows _ (fun e => u e * sumn cols (fun c => U e c * sumn cols (fun d => B c d * V b d)))) by (intros; apply sumn_scale).
  ring.
Qed.
Lemma tri_reflR v gamma U B V a b : tri U B (reflL cols v gamma V) a b = reflR cols v gamma (tri U B V) a b.
Proof.
  unfold tri, reflL, reflR.
  rewrite (sumn_ext cols _ (fun c => U a c * sumn cols (fun d => B c d * V b d) +
     gamma * v b * sumn cols (fun e => (U a c * sumn cols (fun d => B c d * V e d)) * v e))).
  - rewrite sumn_add, sumn_scale. f_equal. rewrite sumn_swap.
    rewrite (sumn_ext cols (fun i => sumn cols (fun j => U a j * sumn cols (fun d => B j d * V i d) * v i))
               (fun e => sumn cols (fun c => U a c * sumn cols (fun d => B c d * V e d)) * v e)) by (intros; apply sumn_scale_r). ring.
  - intros c Hc.
    rewrite (sumn_ext cols (fun d => B c d * (V b d + gamma * sumn cols (fun c0 => v c0 * V c0 d) * v b))
               (fun d => B c d * V b d + gamma * v b * sumn cols (fun e => v e * (B c d * V e d)))).
    + rewrite sumn_add, sumn_scale, sumn_swap.
      rewrite (sumn_ext cols (fun i => sumn cols (fun j => v i * (B c j * V i j))) (fun e => v e * sumn cols (fun d => B c d * V e d))) by (intros; apply sumn_scale).
      rewrite Rmult_plus_distr_l. f_equal.
      rewrite (sumn_ext cols (fun e => U a c * sumn cols (fun d => B c d * V e d) * v e) (fun e => U a c * (v e * sumn cols (fun d => B c d * V e d)))) by (intros; ring).
      rewrite sumn_scale. ring.
    + intros d Hd. rewrite (sumn_ext cols (fun e => v e * (B c d * V e d)) (fun e => B c d * (v e * V e d))) by (intros; ring). rewrite sumn_scale. ring.
Qed.

Variable A : mat.
(** What is known after the accumulation: A = U B V^T with orthonormal columns. *)
Definition bidiagonal_form (U V : mat) : Prop :=
  (forall a b, (a < rows)%nat -> (b < cols)%nat -> A a b = tri U (bid S T) V a b) /\
  (forall i j, (i < cols)%nat -> (j < cols)%nat -> sumn cols (fun a => V a i * V a j) = delta i j) /\
  (forall i j, (i < cols)%nat -> (j < cols)%nat -> sumn rows (fun a => U a i * U a j) = if Nat.ltb i rows then delta i j else 0).

Lemma left_ok V Ws : (eps = 0 -> history rows cols A cols U0 S T) -> (eps = 0 -> right_hist 0 V Ws) ->
  exists U, iter_down (Nat.min cols rows) (left_step checked eps rows cols S) U0 = Go U /\ (eps = 0 -> bidiagonal_form U V).
Proof.
  intros HA HW. set (m := Nat.min cols rows).
  assert (HAs : exists As : nat -> mat, eps = 0 ->
    (forall a b, (a < rows)%nat -> (b < cols)%nat -> As 0%nat a b = A a b) /\
    (forall i, (i < cols)%nat -> forall a b, (a < rows)%nat -> (b < cols)%nat ->
       As i a b = reflL rows (lv U0 i) (lfac i) (reflR cols (rv U0 i) (rfac i) (As (i + 1)%nat)) a b) /\
    (forall a b, (a < rows)%nat -> (b < cols)%nat -> As cols a b = before_col cols (bid S T) U0 a b)).
  { destruct (Req_dec eps 0) as [E|N]; [destruct (HA E) as (As & H); exists As; intros _; exact H|exists (fun _ => A); intros; contradiction]. }
  clear HA. destruct HAs as (As & HA).
  set (Q := fun (i : nat) (U : mat) => (forall a b, (a < rows)%nat -> (b < cols)%nat -> As i a b = tri (view i U) (bid S T) (Ws i) a b) /\
     (forall j k, (j < cols)%nat -> (k < cols)%nat -> sumn rows (fun a => view i U a j * view i U a k) = if Nat.ltb j rows then delta j k else 0)).
  assert (Start : eps = 0 -> Q m U0).
  { intros E0. destruct (HA E0) as (_ & A1 & A2). destruct (HW E0) as (W1 & _ & W3).
    assert (Vm : forall a b, (a < rows)%nat -> (b < cols)%nat -> view m U0 a b = delta a b) by (intros; apply view_low; unfold m; lia).
    split.
    - assert (D : forall k, (m + k <= cols)%nat -> forall a b, (a < rows)%nat -> (b < cols)%nat ->
                As (cols - k)%nat a b = tri delta (bid S T) (Ws (cols - k)%nat) a b).
      { induction k as [|k IH]; intros Hk a b Ha Hb.
        - rewrite Nat.sub_0_r, (A2 a b Ha Hb). unfold before_col, tri.
          rewrite (sumn_ext cols _ (fun c => delta a c * bid S T c b)).
          2:{ intros c Hc. f_equal. rewrite (sumn_ext cols _ (fun d => delta b d * bid S T c d)) by (intros d Hd; rewrite (W1 b d Hb Hd); ring). apply sumn_delta'. exact Hb. }
          destruct (Nat.ltb_spec a cols) as [L|L].
          + symmetry. apply (sumn_delta' cols a (fun c => bid S T c b)). exact L.
          + destruct (Nat.ltb_spec b cols) as [_|]; [|lia]. symmetry. apply sumn_zero. intros c Hc. rewrite delta_other by lia. ring.
        - assert (L : (rows <= cols - Datatypes.S k)%nat) by (unfold m in Hk; lia).
          assert (C : (cols - Datatypes.S k < cols)%nat) by lia.
          rewrite (A1 _ C a b Ha Hb). unfold reflL at 1. rewrite (lfac_low _ L C), !Rmult_0_l, Rplus_0_r.
          unfold reflR. rewrite (rfac_low _ L C), !Rmult_0_l, Rplus_0_r.
          replace (cols - Datatypes.S k + 1)%nat with (cols - k)%nat by lia. rewrite IH by (assumption || lia).
          apply tri_ext; [reflexivity|reflexivity|]. intros d Hd. rewrite (W3 (cols - Datatypes.S k)%nat) by (assumption || lia).
          unfold reflL. rewrite (rfac_low _ L C), !Rmult_0_l, Rplus_0_r. replace (cols - Datatypes.S k + 1)%nat with (cols - k)%nat by lia. reflexivity. }
      intros a b Ha Hb. replace m with (cols - (cols - m))%nat at 1 by (unfold m; lia). rewrite D by (assumption || (unfold m; lia)).
      replace (cols - (cols - m))%nat with m by (unfold m; lia). apply tri_ext; [|reflexivity|reflexivity]. intros c Hc. symmetry. apply Vm; assumption.
    - intros j k Hj Hk. rewrite (sumn_ext rows _ (fun a => delta j a * delta k a)).
      2:{ intros a Ha. rewrite !Vm by assumption. now rewrite (delta_sym a j), (delta_sym a k). }
      destruct (Nat.ltb_spec j rows) as [L|L].
      + rewrite (sumn_delta' rows j (fun a => delta k a)) by exact L. apply delta_sym.
      + apply sumn_zero. intros a Ha. rewrite delta_other by lia. ring. }
  destruct (iter_down_ok (fun i U => (forall a b, (b < i)%nat -> U a b = U0 a b) /\ (eps = 0 -> Q i U))
              (left_step checked eps rows cols S) m U0) as (U & E & _ & H).
  - split; [reflexivity|exact Start].
  - intros i U Hi [HU HQ].
    destruct (left_step_ok i U) as (U' & E & K & HE); [unfold m in Hi; lia|unfold m in Hi; lia|intros a; apply HU; lia|].
    exists U'. split; [exact E|]. split; [intros a b Hb; rewrite K by exact Hb; apply HU; lia|].
    intros E0. destruct (HQ E0) as [Q1 Q2]. destruct (HA E0) as (_ & A1 & _). destruct (HW E0) as (_ & _ & W3).
    assert (Hi' : (i < cols)%nat) by (unfold m in Hi; lia). replace (Datatypes.S i) with (i + 1)%nat in * by lia. split.
    + intros a b Ha Hb. rewrite (A1 i Hi' a b Ha Hb).
      rewrite (tri_ext (view i U') (reflL rows (lv U0 i) (lfac i) (view (i + 1) U)) (bid S T) (bid S T) (Ws i) (reflL cols (rv U0 i) (rfac i) (Ws (i + 1)%nat)) a b);
        [|intros c Hc; apply HE; assumption|reflexivity|intros d Hd; apply W3; (assumption || lia)].
      rewrite tri_reflL. apply reflL_ext; [exact Ha|reflexivity|reflexivity|]. intros c Hc. rewrite tri_reflR.
      apply reflR_ext; [exact Hb|reflexivity|reflexivity|]. intros d Hd. apply Q1; assumption.
    + intros j k Hj Hk. rewrite <- (Q2 j k Hj Hk).
      rewrite (sumn_ext rows _ (fun a => reflL rows (lv U0 i) (lfac i) (view (i + 1) U) a j * reflL rows (lv U0 i) (lfac i) (view (i + 1) U) a k))
        by (intros a Ha; rewrite !(HE E0) by assumption; reflexivity).
      unfold reflL. apply (refl_dot rows (lv U0 i) (fun a => view (i + 1) U a j) (fun a => view (i + 1) U a k)). apply lfac_ok. exact Hi'.
  - exists U. split; [exact E|]. intros E0. destruct (H E0) as [Q1 Q2]. destruct (HA E0) as (A0 & _ & _). destruct (HW E0) as (W1 & W2 & W3).
    assert (V0 : forall a b, view 0 U a b = U a b) by (intros; apply view_high; lia).
    split; [|split].
    + intros a b Ha Hb. rewrite <- (A0 a b Ha Hb), (Q1 a b Ha Hb). apply tri_ext; [intros; apply V0|reflexivity|].
      intros d Hd. rewrite (W2 b d Hb Hd). apply view_high; lia.
    + assert (D : forall k, (k <= cols)%nat -> forall i j, (i < cols)%nat -> (j < cols)%nat ->
         sumn cols (fun a => Ws (cols - k)%nat a i * Ws (cols - k)%nat a j) = delta i j).
      { induction k as [|k IH]; intros Hk i j Hi Hj.
        - rewrite Nat.sub_0_r. rewrite (sumn_ext cols _ (fun a => delta i a * delta j a)).
          + rewrite (sumn_delta' cols i (fun a => delta j a) Hi). apply delta_sym.
          + intros a Ha. rewrite !W1 by assumption. now rewrite (delta_sym a i), (delta_sym a j).
        - rewrite <- (IH ltac:(lia) i j Hi Hj). set (x := (cols - Datatypes.S k)%nat). replace (cols - k)%nat with (x + 1)%nat by (unfold x; lia).
          rewrite (sumn_ext cols _ (fun a => reflL cols (rv U0 x) (rfac x) (Ws (x + 1)%nat) a i * reflL cols (rv U0 x) (rfac x) (Ws (x + 1)%nat) a j))
            by (intros a Ha; rewrite !(W3 x) by (assumption || (unfold x; lia)); reflexivity).
          unfold reflL. apply (refl_dot cols (rv U0 x) (fun a => Ws (x + 1)%nat a i) (fun a => Ws (x + 1)%nat a j)). apply rfac_ok. unfold x; lia. }
      intros i j Hi Hj. rewrite <- (D cols (Nat.le_refl _) i j Hi Hj). rewrite Nat.sub_diag. apply sumn_ext. intros a Ha.
      rewrite !W2 by assumption. rewrite !view_high by lia. reflexivity.
    + intros i j Hi Hj. rewrite <- (Q2 i j Hi Hj). apply sumn_ext. intros a Ha. rewrite (V0 a i), (V0 a j). reflexivity.
Qed.
End Accum.
