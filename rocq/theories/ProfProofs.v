(** Proofs about the trapezoidal profile. *)
From Coq Require Import Reals Lra Lia Psatz Bool.
From Verif Require Import FramesModel Outcome DerivProofs ProfModel ProfSpec.
Local Open Scope R_scope.

Lemma dl_glue : forall f g h x l d, 0 < d ->
  (forall y, Rabs (y - x) < d -> f y = g y \/ f y = h y) ->
  f x = g x -> f x = h x -> derivable_pt_lim g x l -> derivable_pt_lim h x l ->
  derivable_pt_lim f x l.
Proof.
  intros f g h x l d Hd Hloc Eg Eh Dg Dh eps Heps.
  destruct (Dg eps Heps) as [d1 H1]. destruct (Dh eps Heps) as [d2 H2].
  assert (Hm : 0 < Rmin d (Rmin d1 d2)).
  { apply Rmin_pos; [exact Hd|]. apply Rmin_pos; apply cond_pos. }
  exists (mkposreal _ Hm). intros k Hk Hlt. simpl in Hlt.
  assert (Hkd : Rabs k < d) by (eapply Rlt_le_trans; [exact Hlt|apply Rmin_l]).
  assert (Hk12 : Rabs k < Rmin d1 d2) by (eapply Rlt_le_trans; [exact Hlt|apply Rmin_r]).
  assert (Hk1 : Rabs k < d1) by (eapply Rlt_le_trans; [exact Hk12|apply Rmin_l]).
  assert (Hk2 : Rabs k < d2) by (eapply Rlt_le_trans; [exact Hk12|apply Rmin_r]).
  destruct (Hloc (x + k)) as [E|E]; [replace (x + k - x) with k by ring; exact Hkd| |];
    rewrite E; [rewrite Eg; apply H1; assumption|rewrite Eh; apply H2; assumption].
Qed.

Lemma dl_local : forall f g x l d, 0 < d ->
  (forall y, Rabs (y - x) < d -> f y = g y) -> derivable_pt_lim g x l -> derivable_pt_lim f x l.
Proof.
  intros f g x l d Hd H Dg. assert (E : f x = g x) by (apply H; rewrite Rminus_diag_eq, Rabs_R0; auto).
  apply (dl_glue f g g x l d); auto.
Qed.

Definition quad (a b c t : R) : R := a + t * (b + c * t).
Definition quadv (b c t : R) : R := b + 2 * c * t.

Lemma quad_derive : forall a b c t, derivable_pt_lim (quad a b c) t (quadv b c t).
Proof.
  intros. unfold quad, quadv.
  replace (b + 2 * c * t) with (0 + (1 * (b + c * t) + t * (0 + (0 * t + c * 1)))) by ring.
  apply (derivable_pt_lim_plus (fun _ => a)); [apply derivable_pt_lim_const|].
  apply (derivable_pt_lim_mult (fun t => t) (fun t => b + c * t)); [apply derivable_pt_lim_id|].
  apply (derivable_pt_lim_plus (fun _ => b)); [apply derivable_pt_lim_const|].
  apply (derivable_pt_lim_mult (fun _ => c) (fun t => t)); [apply derivable_pt_lim_const|apply derivable_pt_lim_id].
Qed.

Lemma quadv_derive : forall b c t, derivable_pt_lim (quadv b c) t (2 * c).
Proof.
  intros. unfold quadv.
  cut (derivable_pt_lim (fun t => b + 2 * c * t) t (0 + (0 * t + 2 * c * 1))).
  { intros H. replace (0 + (0 * t + 2 * c * 1)) with (2 * c) in H by ring. exact H. }
  apply (derivable_pt_lim_plus (fun _ => b)); [apply derivable_pt_lim_const|].
  apply (derivable_pt_lim_mult (fun _ => 2 * c) (fun t => t)); [apply derivable_pt_lim_const|apply derivable_pt_lim_id].
Qed.

Lemma const_derive : forall c t, derivable_pt_lim (fun _ => c) t 0.
Proof. intros. apply derivable_pt_lim_const. Qed.

Lemma abs_lt : forall y x d, Rabs (y - x) < d -> x - d < y < x + d.
Proof. intros y x d H. apply Rabs_def2 in H. lra. Qed.

Lemma ltN_some : forall x v, ltN x (Some v) = if Rlt_dec x v then true else false.
Proof. reflexivity. Qed.

(** pieces of a plan with known switching times *)
Ltac rdec :=
  repeat match goal with
  | |- context [Rlt_dec ?a ?b] => destruct (Rlt_dec a b); try (exfalso; lra)
  | |- context [Rle_dec ?a ?b] => destruct (Rle_dec a b); try (exfalso; lra)
  | |- context [Req_EM_T ?a ?b] => destruct (Req_EM_T a b); try (exfalso; lra)
  end.

(** * The canonical trapezoid: acceleration s*A during t1, cruise until t2,
      deceleration until t1+t2 *)
Definition canon (s A t1 t2 p1 p2 : R) : Plan :=
  mkPlan p1 0 (s * A / 2) (p1 - s * A * (t1 * t1) / 2) (s * A * t1) 0
    (p1 - s * A * (t1 * t1 + t2 * t2) / 2) (s * A * (t1 + t2)) (- s * A / 2)
    (t1 + t2) (Some t1) (Some t2) p1 p2.

Definition canon_ok (s A t1 t2 p1 p2 : R) : Prop :=
  (s = 1 \/ s = -1) /\ 0 < A /\ 0 < t1 /\ t1 <= t2 /\ p2 = p1 + s * A * t1 * t2.

Lemma canon_pos_cases : forall s A t1 t2 p1 p2 t, 0 <= t1 -> t1 <= t2 ->
  (t < 0 -> plan_pos (canon s A t1 t2 p1 p2) t = p1) /\
  (0 <= t < t1 -> plan_pos (canon s A t1 t2 p1 p2) t = quad p1 0 (s * A / 2) t) /\
  (t1 <= t < t2 -> plan_pos (canon s A t1 t2 p1 p2) t = quad (p1 - s * A * (t1 * t1) / 2) (s * A * t1) 0 t) /\
  (t2 <= t <= t1 + t2 -> plan_pos (canon s A t1 t2 p1 p2) t
     = quad (p1 - s * A * (t1 * t1 + t2 * t2) / 2) (s * A * (t1 + t2)) (- s * A / 2) t) /\
  (t1 + t2 < t -> plan_pos (canon s A t1 t2 p1 p2) t = p2).
Proof.
  intros. unfold plan_pos, canon, quad, ltN; simpl. repeat split; intros; rdec; reflexivity.
Qed.

Lemma canon_vel_cases : forall s A t1 t2 p1 p2 t, 0 <= t1 -> t1 <= t2 ->
  (t < 0 -> plan_vel (canon s A t1 t2 p1 p2) t = 0) /\
  (0 <= t < t1 -> plan_vel (canon s A t1 t2 p1 p2) t = quadv 0 (s * A / 2) t) /\
  (t1 <= t < t2 -> plan_vel (canon s A t1 t2 p1 p2) t = quadv (s * A * t1) 0 t) /\
  (t2 <= t <= t1 + t2 -> plan_vel (canon s A t1 t2 p1 p2) t = quadv (s * A * (t1 + t2)) (- s * A / 2) t) /\
  (t1 + t2 < t -> plan_vel (canon s A t1 t2 p1 p2) t = 0).
Proof.
  intros. unfold plan_vel, canon, quadv, ltN; simpl. repeat split; intros; rdec; reflexivity.
Qed.

Lemma canon_acc_cases : forall s A t1 t2 p1 p2 t, 0 <= t1 -> t1 <= t2 ->
  (t < 0 -> plan_acc (canon s A t1 t2 p1 p2) t = 0) /\
  (0 <= t < t1 -> plan_acc (canon s A t1 t2 p1 p2) t = s * A) /\
  (t1 <= t < t2 -> plan_acc (canon s A t1 t2 p1 p2) t = 0) /\
  (t2 <= t <= t1 + t2 -> plan_acc (canon s A t1 t2 p1 p2) t = - s * A) /\
  (t1 + t2 < t -> plan_acc (canon s A t1 t2 p1 p2) t = 0).
Proof.
  intros. unfold plan_acc, canon, ltN; simpl. repeat split; intros; rdec; lra.
Qed.

Lemma five : forall t t1 t2, 0 <= t1 -> t1 <= t2 ->
  t < 0 \/ 0 <= t < t1 \/ t1 <= t < t2 \/ t2 <= t <= t1 + t2 \/ t1 + t2 < t.
Proof. intros. lra. Qed.

Section Canon.
Variables s A t1 t2 p1 p2 : R.
Hypothesis OK : canon_ok s A t1 t2 p1 p2.
Let P := plan_pos (canon s A t1 t2 p1 p2).
Let V := plan_vel (canon s A t1 t2 p1 p2).
Let C := plan_acc (canon s A t1 t2 p1 p2).

Lemma c_t1 : 0 <= t1. Proof. destruct OK as (_ & _ & H & _). lra. Qed.
Lemma c_t12 : t1 <= t2. Proof. destruct OK as (_ & _ & _ & H & _). lra. Qed.
Lemma c_pos : forall t,
  (t < 0 -> P t = p1) /\
  (0 <= t < t1 -> P t = quad p1 0 (s * A / 2) t) /\
  (t1 <= t < t2 -> P t = quad (p1 - s * A * (t1 * t1) / 2) (s * A * t1) 0 t) /\
  (t2 <= t <= t1 + t2 -> P t = quad (p1 - s * A * (t1 * t1 + t2 * t2) / 2) (s * A * (t1 + t2)) (- s * A / 2) t) /\
  (t1 + t2 < t -> P t = p2).
Proof. intros t. apply canon_pos_cases; [exact c_t1|exact c_t12]. Qed.
Lemma c_vel : forall t,
  (t < 0 -> V t = 0) /\
  (0 <= t < t1 -> V t = quadv 0 (s * A / 2) t) /\
  (t1 <= t < t2 -> V t = quadv (s * A * t1) 0 t) /\
  (t2 <= t <= t1 + t2 -> V t = quadv (s * A * (t1 + t2)) (- s * A / 2) t) /\
  (t1 + t2 < t -> V t = 0).
Proof. intros t. apply canon_vel_cases; [exact c_t1|exact c_t12]. Qed.
Lemma c_acc : forall t,
  (t < 0 -> C t = 0) /\ (0 <= t < t1 -> C t = s * A) /\ (t1 <= t < t2 -> C t = 0) /\
  (t2 <= t <= t1 + t2 -> C t = - s * A) /\ (t1 + t2 < t -> C t = 0).
Proof. intros t. apply canon_acc_cases; [exact c_t1|exact c_t12]. Qed.

Ltac piece t := destruct (c_pos t) as (Hp0 & Hpa & Hpb & Hpc & Hp1).
Ltac vpiece t := destruct (c_vel t) as (Hv0 & Hva & Hvb & Hvc & Hv1).

Lemma canon_dur : 0 < t1 + t2.
Proof. destruct OK as (_ & _ & H & H' & _). lra. Qed.

Lemma canon_start : forall t, t <= 0 -> P t = p1.
Proof.
  intros t Ht. piece t. destruct OK as (_ & _ & H1 & _ & _).
  destruct (Rlt_dec t 0); [apply Hp0; lra|]. replace t with 0 in * by lra.
  rewrite Hpa by lra. unfold quad. ring.
Qed.

Lemma canon_end : forall t, t1 + t2 <= t -> P t = p2.
Proof.
  intros t Ht. piece t. destruct OK as (_ & _ & H1 & _ & E).
  destruct (Rlt_dec (t1 + t2) t); [apply Hp1; lra|]. replace t with (t1 + t2) in * by lra.
  rewrite Hpc by lra. rewrite E. unfold quad. field.
Qed.

Lemma canon_between : forall t, between p1 p2 (P t).
Proof.
  intros t. pose proof (c_pos t) as (Hp0 & Hpa & Hpb & Hpc & Hp1).
  destruct OK as (Hs & HA & H1 & H2 & E).
  assert (K : 0 <= s * (P t - p1) /\ 0 <= s * (p2 - P t)).
  { destruct (five t t1 t2) as [H|[H|[H|[H|H]]]]; try lra.
    - rewrite Hp0 by lra. rewrite E. split; [rewrite Rminus_diag_eq by reflexivity; lra|].
      replace (s * (p1 + s * A * t1 * t2 - p1)) with (s * s * (A * t1 * t2)) by ring.
      assert (s * s = 1) by (destruct Hs; subst; ring). rewrite H0.
      assert (0 <= A * t1) by (apply Rmult_le_pos; lra).
      assert (0 <= A * t1 * t2) by (apply Rmult_le_pos; lra). lra.
    - rewrite Hpa by lra. rewrite E. unfold quad.
      assert (Hss : s * s = 1) by (destruct Hs; subst; ring).
      assert (HAt : 0 <= A * (t * t)) by (apply Rmult_le_pos; [lra|nra]).
      split.
      + replace (s * (p1 + t * (0 + s * A / 2 * t) - p1)) with (s * s * (A * (t * t)) / 2) by field.
        rewrite Hss. lra.
      + replace (s * (p1 + s * A * t1 * t2 - (p1 + t * (0 + s * A / 2 * t))))
          with (s * s * (A * (t1 * t2 - t * t / 2))) by field.
        rewrite Hss, Rmult_1_l. apply Rmult_le_pos; nra.
    - rewrite Hpb by lra. rewrite E. unfold quad.
      assert (Hss : s * s = 1) by (destruct Hs; subst; ring).
      split.
      + replace (s * (p1 - s * A * (t1 * t1) / 2 + t * (s * A * t1 + 0 * t) - p1))
          with (s * s * (A * (t1 * (t - t1 / 2)))) by field.
        rewrite Hss, Rmult_1_l. apply Rmult_le_pos; [lra|]. apply Rmult_le_pos; lra.
      + replace (s * (p1 + s * A * t1 * t2 - (p1 - s * A * (t1 * t1) / 2 + t * (s * A * t1 + 0 * t))))
          with (s * s * (A * (t1 * (t2 - t + t1 / 2)))) by field.
        rewrite Hss, Rmult_1_l. apply Rmult_le_pos; [lra|]. apply Rmult_le_pos; lra.
    - rewrite Hpc by lra. rewrite E. unfold quad.
      assert (Hss : s * s = 1) by (destruct Hs; subst; ring).
      split.
      + replace (s * (p1 - s * A * (t1 * t1 + t2 * t2) / 2 + t * (s * A * (t1 + t2) + - s * A / 2 * t) - p1))
          with (s * s * (A * (t1 * t2 - (t1 + t2 - t) * (t1 + t2 - t) / 2))) by field.
        rewrite Hss, Rmult_1_l. apply Rmult_le_pos; [lra|]. nra.
      + replace (s * (p1 + s * A * t1 * t2 - (p1 - s * A * (t1 * t1 + t2 * t2) / 2 + t * (s * A * (t1 + t2) + - s * A / 2 * t))))
          with (s * s * (A * ((t1 + t2 - t) * (t1 + t2 - t) / 2))) by field.
        rewrite Hss, Rmult_1_l. apply Rmult_le_pos; [lra|]. nra.
    - rewrite Hp1 by lra. rewrite E. split.
      + replace (s * (p1 + s * A * t1 * t2 - p1)) with (s * s * (A * t1 * t2)) by ring.
        assert (s * s = 1) by (destruct Hs; subst; ring). rewrite H0.
        assert (0 <= A * t1) by (apply Rmult_le_pos; lra).
        assert (0 <= A * t1 * t2) by (apply Rmult_le_pos; lra). lra.
      + rewrite Rminus_diag_eq by reflexivity. lra. }
  unfold between. destruct Hs; subst s; lra.
Qed.

Lemma canon_velocity : velocity P V.
Proof.
  intros t. pose proof (c_vel t) as (Hv0 & Hva & Hvb & Hvc & Hv1).
  assert (Pc := c_pos).
  destruct OK as (Hs & HA & H1 & H2 & E).
  destruct (Rtotal_order t 0) as [H|[H|H]].
  - rewrite Hv0 by lra. apply (dl_local _ (fun _ => p1) _ _ (- t)); [lra| |apply const_derive].
    intros y Hy. apply abs_lt in Hy. destruct (Pc y) as (Q & _). apply Q. lra.
  - subst t. rewrite Hva by lra.
    apply (dl_glue _ (fun _ => p1) (quad p1 0 (s * A / 2)) _ _ t1); [lra| | | | |apply quad_derive].
    + intros y Hy. apply abs_lt in Hy. destruct (Pc y) as (Q0 & Qa & _).
      destruct (Rlt_dec y 0); [left; apply Q0; lra|right; apply Qa; lra].
    + destruct (Pc 0) as (_ & Qa & _). rewrite Qa by lra. unfold quad. ring.
    + destruct (Pc 0) as (_ & Qa & _). apply Qa. lra.
    + replace (quadv 0 (s * A / 2) 0) with 0 by (unfold quadv; ring). apply const_derive.
  - destruct (Rtotal_order t t1) as [K|[K|K]].
    + rewrite Hva by lra.
      apply (dl_local _ (quad p1 0 (s * A / 2)) _ _ (Rmin t (t1 - t))); [apply Rmin_pos; lra| |apply quad_derive].
      intros y Hy. apply abs_lt in Hy. pose proof (Rmin_l t (t1 - t)). pose proof (Rmin_r t (t1 - t)).
      destruct (Pc y) as (_ & Qa & _). apply Qa. lra.
    + subst t. destruct (Rlt_dec t1 t2) as [L|L].
      * rewrite Hvb by lra.
        apply (dl_glue _ (quad p1 0 (s * A / 2)) (quad (p1 - s * A * (t1 * t1) / 2) (s * A * t1) 0) _ _ (Rmin t1 (t2 - t1)));
          [apply Rmin_pos; lra| | | | |apply quad_derive].
        -- intros y Hy. apply abs_lt in Hy. pose proof (Rmin_l t1 (t2 - t1)). pose proof (Rmin_r t1 (t2 - t1)).
           destruct (Pc y) as (Q0 & Qa & Qb & _).
           destruct (Rlt_dec y t1); [left; apply Qa; lra|right; apply Qb; lra].
        -- destruct (Pc t1) as (_ & _ & Qb & _). rewrite Qb by lra. unfold quad. field.
        -- destruct (Pc t1) as (_ & _ & Qb & _). apply Qb. lra.
        -- replace (quadv (s * A * t1) 0 t1) with (quadv 0 (s * A / 2) t1) by (unfold quadv; field). apply quad_derive.
      * assert (t2 = t1) by lra. rewrite Hvc by lra.
        apply (dl_glue _ (quad p1 0 (s * A / 2)) (quad (p1 - s * A * (t1 * t1 + t2 * t2) / 2) (s * A * (t1 + t2)) (- s * A / 2)) _ _ t1);
          [lra| | | | |apply quad_derive].
        -- intros y Hy. apply abs_lt in Hy.
           destruct (Pc y) as (Q0 & Qa & Qb & Qc & _).
           destruct (Rlt_dec y t1); [left; apply Qa; lra|right; apply Qc; lra].
        -- destruct (Pc t1) as (_ & _ & _ & Qc & _). rewrite Qc by lra. unfold quad. replace t2 with t1. field.
        -- destruct (Pc t1) as (_ & _ & _ & Qc & _). apply Qc. lra.
        -- replace (quadv (s * A * (t1 + t2)) (- s * A / 2) t1) with (quadv 0 (s * A / 2) t1)
             by (unfold quadv; replace t2 with t1; field). apply quad_derive.
    + destruct (Rtotal_order t t2) as [L|[L|L]].
      * rewrite Hvb by lra.
        apply (dl_local _ (quad (p1 - s * A * (t1 * t1) / 2) (s * A * t1) 0) _ _ (Rmin (t - t1) (t2 - t)));
          [apply Rmin_pos; lra| |apply quad_derive].
        intros y Hy. apply abs_lt in Hy. pose proof (Rmin_l (t - t1) (t2 - t)). pose proof (Rmin_r (t - t1) (t2 - t)).
        destruct (Pc y) as (_ & _ & Qb & _). apply Qb. lra.
      * subst t. rewrite Hvc by lra.
        apply (dl_glue _ (quad (p1 - s * A * (t1 * t1) / 2) (s * A * t1) 0)
                 (quad (p1 - s * A * (t1 * t1 + t2 * t2) / 2) (s * A * (t1 + t2)) (- s * A / 2)) _ _ (Rmin (t2 - t1) t1));
          [apply Rmin_pos; lra| | | | |apply quad_derive].
        -- intros y Hy. apply abs_lt in Hy. pose proof (Rmin_l (t2 - t1) t1). pose proof (Rmin_r (t2 - t1) t1).
           destruct (Pc y) as (Q0 & Qa & Qb & Qc & _).
           destruct (Rlt_dec y t2); [left; apply Qb; lra|right; apply Qc; lra].
        -- destruct (Pc t2) as (_ & _ & _ & Qc & _). rewrite Qc by lra. unfold quad. field.
        -- destruct (Pc t2) as (_ & _ & _ & Qc & _). apply Qc. lra.
        -- replace (quadv (s * A * (t1 + t2)) (- s * A / 2) t2) with (quadv (s * A * t1) 0 t2) by (unfold quadv; field).
           apply quad_derive.
      * destruct (Rtotal_order t (t1 + t2)) as [M|[M|M]].
        -- rewrite Hvc by lra.
           apply (dl_local _ (quad (p1 - s * A * (t1 * t1 + t2 * t2) / 2) (s * A * (t1 + t2)) (- s * A / 2)) _ _
                    (Rmin (t - t2) (t1 + t2 - t))); [apply Rmin_pos; lra| |apply quad_derive].
           intros y Hy. apply abs_lt in Hy. pose proof (Rmin_l (t - t2) (t1 + t2 - t)). pose proof (Rmin_r (t - t2) (t1 + t2 - t)).
           destruct (Pc y) as (_ & _ & _ & Qc & _). apply Qc. lra.
        -- subst t. rewrite Hvc by lra.
           apply (dl_glue _ (quad (p1 - s * A * (t1 * t1 + t2 * t2) / 2) (s * A * (t1 + t2)) (- s * A / 2)) (fun _ => p2) _ _ t1);
             [lra| | | |apply quad_derive|].
           ++ intros y Hy. apply abs_lt in Hy. destruct (Pc y) as (_ & _ & _ & Qc & Q1).
              destruct (Rlt_dec (t1 + t2) y); [right; apply Q1; lra|left; apply Qc; lra].
           ++ destruct (Pc (t1 + t2)) as (_ & _ & _ & Qc & _). apply Qc. lra.
           ++ apply canon_end. lra.
           ++ replace (quadv (s * A * (t1 + t2)) (- s * A / 2) (t1 + t2)) with 0 by (unfold quadv; field). apply const_derive.
        -- rewrite Hv1 by lra. apply (dl_local _ (fun _ => p2) _ _ (t - (t1 + t2))); [lra| |apply const_derive].
           intros y Hy. apply abs_lt in Hy. destruct (Pc y) as (_ & _ & _ & _ & Q1). apply Q1. lra.
Qed.

Lemma abs_s : forall x, 0 <= x -> Rabs (s * x) = x.
Proof.
  intros x Hx. destruct OK as (Hs & _). rewrite Rabs_mult, (Rabs_right x) by lra.
  destruct Hs as [-> | ->]; [rewrite Rabs_R1|rewrite (Rabs_left (-1)) by lra]; ring.
Qed.

Lemma canon_vmax : limited (A * t1) V.
Proof.
  intros t. pose proof (c_vel t) as (Hv0 & Hva & Hvb & Hvc & Hv1). pose proof abs_s as AS.
  destruct OK as (Hs & HA & H1 & H2 & E).
  assert (0 < A * t1) by (apply Rmult_lt_0_compat; lra).
  destruct (five t t1 t2) as [H0|[H0|[H0|[H0|H0]]]]; try lra.
  - rewrite Hv0 by lra. rewrite Rabs_R0. lra.
  - rewrite Hva by lra. replace (quadv 0 (s * A / 2) t) with (s * (A * t)) by (unfold quadv; field).
    rewrite AS by (apply Rmult_le_pos; lra). apply Rmult_le_compat_l; lra.
  - rewrite Hvb by lra. replace (quadv (s * A * t1) 0 t) with (s * (A * t1)) by (unfold quadv; ring).
    rewrite AS by lra. lra.
  - rewrite Hvc by lra.
    replace (quadv (s * A * (t1 + t2)) (- s * A / 2) t) with (s * (A * (t1 + t2 - t))) by (unfold quadv; field).
    rewrite AS by (apply Rmult_le_pos; lra). apply Rmult_le_compat_l; lra.
  - rewrite Hv1 by lra. rewrite Rabs_R0. lra.
Qed.

Lemma canon_amax : limited A C.
Proof.
  intros t. pose proof (c_acc t) as (Hv0 & Hva & Hvb & Hvc & Hv1). pose proof abs_s as AS.
  destruct OK as (Hs & HA & H1 & H2 & E).
  destruct (five t t1 t2) as [H0|[H0|[H0|[H0|H0]]]]; try lra.
  - rewrite Hv0 by lra. rewrite Rabs_R0. lra.
  - rewrite Hva by lra. rewrite AS by lra. lra.
  - rewrite Hvb by lra. rewrite Rabs_R0. lra.
  - rewrite Hvc by lra. replace (- s * A) with (- (s * A)) by ring. rewrite Rabs_Ropp, AS by lra. lra.
  - rewrite Hv1 by lra. rewrite Rabs_R0. lra.
Qed.

Lemma canon_acceleration : acceleration V C.
Proof.
  exists 0, t1, t2, (t1 + t2). intros t N0 N1 N2 N3.
  pose proof (c_acc t) as (Hv0 & Hva & Hvb & Hvc & Hv1). pose proof c_vel as Vc.
  destruct OK as (Hs & HA & H1 & H2 & E).
  destruct (five t t1 t2) as [H0|[H0|[H0|[H0|H0]]]]; try lra.
  - rewrite Hv0 by lra. apply (dl_local _ (fun _ => 0) _ _ (- t)); [lra| |apply const_derive].
    intros y Hy. apply abs_lt in Hy. destruct (Vc y) as (Q & _). apply Q. lra.
  - rewrite Hva by lra. replace (s * A) with (2 * (s * A / 2)) by field.
    apply (dl_local _ (quadv 0 (s * A / 2)) _ _ (Rmin t (t1 - t))); [apply Rmin_pos; lra| |apply quadv_derive].
    intros y Hy. apply abs_lt in Hy. pose proof (Rmin_l t (t1 - t)). pose proof (Rmin_r t (t1 - t)).
    destruct (Vc y) as (_ & Qa & _). apply Qa. lra.
  - rewrite Hvb by lra.
    apply (dl_local _ (quadv (s * A * t1) 0) _ _ (Rmin (t - t1) (t2 - t)));
      [apply Rmin_pos; lra| |replace 0 with (2 * 0) at 2 by ring; apply quadv_derive].
    intros y Hy. apply abs_lt in Hy. pose proof (Rmin_l (t - t1) (t2 - t)). pose proof (Rmin_r (t - t1) (t2 - t)).
    destruct (Vc y) as (_ & _ & Qb & _). apply Qb. lra.
  - rewrite Hvc by lra. replace (- s * A) with (2 * (- s * A / 2)) by field.
    apply (dl_local _ (quadv (s * A * (t1 + t2)) (- s * A / 2)) _ _ (Rmin (t - t2) (t1 + t2 - t)));
      [apply Rmin_pos; lra| |apply quadv_derive].
    intros y Hy. apply abs_lt in Hy. pose proof (Rmin_l (t - t2) (t1 + t2 - t)). pose proof (Rmin_r (t - t2) (t1 + t2 - t)).
    destruct (Vc y) as (_ & _ & _ & Qc & _). apply Qc. lra.
  - rewrite Hv1 by lra. apply (dl_local _ (fun _ => 0) _ _ (t - (t1 + t2))); [lra| |apply const_derive].
    intros y Hy. apply abs_lt in Hy. destruct (Vc y) as (_ & _ & _ & _ & Q1). apply Q1. lra.
Qed.

Lemma canon_moves : moves p1 p2 (t1 + t2) P.
Proof.
  pose proof canon_dur. split; [lra|]. split; [exact canon_start|]. split; [exact canon_end|exact canon_between].
Qed.
End Canon.

(** * SetProfile *)
Lemma sign_cases : forall x, (0 <= x /\ sign x = 1) \/ (x < 0 /\ sign x = -1).
Proof. intros. unfold sign. destruct (Rlt_dec x 0); [right|left]; split; lra. Qed.

Ltac peel := match goal with |- Some _ = Some _ => apply f_equal | _ => idtac end.

Lemma trap_set : forall t p1 p2, 0 < tr_maxvel t -> 0 < tr_maxacc t -> p1 <> p2 ->
  exists t1 t2, trap_setProfile t p1 p2
     = Ret (mkTrap (tr_maxvel t) (tr_maxacc t) (canon (sign (p2 - p1)) (tr_maxacc t) t1 t2 p1 p2)) /\
    canon_ok (sign (p2 - p1)) (tr_maxacc t) t1 t2 p1 p2 /\ tr_maxacc t * t1 <= tr_maxvel t /\
    (tr_maxacc t * t1 = tr_maxvel t \/ t1 = t2).
Proof.
  intros [mv ma pl] p1 p2 Hv Ha Hne. simpl in *. unfold trap_setProfile. simpl.
  destruct (Req_EM_T mv 0) as [Q|_]; [exfalso; lra|]. destruct (Req_EM_T ma 0) as [Q|_]; [exfalso; lra|].
  set (s := sign (p2 - p1)).
  assert (Hs : s = 1 /\ 0 < p2 - p1 \/ s = -1 /\ p2 - p1 < 0).
  { unfold s. destruct (sign_cases (p2 - p1)) as [[? ?]|[? ?]]; [left|right]; split; lra. }
  assert (Hs0 : s <> 0) by (destruct Hs; lra).
  assert (Hss : s * s = 1) by (destruct Hs as [[-> _]|[-> _]]; ring).
  set (D := s * (p2 - p1)). assert (HD : 0 < D) by (unfold D; destruct Hs as [[-> ?]|[-> ?]]; lra).
  assert (ED : p2 - p1 = s * D) by (unfold D; rewrite <- Rmult_assoc, Hss; ring).
  destruct (Rlt_dec 0 _) as [L|L].
  - assert (EdT : (p2 - p1 - 2 * (s * ma * sqr (mv / ma) / 2)) / (s * mv) = D / mv - mv / ma).
    { rewrite ED. unfold sqr. field. split; [lra|split; [lra|exact Hs0]]. }
    rewrite EdT in *.
    exists (mv / ma), (D / mv). split; [|split; [|split]].
    + f_equal. f_equal. unfold canon. f_equal; peel; field; lra.
    + unfold canon_ok. split; [destruct Hs as [[? _]|[? _]]; auto|]. split; [lra|].
      split; [apply Rdiv_lt_0_compat; lra|]. split; [lra|].
      replace p2 with (p1 + s * D) by lra. field. lra.
    + right. field. lra.
    + left. field. lra.
  - assert (EdT : (p2 - p1 - 2 * (s * ma * sqr (mv / ma) / 2)) / (s * mv) = D / mv - mv / ma).
    { rewrite ED. unfold sqr. field. split; [lra|split; [lra|exact Hs0]]. }
    rewrite EdT in L.
    assert (EDa : (p2 - p1) / s / ma = D / ma) by (rewrite ED; field; split; [lra|exact Hs0]).
    rewrite EDa. set (u := sqrt (D / ma)).
    assert (HDa : 0 < D / ma) by (apply Rdiv_lt_0_compat; lra).
    assert (Hu : 0 < u) by (apply sqrt_lt_R0; exact HDa).
    assert (Huu : u * u = D / ma) by (apply sqrt_sqrt; lra).
    exists u, u. split; [|split; [|split]].
    + f_equal. f_equal. unfold canon. f_equal; peel; try field.
    + unfold canon_ok. split; [destruct Hs as [[? _]|[? _]]; auto|]. split; [lra|].
      split; [exact Hu|]. split; [lra|].
      replace (s * ma * u * u) with (s * ma * (u * u)) by ring. rewrite Huu.
      replace p2 with (p1 + s * D) by lra. field. lra.
    + (* ma u <= mv from D/mv <= mv/ma *)
      assert (Hd : D <= mv * (mv / ma)).
      { assert (D / mv <= mv / ma) by lra. apply (Rmult_le_compat_l mv) in H; [|lra].
        replace (mv * (D / mv)) with D in H by (field; lra). exact H. }
      assert (Hm : ma * (u * u) * ma <= mv * mv).
      { rewrite Huu. replace (ma * (D / ma) * ma) with (D * ma) by (field; lra).
        apply (Rmult_le_compat_r ma) in Hd; [|lra].
        replace (mv * (mv / ma) * ma) with (mv * mv) in Hd by (field; lra). exact Hd. }
      nra.
    + right. reflexivity.
Qed.

Lemma trap_set_same : forall t p, 0 < tr_maxvel t -> 0 < tr_maxacc t ->
  trap_setProfile t p p = Ret (mkTrap (tr_maxvel t) (tr_maxacc t) (canon 1 (tr_maxacc t) 0 0 p p)).
Proof.
  intros [mv ma pl] p Hv Ha. simpl in *. unfold trap_setProfile. simpl.
  destruct (Req_EM_T mv 0) as [Q|_]; [exfalso; lra|]. destruct (Req_EM_T ma 0) as [Q|_]; [exfalso; lra|].
  replace (sign (p - p)) with 1 by (destruct (sign_cases (p - p)) as [[_ ->]|[H _]]; [reflexivity|lra]).
  assert (L' : ~ 0 < (p - p - 2 * (1 * ma * sqr (mv / ma) / 2)) / (1 * mv)).
  { unfold sqr. replace ((p - p - 2 * (1 * ma * (mv / ma * (mv / ma)) / 2)) / (1 * mv)) with (- (mv / ma)) by (field; lra).
    assert (0 < mv / ma) by (apply Rdiv_lt_0_compat; lra). lra. }
  destruct (Rlt_dec 0 _) as [L|L]; [exfalso; apply L'; exact L|].
  replace ((p - p) / 1 / ma) with 0 by (field; lra). rewrite sqrt_0.
  f_equal. f_equal. unfold canon. f_equal; peel; try field.
Qed.

Lemma canon0_pos : forall A p t, plan_pos (canon 1 A 0 0 p p) t = p.
Proof. intros. unfold plan_pos, canon, ltN; simpl. rdec; try reflexivity; replace t with 0 by lra; lra. Qed.
Lemma canon0_vel : forall A p t, plan_vel (canon 1 A 0 0 p p) t = 0.
Proof. intros. unfold plan_vel, canon, ltN; simpl. rdec; try reflexivity; replace t with 0 by lra; lra. Qed.
Lemma canon0_acc : forall A p, 0 < A -> limited A (plan_acc (canon 1 A 0 0 p p)).
Proof.
  intros A p HA t. unfold plan_acc, canon, ltN; simpl. rdec; try (rewrite Rabs_R0; lra).
  replace (2 * (- (1) * A / 2)) with (- A) by field. rewrite Rabs_Ropp, Rabs_right; lra.
Qed.
Lemma canon0_acceleration : forall A p, acceleration (plan_vel (canon 1 A 0 0 p p)) (plan_acc (canon 1 A 0 0 p p)).
Proof.
  intros A p. exists 0, 0, 0, 0. intros t N _ _ _.
  apply (dl_local _ (fun _ => 0) _ _ 1); [lra|intros; apply canon0_vel|].
  replace (plan_acc (canon 1 A 0 0 p p) t) with 0; [apply const_derive|].
  unfold plan_acc, canon, ltN; simpl. rdec; reflexivity.
Qed.

(** * Slowing a plan down *)
Lemma Rdiv_lt_iff : forall x y f, 0 < f -> (x < y / f <-> x * f < y).
Proof.
  intros x y f Hf. assert (E : y = y / f * f) by (field; lra). split; intros H.
  - rewrite E. apply Rmult_lt_compat_r; assumption.
  - rewrite E in H. apply Rmult_lt_reg_r in H; assumption.
Qed.

Lemma scale_pos : forall s A t1 t2 p1 p2 f t, 0 < f ->
  plan_pos (scale_plan (canon s A t1 t2 p1 p2) f ((t1 + t2) / f)) t = plan_pos (canon s A t1 t2 p1 p2) (t * f).
Proof.
  intros s A t1 t2 p1 p2 f t Hf. unfold plan_pos, scale_plan, canon, divN, ltN; simpl.
  destruct (Req_EM_T f 0) as [Q|_]; [exfalso; lra|].
  assert (A1 := Rdiv_lt_iff t t1 f Hf). assert (A2 := Rdiv_lt_iff t t2 f Hf).
  assert (A3 : t <= (t1 + t2) / f <-> t * f <= t1 + t2).
  { split; intros H.
    - replace (t1 + t2) with ((t1 + t2) / f * f) by (field; lra). apply Rmult_le_compat_r; lra.
    - apply (Rmult_le_reg_r f); [exact Hf|]. replace ((t1 + t2) / f * f) with (t1 + t2) by (field; lra). exact H. }
  assert (A0 : t < 0 <-> t * f < 0).
  { split; intros H; nra. }
  destruct (Rlt_dec t 0) as [L|L]; destruct (Rlt_dec (t * f) 0) as [L'|L']; try (exfalso; tauto); [reflexivity|].
  destruct (Rlt_dec t (t1 / f)) as [K|K]; destruct (Rlt_dec (t * f) t1) as [K'|K']; try (exfalso; tauto); [ring|].
  destruct (Rlt_dec t (t2 / f)) as [M|M]; destruct (Rlt_dec (t * f) t2) as [M'|M']; try (exfalso; tauto); [ring|].
  destruct (Rle_dec t ((t1 + t2) / f)) as [N|N]; destruct (Rle_dec (t * f) (t1 + t2)) as [N'|N']; try (exfalso; tauto); [ring|].
  reflexivity.
Qed.

Lemma scale_canon : forall s A t1 t2 p1 p2 f, 0 < f ->
  scale_plan (canon s A t1 t2 p1 p2) f ((t1 + t2) / f) = canon s (A * (f * f)) (t1 / f) (t2 / f) p1 p2.
Proof.
  intros s A t1 t2 p1 p2 f Hf. unfold scale_plan, canon, divN; simpl.
  destruct (Req_EM_T f 0) as [Q|_]; [exfalso; lra|].
  f_equal; field; lra.
Qed.

Lemma scale_ok : forall s A t1 t2 p1 p2 f, 0 < f -> canon_ok s A t1 t2 p1 p2 ->
  canon_ok s (A * (f * f)) (t1 / f) (t2 / f) p1 p2.
Proof.
  intros s A t1 t2 p1 p2 f Hf (Hs & HA & H1 & H2 & E). unfold canon_ok.
  split; [exact Hs|]. split; [apply Rmult_lt_0_compat; [lra|nra]|].
  split; [apply Rdiv_lt_0_compat; lra|]. split; [|rewrite E; field; lra].
  apply Rmult_le_compat_r; [left; apply Rinv_0_lt_compat; lra|lra].
Qed.
