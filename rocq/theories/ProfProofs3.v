(** Half-trapezoidal, rectangular, impulse and spline profiles. *)
From Coq Require Import Reals Lra Lia Psatz Bool.
From Verif Require Import FramesModel Outcome DerivProofs ProfModel ProfSpec ProfProofs ProfProofs2.
Local Open Scope R_scope.

(** * Continuity of glued functions *)
Definition cont_at (f : R -> R) (x : R) : Prop :=
  forall eps, 0 < eps -> exists d, 0 < d /\ forall y, Rabs (y - x) < d -> Rabs (f y - f x) < eps.

Lemma cont_glue : forall f g h x d, 0 < d ->
  (forall y, Rabs (y - x) < d -> f y = g y \/ f y = h y) ->
  f x = g x -> f x = h x -> cont_at g x -> cont_at h x -> cont_at f x.
Proof.
  intros f g h x d Hd Hl Eg Eh Cg Ch eps He.
  destruct (Cg eps He) as (d1 & H1 & Q1). destruct (Ch eps He) as (d2 & H2 & Q2).
  exists (Rmin d (Rmin d1 d2)). split; [repeat apply Rmin_pos; assumption|]. intros y Hy.
  assert (Rabs (y - x) < d) by (eapply Rlt_le_trans; [exact Hy|apply Rmin_l]).
  assert (K : Rabs (y - x) < Rmin d1 d2) by (eapply Rlt_le_trans; [exact Hy|apply Rmin_r]).
  assert (Rabs (y - x) < d1) by (eapply Rlt_le_trans; [exact K|apply Rmin_l]).
  assert (Rabs (y - x) < d2) by (eapply Rlt_le_trans; [exact K|apply Rmin_r]).
  destruct (Hl y) as [E|E]; [assumption| |]; rewrite E; [rewrite Eg; apply Q1|rewrite Eh; apply Q2]; assumption.
Qed.

Lemma cont_derive : forall f x l, derivable_pt_lim f x l -> cont_at f x.
Proof.
  intros f x l D eps He.
  assert (C : continuity_pt f x) by (apply derivable_continuous_pt; exists l; exact D).
  destruct (C eps He) as (d & Hd & Q). exists d. split; [exact Hd|]. intros y Hy.
  destruct (Req_EM_T y x) as [E|N]; [rewrite E, Rminus_diag_eq, Rabs_R0 by reflexivity; exact He|].
  apply Q. split; [split; [exact I|intros E; apply N; symmetry; exact E]|exact Hy].
Qed.

Lemma cont_quad : forall a b c x, cont_at (quad a b c) x.
Proof. intros. eapply cont_derive. apply quad_derive. Qed.
Lemma cont_const : forall c x, cont_at (fun _ => c) x.
Proof. intros. eapply cont_derive. apply const_derive. Qed.
Lemma cont_local : forall f g x d, 0 < d -> (forall y, Rabs (y - x) < d -> f y = g y) -> cont_at g x -> cont_at f x.
Proof.
  intros f g x d Hd H C. apply (cont_glue f g g x d); auto; apply H; rewrite Rminus_diag_eq, Rabs_R0; auto.
Qed.

(** * Plans with two distinct switching times *)
Section Pieces.
Variables (p : Plan) (t1 t2 : R).
Hypothesis E1 : pt1 p = Some t1.
Hypothesis E2 : pt2 p = Some t2.
Hypothesis H1 : 0 <= t1.
Hypothesis H12 : t1 < t2.
Hypothesis H2 : t2 <= pdur p.
Let qa := quad (pa1 p) (pa2 p) (pa3 p).
Let qb := quad (pb1 p) (pb2 p) (pb3 p).
Let qc := quad (pc1 p) (pc2 p) (pc3 p).
Let va := quadv (pa2 p) (pa3 p).
Let vb := quadv (pb2 p) (pb3 p).
Let vc := quadv (pc2 p) (pc3 p).

Lemma pc_pos : forall t,
  (t < 0 -> plan_pos p t = pstart p) /\ (0 <= t < t1 -> plan_pos p t = qa t) /\
  (t1 <= t < t2 -> plan_pos p t = qb t) /\ (t2 <= t <= pdur p -> plan_pos p t = qc t) /\
  (pdur p < t -> plan_pos p t = pend p).
Proof.
  intros t. unfold plan_pos. rewrite E1, E2. unfold ltN, qa, qb, qc, quad. repeat split; intros; rdec; reflexivity.
Qed.
Lemma pc_vel : forall t,
  (t < 0 -> plan_vel p t = 0) /\ (0 <= t < t1 -> plan_vel p t = va t) /\
  (t1 <= t < t2 -> plan_vel p t = vb t) /\ (t2 <= t <= pdur p -> plan_vel p t = vc t) /\
  (pdur p < t -> plan_vel p t = 0).
Proof.
  intros t. unfold plan_vel. rewrite E1, E2. unfold ltN, va, vb, vc, quadv. repeat split; intros; rdec; reflexivity.
Qed.
Lemma pc_acc : forall t,
  (t < 0 -> plan_acc p t = 0) /\ (0 <= t < t1 -> plan_acc p t = 2 * pa3 p) /\
  (t1 <= t < t2 -> plan_acc p t = 2 * pb3 p) /\ (t2 <= t <= pdur p -> plan_acc p t = 2 * pc3 p) /\
  (pdur p < t -> plan_acc p t = 0).
Proof.
  intros t. unfold plan_acc. rewrite E1, E2. unfold ltN. repeat split; intros; rdec; reflexivity.
Qed.

Lemma pc_acceleration : acceleration (plan_vel p) (plan_acc p).
Proof.
  exists 0, t1, t2, (pdur p). intros t N0 N1 N2 N3.
  destruct (pc_acc t) as (A0 & Aa & Ab & Ac & A1).
  assert (C : t < 0 \/ 0 < t < t1 \/ t1 < t < t2 \/ t2 < t < pdur p \/ pdur p < t) by lra.
  destruct C as [C|[C|[C|[C|C]]]].
  - rewrite A0 by lra. apply (dl_local _ (fun _ => 0) _ _ (- t)); [lra| |apply const_derive].
    intros y Hy. apply abs_lt in Hy. destruct (pc_vel y) as (Q & _). apply Q. lra.
  - rewrite Aa by lra. apply (dl_local _ va _ _ (Rmin t (t1 - t))); [apply Rmin_pos; lra| |apply quadv_derive].
    intros y Hy. apply abs_lt in Hy. pose proof (Rmin_l t (t1 - t)). pose proof (Rmin_r t (t1 - t)). apply pc_vel. lra.
  - rewrite Ab by lra. apply (dl_local _ vb _ _ (Rmin (t - t1) (t2 - t))); [apply Rmin_pos; lra| |apply quadv_derive].
    intros y Hy. apply abs_lt in Hy. pose proof (Rmin_l (t - t1) (t2 - t)). pose proof (Rmin_r (t - t1) (t2 - t)). apply pc_vel. lra.
  - rewrite Ac by lra. apply (dl_local _ vc _ _ (Rmin (t - t2) (pdur p - t))); [apply Rmin_pos; lra| |apply quadv_derive].
    intros y Hy. apply abs_lt in Hy. pose proof (Rmin_l (t - t2) (pdur p - t)). pose proof (Rmin_r (t - t2) (pdur p - t)). apply pc_vel. lra.
  - rewrite A1 by lra. apply (dl_local _ (fun _ => 0) _ _ (t - pdur p)); [lra| |apply const_derive].
    intros y Hy. apply abs_lt in Hy. destruct (pc_vel y) as (_ & _ & _ & _ & Q). apply Q. lra.
Qed.

Hypothesis J0 : pstart p = (if Rlt_dec 0 t1 then qa 0 else qb 0).
Hypothesis J1 : qa t1 = qb t1.
Hypothesis J2 : qb t2 = qc t2.
Hypothesis J3 : pend p = qc (pdur p).

Lemma pc_continuous : continuous (plan_pos p).
Proof.
  intros x. change (cont_at (plan_pos p) x).
  pose proof pc_pos as P.
  destruct (Rtotal_order x 0) as [C|[C|C]].
  - apply (cont_local _ (fun _ => pstart p) _ (- x)); [lra| |apply cont_const].
    intros y Hy. apply abs_lt in Hy. apply P. lra.
  - subst x. destruct (Rlt_dec 0 t1) as [L|L].
    + apply (cont_glue _ (fun _ => pstart p) qa _ t1); [lra| | | |apply cont_const|apply cont_quad].
      * intros y Hy. apply abs_lt in Hy. destruct (Rlt_dec y 0); [left; apply P; lra|right; apply P; lra].
      * rewrite J0. apply P. lra.
      * apply P. lra.
    + apply (cont_glue _ (fun _ => pstart p) qb _ t2); [lra| | | |apply cont_const|apply cont_quad].
      * intros y Hy. apply abs_lt in Hy. destruct (Rlt_dec y 0); [left; apply P; lra|right; apply P; lra].
      * rewrite J0. apply P. lra.
      * apply P. lra.
  - destruct (Rtotal_order x t1) as [D|[D|D]].
    + apply (cont_local _ qa _ (Rmin x (t1 - x))); [apply Rmin_pos; lra| |apply cont_quad].
      intros y Hy. apply abs_lt in Hy. pose proof (Rmin_l x (t1 - x)). pose proof (Rmin_r x (t1 - x)). apply P. lra.
    + subst x. apply (cont_glue _ qa qb _ (Rmin t1 (t2 - t1))); [apply Rmin_pos; lra| | | |apply cont_quad|apply cont_quad].
      * intros y Hy. apply abs_lt in Hy. pose proof (Rmin_l t1 (t2 - t1)). pose proof (Rmin_r t1 (t2 - t1)).
        destruct (Rlt_dec y t1); [left; apply P; lra|right; apply P; lra].
      * rewrite J1. apply P. lra.
      * apply P. lra.
    + destruct (Rtotal_order x t2) as [F|[F|F]].
      * apply (cont_local _ qb _ (Rmin (x - t1) (t2 - x))); [apply Rmin_pos; lra| |apply cont_quad].
        intros y Hy. apply abs_lt in Hy. pose proof (Rmin_l (x - t1) (t2 - x)). pose proof (Rmin_r (x - t1) (t2 - x)). apply P. lra.
      * subst x. destruct (Rlt_dec t2 (pdur p)) as [G|G].
        -- apply (cont_glue _ qb qc _ (Rmin (t2 - t1) (pdur p - t2))); [apply Rmin_pos; lra| | | |apply cont_quad|apply cont_quad].
           ++ intros y Hy. apply abs_lt in Hy. pose proof (Rmin_l (t2 - t1) (pdur p - t2)). pose proof (Rmin_r (t2 - t1) (pdur p - t2)).
              destruct (Rlt_dec y t2); [left; apply P; lra|right; apply P; lra].
           ++ rewrite J2. apply P. lra.
           ++ apply P. lra.
        -- assert (Q : t2 = pdur p) by lra.
           apply (cont_glue _ qb (fun _ => pend p) _ (t2 - t1)); [lra| | | |apply cont_quad|apply cont_const].
           ++ intros y Hy. apply abs_lt in Hy.
              destruct (Rlt_dec y t2); [left; apply P; lra|].
              destruct (Req_EM_T y t2) as [E|E]; [left; rewrite E, J2; apply P; lra|right; apply P; lra].
           ++ rewrite J2. apply P. lra.
           ++ rewrite J3, <- Q. apply P. lra.
      * destruct (Rtotal_order x (pdur p)) as [G|[G|G]].
        -- apply (cont_local _ qc _ (Rmin (x - t2) (pdur p - x))); [apply Rmin_pos; lra| |apply cont_quad].
           intros y Hy. apply abs_lt in Hy. pose proof (Rmin_l (x - t2) (pdur p - x)). pose proof (Rmin_r (x - t2) (pdur p - x)). apply P. lra.
        -- subst x. apply (cont_glue _ qc (fun _ => pend p) _ (pdur p - t2)); [lra| | | |apply cont_quad|apply cont_const].
           ++ intros y Hy. apply abs_lt in Hy. destruct (Rlt_dec (pdur p) y); [right; apply P; lra|left; apply P; lra].
           ++ apply P. lra.
           ++ rewrite J3. apply P. lra.
        -- apply (cont_local _ (fun _ => pend p) _ (x - pdur p)); [lra| |apply cont_const].
           intros y Hy. apply abs_lt in Hy. apply P. lra.
Qed.

Hypothesis K1 : va t1 = vb t1.
Hypothesis K2 : vb t2 = vc t2.

Lemma pc_velocity : velocity_on 0 (pdur p) (plan_pos p) (plan_vel p).
Proof.
  intros x Hx. pose proof pc_pos as P. destruct (pc_vel x) as (_ & Va & Vb & Vc & _).
  destruct (Rtotal_order x t1) as [D|[D|D]].
  - rewrite Va by lra. apply (dl_local _ qa _ _ (Rmin x (t1 - x))); [apply Rmin_pos; lra| |apply quad_derive].
    intros y Hy. apply abs_lt in Hy. pose proof (Rmin_l x (t1 - x)). pose proof (Rmin_r x (t1 - x)). apply P. lra.
  - subst x. rewrite Vb by lra.
    apply (dl_glue _ qa qb _ _ (Rmin t1 (t2 - t1))); [apply Rmin_pos; lra| | | |rewrite <- K1; apply quad_derive|apply quad_derive].
    * intros y Hy. apply abs_lt in Hy. pose proof (Rmin_l t1 (t2 - t1)). pose proof (Rmin_r t1 (t2 - t1)).
      destruct (Rlt_dec y t1); [left; apply P; lra|right; apply P; lra].
    * rewrite J1. apply P. lra.
    * apply P. lra.
  - destruct (Rtotal_order x t2) as [F|[F|F]].
    + rewrite Vb by lra. apply (dl_local _ qb _ _ (Rmin (x - t1) (t2 - x))); [apply Rmin_pos; lra| |apply quad_derive].
      intros y Hy. apply abs_lt in Hy. pose proof (Rmin_l (x - t1) (t2 - x)). pose proof (Rmin_r (x - t1) (t2 - x)). apply P. lra.
    + subst x. rewrite Vc by lra.
      apply (dl_glue _ qb qc _ _ (Rmin (t2 - t1) (pdur p - t2))); [apply Rmin_pos; lra| | | |rewrite <- K2; apply quad_derive|apply quad_derive].
      * intros y Hy. apply abs_lt in Hy. pose proof (Rmin_l (t2 - t1) (pdur p - t2)). pose proof (Rmin_r (t2 - t1) (pdur p - t2)).
        destruct (Rlt_dec y t2); [left; apply P; lra|right; apply P; lra].
      * rewrite J2. apply P. lra.
      * apply P. lra.
    + rewrite Vc by lra. apply (dl_local _ qc _ _ (Rmin (x - t2) (pdur p - x))); [apply Rmin_pos; lra| |apply quad_derive].
      intros y Hy. apply abs_lt in Hy. pose proof (Rmin_l (x - t2) (pdur p - x)). pose proof (Rmin_r (x - t2) (pdur p - x)). apply P. lra.
Qed.
End Pieces.

(** * The two half trapezoids *)
(** standing still until t1, accelerating with [a] until t2, then cruising at [v] *)
Definition up_ok (s a v t1 t2 T p1 p2 : R) : Prop :=
  (s = 1 \/ s = -1) /\ 0 < s * a /\ 0 <= t1 /\ t1 < t2 /\ t2 <= T /\ v = a * (t2 - t1) /\
  p2 = p1 + a * ((t2 - t1) * (t2 - t1)) / 2 + v * (T - t2).
(** cruising at [v] until t1, decelerating with [a] until t2, then standing still *)
Definition down_ok (s a v t1 t2 T p1 p2 : R) : Prop :=
  (s = 1 \/ s = -1) /\ 0 < s * a /\ 0 <= t1 /\ t1 < t2 /\ t2 <= T /\ v = a * (t2 - t1) /\
  p2 = p1 + v * t1 + a * ((t2 - t1) * (t2 - t1)) / 2.

Lemma s_abs : forall s x, (s = 1 \/ s = -1) -> 0 <= s * x -> Rabs x = s * x.
Proof. intros s x [-> | ->] H; [rewrite Rabs_right|rewrite Rabs_left1]; lra. Qed.

Lemma up_motion : forall s a v t1 t2 T p1 p2, up_ok s a v t1 t2 T p1 p2 ->
  let p := half_plan1 p1 p2 T t1 t2 v a in
  half_motion p1 p2 T (Rabs v) (Rabs a) (plan_pos p) (plan_vel p) (plan_acc p) /\
  plan_vel p 0 = 0 /\ plan_vel p T = v.
Proof.
  intros s a v t1 t2 T p1 p2 (Hs & Ha & H1 & H12 & H2 & Ev & Ep) p.
  assert (F1 : pt1 p = Some t1) by reflexivity. assert (F2 : pt2 p = Some t2) by reflexivity.
  assert (FT : pdur p = T) by reflexivity.
  assert (H2' : t2 <= pdur p) by exact H2.
  pose proof (pc_pos p t1 t2 F1 F2 H1 H12 H2') as P.
  pose proof (pc_vel p t1 t2 F1 F2 H1 H12 H2') as V.
  pose proof (pc_acc p t1 t2 F1 F2 H1 H12 H2') as C.
  assert (Hss : s * s = 1) by (destruct Hs; subst s; ring).
  assert (Esv : s * v = s * a * (t2 - t1)) by (rewrite Ev; ring).
  assert (Hv : 0 < s * v) by (rewrite Esv; apply Rmult_lt_0_compat; lra).
  assert (Qa : forall t, quad (pa1 p) (pa2 p) (pa3 p) t = p1) by (intros; unfold quad; simpl; ring).
  assert (Qb : forall t, quad (pb1 p) (pb2 p) (pb3 p) t = p1 + a * ((t - t1) * (t - t1)) / 2) by (intros; unfold quad; simpl; field).
  assert (Qc : forall t, quad (pc1 p) (pc2 p) (pc3 p) t = p2 - v * (T - t)) by (intros; unfold quad; simpl; ring).
  assert (Wa : forall t, quadv (pa2 p) (pa3 p) t = 0) by (intros; unfold quadv; simpl; ring).
  assert (Wb : forall t, quadv (pb2 p) (pb3 p) t = a * (t - t1)) by (intros; unfold quadv; simpl; field).
  assert (Wc : forall t, quadv (pc2 p) (pc3 p) t = v) by (intros; unfold quadv; simpl; ring).
  assert (J0 : pstart p = (if Rlt_dec 0 t1 then quad (pa1 p) (pa2 p) (pa3 p) 0 else quad (pb1 p) (pb2 p) (pb3 p) 0)).
  { rewrite Qa, Qb. destruct (Rlt_dec 0 t1); [reflexivity|]. replace t1 with 0 by lra. simpl. field. }
  assert (J1 : quad (pa1 p) (pa2 p) (pa3 p) t1 = quad (pb1 p) (pb2 p) (pb3 p) t1) by (rewrite Qa, Qb; field).
  assert (J2 : quad (pb1 p) (pb2 p) (pb3 p) t2 = quad (pc1 p) (pc2 p) (pc3 p) t2) by (rewrite Qb, Qc, Ep; ring).
  assert (J3 : pend p = quad (pc1 p) (pc2 p) (pc3 p) (pdur p)) by (rewrite Qc, FT; simpl; ring).
  assert (G0 : forall t, t <= 0 -> plan_pos p t = p1).
  { intros t Ht. destruct (Rlt_dec t 0) as [L|L]; [apply P; exact L|]. replace t with 0 by lra.
    destruct (P 0) as (_ & Pa & Pb & _). change p1 with (pstart p). rewrite J0.
    destruct (Rlt_dec 0 t1); [apply Pa; lra|apply Pb; lra]. }
  assert (GT : forall t, T <= t -> plan_pos p t = p2).
  { intros t Ht. destruct (Rlt_dec T t) as [L|L]; [apply P; rewrite FT; exact L|]. replace t with T by lra.
    destruct (P T) as (_ & _ & _ & Pc & _). change p2 with (pend p). rewrite J3, FT. apply Pc. rewrite FT. lra. }
  split; [|split].
  - split; [|split; [|split; [|split; [|split]]]].
    + split; [lra|]. split; [exact G0|]. split; [exact GT|].
      intros t.
      assert (K : 0 <= s * (plan_pos p t - p1) /\ 0 <= s * (p2 - plan_pos p t)).
      { assert (Hd : 0 <= s * (p2 - p1)).
        { rewrite Ep. replace (s * (p1 + a * ((t2 - t1) * (t2 - t1)) / 2 + v * (T - t2) - p1))
            with (s * a * ((t2 - t1) * (t2 - t1)) / 2 + s * v * (T - t2)) by field.
          assert (0 <= s * a * ((t2 - t1) * (t2 - t1))) by (apply Rmult_le_pos; nra).
          assert (0 <= s * v * (T - t2)) by (apply Rmult_le_pos; lra). lra. }
        destruct (P t) as (P0 & Pa & Pb & Pc & P1). rewrite FT in Pc, P1.
        assert (C5 : t < 0 \/ 0 <= t < t1 \/ t1 <= t < t2 \/ t2 <= t <= T \/ T < t) by lra.
        destruct C5 as [C5|[C5|[C5|[C5|C5]]]].
        - rewrite P0 by lra. change (pstart p) with p1. split; [rewrite Rminus_diag_eq by reflexivity; lra|exact Hd].
        - rewrite Pa by lra. rewrite Qa. split; [rewrite Rminus_diag_eq by reflexivity; lra|exact Hd].
        - rewrite Pb by lra. rewrite Qb. split.
          + replace (s * (p1 + a * ((t - t1) * (t - t1)) / 2 - p1)) with (s * a * ((t - t1) * (t - t1)) / 2) by field.
            assert (0 <= s * a * ((t - t1) * (t - t1))) by (apply Rmult_le_pos; nra). lra.
          + rewrite Ep. replace (s * (p1 + a * ((t2 - t1) * (t2 - t1)) / 2 + v * (T - t2) - (p1 + a * ((t - t1) * (t - t1)) / 2)))
              with (s * a * ((t2 - t) * (t2 - t1 + (t - t1))) / 2 + s * v * (T - t2)) by field.
            assert (0 <= s * a * ((t2 - t) * (t2 - t1 + (t - t1)))) by (apply Rmult_le_pos; [lra|apply Rmult_le_pos; lra]).
            assert (0 <= s * v * (T - t2)) by (apply Rmult_le_pos; lra). lra.
        - rewrite Pc by lra. rewrite Qc. split.
          + rewrite Ep. replace (s * (p1 + a * ((t2 - t1) * (t2 - t1)) / 2 + v * (T - t2) - v * (T - t) - p1))
              with (s * a * ((t2 - t1) * (t2 - t1)) / 2 + s * v * (t - t2)) by field.
            assert (0 <= s * a * ((t2 - t1) * (t2 - t1))) by (apply Rmult_le_pos; nra).
            assert (0 <= s * v * (t - t2)) by (apply Rmult_le_pos; lra). lra.
          + replace (s * (p2 - (p2 - v * (T - t)))) with (s * v * (T - t)) by ring. apply Rmult_le_pos; lra.
        - rewrite P1 by lra. change (pend p) with p2. split; [exact Hd|rewrite Rminus_diag_eq by reflexivity; lra]. }
      unfold between. destruct Hs; subst s; lra.
    + apply (pc_continuous p t1 t2 F1 F2 H1 H12 H2'); assumption.
    + rewrite <- FT. apply (pc_velocity p t1 t2 F1 F2 H1 H12 H2' J1 J2); [rewrite Wa, Wb; ring|rewrite Wb, Wc; rewrite Ev; ring].
    + rewrite (s_abs s v Hs) by lra. intros t. destruct (V t) as (V0 & Va & Vb & Vc & V1). rewrite FT in Vc, V1.
      assert (C5 : t < 0 \/ 0 <= t < t1 \/ t1 <= t < t2 \/ t2 <= t <= T \/ T < t) by lra.
      destruct C5 as [C5|[C5|[C5|[C5|C5]]]].
      * rewrite V0, Rabs_R0 by lra. lra.
      * rewrite Va, Wa, Rabs_R0 by lra. lra.
      * rewrite Vb, Wb by lra. rewrite (s_abs s _ Hs) by (rewrite <- Rmult_assoc; apply Rmult_le_pos; lra).
        rewrite Esv, <- Rmult_assoc. apply Rmult_le_compat_l; lra.
      * rewrite Vc, Wc by lra. rewrite (s_abs s v Hs); lra.
      * rewrite V1, Rabs_R0 by lra. lra.
    + intros t. destruct (C t) as (C0 & Ca & Cb & Cc & C1). rewrite FT in Cc, C1. pose proof (Rabs_pos a).
      assert (C5 : t < 0 \/ 0 <= t < t1 \/ t1 <= t < t2 \/ t2 <= t <= T \/ T < t) by lra.
      destruct C5 as [C5|[C5|[C5|[C5|C5]]]].
      * rewrite C0, Rabs_R0 by lra. lra.
      * rewrite Ca by lra. simpl. rewrite Rmult_0_r, Rabs_R0. lra.
      * rewrite Cb by lra. simpl. replace (2 * (a / 2)) with a by field. lra.
      * rewrite Cc by lra. simpl. rewrite Rmult_0_r, Rabs_R0. lra.
      * rewrite C1, Rabs_R0 by lra. lra.
    + apply (pc_acceleration p t1 t2 F1 F2 H1 H12 H2').
  - destruct (V 0) as (_ & Va & Vb & _).
    destruct (Rlt_dec 0 t1); [rewrite Va, Wa by lra; reflexivity|rewrite Vb, Wb by lra; replace t1 with 0 by lra; ring].
  - destruct (V T) as (_ & _ & _ & Vc & _). rewrite Vc, Wc; [reflexivity|rewrite FT; lra].
Qed.

Lemma down_motion : forall s a v t1 t2 T p1 p2, down_ok s a v t1 t2 T p1 p2 ->
  let p := half_plan2 p1 p2 T t1 t2 v a in
  half_motion p1 p2 T (Rabs v) (Rabs a) (plan_pos p) (plan_vel p) (plan_acc p) /\
  plan_vel p 0 = v /\ plan_vel p T = 0.
Proof.
  intros s a v t1 t2 T p1 p2 (Hs & Ha & H1 & H12 & H2 & Ev & Ep) p.
  assert (F1 : pt1 p = Some t1) by reflexivity. assert (F2 : pt2 p = Some t2) by reflexivity.
  assert (FT : pdur p = T) by reflexivity.
  assert (H2' : t2 <= pdur p) by exact H2.
  pose proof (pc_pos p t1 t2 F1 F2 H1 H12 H2') as P.
  pose proof (pc_vel p t1 t2 F1 F2 H1 H12 H2') as V.
  pose proof (pc_acc p t1 t2 F1 F2 H1 H12 H2') as C.
  assert (Hss : s * s = 1) by (destruct Hs; subst s; ring).
  assert (Esv : s * v = s * a * (t2 - t1)) by (rewrite Ev; ring).
  assert (Hv : 0 < s * v) by (rewrite Esv; apply Rmult_lt_0_compat; lra).
  assert (Qa : forall t, quad (pa1 p) (pa2 p) (pa3 p) t = p1 + v * t) by (intros; unfold quad; simpl; ring).
  assert (Qb : forall t, quad (pb1 p) (pb2 p) (pb3 p) t = p2 - a * ((t2 - t) * (t2 - t)) / 2) by (intros; unfold quad; simpl; field).
  assert (Qc : forall t, quad (pc1 p) (pc2 p) (pc3 p) t = p2) by (intros; unfold quad; simpl; ring).
  assert (Wa : forall t, quadv (pa2 p) (pa3 p) t = v) by (intros; unfold quadv; simpl; ring).
  assert (Wb : forall t, quadv (pb2 p) (pb3 p) t = a * (t2 - t)) by (intros; unfold quadv; simpl; field).
  assert (Wc : forall t, quadv (pc2 p) (pc3 p) t = 0) by (intros; unfold quadv; simpl; ring).
  assert (J1 : quad (pa1 p) (pa2 p) (pa3 p) t1 = quad (pb1 p) (pb2 p) (pb3 p) t1) by (rewrite Qa, Qb, Ep; field).
  assert (J0 : pstart p = (if Rlt_dec 0 t1 then quad (pa1 p) (pa2 p) (pa3 p) 0 else quad (pb1 p) (pb2 p) (pb3 p) 0)).
  { destruct (Rlt_dec 0 t1); [rewrite Qa; simpl; ring|]. assert (Z : t1 = 0) by lra. rewrite Z in J1.
    rewrite <- J1, Qa. simpl. ring. }
  assert (J2 : quad (pb1 p) (pb2 p) (pb3 p) t2 = quad (pc1 p) (pc2 p) (pc3 p) t2) by (rewrite Qb, Qc; field).
  assert (J3 : pend p = quad (pc1 p) (pc2 p) (pc3 p) (pdur p)) by (rewrite Qc; reflexivity).
  assert (G0 : forall t, t <= 0 -> plan_pos p t = p1).
  { intros t Ht. destruct (Rlt_dec t 0) as [L|L]; [apply P; exact L|]. replace t with 0 by lra.
    destruct (P 0) as (_ & Pa & Pb & _). change p1 with (pstart p). rewrite J0.
    destruct (Rlt_dec 0 t1); [apply Pa; lra|apply Pb; lra]. }
  assert (GT : forall t, T <= t -> plan_pos p t = p2).
  { intros t Ht. destruct (Rlt_dec T t) as [L|L]; [apply P; rewrite FT; exact L|]. replace t with T by lra.
    destruct (P T) as (_ & _ & _ & Pc & _). change p2 with (pend p). rewrite J3, FT. apply Pc. rewrite FT. lra. }
  split; [|split].
  - split; [|split; [|split; [|split; [|split]]]].
    + split; [lra|]. split; [exact G0|]. split; [exact GT|].
      intros t.
      assert (K : 0 <= s * (plan_pos p t - p1) /\ 0 <= s * (p2 - plan_pos p t)).
      { assert (Hd : 0 <= s * (p2 - p1)).
        { rewrite Ep. replace (s * (p1 + v * t1 + a * ((t2 - t1) * (t2 - t1)) / 2 - p1))
            with (s * a * ((t2 - t1) * (t2 - t1)) / 2 + s * v * t1) by field.
          assert (0 <= s * a * ((t2 - t1) * (t2 - t1))) by (apply Rmult_le_pos; nra).
          assert (0 <= s * v * t1) by (apply Rmult_le_pos; lra). lra. }
        destruct (P t) as (P0 & Pa & Pb & Pc & P1). rewrite FT in Pc, P1.
        assert (C5 : t < 0 \/ 0 <= t < t1 \/ t1 <= t < t2 \/ t2 <= t <= T \/ T < t) by lra.
        destruct C5 as [C5|[C5|[C5|[C5|C5]]]].
        - rewrite P0 by lra. change (pstart p) with p1. split; [rewrite Rminus_diag_eq by reflexivity; lra|exact Hd].
        - rewrite Pa by lra. rewrite Qa. split.
          + replace (s * (p1 + v * t - p1)) with (s * v * t) by ring. apply Rmult_le_pos; lra.
          + rewrite Ep. replace (s * (p1 + v * t1 + a * ((t2 - t1) * (t2 - t1)) / 2 - (p1 + v * t)))
              with (s * a * ((t2 - t1) * (t2 - t1)) / 2 + s * v * (t1 - t)) by field.
            assert (0 <= s * a * ((t2 - t1) * (t2 - t1))) by (apply Rmult_le_pos; nra).
            assert (0 <= s * v * (t1 - t)) by (apply Rmult_le_pos; lra). lra.
        - rewrite Pb by lra. rewrite Qb. split.
          + rewrite Ep. replace (s * (p1 + v * t1 + a * ((t2 - t1) * (t2 - t1)) / 2 - a * ((t2 - t) * (t2 - t)) / 2 - p1))
              with (s * a * ((t - t1) * (t2 - t1 + (t2 - t))) / 2 + s * v * t1) by field.
            assert (0 <= s * a * ((t - t1) * (t2 - t1 + (t2 - t)))) by (apply Rmult_le_pos; [lra|apply Rmult_le_pos; lra]).
            assert (0 <= s * v * t1) by (apply Rmult_le_pos; lra). lra.
          + replace (s * (p2 - (p2 - a * ((t2 - t) * (t2 - t)) / 2))) with (s * a * ((t2 - t) * (t2 - t)) / 2) by field.
            assert (0 <= s * a * ((t2 - t) * (t2 - t))) by (apply Rmult_le_pos; nra). lra.
        - rewrite Pc by lra. rewrite Qc. split; [exact Hd|rewrite Rminus_diag_eq by reflexivity; lra].
        - rewrite P1 by lra. change (pend p) with p2. split; [exact Hd|rewrite Rminus_diag_eq by reflexivity; lra]. }
      unfold between. destruct Hs; subst s; lra.
    + apply (pc_continuous p t1 t2 F1 F2 H1 H12 H2'); assumption.
    + rewrite <- FT. apply (pc_velocity p t1 t2 F1 F2 H1 H12 H2' J1 J2); [rewrite Wa, Wb; rewrite Ev; ring|rewrite Wb, Wc; ring].
    + rewrite (s_abs s v Hs) by lra. intros t. destruct (V t) as (V0 & Va & Vb & Vc & V1). rewrite FT in Vc, V1.
      assert (C5 : t < 0 \/ 0 <= t < t1 \/ t1 <= t < t2 \/ t2 <= t <= T \/ T < t) by lra.
      destruct C5 as [C5|[C5|[C5|[C5|C5]]]].
      * rewrite V0, Rabs_R0 by lra. lra.
      * rewrite Va, Wa by lra. rewrite (s_abs s v Hs); lra.
      * rewrite Vb, Wb by lra. rewrite (s_abs s _ Hs) by (rewrite <- Rmult_assoc; apply Rmult_le_pos; lra).
        rewrite Esv, <- Rmult_assoc. apply Rmult_le_compat_l; lra.
      * rewrite Vc, Wc, Rabs_R0 by lra. lra.
      * rewrite V1, Rabs_R0 by lra. lra.
    + intros t. destruct (C t) as (C0 & Ca & Cb & Cc & C1). rewrite FT in Cc, C1. pose proof (Rabs_pos a).
      assert (C5 : t < 0 \/ 0 <= t < t1 \/ t1 <= t < t2 \/ t2 <= t <= T \/ T < t) by lra.
      destruct C5 as [C5|[C5|[C5|[C5|C5]]]].
      * rewrite C0, Rabs_R0 by lra. lra.
      * rewrite Ca by lra. simpl. rewrite Rmult_0_r, Rabs_R0. lra.
      * rewrite Cb by lra. simpl. replace (2 * (- a / 2)) with (- a) by field. rewrite Rabs_Ropp. lra.
      * rewrite Cc by lra. simpl. rewrite Rmult_0_r, Rabs_R0. lra.
      * rewrite C1, Rabs_R0 by lra. lra.
    + apply (pc_acceleration p t1 t2 F1 F2 H1 H12 H2').
  - destruct (V 0) as (_ & Va & Vb & _).
    destruct (Rlt_dec 0 t1); [rewrite Va, Wa by lra; reflexivity|rewrite Vb, Wb by lra; rewrite Ev; replace t1 with 0 by lra; ring].
  - destruct (V T) as (_ & _ & _ & Vc & _). rewrite Vc, Wc; [reflexivity|rewrite FT; lra].
Qed.
