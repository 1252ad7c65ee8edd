(** Proofs about the comparison operators and the hash functions. *)
From Coq Require Import Reals ZArith List Bool Lra Lia.
From Verif Require Import FramesModel FramesSpec FramesProofs RotationProofs FramesWitness RotationBands DualModel LipProofs EqModel EqSpec.
Import ListNotations.
Local Open Scope R_scope.

Lemma Equal_d_iff : forall a b eps, Equal_d a b eps = true <-> Rabs (a - b) < eps.
Proof.
  intros a b eps. unfold Equal_d. cbv zeta.
  destruct (Rlt_dec (a - b) eps); destruct (Rlt_dec (- eps) (a - b)); cbn; split; intro H; try discriminate; try reflexivity.
  - apply Rabs_def1; assumption.
  - apply Rabs_def2 in H. lra.
  - apply Rabs_def2 in H. lra.
  - apply Rabs_def2 in H. lra.
Qed.

Lemma F2_cons : forall (P : R -> R -> Prop) x y l m, Forall2 P (x :: l) (y :: m) <-> P x y /\ Forall2 P l m.
Proof. intros. split; intro H; [inversion H; auto | constructor; tauto]. Qed.
Lemma F2_nil : forall (P : R -> R -> Prop), Forall2 P [] [] <-> True.
Proof. intros. split; auto. Qed.

Ltac eqs :=
  cbn [app co_v co_r co_f co_t co_w co_v2 co_rot2 co_f2 co_d1 co_d2 co_vv co_rv co_fv co_tv co_va co_ra co_fa co_ta];
  unfold co_f, co_t, co_w, co_f2, co_vv, co_rv, co_fv, co_tv, co_va, co_ra, co_fa, co_ta,
         co_vv, co_rv, co_va, co_ra, co_v, co_r, co_v2, co_rot2, co_d1, co_d2; cbn [app];
  rewrite ?F2_cons, ?F2_nil.
Ltac unf :=
  unfold f_Equal, t_Equal, w_Equal, f2_Equal, d1_Equal, d2_Equal, fv_Equal, tv_Equal, fa_Equal, ta_Equal,
    rv_Equal, vv_Equal, ra_Equal, va_Equal, v_Equal, r_Equal, v2_Equal, rot2_Equal;
  rewrite ?andb_true_iff, ?Equal_d_iff.
Ltac inj := repeat match goal with a : ?T |- _ => match T with R => fail 1 | _ => destruct a end end; cbn;
  let H := fresh in intro H; injection H; intros; subst; reflexivity.
Ltac cm := split; [intros a b eps; unf; eqs; try tauto | intros a b; inj].

Lemma cm_v : compares_members co_v v_Equal.
Proof. cm. Qed.
Lemma cm_r : compares_members co_r r_Equal.
Proof. cm. Qed.
Lemma cm_f : compares_members co_f f_Equal.
Proof. cm. Qed.
Lemma cm_t : compares_members co_t t_Equal.
Proof. cm. Qed.
Lemma cm_w : compares_members co_w w_Equal.
Proof. cm. Qed.
Lemma cm_v2 : compares_members co_v2 v2_Equal.
Proof. cm. Qed.
Lemma cm_rot2 : compares_members co_rot2 rot2_Equal.
Proof. cm. Qed.
Lemma cm_f2 : compares_members co_f2 f2_Equal.
Proof. cm. Qed.
Lemma cm_d1 : compares_members co_d1 d1_Equal.
Proof.
  cm. rewrite (Rabs_minus_sym (d1t a)), (Rabs_minus_sym (d1g a)). tauto.
Qed.
Lemma cm_d2 : compares_members co_d2 d2_Equal.
Proof.
  cm. rewrite (Rabs_minus_sym (d2t a)), (Rabs_minus_sym (d2d a)), (Rabs_minus_sym (d2dd a)). tauto.
Qed.
Lemma cm_vv : compares_members co_vv vv_Equal.
Proof. cm. Qed.
Lemma cm_rv : compares_members co_rv rv_Equal.
Proof. cm. Qed.
Lemma cm_fv : compares_members co_fv fv_Equal.
Proof. cm. Qed.
Lemma cm_tv : compares_members co_tv tv_Equal.
Proof. cm. Qed.
Lemma cm_va : compares_members co_va va_Equal.
Proof. cm. Qed.
Lemma cm_ra : compares_members co_ra ra_Equal.
Proof. cm. Qed.
Lemma cm_fa : compares_members co_fa fa_Equal.
Proof. cm. Qed.
Lemma cm_ta : compares_members co_ta ta_Equal.
Proof. cm. Qed.

(** * Mixed comparisons *)
Lemma mixed_vel :
  (forall a b eps, vv_Equal_l a b eps = vv_Equal (rest_vv a) b eps) /\ (forall a b eps, vv_Equal_r a b eps = vv_Equal a (rest_vv b) eps) /\
  (forall a b eps, rv_Equal_l a b eps = rv_Equal (rest_rv a) b eps) /\ (forall a b eps, rv_Equal_r a b eps = rv_Equal a (rest_rv b) eps) /\
  (forall a b eps, fv_Equal_l a b eps = fv_Equal (rest_fv a) b eps) /\ (forall a b eps, fv_Equal_r a b eps = fv_Equal a (rest_fv b) eps) /\
  (forall a b eps, tv_Equal_l a b eps = tv_Equal (rest_tv a) b eps) /\ (forall a b eps, tv_Equal_r a b eps = tv_Equal a (rest_tv b) eps).
Proof. repeat split. Qed.
Lemma mixed_acc :
  (forall a b eps, va_Equal_l a b eps = va_Equal (rest_va a) b eps) /\ (forall a b eps, va_Equal_r a b eps = va_Equal a (rest_va b) eps) /\
  (forall a b eps, ra_Equal_l a b eps = ra_Equal (rest_ra a) b eps) /\ (forall a b eps, ra_Equal_r a b eps = ra_Equal a (rest_ra b) eps) /\
  (forall a b eps, fa_Equal_l a b eps = fa_Equal (rest_fa a) b eps) /\ (forall a b eps, fa_Equal_r a b eps = fa_Equal a (rest_fa b) eps) /\
  (forall a b eps, ta_Equal_l a b eps = ta_Equal (rest_ta a) b eps) /\ (forall a b eps, ta_Equal_r a b eps = ta_Equal a (rest_ta b) eps).
Proof. repeat split. Qed.

(** * The laws *)
Lemma F2_refl : forall eps l, 0 < eps -> Forall2 (fun x y => Rabs (x - y) < eps) l l.
Proof. induction l; constructor; auto. rewrite Rminus_diag_eq, Rabs_R0; auto. Qed.
Lemma F2_sym : forall eps l m, Forall2 (fun x y => Rabs (x - y) < eps) l m -> Forall2 (fun x y => Rabs (x - y) < eps) m l.
Proof. intros eps l m H. induction H; constructor; auto. rewrite Rabs_minus_sym. assumption. Qed.
Lemma F2_mono : forall e1 e2 l m, e1 <= e2 -> Forall2 (fun x y => Rabs (x - y) < e1) l m -> Forall2 (fun x y => Rabs (x - y) < e2) l m.
Proof. intros e1 e2 l m E H. induction H; constructor; auto. lra. Qed.
Lemma F2_trans : forall e1 e2 l m n, Forall2 (fun x y => Rabs (x - y) < e1) l m -> Forall2 (fun x y => Rabs (x - y) < e2) m n ->
  Forall2 (fun x y => Rabs (x - y) < e1 + e2) l n.
Proof.
  intros e1 e2 l m n H. revert n. induction H; intros n K; inversion K; subst; constructor; auto.
  replace (x - y0) with ((x - y) + (y - y0)) by ring. pose proof (Rabs_triang (x - y) (y - y0)). lra.
Qed.
Lemma laws_of_members : forall A co (Eq : A -> A -> R -> bool), (forall a, co a <> []) -> compares_members co Eq -> equal_laws Eq.
Proof.
  intros A co Eq N [M I]. repeat split.
  - intros a eps H. apply M, F2_refl, H.
  - intros a b eps. apply eq_iff_eq_true. rewrite !M. split; apply F2_sym.
  - intros a b e1 e2 E. rewrite !M. apply F2_mono, E.
  - intros a b eps E. apply not_true_iff_false. rewrite M. intro F. specialize (N a).
    inversion F; subst; [congruence|]. pose proof (Rabs_pos (x - y)). lra.
  - intros a b c e1 e2. rewrite !M. apply F2_trans.
Qed.

Lemma equal_laws_all :
  (equal_laws v2_Equal /\ equal_laws rot2_Equal /\ equal_laws f2_Equal) /\
  (equal_laws d1_Equal /\ equal_laws vv_Equal /\ equal_laws rv_Equal /\ equal_laws fv_Equal /\ equal_laws tv_Equal) /\
  (equal_laws d2_Equal /\ equal_laws va_Equal /\ equal_laws ra_Equal /\ equal_laws fa_Equal /\ equal_laws ta_Equal).
Proof.
  repeat match goal with |- _ /\ _ => split end;
  [ apply (laws_of_members _ co_v2) | apply (laws_of_members _ co_rot2) | apply (laws_of_members _ co_f2)
  | apply (laws_of_members _ co_d1) | apply (laws_of_members _ co_vv) | apply (laws_of_members _ co_rv)
  | apply (laws_of_members _ co_fv) | apply (laws_of_members _ co_tv) | apply (laws_of_members _ co_d2)
  | apply (laws_of_members _ co_va) | apply (laws_of_members _ co_ra) | apply (laws_of_members _ co_fa)
  | apply (laws_of_members _ co_ta) ]; first [intros a H; discriminate H |
   first [exact cm_v2 | exact cm_rot2 | exact cm_f2 | exact cm_d1 | exact cm_vv | exact cm_rv | exact cm_fv | exact cm_tv
     | exact cm_d2 | exact cm_va | exact cm_ra | exact cm_fa | exact cm_ta]].
Qed.

(** * Not literal, not transitive *)
Definition line {A} (eq : A -> A -> bool) (mk : R -> A) (d : R) : Prop := forall x y, eq (mk x) (mk y) = true <-> Rabs (x - y) < d.

Lemma line_not_literal : forall A (eq : A -> A -> bool) mk d, 0 < d -> (forall x y, mk x = mk y -> x = y) -> line eq mk d -> ~ literal eq.
Proof.
  intros A eq mk d D I L H. assert (E : mk 0 = mk (d / 2)).
  { apply H, L. rewrite Rabs_minus_sym, Rminus_0_r, Rabs_pos_eq; lra. }
  apply I in E. lra.
Qed.
Lemma line_not_transitive : forall A (eq : A -> A -> bool) mk d, 0 < d -> line eq mk d -> ~ transitive eq.
Proof.
  intros A eq mk d D L H.
  assert (E : eq (mk 0) (mk (3 / 2 * d)) = true).
  { apply (H _ (mk (3 / 4 * d))); apply L; rewrite Rabs_minus_sym.
    - rewrite Rminus_0_r, Rabs_pos_eq; lra.
    - rewrite Rabs_pos_eq; lra. }
  apply L in E. rewrite Rabs_minus_sym, Rminus_0_r, Rabs_pos_eq in E; lra.
Qed.

(** * hash_combine *)
Lemma combine_range : forall s h, (0 <= s < 2 ^ 64 -> 0 <= combine s h < 2 ^ 64)%Z.
Proof.
  intros s h H. unfold combine, word. set (m := (_ mod _)%Z).
  assert (M : (0 <= m < 2 ^ 64)%Z) by (apply Z.mod_pos_bound; lia).
  assert (P : (0 <= Z.lxor s m)%Z) by (apply Z.lxor_nonneg; split; intros; lia).
  split; [exact P|].
  destruct (Z.eq_dec (Z.lxor s m) 0) as [E|E]; [rewrite E; lia|].
  apply Z.log2_lt_pow2; [lia|].
  eapply Z.le_lt_trans; [apply Z.log2_lxor; lia|].
  apply Z.max_lub_lt; (destruct (Z.eq_dec s 0) as [->|]; [try (cbn; lia)|]); try (apply Z.log2_lt_pow2; lia).
  all: destruct (Z.eq_dec m 0) as [->|]; [cbn; lia | apply Z.log2_lt_pow2; lia].
Qed.
Lemma combine_inj : forall s h1 h2, (0 <= h1 < 2 ^ 64 -> 0 <= h2 < 2 ^ 64 -> combine s h1 = combine s h2 -> h1 = h2)%Z.
Proof.
  intros s h1 h2 H1 H2 E. unfold combine, word in E.
  assert (F := f_equal (Z.lxor s) E). rewrite <- !Z.lxor_assoc, Z.lxor_nilpotent, !Z.lxor_0_l in F.
  set (c := (0x9e3779b9 + (Z.shiftl s 6) mod 2 ^ 64 + Z.shiftr s 2)%Z) in *.
  replace (h1 + 0x9e3779b9 + (Z.shiftl s 6) mod 2 ^ 64 + Z.shiftr s 2)%Z with (h1 + c)%Z in F by (unfold c; ring).
  replace (h2 + 0x9e3779b9 + (Z.shiftl s 6) mod 2 ^ 64 + Z.shiftr s 2)%Z with (h2 + c)%Z in F by (unfold c; ring).
  assert (G : ((h1 - h2) mod 2 ^ 64 = 0)%Z).
  { replace (h1 - h2)%Z with ((h1 + c) - (h2 + c))%Z by ring. rewrite Zminus_mod, F, Z.sub_diag. reflexivity. }
  apply Z.mod_divide in G; [|lia]. destruct G as [k G]. nia.
Qed.
(** boost's documentation: the order of the arguments matters *)
Lemma size_t_last : forall A (f : A -> Z) (g : A -> Z), (forall a, exists s, f a = combine s (g a) /\ (0 <= s < 2 ^ 64)%Z) -> size_t_valued f.
Proof. intros A f g H a. destruct (H a) as [s [-> S]]. apply combine_range, S. Qed.

Section H.
Variable hd : R -> Z.
Hypothesis HD : size_t_valued hd.
Lemma r0_64 : (0 <= 0 < 2 ^ 64)%Z. Proof. lia. Qed.
Ltac rng := intro; unfold hash_v, hash_f, hash_w, hash_t, hash_v2, hash_rot2, hash_f2, hash_d1, hash_vv, hash_rv, hash_fv, hash_tv, hash_d2, hash_va, hash_ra, hash_fa, hash_ta; repeat apply combine_range; apply r0_64.
Lemma rng_v : size_t_valued (hash_v hd). Proof. rng. Qed.
Lemma rng_r : size_t_valued (hash_r hd).
Proof. intro r. unfold hash_r. destruct (r_GetQuaternion r) as [[[x y] z] w]. repeat apply combine_range. apply r0_64. Qed.
Lemma rng_f : size_t_valued (hash_f hd). Proof. rng. Qed.
Lemma rng_w : size_t_valued (hash_w hd). Proof. rng. Qed.
Lemma rng_t : size_t_valued (hash_t hd). Proof. rng. Qed.
Lemma rng_v2 : size_t_valued (hash_v2 hd). Proof. rng. Qed.
Lemma rng_rot2 : size_t_valued (hash_rot2 hd). Proof. rng. Qed.
Lemma rng_f2 : size_t_valued (hash_f2 hd). Proof. rng. Qed.
Lemma rng_d1 : size_t_valued (hash_d1 hd). Proof. rng. Qed.
Lemma rng_vv : size_t_valued (hash_vv hd). Proof. rng. Qed.
Lemma rng_rv : size_t_valued (hash_rv hd). Proof. rng. Qed.
Lemma rng_fv : size_t_valued (hash_fv hd). Proof. rng. Qed.
Lemma rng_tv : size_t_valued (hash_tv hd). Proof. rng. Qed.
Lemma rng_d2 : size_t_valued (hash_d2 hd). Proof. rng. Qed.
Lemma rng_va : size_t_valued (hash_va hd). Proof. rng. Qed.
Lemma rng_ra : size_t_valued (hash_ra hd). Proof. rng. Qed.
Lemma rng_fa : size_t_valued (hash_fa hd). Proof. rng. Qed.
Lemma rng_ta : size_t_valued (hash_ta hd). Proof. rng. Qed.

End H.

(** * Walking *)
Lemma arch : forall d x, 0 < d -> exists n, x < INR n * d.
Proof.
  intros d x D. destruct (archimed (Rabs x / d)) as [A _]. exists (Z.to_nat (up (Rabs x / d))).
  assert (P : 0 <= Rabs x / d) by (apply Rmult_le_pos; [apply Rabs_pos | left; apply Rinv_0_lt_compat, D]).
  rewrite INR_IZR_INZ, Z2Nat.id by (apply le_IZR; lra).
  apply Rgt_lt, (Rmult_lt_compat_r d _ _ D) in A. unfold Rdiv in A at 1. rewrite Rmult_assoc, Rinv_l, Rmult_1_r in A by lra.
  pose proof (Rle_abs x). lra.
Qed.
Lemma walk : forall (g : R -> Z) d, 0 < d -> (forall x y, Rabs (x - y) < d -> g x = g y) -> forall x y, g x = g y.
Proof.
  intros g d D H.
  assert (W : forall n x y, Rabs (x - y) < INR (S n) * d -> g x = g y).
  { induction n as [|n IH]; intros x y B.
    - apply H. cbn in B. lra.
    - set (m := x + (y - x) / INR (S (S n))). pose proof (lt_0_INR (S (S n)) (Nat.lt_0_succ _)) as P.
      assert (E1 : x - m = (x - y) / INR (S (S n))) by (unfold m; field; lra).
      assert (E2 : m - y = (x - y) * (INR (S n) / INR (S (S n)))).
      { unfold m. rewrite !(S_INR (S n)) in *. field. lra. }
      transitivity (g m).
      + apply H. rewrite E1. unfold Rdiv. rewrite Rabs_mult, (Rabs_pos_eq (/ _)) by (left; apply Rinv_0_lt_compat, P).
        apply (Rmult_lt_reg_r (INR (S (S n)))); [exact P|]. rewrite Rmult_assoc, Rinv_l, Rmult_1_r by lra. lra.
      + pose proof (lt_0_INR (S n) (Nat.lt_0_succ _)) as Q.
        apply IH. rewrite E2, Rabs_mult, (Rabs_pos_eq (INR (S n) / _)) by (apply Rlt_le, Rdiv_lt_0_compat; assumption).
        apply (Rmult_lt_reg_r (INR (S (S n)))); [exact P|].
        replace (Rabs (x - y) * (INR (S n) / INR (S (S n))) * INR (S (S n))) with (INR (S n) * Rabs (x - y)) by (field; lra).
        replace (INR (S n) * d * INR (S (S n))) with (INR (S n) * (INR (S (S n)) * d)) by ring.
        apply Rmult_lt_compat_l; [exact Q | exact B]. }
  intros x y. destruct (arch d (Rabs (x - y)) D) as [n N].
  apply (W n). rewrite S_INR. lra.
Qed.

Lemma kp : 0 < kdl_epsilon.
Proof. unfold kdl_epsilon. lra. Qed.

(** One-parameter families on which the operators answer by the distance of the parameters. *)
Definition ln_v (x : R) : Vector := mkV 0 0 x.
Definition ln_r (x : R) : Rotation := mkR 1 0 0 0 (-1) 0 0 (4 * x) (-1).
Definition ln_f (x : R) : Frame := mkF (ln_r x) (ln_v 0).
Definition ln_t (x : R) : Twist := mkT (ln_v 0) (ln_v x).
Definition ln_w (x : R) : Wrench := mkW (ln_v 0) (ln_v x).
Definition ln_v2 (x : R) : Vector2 := mkV2 0 x.
Definition ln_d1 (x : R) : dVel := mkD1 0 x.
Definition ln_d2 (x : R) : dAcc := mkD2 0 0 x.
Definition ln_vv (x : R) : VectorVel := mkVV (ln_v 0) (ln_v x).
Definition ln_rv (x : R) : RotationVel := mkRV r_id (ln_v x).
Definition ln_fv (x : R) : FrameVel := mkFV (mkRV r_id (ln_v 0)) (ln_vv x).
Definition ln_tv (x : R) : TwistVel := mkTV (ln_vv 0) (ln_vv x).

Lemma z0 : forall c, Rabs (c - c) < kdl_epsilon <-> True.
Proof. intro c. rewrite Rminus_diag_eq, Rabs_R0 by reflexivity. pose proof kp. tauto. Qed.
Lemma four : forall x y, Rabs (4 * x - 4 * y) < kdl_epsilon <-> Rabs (x - y) < kdl_epsilon / 4.
Proof. intros x y. replace (4 * x - 4 * y) with (4 * (x - y)) by ring. rewrite Rabs_mult, (Rabs_pos_eq 4) by lra. lra. Qed.
Ltac ln := intros x y; unfold v_eq, r_eq, f_eq, t_eq, w_eq, v2_eq, d1_eq, d2_eq, vv_eq, rv_eq, fv_eq, tv_eq; unf;
  unfold ln_f, ln_t, ln_w, ln_fv, ln_tv, ln_vv, ln_rv, ln_v, ln_r, ln_v2, ln_d1, ln_d2, r_id; cbn; rewrite ?z0, ?four; try tauto.
Lemma line_v : line v_eq ln_v kdl_epsilon. Proof. ln. Qed.
Lemma line_r : line r_eq ln_r (kdl_epsilon / 4). Proof. ln. Qed.
Lemma line_f : line f_eq ln_f (kdl_epsilon / 4). Proof. ln. Qed.
Lemma line_t : line t_eq ln_t kdl_epsilon. Proof. ln. Qed.
Lemma line_w : line w_eq ln_w kdl_epsilon. Proof. ln. Qed.
Lemma line_v2 : line v2_eq ln_v2 kdl_epsilon. Proof. ln. Qed.
Lemma line_d1 : line d1_eq ln_d1 kdl_epsilon. Proof. ln. rewrite (Rabs_minus_sym y). tauto. Qed.
Lemma line_d2 : line d2_eq ln_d2 kdl_epsilon. Proof. ln. rewrite (Rabs_minus_sym y). tauto. Qed.
Lemma line_vv : line vv_eq ln_vv kdl_epsilon. Proof. ln. Qed.
Lemma line_rv : line rv_eq ln_rv kdl_epsilon. Proof. ln. Qed.
Lemma line_fv : line fv_eq ln_fv kdl_epsilon. Proof. ln. Qed.
Lemma line_tv : line tv_eq ln_tv kdl_epsilon. Proof. ln. Qed.

Ltac li := let H := fresh in intros x y H; injection H; intros; lra.
Lemma bad : forall A (eq : A -> A -> bool) mk d, 0 < d -> (forall x y, mk x = mk y -> x = y) -> line eq mk d -> ~ literal eq /\ ~ transitive eq.
Proof. intros A eq mk d D I L. split; [eapply line_not_literal | eapply line_not_transitive]; eassumption. Qed.
Lemma k4 : 0 < kdl_epsilon / 4.
Proof. pose proof kp. lra. Qed.
Lemma not_literal_all :
  (~ literal v_eq /\ ~ transitive v_eq) /\ (~ literal r_eq /\ ~ transitive r_eq) /\ (~ literal f_eq /\ ~ transitive f_eq) /\
  (~ literal t_eq /\ ~ transitive t_eq) /\ (~ literal w_eq /\ ~ transitive w_eq) /\ (~ literal v2_eq /\ ~ transitive v2_eq) /\
  (~ literal d1_eq /\ ~ transitive d1_eq) /\ (~ literal d2_eq /\ ~ transitive d2_eq) /\ (~ literal vv_eq /\ ~ transitive vv_eq) /\
  (~ literal rv_eq /\ ~ transitive rv_eq) /\ (~ literal fv_eq /\ ~ transitive fv_eq) /\ (~ literal tv_eq /\ ~ transitive tv_eq).
Proof.
  split; [apply (bad _ _ ln_v _ kp); [li | exact line_v]|].
  split; [apply (bad _ _ ln_r _ k4); [li | exact line_r]|].
  split; [apply (bad _ _ ln_f _ k4); [li | exact line_f]|].
  split; [apply (bad _ _ ln_t _ kp); [li | exact line_t]|].
  split; [apply (bad _ _ ln_w _ kp); [li | exact line_w]|].
  split; [apply (bad _ _ ln_v2 _ kp); [li | exact line_v2]|].
  split; [apply (bad _ _ ln_d1 _ kp); [li | exact line_d1]|].
  split; [apply (bad _ _ ln_d2 _ kp); [li | exact line_d2]|].
  split; [apply (bad _ _ ln_vv _ kp); [li | exact line_vv]|].
  split; [apply (bad _ _ ln_rv _ kp); [li | exact line_rv]|].
  split; [apply (bad _ _ ln_fv _ kp); [li | exact line_fv]|].
  apply (bad _ _ ln_tv _ kp); [li | exact line_tv].
Qed.

(** * The contract of the hash functions *)
Local Opaque combine.
Section C.
Variable hd : R -> Z.
Hypothesis HD : size_t_valued hd.

Lemma contract_iff : forall A (eq : A -> A -> bool) (h : A -> Z) mk d, 0 < d -> line eq mk d ->
  (forall x y, h (mk x) = h (mk y) -> hd x = hd y) -> (constant hd -> constant h) -> (hash_agrees eq h <-> constant hd).
Proof.
  intros A eq h mk d D L I K. split.
  - intros H x y. apply I. apply (walk (fun t => h (mk t)) d D). intros s t B. apply H, L, B.
  - intros C a b _. apply K, C.
Qed.

Ltac sz := first [apply HD | repeat apply combine_range; apply r0_64].
Lemma inj_v : forall a b c c', hash_v hd (mkV a b c) = hash_v hd (mkV a b c') -> hd c = hd c'.
Proof. intros a b c c' H. unfold hash_v in H. cbn in H. apply combine_inj in H; auto. Qed.
Lemma quat_ln : forall x, r_GetQuaternion (ln_r x) = (1, 0, 0, x).
Proof.
  intro x. unfold r_GetQuaternion, ln_r. cbn. unfold rpy_epsilon.
  destruct (Rlt_dec _ (1 + -1 + -1)); [lra|]. destruct (Rlt_dec (-1) 1); [|lra]. cbn.
  replace (1 + 1 - -1 - -1) with (2 * 2) by ring. rewrite sqrt_square by lra.
  f_equal; [f_equal; [f_equal|]|]; field.
Qed.
Lemma inj_r : forall x y, hash_r hd (ln_r x) = hash_r hd (ln_r y) -> hd x = hd y.
Proof. intros x y H. unfold hash_r in H. rewrite !quat_ln in H. apply combine_inj in H; auto. Qed.

Lemma k_v : constant hd -> constant (hash_v hd).
Proof. intros C a b. unfold hash_v. rewrite (C (vx a) (vx b)), (C (vy a) (vy b)), (C (vz a) (vz b)). reflexivity. Qed.
Lemma k_r : constant hd -> constant (hash_r hd).
Proof.
  intros C a b. unfold hash_r. destruct (r_GetQuaternion a) as [[[x y] z] w], (r_GetQuaternion b) as [[[x' y'] z'] w'].
  rewrite (C x x'), (C y y'), (C z z'), (C w w'). reflexivity.
Qed.
Lemma k_f : constant hd -> constant (hash_f hd).
Proof. intros C a b. unfold hash_f. rewrite (k_v C (fp a) (fp b)), (k_r C (fM a) (fM b)). reflexivity. Qed.
Lemma k_w : constant hd -> constant (hash_w hd).
Proof. intros C a b. unfold hash_w. rewrite (k_v C (wforce a) (wforce b)), (k_v C (wtorque a) (wtorque b)). reflexivity. Qed.
Lemma k_t : constant hd -> constant (hash_t hd).
Proof. intros C a b. unfold hash_t. rewrite (k_v C (tvel a) (tvel b)), (k_v C (trot a) (trot b)). reflexivity. Qed.
Lemma k_v2 : constant hd -> constant (hash_v2 hd).
Proof. intros C a b. unfold hash_v2. rewrite (C (v2x a) (v2x b)), (C (v2y a) (v2y b)). reflexivity. Qed.
Lemma k_d1 : constant hd -> constant (hash_d1 hd).
Proof. intros C a b. unfold hash_d1. rewrite (C (d1t a) (d1t b)), (C (d1g a) (d1g b)). reflexivity. Qed.
Lemma k_d2 : constant hd -> constant (hash_d2 hd).
Proof. intros C a b. unfold hash_d2. rewrite (C (d2t a) (d2t b)), (C (d2d a) (d2d b)), (C (d2dd a) (d2dd b)). reflexivity. Qed.
Lemma k_vv : constant hd -> constant (hash_vv hd).
Proof. intros C a b. unfold hash_vv. rewrite (k_v C (vvp a) (vvp b)), (k_v C (vvv a) (vvv b)). reflexivity. Qed.
Lemma k_rv : constant hd -> constant (hash_rv hd).
Proof. intros C a b. unfold hash_rv. rewrite (k_r C (rvR a) (rvR b)), (k_v C (rvw a) (rvw b)). reflexivity. Qed.
Lemma k_fv : constant hd -> constant (hash_fv hd).
Proof. intros C a b. unfold hash_fv. rewrite (k_rv C (fvM a) (fvM b)), (k_vv C (fvp a) (fvp b)). reflexivity. Qed.
Lemma k_tv : constant hd -> constant (hash_tv hd).
Proof. intros C a b. unfold hash_tv. rewrite (k_vv C (tvvel a) (tvvel b)), (k_vv C (tvrot a) (tvrot b)). reflexivity. Qed.

Ltac pl := intros x y H; unfold hash_t, hash_w, hash_v2, hash_d1, hash_d2, hash_rv, hash_fv, hash_tv, hash_vv, hash_v,
    ln_t, ln_w, ln_v2, ln_d1, ln_d2, ln_rv, ln_fv, ln_tv, ln_vv, ln_v in H;
  cbn [tvel trot wforce wtorque v2x v2y d1t d1g d2t d2d d2dd rvR rvw fvM fvp tvvel tvrot vvp vvv vx vy vz] in H;
  repeat match type of H with combine _ _ = combine _ _ => apply combine_inj in H; [|sz ..] end; auto.
Lemma hash_contract :
  (hash_agrees v_eq (hash_v hd) <-> constant hd) /\ (hash_agrees r_eq (hash_r hd) <-> constant hd) /\ (hash_agrees f_eq (hash_f hd) <-> constant hd) /\ (hash_agrees t_eq (hash_t hd) <-> constant hd) /\ (hash_agrees w_eq (hash_w hd) <-> constant hd) /\ (hash_agrees v2_eq (hash_v2 hd) <-> constant hd) /\ (hash_agrees d1_eq (hash_d1 hd) <-> constant hd) /\ (hash_agrees d2_eq (hash_d2 hd) <-> constant hd) /\ (hash_agrees vv_eq (hash_vv hd) <-> constant hd) /\ (hash_agrees rv_eq (hash_rv hd) <-> constant hd) /\ (hash_agrees fv_eq (hash_fv hd) <-> constant hd) /\ (hash_agrees tv_eq (hash_tv hd) <-> constant hd).
Proof.
  split; [apply (contract_iff _ _ _ _ _ kp line_v); [pl | exact k_v]|].
  split; [apply (contract_iff _ _ _ _ _ k4 line_r); [exact inj_r | exact k_r]|].
  split; [apply (contract_iff _ _ _ _ _ k4 line_f); [intros x y H; apply inj_r; unfold hash_f, ln_f in H; cbn [fp fM] in H; apply combine_inj in H; [exact H | apply rng_r ..] | exact k_f]|].
  split; [apply (contract_iff _ _ _ _ _ kp line_t); [pl | exact k_t]|].
  split; [apply (contract_iff _ _ _ _ _ kp line_w); [pl | exact k_w]|].
  split; [apply (contract_iff _ _ _ _ _ kp line_v2); [pl | exact k_v2]|].
  split; [apply (contract_iff _ _ _ _ _ kp line_d1); [pl | exact k_d1]|].
  split; [apply (contract_iff _ _ _ _ _ kp line_d2); [pl | exact k_d2]|].
  split; [apply (contract_iff _ _ _ _ _ kp line_vv); [pl | exact k_vv]|].
  split; [apply (contract_iff _ _ _ _ _ kp line_rv); [pl | exact k_rv]|].
  split; [apply (contract_iff _ _ _ _ _ kp line_fv); [pl | exact k_fv]|].
  apply (contract_iff _ _ _ _ _ kp line_tv); [pl | exact k_tv].
Qed.
End C.

(** * Proper rotations *)
Lemma bounded_unit : forall n, unit_vector n -> Rabs (vx n) <= 1 /\ Rabs (vy n) <= 1 /\ Rabs (vz n) <= 1.
Proof.
  intros n U. unfold unit_vector in U.
  assert (B : forall t, t * t <= 1 -> Rabs t <= 1). { intros t H. apply Rabs_le. nra. }
  repeat split; apply B; nra.
Qed.

Lemma prod_le1 : forall a b, Rabs a <= 1 -> Rabs b <= 1 -> Rabs (a * b) <= 1.
Proof. intros a b A B. rewrite Rabs_mult. pose proof (Rabs_pos a). pose proof (Rabs_pos b). nra. Qed.
Lemma lin2 : forall k l u v d, Rabs k <= 1 -> Rabs l <= 1 -> Rabs u <= d -> Rabs v <= d -> Rabs (k * u + l * v) <= 2 * d.
Proof.
  intros k l u v d K L U V. eapply Rle_trans; [apply Rabs_triang|]. rewrite !Rabs_mult.
  pose proof (Rabs_pos k). pose proof (Rabs_pos l). pose proof (Rabs_pos u). pose proof (Rabs_pos v). nra.
Qed.
Lemma Rot2_near : forall n a b d, unit_vector n -> Rabs (a - b) < d -> r_close (r_Rot2 n a) (r_Rot2 n b) (3 * d).
Proof.
  intros n a b d U B. destruct (bounded_unit n U) as [X [Y Z]].
  pose proof (cos_lip a b) as C. pose proof (sin_lip a b) as SN.
  assert (C' : Rabs (cos a - cos b) <= d) by lra. assert (S' : Rabs (sin a - sin b) <= d) by lra.
  assert (D : 0 < d) by (pose proof (Rabs_pos (a - b)); lra).
  assert (N1 : Rabs 1 <= 1) by (rewrite Rabs_R1; lra).
  assert (O : forall t, Rabs t <= 1 -> Rabs (- t) <= 1) by (intros t H; rewrite Rabs_Ropp; exact H).
  assert (SQ : forall t, Rabs t <= 1 -> Rabs (1 - t * t) <= 1).
  { intros t H. apply Rabs_le. pose proof (Rle_abs t). pose proof (Rle_abs (- t)) as Q. rewrite Rabs_Ropp in Q. nra. }
  assert (F : forall x y k l, Rabs k <= 1 -> Rabs l <= 1 -> x - y = k * (cos a - cos b) + l * (sin a - sin b) -> close x y (3 * d)).
  { intros x y k l K L E. unfold close. rewrite E. eapply Rle_lt_trans; [apply lin2 with (d := d); eassumption | lra]. }
  assert (Z0 : Rabs 0 <= 1) by (rewrite Rabs_R0; lra).
  unfold r_close, r_Rot2. cbn. repeat split.
  - apply (F _ _ (1 - vx n * vx n) 0); auto; ring.
  - apply (F _ _ (- (vx n * vy n)) (- vz n)); auto using prod_le1; ring.
  - apply (F _ _ (- (vx n * vz n)) (vy n)); auto using prod_le1; ring.
  - apply (F _ _ (- (vx n * vy n)) (vz n)); auto using prod_le1; ring.
  - apply (F _ _ (1 - vy n * vy n) 0); auto; ring.
  - apply (F _ _ (- (vy n * vz n)) (- vx n)); auto using prod_le1; ring.
  - apply (F _ _ (- (vx n * vz n)) (- vy n)); auto using prod_le1; ring.
  - apply (F _ _ (- (vy n * vz n)) (vx n)); auto using prod_le1; ring.
  - apply (F _ _ (1 - vz n * vz n) 0); auto; ring.
Qed.
Lemma Rot2_0 : forall n, r_Rot2 n 0 = r_id.
Proof. intro n. unfold r_Rot2, r_id. rewrite cos_0, sin_0. f_equal; ring. Qed.
Lemma close_req : forall a b, r_close a b kdl_epsilon -> r_eq a b = true.
Proof. intros a b H. unfold r_eq. unf. unfold r_close, close in H. tauto. Qed.

(** Whatever agrees on proper rotations that compare equal is the same for all proper rotations. *)
Lemma connected : forall (g : Rotation -> Z), (forall a b, is_rotation a -> is_rotation b -> r_eq a b = true -> g a = g b) ->
  forall r, is_rotation r -> g r = g r_id.
Proof.
  intros g G r I. pose proof kp as K.
  assert (T := GetRotAngle_total r kdl_epsilon I ltac:(split; [lra | unfold kdl_epsilon; lra])).
  destruct (r_GetRotAngle r kdl_epsilon) as [n a]. unfold r_Rot in T. pose proof (v_normalize_unit n) as U.
  set (m := fst (v_normalize n)) in *.
  transitivity (g (r_Rot2 m a)).
  - symmetry. apply G; [apply is_rotation_Rot2, U | exact I | apply close_req, T].
  - rewrite <- (Rot2_0 m). apply (walk (fun t => g (r_Rot2 m t)) (kdl_epsilon / 3)); [lra|].
    intros x y B. apply G; [apply is_rotation_Rot2, U .. |]. apply close_req.
    replace kdl_epsilon with (3 * (kdl_epsilon / 3)) by field. apply Rot2_near; assumption.
Qed.
Lemma proper_rotations : forall hd, hash_agrees_on is_rotation r_eq (hash_r hd) ->
  forall a b, is_rotation a -> is_rotation b -> hash_r hd a = hash_r hd b.
Proof.
  intros hd H a b A B. rewrite (connected (hash_r hd)), (connected (hash_r hd) ltac:(exact H) b); auto.
Qed.
Lemma proper_frames : forall hd, hash_agrees_on rigid f_eq (hash_f hd) ->
  forall a b, rigid a -> rigid b -> hash_f hd a = hash_f hd b.
Proof.
  intros hd H.
  assert (W : forall f, rigid f -> hash_f hd f = hash_f hd (mkF r_id (mkV 0 0 0))).
  { intros [m p] I. unfold rigid in I. cbn in I.
    rewrite (connected (fun r => hash_f hd (mkF r p))); [| | exact I].
    2: { intros a b A B E. apply H; [exact A | exact B|]. unfold f_eq. unfold f_Equal. cbn. apply andb_true_iff. split; [|exact E].
         unf. rewrite !z0. tauto. }
    assert (IR : is_rotation r_id) by (rewrite <- (Rot2_0 (mkV 1 0 0)); apply is_rotation_Rot2; unfold unit_vector; cbn; ring).
    destruct p as [x y z].
    transitivity (hash_f hd (mkF r_id (mkV 0 y z))).
    { apply (walk (fun t => hash_f hd (mkF r_id (mkV t y z))) _ kp). intros s t B. apply H; [exact IR | exact IR|].
      unfold f_eq. unf. cbn. rewrite !z0. tauto. }
    transitivity (hash_f hd (mkF r_id (mkV 0 0 z))).
    { apply (walk (fun t => hash_f hd (mkF r_id (mkV 0 t z))) _ kp). intros s t B. apply H; [exact IR | exact IR|].
      unfold f_eq. unf. cbn. rewrite !z0. tauto. }
    apply (walk (fun t => hash_f hd (mkF r_id (mkV 0 0 t))) _ kp). intros s t B. apply H; [exact IR | exact IR|].
    unfold f_eq. unf. cbn. rewrite !z0. tauto. }
  intros a b A B. rewrite (W a A), (W b B). reflexivity.
Qed.

Lemma members_all :
  (compares_members co_v v_Equal /\ compares_members co_r r_Equal /\ compares_members co_f f_Equal /\
   compares_members co_t t_Equal /\ compares_members co_w w_Equal) /\
  (compares_members co_v2 v2_Equal /\ compares_members co_rot2 rot2_Equal /\ compares_members co_f2 f2_Equal) /\
  (compares_members co_d1 d1_Equal /\ compares_members co_vv vv_Equal /\ compares_members co_rv rv_Equal /\
   compares_members co_fv fv_Equal /\ compares_members co_tv tv_Equal) /\
  (compares_members co_d2 d2_Equal /\ compares_members co_va va_Equal /\ compares_members co_ra ra_Equal /\
   compares_members co_fa fa_Equal /\ compares_members co_ta ta_Equal).
Proof.
  exact (conj (conj cm_v (conj cm_r (conj cm_f (conj cm_t cm_w)))) (conj (conj cm_v2 (conj cm_rot2 cm_f2))
    (conj (conj cm_d1 (conj cm_vv (conj cm_rv (conj cm_fv cm_tv)))) (conj cm_d2 (conj cm_va (conj cm_ra (conj cm_fa cm_ta))))))).
Qed.
Lemma hash_range_all : forall hd,
  size_t_valued (hash_v hd) /\ size_t_valued (hash_r hd) /\ size_t_valued (hash_f hd) /\ size_t_valued (hash_t hd) /\
  size_t_valued (hash_w hd) /\ size_t_valued (hash_v2 hd) /\ size_t_valued (hash_rot2 hd) /\ size_t_valued (hash_f2 hd) /\
  size_t_valued (hash_d1 hd) /\ size_t_valued (hash_vv hd) /\ size_t_valued (hash_rv hd) /\ size_t_valued (hash_fv hd) /\
  size_t_valued (hash_tv hd) /\ size_t_valued (hash_d2 hd) /\ size_t_valued (hash_va hd) /\ size_t_valued (hash_ra hd) /\
  size_t_valued (hash_fa hd) /\ size_t_valued (hash_ta hd).
Proof.
  intro hd. repeat match goal with |- _ /\ _ => split end;
  first [apply rng_v | apply rng_r | apply rng_f | apply rng_t | apply rng_w | apply rng_v2 | apply rng_rot2 | apply rng_f2 | apply rng_d1
    | apply rng_vv | apply rng_rv | apply rng_fv | apply rng_tv | apply rng_d2 | apply rng_va | apply rng_ra | apply rng_fa | apply rng_ta].
Qed.
Lemma operators_from A (co : A -> list R) Eq : compares_members co Eq -> operators_agree co (fun a b => Eq a b kdl_epsilon) (fun a b => negb (Eq a b kdl_epsilon)).
Proof.
  intros [H _] a b. replace (1 / 10 ^ 6) with kdl_epsilon by (unfold kdl_epsilon; lra). rewrite <- H. destruct (Eq a b kdl_epsilon); cbn; intuition discriminate.
Qed.
Lemma operators_all : operators_agree co_v v_eq v_ne /\ operators_agree co_r r_eq r_ne /\ operators_agree co_f f_eq f_ne /\ operators_agree co_t t_eq t_ne /\
  operators_agree co_w w_eq w_ne /\ operators_agree co_v2 v2_eq v2_ne /\ operators_agree co_vv vv_eq vv_ne /\ operators_agree co_rv rv_eq rv_ne /\
  operators_agree co_fv fv_eq fv_ne /\ operators_agree co_tv tv_eq tv_ne.
Proof.
  repeat match goal with |- _ /\ _ => split end; [apply (operators_from _ _ _ cm_v)|apply (operators_from _ _ _ cm_r)|apply (operators_from _ _ _ cm_f)|apply (operators_from _ _ _ cm_t)
  |apply (operators_from _ _ _ cm_w)|apply (operators_from _ _ _ cm_v2)|apply (operators_from _ _ _ cm_vv)|apply (operators_from _ _ _ cm_rv)|apply (operators_from _ _ _ cm_fv)|apply (operators_from _ _ _ cm_tv)].
Qed.
