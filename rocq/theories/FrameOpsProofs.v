(** Frame group, power invariance, Equal, diff/addDelta, Integrate, DH, planar
    types, and the witnesses of the refuted claims. *)
From Coq Require Import Reals Lra Lia List Bool Psatz.
From Verif Require Import FramesModel FramesSpec FramesProofs RotationProofs RotationProofs2 RotationProofs3.
Import ListNotations.
Local Open Scope R_scope.

(** * Frame group *)

Lemma f_mul_assoc a b c : f_mul (f_mul a b) c = f_mul a (f_mul b c). Proof. geo. Qed.
Lemma f_mul_id_l a : f_mul f_id a = a. Proof. geo. Qed.
Lemma f_mul_id_r a : f_mul a f_id = a. Proof. geo. Qed.
Lemma f_mul_app a b v : f_app (f_mul a b) v = f_app a (f_app b v). Proof. geo. Qed.

Lemma f_inv_l f : rigid f -> f_mul (f_inv f) f = f_id.
Proof.
  intros H. apply f_ext; unfold f_mul, f_inv, f_id; psimp.
  - apply r_inv_l; exact H.
  - rewrite r_invapp_inv. geo.
Qed.

Lemma f_inv_r f : rigid f -> f_mul f (f_inv f) = f_id.
Proof.
  intros H. apply f_ext; unfold f_mul, f_inv, f_id; psimp.
  - apply r_inv_r; exact H.
  - rewrite r_app_neg, (r_app_invapp _ H). geo.
Qed.

Lemma rigid_mul a b : rigid a -> rigid b -> rigid (f_mul a b).
Proof. unfold rigid, f_mul; psimp. apply is_rotation_mul. Qed.
Lemma rigid_inv a : rigid a -> rigid (f_inv a).
Proof. unfold rigid, f_inv; psimp. apply r_inv_rotation. Qed.
Lemma rigid_id : rigid f_id.
Proof. apply is_rotation_id. Qed.

Lemma f_invapp_app f v : rigid f -> f_invapp f (f_app f v) = v.
Proof. intros H. unfold f_invapp, f_app. rewrite v_sub_add. apply (r_invapp_app _ H). Qed.
Lemma f_app_invapp f v : rigid f -> f_app f (f_invapp f v) = v.
Proof. intros H. unfold f_invapp, f_app. rewrite (r_app_invapp _ H). apply v_add_sub. Qed.

Lemma f_inv_app f v : rigid f -> f_app (f_inv f) v = f_invapp f v.
Proof. intros H. unfold f_invapp, f_app, f_inv; psimp. geo. Qed.

Lemma f_mul_app_t a b t : rigid a -> f_app_t (f_mul a b) t = f_app_t a (f_app_t b t).
Proof.
  intros H. apply t_ext; unfold f_app_t, f_mul; psimp.
  - rewrite r_app_add, (r_app_cross _ H), !r_mul_app, v_cross_add_l. geo.
  - apply r_mul_app.
Qed.
Lemma f_mul_app_w a b w : rigid a -> f_app_w (f_mul a b) w = f_app_w a (f_app_w b w).
Proof.
  intros H. apply w_ext; unfold f_app_w, f_mul; psimp.
  - apply r_mul_app.
  - rewrite r_app_add, (r_app_cross _ H), !r_mul_app, v_cross_add_l. geo.
Qed.

Lemma f_invapp_app_t f t : rigid f -> f_invapp_t f (f_app_t f t) = t.
Proof.
  intros H. apply t_ext; unfold f_app_t, f_invapp_t; psimp.
  - rewrite v_sub_add. apply (r_invapp_app _ H).
  - apply (r_invapp_app _ H).
Qed.
Lemma f_app_invapp_t f t : rigid f -> f_app_t f (f_invapp_t f t) = t.
Proof.
  intros H. apply t_ext; unfold f_app_t, f_invapp_t; psimp.
  - rewrite !(r_app_invapp _ H). apply v_add_sub.
  - apply (r_app_invapp _ H).
Qed.
Lemma f_invapp_app_w f w : rigid f -> f_invapp_w f (f_app_w f w) = w.
Proof.
  intros H. apply w_ext; unfold f_app_w, f_invapp_w; psimp.
  - apply (r_invapp_app _ H).
  - rewrite v_sub_add. apply (r_invapp_app _ H).
Qed.
Lemma f_app_invapp_w f w : rigid f -> f_app_w f (f_invapp_w f w) = w.
Proof.
  intros H. apply w_ext; unfold f_app_w, f_invapp_w; psimp.
  - apply (r_app_invapp _ H).
  - rewrite !(r_app_invapp _ H). apply v_add_sub.
Qed.
Lemma f_inv_app_t f t : rigid f -> f_app_t (f_inv f) t = f_invapp_t f t.
Proof.
  intros H. apply t_ext; unfold f_invapp_t, f_app_t, f_inv; psimp; [|geo].
  rewrite r_invapp_inv, !r_invapp_inv, r_app_sub, (r_app_cross _ (r_inv_rotation _ H)). geo.
Qed.
Lemma f_inv_app_w f w : rigid f -> f_app_w (f_inv f) w = f_invapp_w f w.
Proof.
  intros H. apply w_ext; unfold f_invapp_w, f_app_w, f_inv; psimp; [geo|].
  rewrite r_invapp_inv, !r_invapp_inv, r_app_sub, (r_app_cross _ (r_inv_rotation _ H)). geo.
Qed.

(** * Power *)

Lemma r_power r t w : is_rotation r -> tw_dot (r_app_t r t) (r_app_w r w) = tw_dot t w.
Proof. intros H. unfold tw_dot, r_app_t, r_app_w; psimp. rewrite !(r_app_dot _ H). reflexivity. Qed.

Lemma f_power f t w : rigid f -> tw_dot (f_app_t f t) (f_app_w f w) = tw_dot t w.
Proof.
  intros H. rewrite <- (r_power (fM f) t w H).
  unfold tw_dot, f_app_t, f_app_w, r_app_t, r_app_w; psimp.
  set (a := r_app (fM f) (tvel t)). set (b := r_app (fM f) (trot t)).
  set (c := r_app (fM f) (wforce w)). set (d := r_app (fM f) (wtorque w)). set (p := fp f).
  clearbody a b c d p. geo.
Qed.

Lemma ref_power t w p : tw_dot (t_RefPoint t p) (w_RefPoint w p) = tw_dot t w.
Proof. geo. Qed.

Lemma cross_power a t w : tw_dot (t_cross a t) w = - tw_dot t (tw_cross a w).
Proof. geo. Qed.

(** * Normalize *)

Lemma v_normalize_spec eps v : 0 < eps ->
  kdl_epsilon <= max_abs v -> eps <= euclid_norm v ->
  v_normalize_eps eps v = (v_div v (euclid_norm v), euclid_norm v) /\
  unit_vector (v_div v (euclid_norm v)).
Proof.
  intros He M L. pose proof (v_normalize_eps_unit eps v He) as U.
  assert (E : v_normalize_eps eps v = (v_div v (euclid_norm v), euclid_norm v)).
  { unfold v_normalize_eps. unfold v_norm. rewrite v_norm_eps_exact; [|apply kdl_epsilon_pos|exact M].
    destruct (Rlt_dec (euclid_norm v) eps); [lra|reflexivity]. }
  split; [exact E|]. rewrite E in U. exact U.
Qed.

Lemma v_normalize_small eps v : 0 < eps -> euclid_norm v < eps ->
  v_normalize_eps eps v = (mkV 1 0 0, 0).
Proof.
  intros He L. unfold v_normalize_eps. pose proof (v_norm_0_or v).
  destruct (Rlt_dec (v_norm v) eps); [reflexivity|lra].
Qed.

Lemma v2_norm_eps_exact eps v : 0 < eps -> eps <= Rabs (v2x v) \/ eps <= Rabs (v2y v) ->
  v2_norm_eps eps v = euclid_norm2 v.
Proof.
  intros He L. unfold v2_norm_eps, euclid_norm2.
  destruct (Rlt_dec (Rabs (v2x v)) eps) as [A|A]; destruct (Rlt_dec (Rabs (v2y v)) eps) as [B|B];
    cbn [andb]; try lra;
  (destruct (Rlt_dec (Rabs (v2y v)) (Rabs (v2x v))) as [C|C];
   [rewrite norm_branch2 by (apply Rabs_pos_neq; lra); reflexivity|
    rewrite norm_branch2 by (apply Rabs_pos_neq; lra); f_equal; ring]).
Qed.

Lemma v2_norm_eps_small eps v : 0 < eps -> Rabs (v2x v) < eps -> Rabs (v2y v) < eps ->
  v2_norm_eps eps v = 0.
Proof.
  intros He A B. unfold v2_norm_eps.
  destruct (Rlt_dec (Rabs (v2x v)) eps); [|lra]. destruct (Rlt_dec (Rabs (v2y v)) eps); [|lra]. reflexivity.
Qed.

(** * Equal *)

Lemma Equal_d_close a b eps : Equal_d a b eps = true <-> close a b eps.
Proof.
  unfold Equal_d, close. rewrite andb_true_iff, !lt_true. split.
  - intros [A B]. apply Rabs_def1; assumption.
  - intros A. apply Rabs_def2 in A. lra.
Qed.

Lemma v_Equal_close a b eps : v_Equal a b eps = true <-> v_close a b eps.
Proof. unfold v_Equal, v_close. rewrite !andb_true_iff, !Equal_d_close. tauto. Qed.
Lemma r_Equal_close a b eps : r_Equal a b eps = true <-> r_close a b eps.
Proof. unfold r_Equal, r_close. rewrite !andb_true_iff, !Equal_d_close. tauto. Qed.
Lemma f_Equal_close a b eps : f_Equal a b eps = true <-> f_close a b eps.
Proof. unfold f_Equal, f_close. rewrite andb_true_iff, v_Equal_close, r_Equal_close. tauto. Qed.
Lemma t_Equal_close a b eps : t_Equal a b eps = true <-> t_close a b eps.
Proof. unfold t_Equal, t_close. rewrite andb_true_iff, !v_Equal_close. tauto. Qed.
Lemma w_Equal_close a b eps : w_Equal a b eps = true <-> w_close a b eps.
Proof. unfold w_Equal, w_close. rewrite andb_true_iff, !v_Equal_close. tauto. Qed.

Lemma close_refl a eps : 0 < eps -> close a a eps.
Proof. intros. unfold close. rewrite Rminus_diag_eq by reflexivity. rewrite Rabs_R0. assumption. Qed.
Lemma close_sym a b eps : close a b eps -> close b a eps.
Proof. unfold close. rewrite Rabs_minus_sym. auto. Qed.
Lemma close_mono a b e1 e2 : e1 <= e2 -> close a b e1 -> close a b e2.
Proof. unfold close. lra. Qed.
Lemma close_nonpos a b e : e <= 0 -> ~ close a b e.
Proof. unfold close. intros H C. pose proof (Rabs_pos (a - b)). lra. Qed.
Lemma close_tri a b c e1 e2 : close a b e1 -> close b c e2 -> close a c (e1 + e2).
Proof.
  unfold close. intros A B. replace (a - c) with ((a - b) + (b - c)) by ring.
  eapply Rle_lt_trans; [apply Rabs_triang|lra].
Qed.

Ltac close_all := unfold f_close, t_close, w_close, v_close, r_close in *; intuition eauto using close_refl, close_sym, close_mono, close_tri.


Lemma equal_laws_from {A : Type} (Eq : A -> A -> R -> bool) (Cl : A -> A -> R -> Prop) :
  (forall a b e, Eq a b e = true <-> Cl a b e) ->
  (forall a e, 0 < e -> Cl a a e) -> (forall a b e, Cl a b e -> Cl b a e) ->
  (forall a b e1 e2, e1 <= e2 -> Cl a b e1 -> Cl a b e2) ->
  (forall a b e, e <= 0 -> ~ Cl a b e) ->
  (forall a b c e1 e2, Cl a b e1 -> Cl b c e2 -> Cl a c (e1 + e2)) -> equal_laws Eq.
Proof.
  intros Hq Hr Hs Hm Hn Ht. repeat split.
  - intros. apply Hq. auto.
  - intros. destruct (Eq a b eps) eqn:E1, (Eq b a eps) eqn:E2; try reflexivity.
    + apply Hq, Hs, Hq in E1. congruence.
    + apply Hq, Hs, Hq in E2. congruence.
  - intros a b e1 e2 L H. apply Hq. apply Hq in H. eapply Hm; eauto.
  - intros a b e L. destruct (Eq a b e) eqn:E; [|reflexivity]. apply Hq in E. exfalso. eapply Hn; eauto.
  - intros a b c e1 e2 H1 H2. apply Hq. apply Hq in H1. apply Hq in H2. eapply Ht; eauto.
Qed.

Lemma v_equal_laws : equal_laws v_Equal.
Proof.
  apply (equal_laws_from _ v_close); [apply v_Equal_close|..]; try (close_all; fail).
  intros a b e L (H & _). eapply close_nonpos; eauto.
Qed.
Lemma r_equal_laws : equal_laws r_Equal.
Proof.
  apply (equal_laws_from _ r_close); [apply r_Equal_close|..]; try (close_all; fail).
  intros a b e L (H & _). eapply close_nonpos; eauto.
Qed.
Lemma f_equal_laws : equal_laws f_Equal.
Proof.
  apply (equal_laws_from _ f_close); [apply f_Equal_close|..]; try (close_all; fail).
  intros a b e L ((H & _) & _). eapply close_nonpos; eauto.
Qed.
Lemma t_equal_laws : equal_laws t_Equal.
Proof.
  apply (equal_laws_from _ t_close); [apply t_Equal_close|..]; try (close_all; fail).
  intros a b e L ((H & _) & _). eapply close_nonpos; eauto.
Qed.
Lemma w_equal_laws : equal_laws w_Equal.
Proof.
  apply (equal_laws_from _ w_close); [apply w_Equal_close|..]; try (close_all; fail).
  intros a b e L ((H & _) & _). eapply close_nonpos; eauto.
Qed.

(** * diff / addDelta *)

Lemma d_addDelta_diff a b dt : dt <> 0 -> addDelta_d a (diff_d a b dt) dt = b.
Proof. intros N. unfold addDelta_d, diff_d. field. exact N. Qed.
Lemma v_addDelta_diff a b dt : dt <> 0 -> v_addDelta a (v_diff a b dt) dt = b.
Proof. intros N. apply v_ext; unfold v_addDelta, v_diff; geo_unfold; field; exact N. Qed.
Lemma t_addDelta_diff a b dt : dt <> 0 -> t_addDelta a (t_diff a b dt) dt = b.
Proof. intros N. apply t_ext; unfold t_addDelta, t_diff; psimp; apply v_addDelta_diff; exact N. Qed.
Lemma w_addDelta_diff a b dt : dt <> 0 -> w_addDelta a (w_diff a b dt) dt = b.
Proof. intros N. apply w_ext; unfold w_addDelta, w_diff; psimp; apply v_addDelta_diff; exact N. Qed.

Lemma euclid_norm_scale v s : euclid_norm (v_scale v s) = Rabs s * euclid_norm v.
Proof.
  unfold euclid_norm, v_scale; psimp.
  replace ((vx v * s) ^ 2 + (vy v * s) ^ 2 + (vz v * s) ^ 2) with (Rsqr s * (vx v ^ 2 + vy v ^ 2 + vz v ^ 2)) by (unfold Rsqr; ring).
  rewrite sqrt_mult_alt by apply Rle_0_sqr. rewrite sqrt_Rsqr_abs. reflexivity.
Qed.
Lemma unit_app r n : is_rotation r -> unit_vector n -> unit_vector (r_app r n).
Proof.
  intros H U. pose proof (r_app_dot r H n n) as D. unfold unit_vector, v_dot in *. lra.
Qed.

(** [Rot_vec] of a unit axis times an angle. *)
Lemma Rot_vec_axis_angle n a : unit_vector n -> 2 * kdl_epsilon <= a \/ a = 0 ->
  Rot_vec (v_scale n a) = r_Rot2 n a.
Proof.
  intros U [L| ->].
  - rewrite Rot_vec_Rot2. pose proof kdl_epsilon_pos.
    assert (N : euclid_norm (v_scale n a) = a).
    { rewrite euclid_norm_scale, (unit_norm n U), Rabs_pos_eq by lra. ring. }
    assert (E : v_normalize_eps (/ 10000000000) (v_scale n a) = (n, a)).
    { unfold v_normalize_eps. rewrite v_norm_large by lra. rewrite N.
      destruct (Rlt_dec a (/ 10000000000)) as [C|C]; [unfold kdl_epsilon in *; lra|].
      f_equal. apply v_ext; unfold v_div, v_scale; psimp; field; lra. }
    rewrite E. reflexivity.
  - rewrite v_scale_0, Rot2_0. rewrite Rot_vec_Rot2.
    assert (E : v_normalize_eps (/ 10000000000) v_zero = (mkV 1 0 0, 0)).
    { apply v_normalize_small; [lra|]. unfold euclid_norm, v_zero; psimp.
      replace (0 ^ 2 + 0 ^ 2 + 0 ^ 2) with 0 by ring. rewrite sqrt_0. lra. }
    rewrite E. cbn [fst snd]. apply Rot2_0.
Qed.

Lemma sin_le_self a : 0 <= a -> sin a <= a.
Proof.
  intros L. destruct (Req_dec a 0) as [->|N]; [rewrite sin_0; lra|].
  left. apply sin_lt_x. lra.
Qed.

Lemma unit_comp_le n : unit_vector n -> Rabs (vx n) <= 1 /\ Rabs (vy n) <= 1 /\ Rabs (vz n) <= 1.
Proof.
  intros U. pose proof (max_abs_le_norm n) as M. rewrite (unit_norm n U) in M. unfold max_abs in M.
  pose proof (Rmax_l (Rabs (vx n)) (Rmax (Rabs (vy n)) (Rabs (vz n)))).
  pose proof (Rmax_r (Rabs (vx n)) (Rmax (Rabs (vy n)) (Rabs (vz n)))).
  pose proof (Rmax_l (Rabs (vy n)) (Rabs (vz n))). pose proof (Rmax_r (Rabs (vy n)) (Rabs (vz n))). lra.
Qed.

(** Outside a band of 4 eps the angle is at least 2 eps. *)
Lemma regular_angle n a eps : unit_vector n -> 0 <= a <= PI ->
  axis_angle_regular (r_Rot2 n a) (2 * eps) -> eps <= a.
Proof.
  intros U Ha Reg. destruct (unit_comp_le n U) as (X & Y & Z).
  assert (S0 : 0 <= sin a) by (apply sin_ge_0; lra).
  pose proof (sin_le_self a (proj1 Ha)).
  assert (K : forall u, Rabs u <= 1 -> 2 * eps <= Rabs (2 * u * sin a) -> eps <= a).
  { intros u Hu Hl. rewrite !Rabs_mult, (Rabs_pos_eq 2), (Rabs_pos_eq (sin a)) in Hl by lra.
    pose proof (Rabs_pos u). set (m := Rabs u) in *. set (s := sin a) in *. clearbody m s.
    assert (m * s <= s) by nra. lra. }
  unfold axis_angle_regular, r_Rot2 in Reg; psimp.
  destruct Reg as [G|[G|G]].
  - apply (K (vz n) Z). eapply Rle_trans; [exact G|]. right. rewrite <- Rabs_Ropp. f_equal. ring.
  - apply (K (vy n) Y). eapply Rle_trans; [exact G|]. right. f_equal. ring.
  - apply (K (vx n) X). eapply Rle_trans; [exact G|]. right. rewrite <- Rabs_Ropp. f_equal. ring.
Qed.

Lemma r_Rot_ext_unit n a : unit_vector n -> r_Rot n a = r_Rot2 n a.
Proof. apply r_Rot_unit. Qed.

Lemma symmetric_angle n a : unit_vector n -> 0 <= a <= PI -> symmetric3 (r_Rot2 n a) -> a = 0 \/ a = PI.
Proof.
  intros U Ha (A & B & C). unfold r_Rot2 in *; psimp. unfold unit_vector in U.
  assert (S : sin a = 0).
  { assert (X : vz n * sin a = 0) by lra. assert (Y : vy n * sin a = 0) by lra. assert (Z : vx n * sin a = 0) by lra.
    transitivity ((vx n ^ 2 + vy n ^ 2 + vz n ^ 2) * sin a); [rewrite U; ring|].
    transitivity (vx n * (vx n * sin a) + vy n * (vy n * sin a) + vz n * (vz n * sin a)); [ring|].
    rewrite X, Y, Z. ring. }
  destruct (Req_dec a 0) as [E|E]; [auto|]. destruct (Req_dec a PI) as [F|F]; [auto|].
  exfalso. pose proof (sin_gt_0 a). lra.
Qed.


Lemma regular_mono r e1 e2 : e1 <= e2 -> axis_angle_regular r e2 -> axis_angle_regular r e1.
Proof. unfold axis_angle_regular. intros L [H|[H|H]]; [left|right;left|right;right]; lra. Qed.

Lemma r_addDelta_diff a b dt : is_rotation a -> is_rotation b -> dt <> 0 ->
  same_or_far (r_mul (r_inv a) b) -> r_addDelta a (r_diff a b dt) dt = b.
Proof.
  intros Ha Hb N Far. unfold r_addDelta, r_diff.
  assert (Hr : is_rotation (r_mul (r_inv a) b)) by (apply is_rotation_mul; [apply r_inv_rotation|]; assumption).
  assert (Rb : b = r_mul a (r_mul (r_inv a) b)) by (rewrite <- r_mul_assoc, (r_inv_r a Ha), r_mul_id_l; reflexivity).
  set (r := r_mul (r_inv a) b) in *. clearbody r.
  assert (V : v_scale (v_div (r_app a (r_GetRot r)) dt) dt = r_app a (r_GetRot r)).
  { apply v_ext; unfold v_scale, v_div; psimp; field; exact N. }
  rewrite V. unfold r_GetRot. pose proof kdl_epsilon_pos as KP.
  assert (G : let '(n, t) := r_GetRotAngle r kdl_epsilon in
     unit_vector n /\ 0 <= t <= PI /\ r_Rot n t = r).
  { destruct Far as [S|F].
    - apply GetRotAngle_symmetric; [assumption|lra|unfold kdl_epsilon; lra|assumption].
    - apply GetRotAngle_regular; [assumption|lra|]. eapply regular_mono; [|exact F]. lra. }
  destruct (r_GetRotAngle r kdl_epsilon) as [n t]. destruct G as (U & T & E).
  rewrite r_Rot_unit in E by exact U.
  assert (L : 2 * kdl_epsilon <= t \/ t = 0).
  { destruct Far as [S|F].
    - rewrite <- E in S. destruct (symmetric_angle n t U T S) as [->| ->]; [right; reflexivity|left].
      pose proof PI2_1. unfold kdl_epsilon. lra.
    - left. rewrite <- E in F. apply (regular_angle n); try assumption.
      eapply regular_mono; [|exact F]. lra. }
  rewrite r_app_scale, Rot_vec_axis_angle; [|apply unit_app; assumption|exact L].
  rewrite <- (Rot2_conj a n t Ha U), E, !r_mul_assoc, (r_inv_l a Ha), r_mul_id_r. symmetry. exact Rb.
Qed.

Lemma f_addDelta_diff a b dt : rigid a -> rigid b -> dt <> 0 ->
  same_or_far (r_mul (r_inv (fM a)) (fM b)) -> f_addDelta a (f_diff a b dt) dt = b.
Proof.
  intros Ha Hb N F. apply f_ext; unfold f_addDelta, f_diff; psimp.
  - apply r_addDelta_diff; assumption.
  - apply v_addDelta_diff; assumption.
Qed.

(** * Integrate *)

Lemma Integrate_rigid f t freq : rigid f -> rigid (f_Integrate f t freq).
Proof.
  intros H. unfold f_Integrate. destruct (Rlt_dec _ _).
  - exact H.
  - apply rigid_mul; [exact H|]. unfold rigid; psimp. apply is_rotation_Rot.
Qed.


Lemma integrate_all_rigid l : forall f, rigid f -> rigid (integrate_all f l).
Proof. induction l as [|x l IH]; intros f H; simpl; [exact H|]. apply IH, Integrate_rigid, H. Qed.

Lemma v_norm_zero : v_norm v_zero = 0.
Proof.
  destruct (v_norm_0_or v_zero) as [E|E]; [exact E|]. rewrite E. unfold euclid_norm, v_zero; psimp.
  replace (0 ^ 2 + 0 ^ 2 + 0 ^ 2) with 0 by ring. apply sqrt_0.
Qed.

Lemma integrate_translation v freq n : forall f, freq <> 0 ->
  integrate_all f (repeat (mkT v v_zero, freq) n)
  = mkF (fM f) (v_add (fp f) (v_scale (r_app (fM f) v) (INR n / freq))).
Proof.
  induction n as [|n IH]; intros f N.
  - simpl. apply f_ext; psimp; [reflexivity|]. unfold Rdiv. rewrite Rmult_0_l, v_scale_0, v_add_0_r. reflexivity.
  - cbn [repeat]. unfold integrate_all in *. cbn [fold_left fst snd]. rewrite IH by exact N. rewrite S_INR.
    unfold f_Integrate; psimp. rewrite v_norm_zero.
    destruct (Rlt_dec (0 / freq) kdl_epsilon) as [L|L].
    + psimp. apply f_ext; psimp; [reflexivity|]. rewrite v_div_scale, r_app_scale.
      rewrite v_add_assoc, <- v_scale_add. do 2 f_equal. field. exact N.
    + exfalso. apply L. unfold Rdiv. rewrite Rmult_0_l. apply kdl_epsilon_pos.
Qed.

Lemma integrate_rotation w freq n : forall f, 0 < freq ->
  kdl_epsilon <= max_abs w -> kdl_epsilon <= euclid_norm w / freq ->
  integrate_all f (repeat (mkT v_zero w, freq) n)
  = mkF (r_mul (fM f) (r_Rot w (INR n * (euclid_norm w / freq)))) (fp f).
Proof.
  induction n as [|n IH]; intros f Fp M L.
  - simpl. rewrite Rmult_0_l. unfold r_Rot. rewrite Rot2_0, r_mul_id_r. destruct f; reflexivity.
  - cbn [repeat]. unfold integrate_all in *. cbn [fold_left fst snd]. rewrite IH by assumption. rewrite S_INR.
    unfold f_Integrate; psimp. unfold v_norm. rewrite v_norm_eps_exact; [|apply kdl_epsilon_pos|exact M].
    destruct (Rlt_dec (euclid_norm w / freq) kdl_epsilon) as [C|C]; [lra|].
    apply f_ext; unfold f_mul; psimp.
    + rewrite r_mul_assoc. f_equal. unfold r_Rot. rewrite Rot2_add by apply v_normalize_unit. f_equal. ring.
    + rewrite v_div_scale, v_zero_scale, r_app_0, v_add_0_l. reflexivity.
Qed.

(** * DH *)

Lemma DH_product a alpha d theta :
  f_DH a alpha d theta =
  f_mul (f_of_rot (r_RotZ theta)) (f_mul (f_of_vec (mkV 0 0 d))
    (f_mul (f_of_vec (mkV a 0 0)) (f_of_rot (r_RotX alpha)))).
Proof. unfold f_DH, r_RotZ, r_RotX. geo. Qed.
Lemma DH_Craig_product a alpha d theta :
  f_DH_Craig1989 a alpha d theta =
  f_mul (f_of_vec (mkV a 0 0)) (f_mul (f_of_rot (r_RotX alpha))
    (f_mul (f_of_vec (mkV 0 0 d)) (f_of_rot (r_RotZ theta)))).
Proof. unfold f_DH_Craig1989, r_RotZ, r_RotX. geo. Qed.
Lemma rigid_of_rot r : is_rotation r -> rigid (f_of_rot r).
Proof. intros H; exact H. Qed.
Lemma rigid_of_vec v : rigid (f_of_vec v).
Proof. apply is_rotation_id. Qed.
Lemma DH_rigid a alpha d theta : rigid (f_DH a alpha d theta) /\ rigid (f_DH_Craig1989 a alpha d theta).
Proof.
  rewrite DH_product, DH_Craig_product. split;
  repeat apply rigid_mul; auto using rigid_of_rot, rigid_of_vec, is_rotation_RotX, is_rotation_RotZ.
Qed.

(** * Planar *)

Lemma rot2_mul_assoc a b c : rot2_mul (rot2_mul a b) c = rot2_mul a (rot2_mul b c). Proof. geo. Qed.
Lemma f2_mul_assoc a b c : f2_mul (f2_mul a b) c = f2_mul a (f2_mul b c). Proof. geo. Qed.
Lemma f2_mul_app a b v : f2_app (f2_mul a b) v = f2_app a (f2_app b v). Proof. geo. Qed.
Lemma f2_id_l a : f2_mul f2_id a = a. Proof. geo. Qed.
Lemma f2_id_r a : f2_mul a f2_id = a. Proof. geo. Qed.
Lemma f2_inv_l f : rigid2 f -> f2_mul (f2_inv f) f = f2_id.
Proof. intros H. unfold rigid2, is_rotation2 in H. geo_split; geo_destruct; geo_unfold; lra. Qed.
Lemma f2_inv_r f : rigid2 f -> f2_mul f (f2_inv f) = f2_id.
Proof.
  intros H. unfold rigid2, is_rotation2 in H. destruct f as [[c s] [x y]]; psimp.
  assert (S : s * s = 1 - c * c) by lra.
  geo_split; geo_unfold; ring [S].
Qed.
Lemma f2_invapp_app f v : rigid2 f -> f2_invapp f (f2_app f v) = v.
Proof.
  intros H. unfold rigid2, is_rotation2 in H. destruct f as [[c s] [x y]], v as [a b]; psimp.
  assert (S : s * s = 1 - c * c) by lra.
  geo_split; geo_unfold; ring [S].
Qed.
Lemma f2_app_invapp f v : rigid2 f -> f2_app f (f2_invapp f v) = v.
Proof.
  intros H. unfold rigid2, is_rotation2 in H. destruct f as [[c s] [x y]], v as [a b]; psimp.
  assert (S : s * s = 1 - c * c) by lra.
  geo_split; geo_unfold; ring [S].
Qed.
Lemma rot2_Rot_add a b : rot2_mul (rot2_Rot a) (rot2_Rot b) = rot2_Rot (a + b).
Proof. apply rot2_ext; unfold rot2_mul, rot2_Rot; psimp; rewrite ?cos_plus, ?sin_plus; ring. Qed.
Lemma rot2_Rot_rot a : is_rotation2 (rot2_Rot a).
Proof. unfold is_rotation2, rot2_Rot; psimp. pose proof (cc1 a). lra. Qed.
Lemma rot2_Rot_inv a : rot2_inv (rot2_Rot a) = rot2_Rot (- a).
Proof. apply rot2_ext; unfold rot2_inv, rot2_Rot; psimp; rewrite ?cos_neg, ?sin_neg; ring. Qed.
Lemma rot2_GetRot_spec r : is_rotation2 r ->
  - PI < rot2_GetRot r <= PI /\ rot2_Rot (rot2_GetRot r) = r.
Proof.
  intros H. split; [apply atan2_range|]. unfold rot2_GetRot, rot2_Rot.
  destruct (atan2_unit _ _ H) as [C S]. destruct r as [c s]; psimp. rewrite C, S. reflexivity.
Qed.
