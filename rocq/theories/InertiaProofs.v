(** Lemmas behind C34. *)
From Coq Require Import Reals Lra List.
From Verif Require Import FramesModel FramesSpec FramesProofs RotationProofs FrameOpsProofs InertiaModel InertiaSpec.
Import ListNotations.
Local Open Scope R_scope.

Ltac ine_unfold :=
  cbv [m3_zero m3_id m3_add m3_scale m3_sub m3_mul m3_tr m3_app m3_outer eig uneig m3_skew
       ri_make ri_zero ri_app ri_scale ri_add rb_make rb_zero rb_scale rb_add rb_app rb_RefPoint
       ab_zero ab_of_rb ab_scale ab_add ab_sub ab_app ab_RefPoint
       ri_data rb_m rb_h rb_I ab_M ab_H ab_I] in *; geo_unfold.
Ltac ine_destruct :=
  repeat match goal with
  | I : RigidBodyInertia |- _ => destruct I as [? ? ?]
  | I : RotationalInertia |- _ => destruct I as [?]
  | I : ArticulatedBodyInertia |- _ => destruct I as [? ? ?]
  | I : Mat3 |- _ => destruct I
  end; geo_destruct.
Ltac ine := intros; geo_split; try (match goal with |- @eq Mat3 _ _ => apply r_ext end); ine_destruct; ine_unfold; try ring.

(** * Matrix algebra *)
Lemma m3_app_mul a b v : m3_app (m3_mul a b) v = m3_app a (m3_app b v). Proof. ine. Qed.
Lemma m3_app_add a b v : m3_app (m3_add a b) v = v_add (m3_app a v) (m3_app b v). Proof. ine. Qed.
Lemma m3_app_sub a b v : m3_app (m3_sub a b) v = v_sub (m3_app a v) (m3_app b v). Proof. ine. Qed.
Lemma m3_app_vadd a u v : m3_app a (v_add u v) = v_add (m3_app a u) (m3_app a v). Proof. ine. Qed.
Lemma m3_app_vsub a u v : m3_app a (v_sub u v) = v_sub (m3_app a u) (m3_app a v). Proof. ine. Qed.
Lemma m3_app_scale s a v : m3_app (m3_scale s a) v = v_scale_l s (m3_app a v). Proof. ine. Qed.
Lemma m3_app_r a v : m3_app a v = r_app a v. Proof. ine. Qed.
Lemma m3_tr_tr a : m3_tr (m3_tr a) = a. Proof. ine. Qed.
Lemma m3_tr_inv a : m3_tr a = r_inv a. Proof. ine. Qed.
Lemma m3_tr_mul a b : m3_tr (m3_mul a b) = m3_mul (m3_tr b) (m3_tr a). Proof. ine. Qed.
Lemma m3_mul_assoc a b c : m3_mul (m3_mul a b) c = m3_mul a (m3_mul b c). Proof. ine. Qed.
Lemma m3_app_skew p v : m3_app (m3_skew p) v = v_cross p v. Proof. ine. Qed.
Lemma m3_tr_skew p v : m3_app (m3_tr (m3_skew p)) v = v_cross v p. Proof. ine. Qed.
Lemma m3_dot_tr a u v : v_dot u (m3_app a v) = v_dot (m3_app (m3_tr a) u) v. Proof. ine. Qed.
Lemma r_inv_app_r M v : is_rotation M -> r_app (r_inv M) (r_app M v) = v.
Proof. intros H. rewrite <- r_invapp_inv. apply r_invapp_app; exact H. Qed.
Lemma r_app_inv_r M v : is_rotation M -> r_app M (r_app (r_inv M) v) = v.
Proof. intros H. rewrite <- r_invapp_inv. apply r_app_invapp; exact H. Qed.
Lemma ri_app_data I w : ri_app I w = m3_app (m3_tr (ri_data I)) w. Proof. reflexivity. Qed.

Lemma m3_app_outer a b v : m3_app (m3_outer a b) v = v_scale_l (v_dot b v) a. Proof. ine. Qed.
Lemma m3_app_id v : m3_app m3_id v = v. Proof. ine. Qed.
Lemma ri_app_uneig D w : ri_app (mkRI (uneig D)) w = m3_app D w.
Proof. unfold ri_app, eig, uneig. cbn [ri_data]. rewrite m3_tr_tr. reflexivity. Qed.
Lemma ri_app_scale a I w : ri_app (ri_scale a I) w = v_scale_l a (ri_app I w).
Proof. unfold ri_scale. rewrite ri_app_uneig, m3_app_scale. reflexivity. Qed.
Lemma ri_app_add I J w : ri_app (ri_add I J) w = v_add (ri_app I w) (ri_app J w).
Proof. unfold ri_add. rewrite ri_app_uneig, m3_app_add. reflexivity. Qed.
Lemma ri_app_vadd I u w : ri_app I (v_add u w) = v_add (ri_app I u) (ri_app I w).
Proof. unfold ri_app. apply m3_app_vadd. Qed.
Lemma ri_app_vscale_l I s w : ri_app I (v_scale_l s w) = v_scale_l s (ri_app I w).
Proof. unfold ri_app. generalize (eig (ri_data I)). ine. Qed.
Lemma ri_app_vscale I s w : ri_app I (v_scale w s) = v_scale (ri_app I w) s.
Proof. unfold ri_app. generalize (eig (ri_data I)). ine. Qed.
Lemma ri_app_vzero I : ri_app I v_zero = v_zero.
Proof. unfold ri_app. generalize (eig (ri_data I)). ine. Qed.
Lemma ri_app_make m c I w : ri_app (rb_I (rb_make m c I)) w =
  v_sub (ri_app I w) (v_scale_l m (v_sub (v_scale_l (v_dot c w) c) (v_scale_l (v_dot c c) w))).
Proof.
  unfold rb_make. cbn [rb_I]. rewrite ri_app_uneig, m3_app_sub, m3_app_scale, m3_app_sub, m3_app_outer, m3_app_scale, m3_app_id.
  reflexivity.
Qed.
Lemma ri_app_RefPoint I p w : ri_app (rb_I (rb_RefPoint I p)) w =
  v_add (v_add (ri_app (rb_I I) w) (v_sub (v_scale_l (v_dot p w) (rb_h I)) (v_scale_l (v_dot p (rb_h I)) w)))
        (v_sub (v_scale_l (v_dot (v_sub (rb_h I) (v_scale_l (rb_m I) p)) w) p)
               (v_scale_l (v_dot (v_sub (rb_h I) (v_scale_l (rb_m I) p)) p) w)).
Proof.
  unfold rb_RefPoint. cbn [rb_I]. rewrite ri_app_uneig, !m3_app_add, !m3_app_sub, !m3_app_outer, !m3_app_scale, !m3_app_id.
  reflexivity.
Qed.
Lemma ri_app_zero w : ri_app ri_zero w = v_zero. Proof. unfold ri_zero. ine. Qed.

(** * Momentum is additive and linear *)
Lemma rb_app_add a b t : rb_app (rb_add a b) t = w_add (rb_app a t) (rb_app b t).
Proof.
  unfold rb_app, rb_add. cbn [rb_m rb_h rb_I]. rewrite ri_app_add.
  generalize (ri_app (rb_I a) (trot t)) (ri_app (rb_I b) (trot t)) (rb_h a) (rb_h b). clear. geo.
Qed.
Lemma rb_app_scale s a t : rb_app (rb_scale s a) t = w_scale_l s (rb_app a t).
Proof.
  unfold rb_app, rb_scale. cbn [rb_m rb_h rb_I]. rewrite ri_app_scale.
  generalize (ri_app (rb_I a) (trot t)) (rb_h a). clear. geo.
Qed.
Lemma rb_app_tadd a t u : rb_app a (t_add t u) = w_add (rb_app a t) (rb_app a u).
Proof.
  unfold rb_app, t_add. cbn [tvel trot]. rewrite ri_app_vadd.
  generalize (ri_app (rb_I a) (trot t)) (ri_app (rb_I a) (trot u)) (rb_h a). clear. geo.
Qed.
Lemma rb_app_tscale a s t : rb_app a (t_scale_l s t) = w_scale_l s (rb_app a t).
Proof.
  unfold rb_app, t_scale_l. cbn [tvel trot]. rewrite ri_app_vscale_l.
  generalize (ri_app (rb_I a) (trot t)) (rb_h a). clear. geo.
Qed.
Lemma rb_app_tscale_r a s t : rb_app a (t_scale t s) = w_scale (rb_app a t) s.
Proof.
  unfold rb_app, t_scale. cbn [tvel trot]. rewrite ri_app_vscale.
  generalize (ri_app (rb_I a) (trot t)) (rb_h a). clear. geo.
Qed.
Lemma rb_app_zero_t a : rb_app a t_zero = w_zero.
Proof. unfold rb_app, t_zero. cbn [tvel trot]. rewrite ri_app_vzero. generalize (rb_h a). clear. geo. Qed.
Lemma rb_app_zero t : rb_app rb_zero t = w_zero.
Proof.
  unfold rb_app, rb_zero. rewrite ri_app_make, ri_app_zero. unfold rb_make. cbn [rb_m rb_h]. clear. geo.
Qed.
Lemma tw_dot_wadd t a b : tw_dot t (w_add a b) = tw_dot t a + tw_dot t b. Proof. ine. Qed.
Lemma tw_dot_tadd t u a : tw_dot (t_add t u) a = tw_dot t a + tw_dot u a. Proof. ine. Qed.
Lemma tw_dot_wscale_l t s a : tw_dot t (w_scale_l s a) = s * tw_dot t a. Proof. ine. Qed.
Lemma tw_dot_wscale t s a : tw_dot t (w_scale a s) = tw_dot t a * s. Proof. ine. Qed.
Lemma tw_dot_tscale t s a : tw_dot (t_scale t s) a = tw_dot t a * s. Proof. ine. Qed.

(** * Changes of reference *)
Lemma rb_app_RefPoint I p t :
  rb_app (rb_RefPoint I p) (t_RefPoint t p) = w_RefPoint (rb_app I t) p.
Proof.
  unfold rb_app. rewrite ri_app_RefPoint. unfold rb_RefPoint, t_RefPoint. cbn [rb_m rb_h tvel trot].
  generalize (ri_app (rb_I I) (trot t)) (rb_h I). clear. geo.
Qed.
Lemma rb_app_rot M I t : is_rotation M ->
  rb_app (r_app_rb M I) (r_app_t M t) = r_app_w M (rb_app I t).
Proof.
  intros HM. destruct I as [m h Ir], t as [vel rot]. unfold r_app_rb, rb_app, r_app_t, r_app_w.
  cbn [rb_m rb_h rb_I tvel trot wforce wtorque]. apply w_ext; cbn [wforce wtorque].
  - rewrite <- r_app_cross by exact HM. generalize (v_cross h rot); intros k. clear. geo.
  - rewrite <- r_app_cross by exact HM. rewrite !ri_app_data. cbn [ri_data]. unfold eig, uneig.
    rewrite !m3_tr_tr. rewrite m3_app_mul, m3_app_mul. rewrite !m3_app_r. rewrite m3_tr_inv, r_inv_app_r by exact HM.
    generalize (v_cross h vel); intros k. generalize (r_app (m3_tr (ri_data Ir)) rot); intros z. clear. geo.
Qed.
Lemma f_app_rb_split F I : f_app_rb F I = r_app_rb (fM F) (rb_RefPoint I (fp (f_inv F))).
Proof.
  destruct F as [M p]. unfold f_app_rb, r_app_rb, rb_RefPoint, f_inv. cbn [fM fp rb_m rb_h rb_I ri_data].
  cbv zeta. unfold eig, uneig. rewrite <- (m3_tr_inv M). rewrite !m3_tr_tr. reflexivity.
Qed.
Lemma f_app_t_split F t : rigid F -> f_app_t F t = r_app_t (fM F) (t_RefPoint t (fp (f_inv F))).
Proof.
  intros HM. destruct F as [M p], t as [vel rot]. unfold rigid in HM. cbn [fM] in HM.
  unfold f_app_t, r_app_t, t_RefPoint, f_inv. cbn [fM fp tvel trot].
  apply t_ext; cbn [tvel trot]; [|reflexivity].
  assert (E : r_app M (v_add vel (v_cross rot (v_neg (r_invapp M p)))) =
              v_add (r_app M vel) (v_neg (r_app M (v_cross rot (r_invapp M p))))) by (clear; geo).
  rewrite E, r_app_cross, r_app_invapp by exact HM. generalize (r_app M rot) (r_app M vel); intros. clear. geo.
Qed.
Lemma f_app_w_split F w : rigid F -> f_app_w F w = r_app_w (fM F) (w_RefPoint w (fp (f_inv F))).
Proof.
  intros HM. destruct F as [M p], w as [fo to]. unfold rigid in HM. cbn [fM] in HM.
  unfold f_app_w, r_app_w, w_RefPoint, f_inv. cbn [fM fp wforce wtorque].
  apply w_ext; cbn [wforce wtorque]; [reflexivity|].
  assert (E : r_app M (v_add to (v_cross fo (v_neg (r_invapp M p)))) =
              v_add (r_app M to) (v_neg (r_app M (v_cross fo (r_invapp M p))))) by (clear; geo).
  rewrite E, r_app_cross, r_app_invapp by exact HM. generalize (r_app M fo) (r_app M to); intros. clear. geo.
Qed.
Lemma rb_app_frame F I t : rigid F ->
  rb_app (f_app_rb F I) (f_app_t F t) = f_app_w F (rb_app I t).
Proof.
  intros H. rewrite f_app_rb_split, f_app_t_split, f_app_w_split by exact H.
  rewrite rb_app_rot by exact H. rewrite rb_app_RefPoint. reflexivity.
Qed.

(** * Symmetry *)
Lemma rb_symmetric_data I : symmetric3 (ri_data (rb_I I)) -> rb_symmetric I.
Proof.
  intros [H1 [H2 H3]] a b. destruct I as [m h [D]], a, b. cbn [rb_I ri_data] in *. ine_destruct. psimp. subst.
  ine_unfold. ring.
Qed.
Lemma sym_tr a : symmetric3 a <-> m3_tr a = a.
Proof.
  unfold symmetric3. split.
  - intros [H1 [H2 H3]]. ine_destruct. psimp. subst. reflexivity.
  - intros H. ine_destruct. unfold m3_tr in H. psimp. injection H; intros; subst; auto.
Qed.
Lemma m3_tr_add a b : m3_tr (m3_add a b) = m3_add (m3_tr a) (m3_tr b). Proof. ine. Qed.
Lemma m3_tr_sub a b : m3_tr (m3_sub a b) = m3_sub (m3_tr a) (m3_tr b). Proof. ine. Qed.
Lemma m3_tr_scale s a : m3_tr (m3_scale s a) = m3_scale s (m3_tr a). Proof. ine. Qed.
Lemma rb_make_sym m c I : symmetric3 (ri_data I) -> symmetric3 (ri_data (rb_I (rb_make m c I))).
Proof.
  intros H. apply sym_tr. apply sym_tr in H. unfold rb_make. cbn [rb_I ri_data]. unfold eig, uneig.
  rewrite m3_tr_tr. rewrite !m3_tr_sub, m3_tr_tr, m3_tr_scale, m3_tr_sub, m3_tr_scale, H.
  f_equal. f_equal. f_equal. clear. ine.
Qed.
Lemma rb_scale_sym a I : symmetric3 (ri_data (rb_I I)) -> symmetric3 (ri_data (rb_I (rb_scale a I))).
Proof. intros [? [? ?]]. ine_destruct. ine_unfold. unfold symmetric3 in *. psimp. subst. auto. Qed.
Lemma rb_add_sym I J : symmetric3 (ri_data (rb_I I)) -> symmetric3 (ri_data (rb_I J)) ->
  symmetric3 (ri_data (rb_I (rb_add I J))).
Proof. intros [? [? ?]] [? [? ?]]. ine_destruct. ine_unfold. unfold symmetric3 in *. psimp. subst. auto. Qed.
Lemma sym_add a b : symmetric3 a -> symmetric3 b -> symmetric3 (m3_add a b).
Proof. intros [A [B C]] [D [E F]]. unfold m3_add. repeat split; psimp; congruence. Qed.
Lemma sym_steiner h p k l m : symmetric3
  (m3_add (m3_sub (m3_outer h p) (m3_scale k m3_id)) (m3_sub (m3_outer p (v_sub h (v_scale_l m p))) (m3_scale l m3_id))).
Proof. unfold m3_add, m3_sub, m3_outer, m3_scale, v_sub, v_scale_l, m3_id. repeat split; psimp; ring. Qed.
Lemma m3_add_assoc a b c : m3_add (m3_add a b) c = m3_add a (m3_add b c).
Proof. unfold m3_add. apply r_ext; psimp; ring. Qed.
Lemma rb_RefPoint_sym I p : symmetric3 (ri_data (rb_I I)) -> symmetric3 (ri_data (rb_I (rb_RefPoint I p))).
Proof.
  intros H. unfold rb_RefPoint. cbn [rb_I ri_data]. unfold eig, uneig. rewrite m3_add_assoc, m3_tr_add, m3_tr_tr.
  apply sym_add; [exact H|]. apply sym_tr. rewrite m3_tr_tr. symmetry. apply sym_tr. apply sym_steiner.
Qed.
Lemma r_app_rb_sym M I : symmetric3 (ri_data (rb_I I)) -> symmetric3 (ri_data (rb_I (r_app_rb M I))).
Proof.
  intros H. apply sym_tr. apply sym_tr in H. unfold r_app_rb. cbn [rb_I ri_data]. unfold eig, uneig.
  rewrite !m3_tr_tr. rewrite !m3_tr_mul, !m3_tr_tr, H. rewrite !m3_mul_assoc. reflexivity.
Qed.
Lemma f_app_rb_sym F I : symmetric3 (ri_data (rb_I I)) -> symmetric3 (ri_data (rb_I (f_app_rb F I))).
Proof. intros H. rewrite f_app_rb_split. apply r_app_rb_sym, rb_RefPoint_sym, H. Qed.
Lemma ri_make_sym a b c d e f : symmetric3 (ri_data (ri_make a b c d e f)).
Proof. repeat split. Qed.
Lemma rb_eval_sym e : symmetric3 (ri_data (rb_I (rb_eval e))).
Proof.
  induction e; simpl rb_eval.
  - apply rb_make_sym, ri_make_sym.
  - apply rb_scale_sym; auto.
  - apply rb_add_sym; auto.
  - apply f_app_rb_sym; auto.
  - apply r_app_rb_sym; auto.
  - apply rb_RefPoint_sym; auto.
Qed.
Lemma rb_eval_symmetric e : rb_symmetric (rb_eval e).
Proof. apply rb_symmetric_data, rb_eval_sym. Qed.

(** * Energy *)
(** Koenig: the energy of a rigid body is that of its centre plus the rotation about it *)
Lemma rb_make_energy m c I t :
  tw_dot t (rb_app (rb_make m c I) t) =
  m * v_dot (point_velocity t c) (point_velocity t c) + v_dot (trot t) (ri_app I (trot t)).
Proof.
  unfold rb_app. rewrite ri_app_make. unfold rb_make, point_velocity. cbn [rb_m rb_h].
  generalize (ri_app I (trot t)). clear. geo.
Qed.
Lemma v_dot_self_nonneg v : 0 <= v_dot v v.
Proof. destruct v. unfold v_dot. psimp. nra. Qed.
Lemma rb_make_psd m c I : 0 <= m -> ri_valid I -> rb_psd (rb_make m c I).
Proof.
  intros Hm [_ HI] t. rewrite rb_make_energy. specialize (HI (trot t)).
  pose proof (v_dot_self_nonneg (point_velocity t c)). nra.
Qed.
Lemma f_app_t_surj F t : rigid F -> f_app_t F (f_app_t (f_inv F) t) = t.
Proof. intros H. rewrite <- f_mul_app_t by (try apply rigid_inv; exact H). rewrite f_inv_r by exact H. clear. geo. Qed.
Lemma rb_frame_energy F I t : rigid F ->
  tw_dot (f_app_t F t) (rb_app (f_app_rb F I) (f_app_t F t)) = tw_dot t (rb_app I t).
Proof. intros H. rewrite rb_app_frame by exact H. apply f_power; exact H. Qed.
Lemma rb_rot_energy M I t : is_rotation M ->
  tw_dot (r_app_t M t) (rb_app (r_app_rb M I) (r_app_t M t)) = tw_dot t (rb_app I t).
Proof. intros H. rewrite rb_app_rot by exact H. apply r_power; exact H. Qed.
Lemma rb_RefPoint_energy I p t :
  tw_dot (t_RefPoint t p) (rb_app (rb_RefPoint I p) (t_RefPoint t p)) = tw_dot t (rb_app I t).
Proof. rewrite rb_app_RefPoint. apply ref_power. Qed.
Lemma r_app_t_surj M t : is_rotation M -> r_app_t M (r_app_t (r_inv M) t) = t.
Proof. intros H. destruct t as [u w]. unfold r_app_t. cbn [tvel trot]. rewrite !r_app_inv_r by exact H. reflexivity. Qed.
Lemma t_RefPoint_surj t p : t_RefPoint (t_RefPoint t (v_neg p)) p = t.
Proof. geo. Qed.
Lemma rb_eval_psd e : rb_physical e -> rb_psd (rb_eval e).
Proof.
  induction e; simpl rb_physical; simpl rb_eval; intros H t0.
  - destruct H as [H1 H2]. apply rb_make_psd; assumption.
  - destruct H as [H1 H2]. rewrite rb_app_scale, tw_dot_wscale_l. apply Rmult_le_pos; [exact H1|apply IHe; exact H2].
  - destruct H as [H1 H2]. rewrite rb_app_add, tw_dot_wadd. specialize (IHe1 H1 t0). specialize (IHe2 H2 t0). lra.
  - destruct H as [H1 H2]. rewrite <- (f_app_t_surj F t0 H1), rb_frame_energy by exact H1. apply IHe; exact H2.
  - destruct H as [H1 H2]. rewrite <- (r_app_t_surj M t0 H1), rb_rot_energy by exact H1. apply IHe; exact H2.
  - rewrite <- (t_RefPoint_surj t0 p), rb_RefPoint_energy. apply IHe; exact H.
Qed.

(** * Bodies made of particles *)
Lemma v_sum_ext {A} (f g : A -> Vector) l : (forall x, f x = g x) -> v_sum f l = v_sum g l.
Proof. intros H. induction l; simpl; [reflexivity|]. rewrite H, IHl. reflexivity. Qed.
Lemma v_sum_app {A} (f : A -> Vector) l k : v_sum f (l ++ k) = v_add (v_sum f l) (v_sum f k).
Proof. induction l; simpl; [|rewrite IHl]; [|generalize (f a) (v_sum f l)]; generalize (v_sum f k); clear; geo. Qed.
Lemma v_sum_map {A B} (f : B -> Vector) (h : A -> B) l : v_sum f (map h l) = v_sum (fun x => f (h x)) l.
Proof. induction l; simpl; [reflexivity|]. rewrite IHl. reflexivity. Qed.

(** the body as a single inertia, reference at the origin *)
Lemma describes_data b : forall m h D, m = total_mass b -> h = first_moment b ->
  D = ri_data (rotational_inertia b v_zero) -> describes (mkRB m h (mkRI D)) b.
Proof.
  induction b as [|[mu q] b IH]; intros m h D -> -> -> t.
  - destruct t. unfold momentum, total_mass, first_moment, rotational_inertia, moment. simpl r_sum. simpl v_sum. clear. ine.
  - specialize (IH _ _ _ eq_refl eq_refl eq_refl t).
    unfold momentum in *. simpl v_sum. injection IH as E1 E2.
    unfold total_mass, first_moment, rotational_inertia, moment in *. simpl v_sum in *. simpl r_sum in *.
    apply w_ext; cbn [wforce wtorque]; [rewrite <- E1|rewrite <- E2]; clear E1 E2;
      repeat match goal with |- context [r_sum ?f b] => generalize (r_sum f b); intros end;
      generalize (v_sum (fun x => v_scale_l (pm x) (pp x)) b); intros; clear IH || idtac;
      unfold point_velocity; cbn [pm pp]; clear; ine.
Qed.

Lemma r_sum_ext {A} (f g : A -> R) l : (forall x, f x = g x) -> r_sum f l = r_sum g l.
Proof. intros H. induction l; simpl; [reflexivity|]. rewrite H, IHl. reflexivity. Qed.
(** applying the tabulated moments of inertia *)
Lemma ri_app_rotational b c w : ri_app (rotational_inertia b c) w =
  v_sum (fun x => v_scale_l (pm x) (v_cross (v_sub (pp x) c) (v_cross w (v_sub (pp x) c)))) b.
Proof.
  induction b as [|[mu q] b IH].
  - unfold rotational_inertia, moment. simpl. ine.
  - simpl v_sum. rewrite <- IH. clear IH. unfold rotational_inertia, moment. simpl r_sum.
    repeat match goal with |- context [r_sum ?f b] => generalize (r_sum f b); intros end.
    cbn [pm pp]. clear. ine.
Qed.
(** parallel axes *)
Lemma steiner b c w :
  v_sum (fun x => v_scale_l (pm x) (v_cross (v_sub (pp x) c) (v_cross w (v_sub (pp x) c)))) b =
  v_add (v_sub (v_sub (v_sum (fun x => v_scale_l (pm x) (v_cross (pp x) (v_cross w (pp x)))) b)
                      (v_cross c (v_cross w (first_moment b))))
               (v_cross (first_moment b) (v_cross w c)))
        (v_scale_l (total_mass b) (v_cross c (v_cross w c))).
Proof.
  induction b as [|[mu q] b IH]; unfold first_moment, total_mass in *; simpl v_sum; simpl r_sum.
  - clear. geo.
  - rewrite IH. cbn [pm pp].
    generalize (v_sum (fun x => v_scale_l (pm x) (v_cross (pp x) (v_cross w (pp x)))) b)
      (v_sum (fun x => v_scale_l (pm x) (pp x)) b) (r_sum pm b). clear. geo.
Qed.
Lemma momentum_moments b t : momentum b t =
  mkW (v_sub (v_scale_l (total_mass b) (tvel t)) (v_cross (first_moment b) (trot t)))
      (v_add (v_sum (fun x => v_scale_l (pm x) (v_cross (pp x) (v_cross (trot t) (pp x)))) b)
             (v_cross (first_moment b) (tvel t))).
Proof.
  unfold momentum, first_moment, total_mass.
  apply w_ext; cbn [wforce wtorque]; induction b as [|[mu q] b IH]; simpl v_sum; simpl r_sum; try (clear; geo; fail);
    rewrite IH; clear IH; unfold point_velocity; cbn [pm pp].
  - generalize (v_sum (fun x => v_scale_l (pm x) (pp x)) b) (r_sum pm b). clear. geo.
  - generalize (v_sum (fun x => v_scale_l (pm x) (v_cross (pp x) (v_cross (trot t) (pp x)))) b)
      (v_sum (fun x => v_scale_l (pm x) (pp x)) b). clear. geo.
Qed.
Lemma describes_make b c : first_moment b = v_scale_l (total_mass b) c ->
  describes (rb_make (total_mass b) c (rotational_inertia b c)) b.
Proof.
  intros H t. rewrite momentum_moments. unfold rb_app. rewrite ri_app_make, ri_app_rotational, steiner, H.
  unfold rb_make. cbn [rb_m rb_h].
  generalize (v_sum (fun x => v_scale_l (pm x) (v_cross (pp x) (v_cross (trot t) (pp x)))) b) (total_mass b).
  clear. intros s M. f_equal. geo.
Qed.
Lemma describes_make_cog b : total_mass b <> 0 ->
  let c := v_div (first_moment b) (total_mass b) in
  describes (rb_make (total_mass b) c (rotational_inertia b c)) b.
Proof.
  intros H c. apply describes_make. unfold c. generalize (first_moment b). intros [x y z].
  unfold v_scale_l, v_div. psimp. apply v_ext; psimp; field; exact H.
Qed.

(** * Transformed bodies *)
Lemma momentum_app a b t : momentum (a ++ b) t = w_add (momentum a t) (momentum b t).
Proof. unfold momentum. rewrite !v_sum_app. reflexivity. Qed.
Lemma momentum_scale s b t : momentum (map (fun x => mkParticle (s * pm x) (pp x)) b) t = w_scale_l s (momentum b t).
Proof.
  unfold momentum. rewrite !v_sum_map. cbn [pm pp].
  apply w_ext; cbn [wforce wtorque w_scale_l]; induction b as [|[mu q] b IH]; simpl v_sum; try (clear; geo; fail);
    rewrite IH; clear IH; cbn [pm pp]; generalize (point_velocity t q);
    match goal with |- context [v_sum ?f b] => generalize (v_sum f b) end; clear; geo.
Qed.
Lemma momentum_RefPoint b t p :
  momentum (map (fun x => mkParticle (pm x) (v_sub (pp x) p)) b) (t_RefPoint t p) = w_RefPoint (momentum b t) p.
Proof.
  unfold momentum, w_RefPoint. rewrite !v_sum_map. cbn [pm pp wforce wtorque].
  assert (P : forall q, point_velocity (t_RefPoint t p) (v_sub q p) = point_velocity t q)
    by (intros q; unfold point_velocity; clear; geo).
  apply w_ext; cbn [wforce wtorque].
  - apply v_sum_ext. intros x. rewrite P. reflexivity.
  - induction b as [|[mu q] b IH]; simpl v_sum; [clear; geo|].
    rewrite IH; clear IH. cbn [pm pp]. rewrite P. generalize (point_velocity t q); intros u.
    repeat match goal with |- context [v_sum ?f b] => generalize (v_sum f b) end; clear; geo.
Qed.
Lemma momentum_rot M b t : is_rotation M ->
  momentum (map (fun x => mkParticle (pm x) (r_app M (pp x))) b) (r_app_t M t) = r_app_w M (momentum b t).
Proof.
  intros HM. unfold momentum, r_app_w. rewrite !v_sum_map. cbn [pm pp wforce wtorque].
  assert (P : forall q, point_velocity (r_app_t M t) (r_app M q) = r_app M (point_velocity t q)).
  { intros q. unfold point_velocity, r_app_t. cbn [tvel trot]. rewrite <- r_app_cross by exact HM.
    generalize (v_cross (trot t) q). clear. geo. }
  apply w_ext; cbn [wforce wtorque]; induction b as [|[mu q] b IH]; simpl v_sum; try (clear; geo; fail);
    rewrite IH; clear IH; cbn [pm pp]; rewrite P; generalize (point_velocity t q); intros u.
  - match goal with |- context [v_sum ?f b] => generalize (v_sum f b) end; clear; geo.
  - assert (E : v_cross (r_app M q) (v_scale_l mu (r_app M u)) = r_app M (v_cross q (v_scale_l mu u))).
    { assert (E1 : v_scale_l mu (r_app M u) = r_app M (v_scale_l mu u)) by (clear; geo).
      rewrite E1, r_app_cross by exact HM. reflexivity. }
    rewrite E. generalize (v_cross q (v_scale_l mu u)).
    match goal with |- context [v_sum ?f b] => generalize (v_sum f b) end; clear; geo.
Qed.
Lemma momentum_frame F b t : rigid F ->
  momentum (map (fun x => mkParticle (pm x) (f_app F (pp x))) b) (f_app_t F t) = f_app_w F (momentum b t).
Proof.
  intros HF. rewrite f_app_t_split, f_app_w_split by exact HF. rewrite <- momentum_RefPoint, <- momentum_rot by exact HF.
  f_equal. rewrite map_map. apply map_ext. intros x. cbn [pm pp]. f_equal.
  destruct F as [M p]. unfold rigid in HF. unfold f_app, f_inv. cbn [fM fp] in *.
  assert (E : r_app M (v_sub (pp x) (v_neg (r_invapp M p))) = v_add (r_app M (pp x)) (r_app M (r_invapp M p))) by (clear; geo).
  rewrite E, r_app_invapp by exact HF. reflexivity.
Qed.
Lemma momentum_energy b t : tw_dot t (momentum b t) = 2 * kinetic_energy b t.
Proof.
  unfold momentum, kinetic_energy. induction b as [|[mu q] b IH]; simpl v_sum; simpl r_sum.
  - clear. geo.
  - cbn [pm pp]. rewrite Rmult_plus_distr_l, <- IH. clear IH.
    repeat match goal with |- context [v_sum ?f b] => generalize (v_sum f b) end; intros u w. unfold point_velocity.
    destruct t as [[] []], q, u, w. unfold v_add, v_cross, v_scale_l, tw_dot, v_dot. psimp. field.
Qed.

Lemma describes_add I J a b : describes I a -> describes J b -> describes (rb_add I J) (a ++ b).
Proof. intros A B t. rewrite rb_app_add, momentum_app, A, B. reflexivity. Qed.
Lemma describes_scale s I b : describes I b -> describes (rb_scale s I) (map (fun x => mkParticle (s * pm x) (pp x)) b).
Proof. intros A t. rewrite rb_app_scale, momentum_scale, A. reflexivity. Qed.
Lemma describes_RefPoint I b p : describes I b ->
  describes (rb_RefPoint I p) (map (fun x => mkParticle (pm x) (v_sub (pp x) p)) b).
Proof. intros A t. rewrite <- (t_RefPoint_surj t p). rewrite rb_app_RefPoint, momentum_RefPoint, A. reflexivity. Qed.
Lemma describes_rot M I b : is_rotation M -> describes I b ->
  describes (r_app_rb M I) (map (fun x => mkParticle (pm x) (r_app M (pp x))) b).
Proof. intros H A t. rewrite <- (r_app_t_surj M t H). rewrite rb_app_rot, momentum_rot, A by exact H. reflexivity. Qed.
Lemma describes_frame F I b : rigid F -> describes I b ->
  describes (f_app_rb F I) (map (fun x => mkParticle (pm x) (f_app F (pp x))) b).
Proof. intros H A t. rewrite <- (f_app_t_surj F t H). rewrite rb_app_frame, momentum_frame, A by exact H. reflexivity. Qed.
Lemma describes_energy I b t : describes I b -> tw_dot t (rb_app I t) = 2 * kinetic_energy b t.
Proof. intros A. rewrite A. apply momentum_energy. Qed.

(** * Reading back mass and centre of gravity *)
Lemma rb_getCOG_make m c I : m <> 0 -> rb_getCOG (rb_make m c I) = c.
Proof.
  intros H. unfold rb_getCOG, rb_make. cbn [rb_m rb_h]. destruct (Req_EM_T m 0) as [E|E]; [contradiction|].
  destruct c. unfold v_div, v_scale_l. psimp. apply v_ext; psimp; field; exact H.
Qed.
Lemma rb_getCOG_frame F I : rigid F -> rb_m I <> 0 ->
  rb_m (f_app_rb F I) = rb_m I /\ rb_getCOG (f_app_rb F I) = f_app F (rb_getCOG I).
Proof.
  intros HF H. split; [reflexivity|]. destruct I as [m h J], F as [M p]. unfold rigid in HF.
  unfold rb_getCOG, f_app_rb. cbn [rb_m rb_h fM fp f_inv] in *.
  destruct (Req_EM_T m 0) as [E|E]; [contradiction|]. unfold f_app. cbn [fM fp].
  assert (E1 : v_div (r_app M (v_sub h (v_scale_l m (v_neg (r_invapp M p))))) m =
               v_add (r_app M (v_div h m)) (r_app M (r_invapp M p))).
  { generalize (r_invapp M p). intros z. clear - H. destruct h, M, z.
    unfold v_div, r_app, v_sub, v_scale_l, v_neg, v_add. psimp. apply v_ext; psimp; field; exact H. }
  rewrite E1, r_app_invapp by exact HF. reflexivity.
Qed.

(** * Articulated-body inertia *)
Lemma ab_of_rb_app I t : ab_app (ab_of_rb I) t = rb_app I t.
Proof.
  unfold ab_app, ab_of_rb, rb_app. cbn [ab_M ab_H ab_I].
  rewrite m3_app_scale, m3_app_id, m3_app_skew, m3_tr_skew. unfold ri_app.
  generalize (m3_app (eig (ri_data (rb_I I))) (trot t)) (rb_h I). clear. geo.
Qed.
Lemma ab_app_add a b t : ab_app (ab_add a b) t = w_add (ab_app a t) (ab_app b t).
Proof.
  unfold ab_app, ab_add. cbn [ab_M ab_H ab_I]. rewrite m3_tr_add, !m3_app_add. unfold w_add. cbn [wforce wtorque].
  repeat match goal with |- context [m3_app ?a ?b] => generalize (m3_app a b) end. clear. geo.
Qed.
Lemma ab_app_sub a b t : ab_app (ab_sub a b) t = w_sub (ab_app a t) (ab_app b t).
Proof.
  unfold ab_app, ab_sub. cbn [ab_M ab_H ab_I]. rewrite m3_tr_sub, !m3_app_sub. unfold w_sub. cbn [wforce wtorque].
  repeat match goal with |- context [m3_app ?a ?b] => generalize (m3_app a b) end. clear. geo.
Qed.
Lemma ab_app_scale s a t : ab_app (ab_scale s a) t = w_scale_l s (ab_app a t).
Proof.
  unfold ab_app, ab_scale. cbn [ab_M ab_H ab_I]. rewrite m3_tr_scale, !m3_app_scale. unfold w_scale_l. cbn [wforce wtorque].
  repeat match goal with |- context [m3_app ?a ?b] => generalize (m3_app a b) end. clear. geo.
Qed.
Lemma ab_symmetric_data I : symmetric3 (ab_M I) -> symmetric3 (ab_I I) -> ab_symmetric I.
Proof.
  intros HM HI a b. apply sym_tr in HM, HI. unfold ab_app, tw_dot. cbn [wforce wtorque].
  assert (L : forall u v w, v_dot u (v_add v w) = v_dot u v + v_dot u w) by (clear; geo).
  rewrite !L.
  rewrite (m3_dot_tr (ab_M I) (tvel a)), (m3_dot_tr (m3_tr (ab_H I)) (tvel a)), (m3_dot_tr (ab_I I) (trot a)),
    (m3_dot_tr (ab_H I) (trot a)), HM, HI, m3_tr_tr.
  rewrite (v_dot_comm (m3_app _ _) (tvel b)), (v_dot_comm (m3_app _ _) (trot b)), (v_dot_comm (m3_app _ _) (trot b)),
    (v_dot_comm (m3_app _ _) (tvel b)). ring.
Qed.
Lemma tr_skew_neg p : m3_tr (m3_skew p) = m3_scale (-1) (m3_skew p).
Proof. unfold m3_tr, m3_skew, m3_scale. apply r_ext; psimp; ring. Qed.
Lemma ab_app_RefPoint I p t : symmetric3 (ab_M I) ->
  ab_app (ab_RefPoint I p) (t_RefPoint t p) = w_RefPoint (ab_app I t) p.
Proof.
  intros HM. apply sym_tr in HM. unfold ab_app, ab_RefPoint, t_RefPoint, w_RefPoint. cbn [ab_M ab_H ab_I tvel trot wforce wtorque].
  rewrite m3_tr_sub, m3_tr_mul, HM, tr_skew_neg.
  rewrite !m3_app_add, !m3_app_sub, !m3_app_mul, !m3_app_sub, !m3_app_scale, !m3_app_mul, !m3_app_skew.
  rewrite !m3_app_vadd.
  assert (X : forall a u v, m3_app a (v_cross u v) = v_scale_l (-1) (m3_app a (v_cross v u))) by (clear; ine).
  rewrite (X (ab_M I) (trot t) p), (X (ab_H I) (trot t) p).
  assert (Y : m3_app (ab_M I) (v_scale_l (-1) (v_cross p (trot t))) = v_scale_l (-1) (m3_app (ab_M I) (v_cross p (trot t))))
    by (generalize (v_cross p (trot t)); clear; ine).
  rewrite ?Y.
  repeat match goal with |- context [m3_app ?a ?b] => generalize (m3_app a b) end. clear. geo.
Qed.
Lemma ab_app_rot M I t : is_rotation M ->
  ab_app (r_app_ab M I) (r_app_t M t) = r_app_w M (ab_app I t).
Proof.
  intros HM. unfold ab_app, r_app_ab, r_app_t, r_app_w. cbn [ab_M ab_H ab_I tvel trot wforce wtorque]. unfold eig.
  rewrite !m3_tr_tr, !m3_tr_mul, !m3_tr_tr, !m3_app_mul.
  rewrite !m3_tr_inv. rewrite !(m3_app_r (r_inv M)), !r_inv_app_r by exact HM. rewrite ?m3_app_r.
  repeat match goal with |- context [m3_app M ?b] => rewrite (m3_app_r M b) end.
  repeat match goal with |- context [m3_app ?a ?b] => generalize (m3_app a b) end. clear. geo.
Qed.
Lemma f_app_ab_split F I : f_app_ab F I = r_app_ab (fM F) (ab_RefPoint I (fp (f_inv F))).
Proof.
  destruct F as [M p]. unfold f_app_ab, r_app_ab, ab_RefPoint, f_inv. cbn [fM fp ab_M ab_H ab_I]. cbv zeta.
  unfold eig. rewrite <- (m3_tr_inv M), !m3_tr_tr. reflexivity.
Qed.
Lemma ab_app_frame F I t : rigid F -> symmetric3 (ab_M I) ->
  ab_app (f_app_ab F I) (f_app_t F t) = f_app_w F (ab_app I t).
Proof.
  intros H S. rewrite f_app_ab_split, f_app_t_split, f_app_w_split by exact H.
  rewrite ab_app_rot by exact H. rewrite ab_app_RefPoint by exact S. reflexivity.
Qed.
Lemma ab_sym_M_frame F I : symmetric3 (ab_M I) -> symmetric3 (ab_M (f_app_ab F I)).
Proof.
  intros H. apply sym_tr in H. apply sym_tr. unfold f_app_ab. cbn [ab_M]. rewrite !m3_tr_mul, !m3_tr_tr, H, !m3_mul_assoc. reflexivity.
Qed.
Lemma ab_frame_energy F I t : rigid F -> symmetric3 (ab_M I) ->
  tw_dot (f_app_t F t) (ab_app (f_app_ab F I) (f_app_t F t)) = tw_dot t (ab_app I t).
Proof. intros H S. rewrite ab_app_frame by assumption. apply f_power; exact H. Qed.
Lemma ab_frame_psd F I : rigid F -> symmetric3 (ab_M I) -> ab_psd I -> ab_psd (f_app_ab F I).
Proof. intros H S P t. rewrite <- (f_app_t_surj F t H), ab_frame_energy by assumption. apply P. Qed.
(** * An inertia is determined by the momenta it produces *)
Lemma m3_app_ext a b : (forall v, m3_app a v = m3_app b v) -> a = b.
Proof.
  intros H. pose proof (H (mkV 1 0 0)) as X. pose proof (H (mkV 0 1 0)) as Y. pose proof (H (mkV 0 0 1)) as Z.
  unfold m3_app in *. psimp. injection X as X1 X2 X3. injection Y as Y1 Y2 Y3. injection Z as Z1 Z2 Z3.
  apply r_ext; lra.
Qed.
Lemma ab_app_ext a b : (forall t, ab_app a t = ab_app b t) -> a = b.
Proof.
  intros H.
  assert (Z : forall m, m3_app m v_zero = v_zero) by (clear; ine).
  assert (A0 : forall v, v_add v v_zero = v) by (clear; geo).
  assert (A1 : forall v, v_add v_zero v = v) by (clear; geo).
  assert (X : forall v, m3_app (ab_M a) v = m3_app (ab_M b) v /\ m3_app (ab_H a) v = m3_app (ab_H b) v).
  { intros v. specialize (H (mkT v v_zero)). unfold ab_app in H. cbn [tvel trot] in H.
    rewrite !Z, !A0, !A1 in H. split; [exact (f_equal wforce H)|exact (f_equal wtorque H)]. }
  assert (Y : forall v, m3_app (ab_I a) v = m3_app (ab_I b) v).
  { intros v. specialize (H (mkT v_zero v)). unfold ab_app in H. cbn [tvel trot] in H.
    rewrite !Z, !A0, !A1 in H. exact (f_equal wtorque H). }
  destruct a as [Ma Ha Ia], b as [Mb Hb Ib]. cbn [ab_M ab_H ab_I] in *.
  f_equal; apply m3_app_ext; intros v; first [apply X|apply Y].
Qed.
Lemma rb_app_ext a b : (forall t, rb_app a t = rb_app b t) -> a = b.
Proof.
  intros H.
  assert (X : rb_m a = rb_m b /\ rb_h a = rb_h b).
  { pose proof (f_equal wforce (H (mkT (mkV 1 0 0) v_zero))) as M.
    pose proof (f_equal wforce (H (mkT v_zero (mkV 1 0 0)))) as P.
    pose proof (f_equal wforce (H (mkT v_zero (mkV 0 1 0)))) as Q. unfold rb_app in *. cbn [wforce tvel trot] in *.
    clear H. destruct (rb_h a) as [a1 a2 a3], (rb_h b) as [b1 b2 b3]. geo_unfold.
    injection M as M1 M2 M3. injection P as P1 P2 P3. injection Q as Q1 Q2 Q3.
    split; [lra|]. f_equal; lra. }
  destruct X as [X1 X2].
  assert (Y : forall w, ri_app (rb_I a) w = ri_app (rb_I b) w).
  { intros w. pose proof (f_equal wtorque (H (mkT v_zero w))) as E. unfold rb_app in E. cbn [wtorque tvel trot] in E.
    rewrite X2 in E. assert (Z : forall h, v_cross h v_zero = v_zero) by (clear; geo). rewrite Z in E.
    assert (A0 : forall v, v_add v v_zero = v) by (clear; geo). rewrite !A0 in E. exact E. }
  destruct a as [m h [D]], b as [n k [E]]. cbn [rb_m rb_h rb_I] in *. subst. f_equal. f_equal.
  rewrite <- (m3_tr_tr D), <- (m3_tr_tr E). f_equal. apply m3_app_ext. exact Y.
Qed.
Lemma ab_of_rb_M_sym I : symmetric3 (ab_M (ab_of_rb I)).
Proof. unfold ab_of_rb, m3_scale, m3_id. repeat split; psimp; ring. Qed.
Lemma ab_of_rb_frame F I : rigid F -> ab_of_rb (f_app_rb F I) = f_app_ab F (ab_of_rb I).
Proof.
  intros H. apply ab_app_ext. intros t. rewrite <- (f_app_t_surj F t H).
  rewrite ab_of_rb_app, rb_app_frame, ab_app_frame, ab_of_rb_app; auto using ab_of_rb_M_sym.
Qed.
Lemma ab_of_rb_add I J : ab_of_rb (rb_add I J) = ab_add (ab_of_rb I) (ab_of_rb J).
Proof. apply ab_app_ext. intros t. rewrite ab_app_add, !ab_of_rb_app. apply rb_app_add. Qed.
Lemma rb_frame_mul F G I : rigid F -> rigid G -> f_app_rb (f_mul F G) I = f_app_rb F (f_app_rb G I).
Proof.
  intros HF HG. apply rb_app_ext. intros t.
  assert (HFG : rigid (f_mul F G)) by (apply rigid_mul; assumption).
  rewrite <- (f_app_t_surj _ t HFG). rewrite rb_app_frame by exact HFG.
  rewrite !f_mul_app_t by assumption. rewrite f_mul_app_w by assumption.
  rewrite !rb_app_frame by assumption. reflexivity.
Qed.
Lemma rb_frame_id I : f_app_rb f_id I = I.
Proof.
  apply rb_app_ext. intros t. assert (E : t = f_app_t f_id t) by (clear; geo). rewrite E at 1.
  rewrite rb_app_frame by apply rigid_id. generalize (rb_app I t). clear. geo.
Qed.
Lemma rb_frame_rot M I : is_rotation M -> f_app_rb (f_of_rot M) I = r_app_rb M I.
Proof.
  intros H. apply rb_app_ext. intros t. rewrite <- (r_app_t_surj M t H). rewrite rb_app_rot by exact H.
  assert (E : forall u, r_app_t M u = f_app_t (f_of_rot M) u) by (clear; geo).
  assert (E2 : forall u, r_app_w M u = f_app_w (f_of_rot M) u) by (clear; geo).
  rewrite E, E2. apply rb_app_frame. exact H.
Qed.
Lemma rb_frame_add F I J : rigid F -> f_app_rb F (rb_add I J) = rb_add (f_app_rb F I) (f_app_rb F J).
Proof.
  intros H. apply rb_app_ext. intros t. rewrite <- (f_app_t_surj F t H).
  rewrite rb_app_frame, !rb_app_add, !rb_app_frame by exact H.
  generalize (rb_app I (f_app_t (f_inv F) t)) (rb_app J (f_app_t (f_inv F) t)). clear. geo.
Qed.
