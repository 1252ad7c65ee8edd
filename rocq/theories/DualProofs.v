(** Proofs about the automatic-differentiation scalars. *)
From Coq Require Import Reals Lra.
From Verif Require Import FramesModel FramesSpec FramesProofs DualModel InertiaModel KinModel KinSpec DerivProofs DualSpec.
Local Open Scope R_scope.

Lemma near_all t (P : R -> Prop) : (forall s, P s) -> near t P.
Proof. intros H. exists 1. split; [lra|auto]. Qed.
Lemma near_and t (P Q : R -> Prop) : near t P -> near t Q -> near t (fun s => P s /\ Q s).
Proof.
  intros (d & Hd & H) (e & He & G). exists (Rmin d e). split; [apply Rmin_pos; auto|].
  intros s Hs. split; [apply H|apply G]; eapply Rlt_le_trans; eauto; [apply Rmin_l|apply Rmin_r].
Qed.
Lemma near_imp t (P Q : R -> Prop) : (forall s, P s -> Q s) -> near t P -> near t Q.
Proof. intros H (d & Hd & G). exists d. split; auto. Qed.
Lemma near_at t (P : R -> Prop) : near t P -> P t.
Proof. intros (d & Hd & G). apply G. rewrite Rminus_diag_eq, Rabs_R0 by reflexivity. auto. Qed.
Lemma near_near t (P : R -> Prop) : near t P -> near t (fun s => near s P).
Proof.
  intros (d & Hd & G). exists (d / 2). split; [lra|]. intros s Hs. exists (d / 2). split; [lra|].
  intros u Hu. apply G. replace (u - t) with ((u - s) + (s - t)) by ring.
  eapply Rle_lt_trans; [apply Rabs_triang|]. lra.
Qed.

Lemma dl_near f g t l : near t (fun s => f s = g s) -> derivable_pt_lim f t l -> derivable_pt_lim g t l.
Proof.
  intros N H e He. destruct (H e He) as [d Hd]. pose proof (near_at _ _ N) as E0.
  destruct N as (d' & Hd' & G).
  assert (Hp : 0 < Rmin d d') by (apply Rmin_pos; auto; apply cond_pos).
  exists (mkposreal _ Hp). intros h Hh Hl. cbn [pos] in Hl.
  rewrite <- E0. rewrite <- G. apply Hd; auto.
  - eapply Rlt_le_trans; [exact Hl|apply Rmin_l].
  - replace (t + h - t) with h by ring. eapply Rlt_le_trans; [exact Hl|apply Rmin_r].
Qed.

Lemma near_cont f t l (P : R -> Prop) : derivable_pt_lim f t l -> near (f t) P -> near t (fun s => P (f s)).
Proof.
  intros H (d & Hd & G).
  assert (C : continuity_pt f t) by (apply derivable_continuous_pt; exists l; exact H).
  destruct (C d Hd) as (a & Ha & Hc). exists a. split; auto. intros s Hs.
  apply G. destruct (Req_dec s t) as [->|Hne].
  - rewrite Rminus_diag_eq, Rabs_R0 by reflexivity. auto.
  - apply (Hc s). split; [split; [exact I|auto]|exact Hs].
Qed.

Lemma near_pos x : 0 < x -> near x (fun u => 0 < u).
Proof. intros H. exists x. split; auto. intros s Hs. apply Rabs_def2 in Hs. lra. Qed.
Lemma near_neg x : x < 0 -> near x (fun u => u < 0).
Proof. intros H. exists (- x). split; [lra|]. intros s Hs. apply Rabs_def2 in Hs. lra. Qed.
Lemma near_neq x : x <> 0 -> near x (fun u => u <> 0).
Proof.
  intros H. destruct (Rtotal_order x 0) as [L|[L|L]]; [|contradiction|].
  - eapply near_imp; [|apply near_neg; auto]. intros s Hs; lra.
  - eapply near_imp; [|apply near_pos; auto]. intros s Hs; lra.
Qed.
Lemma near_open a b x : a < x < b -> near x (fun u => a < u < b).
Proof.
  intros [H1 H2]. exists (Rmin (x - a) (b - x)). split; [apply Rmin_pos; lra|].
  intros s Hs. assert (Rabs (s - x) < x - a) by (eapply Rlt_le_trans; [exact Hs|apply Rmin_l]).
  assert (Rabs (s - x) < b - x) by (eapply Rlt_le_trans; [exact Hs|apply Rmin_r]).
  apply Rabs_def2 in H, H0. lra.
Qed.

(** * First order *)
Lemma c1_eq f t a b : carries1 f t a -> a = b -> carries1 f t b. Proof. intros H <-; exact H. Qed.
Lemma d1_ext a b : d1t a = d1t b -> d1g a = d1g b -> a = b.
Proof. destruct a, b; simpl; intros -> ->; reflexivity. Qed.

Lemma unary1 phi l f t a : derivable_pt_lim phi (d1t a) l -> carries1 f t a ->
  carries1 (fun s => phi (f s)) t (mkD1 (phi (d1t a)) (l * d1g a)).
Proof.
  intros Hp [E H]. split; simpl; [rewrite E; reflexivity|].
  rewrite E in Hp. apply (derivable_pt_lim_comp f phi t (d1g a) l H Hp).
Qed.
Lemma c1_const c t : carries1 (fun _ => c) t (d1_const c).
Proof. split; simpl; auto. apply derivable_pt_lim_const. Qed.
Lemma c1_id t : carries1 (fun s => s) t (mkD1 t 1).
Proof. split; simpl; auto. apply derivable_pt_lim_id. Qed.

Section Arith1.
  Variables (f g : R -> R) (t : R) (a b : dVel) (s : R).
  Hypotheses (Ha : carries1 f t a) (Hb : carries1 g t b).
  Lemma c1_add : carries1 (fun x => f x + g x) t (d1_add a b).
  Proof. destruct Ha as [E H], Hb as [E' H']. split; simpl; [congruence|]. dl. Qed.
  Lemma c1_sub : carries1 (fun x => f x - g x) t (d1_sub a b).
  Proof. destruct Ha as [E H], Hb as [E' H']. split; simpl; [congruence|]. dl. Qed.
  Lemma c1_mul : carries1 (fun x => f x * g x) t (d1_mul a b).
  Proof. destruct Ha as [E H], Hb as [E' H']. split; simpl; [congruence|]. rewrite E, E'. dl. Qed.
  Lemma c1_div : g t <> 0 -> carries1 (fun x => f x / g x) t (d1_div a b).
  Proof.
    intros Hn. destruct Ha as [E H], Hb as [E' H']. split; simpl; [congruence|].
    eapply dl_eq; [apply (derivable_pt_lim_div f g t _ _ H H' Hn)|]. rewrite E, E'. unfold Rsqr. field. auto.
  Qed.
  Lemma c1_neg : carries1 (fun x => - f x) t (d1_neg a).
  Proof. destruct Ha as [E H]. split; simpl; [congruence|]. dl. Qed.
  Lemma c1_smul : carries1 (fun x => s * f x) t (d1_smul s a).
  Proof. destruct Ha as [E H]. split; simpl; [congruence|]. dl. Qed.
  Lemma c1_muls : carries1 (fun x => f x * s) t (d1_muls a s).
  Proof. destruct Ha as [E H]. split; simpl; [congruence|]. dl. Qed.
  Lemma c1_sadd : carries1 (fun x => s + f x) t (d1_sadd s a).
  Proof. destruct Ha as [E H]. split; simpl; [congruence|]. dl. Qed.
  Lemma c1_adds : carries1 (fun x => f x + s) t (d1_adds a s).
  Proof. destruct Ha as [E H]. split; simpl; [congruence|]. dl. Qed.
  Lemma c1_ssub : carries1 (fun x => s - f x) t (d1_ssub s a).
  Proof. destruct Ha as [E H]. split; simpl; [congruence|]. dl. Qed.
  Lemma c1_subs : carries1 (fun x => f x - s) t (d1_subs a s).
  Proof. destruct Ha as [E H]. split; simpl; [congruence|]. dl. Qed.
  Lemma c1_divs : carries1 (fun x => f x / s) t (d1_divs a s).
  Proof. destruct Ha as [E H]. split; simpl; [congruence|]. unfold Rdiv. dl. Qed.
End Arith1.
Lemma c1_sdiv f t a s : carries1 f t a -> f t <> 0 -> carries1 (fun x => s / f x) t (d1_sdiv s a).
Proof.
  intros Ha Hn. eapply c1_eq; [apply (c1_div (fun _ => s) f t _ a (c1_const s t) Ha Hn)|].
  destruct Ha as [E _]. apply d1_ext; simpl; auto. rewrite E. field. auto.
Qed.
Lemma d1_assign_ops a b : d1_add_eq a b = d1_add a b /\ d1_sub_eq a b = d1_sub a b /\
  d1_mul_eq a b = d1_mul a b /\ d1_div_eq a b = d1_div a b.
Proof.
  repeat split. unfold d1_div_eq, d1_div, LinComb. f_equal. f_equal. ring.
Qed.

(** Derivatives of the elementary functions *)
Lemma dl_tan x : cos x <> 0 -> derivable_pt_lim tan x (1 / sqr (cos x)).
Proof.
  intros H. eapply dl_eq; [apply (derivable_pt_lim_div sin cos x _ _ (derivable_pt_lim_sin x) (derivable_pt_lim_cos x) H)|].
  pose proof (sin2_cos2 x) as S. unfold Rsqr, sqr in *. field_simplify; auto.
  replace (cos x ^ 2 + sin x ^ 2) with 1 by (rewrite <- S; ring). reflexivity.
Qed.
Lemma cosh_pos x : 0 < cosh x.
Proof. unfold cosh. pose proof (exp_pos x). pose proof (exp_pos (- x)). lra. Qed.
Lemma cosh_sinh x : cosh x * cosh x - sinh x * sinh x = 1.
Proof.
  unfold cosh, sinh. rewrite exp_Ropp. pose proof (exp_pos x). field. lra.
Qed.
Lemma dl_tanh x : derivable_pt_lim tanh x (1 / sqr (cosh x)).
Proof.
  pose proof (cosh_pos x) as P.
  eapply dl_eq; [apply (derivable_pt_lim_div sinh cosh x _ _ (derivable_pt_lim_sinh x) (derivable_pt_lim_cosh x)); lra|].
  pose proof (cosh_sinh x) as S. unfold Rsqr, sqr. f_equal. lra.
Qed.
Lemma dl_sqrt x : 0 < x -> derivable_pt_lim sqrt x ((1 / 2) / sqrt x).
Proof.
  intros H. eapply dl_eq; [apply derivable_pt_lim_sqrt; auto|].
  pose proof (sqrt_lt_R0 x H). field. lra.
Qed.
Lemma dl_atan x : derivable_pt_lim atan x (1 / (1 + sqr x)).
Proof.
  eapply dl_eq; [apply derivable_pt_lim_atan|]. unfold sqr. pose proof (Rle_0_sqr x) as P. unfold Rsqr in P.
  field. nra.
Qed.
Lemma dl_asin x : -1 < x < 1 -> derivable_pt_lim asin x (1 / sqrt (1 - sqr x)).
Proof.
  intros H. pose proof (derive_pt_asin x H) as E. unfold derive_pt in E.
  destruct (derivable_pt_asin x H) as [l Hl]. simpl in E. unfold derivable_pt_abs in Hl. subst l. exact Hl.
Qed.
Lemma dl_acos x : -1 < x < 1 -> derivable_pt_lim acos x (- 1 / sqrt (1 - sqr x)).
Proof.
  intros H. pose proof (derive_pt_acos x H) as E. unfold derive_pt in E.
  destruct (derivable_pt_acos x H) as [l Hl]. simpl in E. unfold derivable_pt_abs in Hl. subst l. exact Hl.
Qed.
Lemma dl_pow x m : 0 < x -> derivable_pt_lim (fun u => Rpower u m) x (m * Rpower x m / x).
Proof.
  intros H. eapply dl_eq; [apply derivable_pt_lim_power; auto|].
  replace m with ((m - 1) + 1) at 4 by ring. rewrite Rpower_plus, Rpower_1 by auto. field. lra.
Qed.

Section Fun1.
  Variables (f : R -> R) (t : R) (a : dVel).
  Hypothesis Ha : carries1 f t a.
  Let E : d1t a = f t := proj1 Ha.
  Ltac u1 l := eapply c1_eq; [eapply (unary1 _ l f t a); [|exact Ha]|apply d1_ext; simpl; auto].
  Lemma c1_exp : carries1 (fun x => exp (f x)) t (d1_exp a).
  Proof. u1 (exp (d1t a)). apply derivable_pt_lim_exp. Qed.
  Lemma c1_sin : carries1 (fun x => sin (f x)) t (d1_sin a).
  Proof. u1 (cos (d1t a)). apply derivable_pt_lim_sin. Qed.
  Lemma c1_cos : carries1 (fun x => cos (f x)) t (d1_cos a).
  Proof. u1 (- sin (d1t a)). apply derivable_pt_lim_cos. Qed.
  Lemma c1_sinh : carries1 (fun x => sinh (f x)) t (d1_sinh a).
  Proof. u1 (cosh (d1t a)). apply derivable_pt_lim_sinh. Qed.
  Lemma c1_cosh : carries1 (fun x => cosh (f x)) t (d1_cosh a).
  Proof. u1 (sinh (d1t a)). apply derivable_pt_lim_cosh. Qed.
  Lemma c1_tanh : carries1 (fun x => tanh (f x)) t (d1_tanh a).
  Proof. u1 (1 / sqr (cosh (d1t a))). apply dl_tanh. unfold Rdiv; ring. Qed.
  Lemma c1_sqr : carries1 (fun x => f x * f x) t (d1_sqr a).
  Proof. eapply c1_eq; [apply (c1_mul f f t a a Ha Ha)|]. apply d1_ext; simpl; auto. ring. Qed.
  Lemma c1_atan : carries1 (fun x => atan (f x)) t (d1_atan a).
  Proof. u1 (1 / (1 + sqr (d1t a))). apply dl_atan. unfold Rdiv; ring. Qed.
  Lemma c1_log : 0 < f t -> carries1 (fun x => ln (f x)) t (d1_log a).
  Proof. intros H. u1 (/ d1t a). apply derivable_pt_lim_ln. rewrite E; auto. unfold Rdiv; ring. Qed.
  Lemma c1_tan : cos (f t) <> 0 -> carries1 (fun x => tan (f x)) t (d1_tan a).
  Proof. intros H. u1 (1 / sqr (cos (d1t a))). apply dl_tan. rewrite E; auto. unfold Rdiv; ring. Qed.
  Lemma c1_pow m : 0 < f t -> carries1 (fun x => Rpower (f x) m) t (d1_pow a m).
  Proof. intros H. eapply c1_eq; [eapply (unary1 (fun u => Rpower u m) _ f t a); [apply dl_pow; rewrite E; auto|exact Ha]|]. reflexivity. Qed.
  Lemma c1_sqrt : 0 < f t -> carries1 (fun x => sqrt (f x)) t (d1_sqrt a).
  Proof. intros H. u1 ((1 / 2) / sqrt (d1t a)). apply dl_sqrt. rewrite E; auto. Qed.
  Lemma c1_asin : -1 < f t < 1 -> carries1 (fun x => asin (f x)) t (d1_asin a).
  Proof. intros H. u1 (1 / sqrt (1 - sqr (d1t a))). apply dl_asin. rewrite E; auto. unfold Rdiv; ring. Qed.
  Lemma c1_acos : -1 < f t < 1 -> carries1 (fun x => acos (f x)) t (d1_acos a).
  Proof. intros H. u1 (- 1 / sqrt (1 - sqr (d1t a))). apply dl_acos. rewrite E; auto. unfold Rdiv; ring. Qed.
End Fun1.

Lemma c1_hypot f g t y x : carries1 f t y -> carries1 g t x -> (f t <> 0 \/ g t <> 0) ->
  carries1 (fun s => hypot (f s) (g s)) t (d1_hypot y x).
Proof.
  intros Hy Hx Hn. assert (P : 0 < f t * f t + g t * g t) by (destruct Hn; nra).
  pose proof (c1_sqrt _ t _ (c1_add _ _ t _ _ (c1_mul _ _ t _ _ Hy Hy) (c1_mul _ _ t _ _ Hx Hx)) P) as H.
  eapply c1_eq; [exact H|]. destruct Hy as [Ey _], Hx as [Ex _]. apply d1_ext; simpl; [reflexivity|].
  unfold hypot. rewrite Ey, Ex. pose proof (sqrt_lt_R0 _ P). field. lra.
Qed.

(** atan2 in the three half planes where it is a smooth function *)
Lemma atan2_up y x : 0 < y -> atan2 y x = PI / 2 - atan (x / y).
Proof.
  intros Hy. unfold atan2. destruct (Rlt_dec 0 x) as [Hx|Hx].
  - replace (x / y) with (/ (y / x)) by (field; lra). rewrite atan_inv by (apply Rdiv_lt_0_compat; auto). ring.
  - destruct (Rlt_dec x 0) as [Hx'|Hx'].
    + destruct (Rlt_dec y 0); [lra|].
      replace (x / y) with (- / (y / - x)) by (field; lra). rewrite atan_opp, atan_inv by (apply Rdiv_lt_0_compat; lra).
      replace (y / x) with (- (y / - x)) by (field; lra). rewrite atan_opp. lra.
    + assert (x = 0) by lra. subst x. destruct (Rlt_dec 0 y); [|lra].
      unfold Rdiv. rewrite Rmult_0_l, atan_0. ring.
Qed.
Lemma atan2_down y x : y < 0 -> atan2 y x = - (PI / 2) - atan (x / y).
Proof.
  intros Hy. unfold atan2. destruct (Rlt_dec 0 x) as [Hx|Hx].
  - replace (x / y) with (- / (- y / x)) by (field; lra). rewrite atan_opp, atan_inv by (apply Rdiv_lt_0_compat; lra).
    replace (y / x) with (- (- y / x)) by (field; lra). rewrite atan_opp. lra.
  - destruct (Rlt_dec x 0) as [Hx'|Hx'].
    + destruct (Rlt_dec y 0); [|lra].
      replace (x / y) with (/ (y / x)) by (field; lra).
      replace (y / x) with (- y / - x) by (field; lra).
      rewrite atan_inv by (apply Rdiv_lt_0_compat; lra). lra.
    + assert (x = 0) by lra. subst x. destruct (Rlt_dec 0 y); [lra|]. destruct (Rlt_dec y 0); [|lra].
      unfold Rdiv. rewrite Rmult_0_l, atan_0. ring.
Qed.
Lemma atan2_right y x : 0 < x -> atan2 y x = atan (y / x).
Proof. intros H. unfold atan2. destruct (Rlt_dec 0 x); [reflexivity|lra]. Qed.

Lemma c1_near f g t a : near t (fun s => f s = g s) -> carries1 f t a -> carries1 g t a.
Proof. intros N [E H]. split; [rewrite E; apply (near_at _ _ N)|eapply dl_near; eauto]. Qed.

Lemma c1_atan2 f g t y x : carries1 f t y -> carries1 g t x -> (f t <> 0 \/ 0 < g t) ->
  carries1 (fun s => atan2 (f s) (g s)) t (d1_atan2 y x).
Proof.
  intros Hy Hx Hn. pose proof Hy as [Ey Dy]. pose proof Hx as [Ex Dx].
  destruct (Rtotal_order (f t) 0) as [L|[L|L]].
  - eapply (c1_near (fun s => - (PI / 2) - atan (g s / f s))).
    + eapply near_imp; [|apply (near_cont f t _ _ Dy (near_neg _ L))]. intros s Hs. symmetry. apply atan2_down; auto.
    + eapply c1_eq; [apply c1_ssub, c1_atan, (c1_div g f t x y Hx Hy); lra|].
      apply d1_ext; simpl; rewrite Ey, Ex; [rewrite atan2_down; auto|].
      unfold sqr. field. split; nra.
  - eapply (c1_near (fun s => atan (f s / g s))).
    + assert (P : 0 < g t) by (destruct Hn; lra).
      eapply near_imp; [|apply (near_cont g t _ _ Dx (near_pos _ P))]. intros s Hs. symmetry. apply atan2_right; auto.
    + assert (P : 0 < g t) by (destruct Hn; lra).
      eapply c1_eq; [apply c1_atan, (c1_div f g t y x Hy Hx); lra|].
      apply d1_ext; simpl; rewrite Ey, Ex; [rewrite atan2_right; auto|].
      unfold sqr. field. split; nra.
  - eapply (c1_near (fun s => PI / 2 - atan (g s / f s))).
    + eapply near_imp; [|apply (near_cont f t _ _ Dy (near_pos _ L))]. intros s Hs. symmetry. apply atan2_up; auto.
    + eapply c1_eq; [apply c1_ssub, c1_atan, (c1_div g f t x y Hx Hy); lra|].
      apply d1_ext; simpl; rewrite Ey, Ex; [rewrite atan2_up; auto|].
      unfold sqr. field. split; nra.
Qed.

(** * Second order *)
Lemma c2_eq f t a b : carries2 f t a -> a = b -> carries2 f t b. Proof. intros H <-; exact H. Qed.
Lemma d2_ext a b : d2t a = d2t b -> d2d a = d2d b -> d2dd a = d2dd b -> a = b.
Proof. destruct a, b; simpl; intros -> -> ->; reflexivity. Qed.
Lemma c2_near f g t a : near t (fun s => f s = g s) -> carries2 f t a -> carries2 g t a.
Proof.
  intros N (E & f' & H & E' & H'). split; [rewrite E; apply (near_at _ _ N)|].
  exists f'. repeat split; auto.
  eapply near_imp; [|apply near_and; [exact H|apply near_near, N]].
  intros s [H1 H2]. eapply dl_near; eauto.
Qed.
Lemma c2_ext f g t a : (forall s, f s = g s) -> carries2 f t a -> carries2 g t a.
Proof. intros H. apply c2_near, near_all, H. Qed.
Lemma c2_first f t a : carries2 f t a -> derivable_pt_lim f t (d2d a).
Proof. intros (E & f' & H & E' & H'). rewrite E'. apply (near_at _ _ H). Qed.
Lemma c2_const c t : carries2 (fun _ => c) t (d2_const c).
Proof.
  split; auto. exists (fun _ => 0). repeat split; auto.
  - apply near_all. intros s. apply derivable_pt_lim_const.
  - apply derivable_pt_lim_const.
Qed.

Lemma unary2 phi phi1 phi2 f t a : carries2 f t a ->
  near (d2t a) (fun u => derivable_pt_lim phi u (phi1 u)) -> derivable_pt_lim phi1 (d2t a) phi2 ->
  carries2 (fun s => phi (f s)) t
    (mkD2 (phi (d2t a)) (phi1 (d2t a) * d2d a) (phi2 * d2d a * d2d a + phi1 (d2t a) * d2dd a)).
Proof.
  intros Ha N1 H2. pose proof (c2_first _ _ _ Ha) as D. destruct Ha as (E & f' & H & E' & H').
  rewrite E in *. split; [reflexivity|]. cbn [d2d d2dd].
  exists (fun s => phi1 (f s) * f' s). repeat split.
  - eapply near_imp; [|apply near_and; [exact H|apply (near_cont f t _ _ D N1)]].
    intros s [G1 G2]. apply (derivable_pt_lim_comp f phi s (f' s) (phi1 (f s)) G1 G2).
  - rewrite E'. reflexivity.
  - eapply dl_eq; [apply (derivable_pt_lim_mult (fun s => phi1 (f s)) f' t (phi2 * d2d a) (d2dd a)); auto;
      apply (derivable_pt_lim_comp f phi1 t (d2d a) phi2 D H2)|]. rewrite E'. ring.
Qed.

Section Arith2.
  Variables (f g : R -> R) (t : R) (a b : dAcc) (s : R).
  Hypotheses (Ha : carries2 f t a) (Hb : carries2 g t b).
  Lemma c2_add : carries2 (fun x => f x + g x) t (d2_add a b).
  Proof.
    destruct Ha as (E & f' & H & E' & H'), Hb as (G & g' & K & G' & K'). split; simpl; [congruence|].
    exists (fun x => f' x + g' x). repeat split; [|congruence|dl].
    eapply near_imp; [|apply near_and; [exact H|exact K]]. intros x [X1 X2]. dl.
  Qed.
  Lemma c2_mul : carries2 (fun x => f x * g x) t (d2_mul a b).
  Proof.
    pose proof (c2_first _ _ _ Ha) as D1. pose proof (c2_first _ _ _ Hb) as D2.
    destruct Ha as (E & f' & H & E' & H'), Hb as (G & g' & K & G' & K'). split; simpl; [congruence|].
    exists (fun x => f' x * g x + f x * g' x). repeat split; [|congruence|].
    - eapply near_imp; [|apply near_and; [exact H|exact K]]. intros x [X1 X2]. dl.
    - rewrite E, G. dl. rewrite <- E', <- G'. ring.
  Qed.
  Lemma c2_neg : carries2 (fun x => - f x) t (d2_neg a).
  Proof.
    destruct Ha as (E & f' & H & E' & H'). split; simpl; [congruence|].
    exists (fun x => - f' x). repeat split; [|congruence|dl].
    eapply near_imp; [|exact H]. intros x X1. eapply dl_eq; [apply derivable_pt_lim_opp; exact X1|reflexivity].
  Qed.
  Lemma c2_sub : carries2 (fun x => f x - g x) t (d2_sub a b).
  Proof.
    destruct Ha as (E & f' & H & E' & H'), Hb as (G & g' & K & G' & K'). split; simpl; [congruence|].
    exists (fun x => f' x - g' x). repeat split; [|congruence|dl].
    eapply near_imp; [|apply near_and; [exact H|exact K]]. intros x [X1 X2]. dl.
  Qed.
End Arith2.
Ltac d2ring := apply d2_ext; simpl; ring.
Section Arith2s.
  Variables (f : R -> R) (t : R) (a : dAcc) (s : R).
  Hypotheses (Ha : carries2 f t a).
  Lemma c2_smul : carries2 (fun x => s * f x) t (d2_smul s a).
  Proof. eapply c2_eq; [apply (c2_mul _ _ _ _ _ (c2_const s t) Ha)|d2ring]. Qed.
  Lemma c2_muls : carries2 (fun x => f x * s) t (d2_muls a s).
  Proof. eapply c2_eq; [apply (c2_mul _ _ _ _ _ Ha (c2_const s t))|d2ring]. Qed.
  Lemma c2_sadd : carries2 (fun x => s + f x) t (d2_sadd s a).
  Proof. eapply c2_eq; [apply (c2_add _ _ _ _ _ (c2_const s t) Ha)|d2ring]. Qed.
  Lemma c2_adds : carries2 (fun x => f x + s) t (d2_adds a s).
  Proof. eapply c2_eq; [apply (c2_add _ _ _ _ _ Ha (c2_const s t))|d2ring]. Qed.
  Lemma c2_ssub : carries2 (fun x => s - f x) t (d2_ssub s a).
  Proof. eapply c2_eq; [apply (c2_sub _ _ _ _ _ (c2_const s t) Ha)|d2ring]. Qed.
  Lemma c2_subs : carries2 (fun x => f x - s) t (d2_subs a s).
  Proof. eapply c2_eq; [apply (c2_sub _ _ _ _ _ Ha (c2_const s t))|d2ring]. Qed.
  Lemma c2_divs : carries2 (fun x => f x / s) t (d2_divs a s).
  Proof. unfold Rdiv. eapply c2_eq; [apply (c2_mul _ _ _ _ _ Ha (c2_const (/ s) t))|]. apply d2_ext; simpl; unfold Rdiv; ring. Qed.
End Arith2s.

Lemma dl_inv x : x <> 0 -> derivable_pt_lim (fun u => / u) x (- / (x * x)).
Proof.
  intros H. eapply dl_eq; [eapply dl_ext; [|apply (derivable_pt_lim_div (fun _ => 1) (fun u => u) x 0 1
     (derivable_pt_lim_const 1 x) (derivable_pt_lim_id x) H)]|].
  - intros s. unfold div_fct. unfold Rdiv. ring.
  - unfold Rsqr. field. auto.
Qed.
Lemma dl_inv2 x : x <> 0 -> derivable_pt_lim (fun u => - / (u * u)) x (2 / (x * x * x)).
Proof.
  intros H. assert (H' : x * x <> 0) by nra.
  eapply dl_eq; [apply (derivable_pt_lim_opp (fun u => / (u * u)) x);
    apply (derivable_pt_lim_comp (fun u => u * u) (fun u => / u) x (1 * x + x * 1)); [|apply dl_inv; exact H']|].
  - apply (derivable_pt_lim_mult (fun u => u) (fun u => u)); apply derivable_pt_lim_id.
  - field. auto.
Qed.
Lemma c2_inv f t a : carries2 f t a -> f t <> 0 ->
  carries2 (fun x => / f x) t (mkD2 (/ d2t a) (- / (d2t a * d2t a) * d2d a)
    (2 / (d2t a * d2t a * d2t a) * d2d a * d2d a + - / (d2t a * d2t a) * d2dd a)).
Proof.
  intros Ha Hn. pose proof Ha as (E & _). apply (unary2 (fun u => / u) (fun u => - / (u * u)) _ f t a Ha).
  - rewrite E. eapply near_imp; [|apply near_neq; exact Hn]. intros u Hu. apply dl_inv; auto.
  - rewrite E. apply dl_inv2; auto.
Qed.
Lemma c2_div f g t a b : carries2 f t a -> carries2 g t b -> g t <> 0 ->
  carries2 (fun x => f x / g x) t (d2_div a b).
Proof.
  intros Ha Hb Hn. unfold Rdiv. eapply c2_eq; [apply (c2_mul _ _ _ _ _ Ha (c2_inv _ _ _ Hb Hn))|].
  destruct Hb as (E & _). rewrite <- E in Hn.
  apply d2_ext; cbn [d2_mul d2_div d2t d2d d2dd]; field; auto.
Qed.
Lemma c2_sdiv f t a s : carries2 f t a -> f t <> 0 -> carries2 (fun x => s / f x) t (d2_sdiv s a).
Proof.
  intros Ha Hn. eapply c2_eq; [apply (c2_div _ _ _ _ _ (c2_const s t) Ha Hn)|].
  destruct Ha as (E & _). rewrite <- E in Hn.
  apply d2_ext; cbn [d2_sdiv d2_const d2_div d2t d2d d2dd]; field; auto.
Qed.
Lemma d2_assign_ops a b : d2_add_eq a b = d2_add a b /\ d2_sub_eq a b = d2_sub a b /\ d2_div_eq a b = d2_div a b.
Proof. repeat split. Qed.

(** What operator*= computes: the value is the product, and the derivatives are off by these terms. *)
Lemma d2_mul_eq_exact f g t a b : carries2 f t a -> carries2 g t b ->
  d2t (d2_mul_eq a b) = f t * g t /\
  (forall df dg, derivable_pt_lim f t df -> derivable_pt_lim g t dg ->
     d2d (d2_mul_eq a b) = (df * g t + f t * dg) + f t * (g t - 1) * dg /\
     d2dd (d2_mul_eq a b) = d2dd (d2_mul a b) + 2 * (df * (g t - 1) + f t * g t * dg) * dg + f t * (g t - 1) * d2dd b) /\
  (d2d b = 0 -> d2dd b = 0 -> carries2 (fun s => f s * g s) t (d2_mul_eq a b)).
Proof.
  intros Ha Hb. pose proof (proj1 Ha) as Ea. pose proof (proj1 Hb) as Eb.
  split; [|split].
  - cbn [d2_mul_eq d2t]. rewrite <- Ea, <- Eb. reflexivity.
  - intros df dg Hf Hg. pose proof (uniqueness_limite _ _ _ _ Hf (c2_first _ _ _ Ha)) as E1.
    pose proof (uniqueness_limite _ _ _ _ Hg (c2_first _ _ _ Hb)) as E2.
    subst df dg. cbn [d2_mul_eq d2_mul d2t d2d d2dd]. rewrite <- Ea, <- Eb. split; ring.
  - intros D1 D2. replace (d2_mul_eq a b) with (d2_mul a b); [exact (c2_mul _ _ _ _ _ Ha Hb)|].
    apply d2_ext; cbn [d2_mul_eq d2_mul d2t d2d d2dd]; rewrite ?D1, ?D2; ring.
Qed.
(** operator*= does not compute the product. *)
Lemma d2_mul_eq_wrong : exists f t a, carries2 f t a /\
  d2_mul_eq a a <> d2_mul a a /\ ~ carries2 (fun s => f s * f s) t (d2_mul_eq a a).
Proof.
  assert (H : carries2 (fun s => s) 2 (mkD2 2 1 0)).
  { split; auto. exists (fun _ => 1). repeat split; auto.
    - apply near_all. intros s. apply derivable_pt_lim_id.
    - apply derivable_pt_lim_const. }
  exists (fun s => s), 2, (mkD2 2 1 0). split; [exact H|]. split.
  - intros C. assert (E : d2d (d2_mul_eq (mkD2 2 1 0) (mkD2 2 1 0)) = d2d (d2_mul (mkD2 2 1 0) (mkD2 2 1 0))) by (rewrite C; reflexivity).
    simpl in E. lra.
  - intros C. pose proof (c2_first _ _ _ C) as D1. pose proof (c2_first _ _ _ (c2_mul _ _ _ _ _ H H)) as D2.
    pose proof (uniqueness_limite _ _ _ _ D1 D2) as E. simpl in E. lra.
Qed.

Section Fun2.
  Variables (f : R -> R) (t : R) (a : dAcc).
  Hypothesis Ha : carries2 f t a.
  Let E : d2t a = f t := proj1 Ha.
  Ltac u2 p1 p2 := eapply c2_eq; [eapply (unary2 _ p1 p2 f t a Ha)|].
  Ltac d2f := apply d2_ext; simpl; auto.
  Lemma c2_exp : carries2 (fun x => exp (f x)) t (d2_exp a).
  Proof.
    u2 exp (exp (d2t a)); [apply near_all; intros; apply derivable_pt_lim_exp|apply derivable_pt_lim_exp|d2f].
  Qed.
  Lemma c2_sin : carries2 (fun x => sin (f x)) t (d2_sin a).
  Proof. u2 cos (- sin (d2t a)); [apply near_all; intros; apply derivable_pt_lim_sin|apply derivable_pt_lim_cos|d2f; ring]. Qed.
  Lemma c2_cos : carries2 (fun x => cos (f x)) t (d2_cos a).
  Proof.
    u2 (fun u => - sin u) (- cos (d2t a)); [apply near_all; intros; apply derivable_pt_lim_cos| |d2f; ring].
    apply (derivable_pt_lim_opp sin). apply derivable_pt_lim_sin.
  Qed.
  Lemma c2_sinh : carries2 (fun x => sinh (f x)) t (d2_sinh a).
  Proof. u2 cosh (sinh (d2t a)); [apply near_all; intros; apply derivable_pt_lim_sinh|apply derivable_pt_lim_cosh|d2f; ring]. Qed.
  Lemma c2_cosh : carries2 (fun x => cosh (f x)) t (d2_cosh a).
  Proof. u2 sinh (cosh (d2t a)); [apply near_all; intros; apply derivable_pt_lim_cosh|apply derivable_pt_lim_sinh|d2f; ring]. Qed.
  Lemma c2_sqr : carries2 (fun x => f x * f x) t (d2_sqr a).
  Proof. eapply c2_eq; [apply (c2_mul f f t a a Ha Ha)|]. d2f; unfold sqr; ring. Qed.
  Lemma dl_tan' u : cos u <> 0 -> derivable_pt_lim tan u (1 + tan u * tan u).
  Proof.
    intros H. eapply dl_eq; [apply dl_tan; auto|]. unfold tan, sqr. pose proof (sin2_cos2 u) as S. unfold Rsqr in S.
    replace 1 with (sin u * sin u + cos u * cos u) at 1 by exact S. field. auto.
  Qed.
  Lemma c2_tan : cos (f t) <> 0 -> carries2 (fun x => tan (f x)) t (d2_tan a).
  Proof.
    intros H. u2 (fun u => 1 + tan u * tan u) (2 * tan (d2t a) * (1 + tan (d2t a) * tan (d2t a))).
    - rewrite E. eapply near_imp; [|apply (near_cont cos (f t) _ _ (derivable_pt_lim_cos _) (near_neq _ H))].
      intros u Hu. apply dl_tan'; auto.
    - rewrite E. pose proof (dl_tan' (f t) H) as D. dl.
    - d2f; unfold sqr; ring.
  Qed.
  Lemma dl_tanh' u : derivable_pt_lim tanh u (1 - tanh u * tanh u).
  Proof.
    eapply dl_eq; [apply dl_tanh|]. unfold tanh, sqr. pose proof (cosh_sinh u) as S. pose proof (cosh_pos u).
    rewrite <- S at 1. field. lra.
  Qed.
  Lemma c2_tanh : carries2 (fun x => tanh (f x)) t (d2_tanh a).
  Proof.
    u2 (fun u => 1 - tanh u * tanh u) (- (2 * tanh (d2t a) * (1 - tanh (d2t a) * tanh (d2t a)))).
    - apply near_all. intros u. apply dl_tanh'.
    - pose proof (dl_tanh' (d2t a)) as D. dl.
    - d2f; unfold sqr; ring.
  Qed.
  Lemma c2_log : 0 < f t -> carries2 (fun x => ln (f x)) t (d2_log a).
  Proof.
    intros H. u2 (fun u => / u) (- / (d2t a * d2t a)).
    - rewrite E. eapply near_imp; [|apply near_pos; exact H]. intros u Hu. apply derivable_pt_lim_ln; auto.
    - apply dl_inv. rewrite E. lra.
    - assert (d2t a <> 0) by (rewrite E; lra). d2f; field; auto.
  Qed.
  Lemma c2_pow m : 0 < f t -> carries2 (fun x => Rpower (f x) m) t (d2_pow a m).
  Proof.
    intros H. assert (Hn : d2t a <> 0) by (rewrite E; lra).
    eapply c2_eq; [eapply (unary2 (fun u => Rpower u m) (fun u => m * Rpower u m / u)
      ((m * (m * Rpower (d2t a) m / d2t a) * d2t a - m * Rpower (d2t a) m) / (d2t a * d2t a)) f t a Ha)|].
    - rewrite E. eapply near_imp; [|apply near_pos; exact H]. intros u Hu. apply dl_pow; auto.
    - eapply dl_eq; [apply (derivable_pt_lim_div (fun u => m * Rpower u m) (fun u => u) (d2t a)
        (m * (m * Rpower (d2t a) m / d2t a)) 1)|].
      + eapply dl_eq; [apply (derivable_pt_lim_scal (fun u => Rpower u m) m); apply dl_pow; rewrite E; auto|]. reflexivity.
      + apply derivable_pt_lim_id.
      + exact Hn.
      + unfold Rsqr. field. auto.
    - d2f; field; auto.
  Qed.
  Lemma c2_sqrt : 0 < f t -> carries2 (fun x => sqrt (f x)) t (d2_sqrt a).
  Proof.
    intros H. assert (P : 0 < d2t a) by (rewrite E; auto). pose proof (sqrt_lt_R0 _ P) as Q.
    u2 (fun u => 1 / 2 * / sqrt u) (- (1 / 4) / (sqrt (d2t a) * sqrt (d2t a) * sqrt (d2t a))).
    - eapply near_imp; [|apply near_pos; exact P]. intros u Hu. apply dl_sqrt; auto.
    - eapply dl_eq; [apply (derivable_pt_lim_scal (fun u => / sqrt u) (1 / 2));
        apply (derivable_pt_lim_comp sqrt (fun u => / u) (d2t a)); [apply dl_sqrt; exact P|apply dl_inv; lra]|].
      field. lra.
    - apply d2_ext; cbn [d2_sqrt d2t d2d d2dd]; auto; unfold sqr; field; lra.
  Qed.
  Lemma one_minus u : -1 < u < 1 -> 0 < 1 - u * u. Proof. intros H. nra. Qed.
  Lemma dl_root u : -1 < u < 1 -> derivable_pt_lim (fun v => sqrt (1 - v * v)) u (- u / sqrt (1 - u * u)).
  Proof.
    intros H. pose proof (one_minus u H) as P. pose proof (sqrt_lt_R0 _ P) as Q.
    eapply dl_eq; [apply (derivable_pt_lim_comp (fun v => 1 - v * v) sqrt u (0 - (1 * u + u * 1))); [|apply dl_sqrt; exact P]|].
    - apply (derivable_pt_lim_minus (fun _ => 1) (fun v => v * v)); [apply derivable_pt_lim_const|].
      apply (derivable_pt_lim_mult (fun v => v) (fun v => v)); apply derivable_pt_lim_id.
    - field. lra.
  Qed.
  Lemma c2_asin : -1 < f t < 1 -> carries2 (fun x => asin (f x)) t (d2_asin a).
  Proof.
    intros H. assert (P : -1 < d2t a < 1) by (rewrite E; auto).
    pose proof (one_minus _ P) as P'. pose proof (sqrt_lt_R0 _ P') as Q. pose proof (sqrt_sqrt _ (Rlt_le _ _ P')) as S.
    assert (C : cos (asin (d2t a)) = sqrt (1 - d2t a * d2t a)) by (rewrite cos_asin by lra; reflexivity).
    u2 (fun u => / sqrt (1 - u * u)) (d2t a / (sqrt (1 - d2t a * d2t a) * sqrt (1 - d2t a * d2t a) * sqrt (1 - d2t a * d2t a))).
    - eapply near_imp; [|apply near_open; exact P]. intros u Hu.
      eapply dl_eq; [apply dl_asin; auto|]. unfold sqr, Rdiv. ring.
    - eapply dl_eq; [eapply (derivable_pt_lim_comp (fun v => sqrt (1 - v * v)) (fun u => / u) (d2t a)); [exact (dl_root _ P)|]; apply dl_inv; lra|].
      field. lra.
    - unfold d2_asin. apply d2_ext; cbn [d2t d2d d2dd]; auto; rewrite C; unfold sqr; field; lra.
  Qed.
  Lemma c2_acos : -1 < f t < 1 -> carries2 (fun x => acos (f x)) t (d2_acos a).
  Proof.
    intros H. assert (P : -1 < d2t a < 1) by (rewrite E; auto).
    pose proof (one_minus _ P) as P'. pose proof (sqrt_lt_R0 _ P') as Q. pose proof (sqrt_sqrt _ (Rlt_le _ _ P')) as S.
    assert (C : sin (acos (d2t a)) = sqrt (1 - d2t a * d2t a)) by (rewrite sin_acos by lra; reflexivity).
    u2 (fun u => - / sqrt (1 - u * u)) (- d2t a / (sqrt (1 - d2t a * d2t a) * sqrt (1 - d2t a * d2t a) * sqrt (1 - d2t a * d2t a))).
    - eapply near_imp; [|apply near_open; exact P]. intros u Hu.
      eapply dl_eq; [apply dl_acos; auto|]. unfold sqr, Rdiv. ring.
    - eapply dl_eq; [apply (derivable_pt_lim_opp (fun u => / sqrt (1 - u * u)));
        eapply (derivable_pt_lim_comp (fun v => sqrt (1 - v * v)) (fun u => / u) (d2t a)); [exact (dl_root _ P)|]; apply dl_inv; lra|].
      field. lra.
    - unfold d2_acos. apply d2_ext; cbn [d2t d2d d2dd]; auto; rewrite C; unfold sqr; field; lra.
  Qed.
  Lemma c2_atan : carries2 (fun x => atan (f x)) t (d2_atan a).
  Proof.
    assert (P : forall u, 0 < 1 + u * u) by (intros u; nra).
    u2 (fun u => / (1 + u * u)) (- (2 * d2t a) / ((1 + d2t a * d2t a) * (1 + d2t a * d2t a))).
    - apply near_all. intros u. eapply dl_eq; [apply dl_atan|]. unfold sqr, Rdiv. ring.
    - eapply dl_eq; [apply (derivable_pt_lim_comp (fun v => 1 + v * v) (fun u => / u) (d2t a) (0 + (1 * d2t a + d2t a * 1)))|].
      + apply (derivable_pt_lim_plus (fun _ => 1) (fun v => v * v)); [apply derivable_pt_lim_const|].
        apply (derivable_pt_lim_mult (fun v => v) (fun v => v)); apply derivable_pt_lim_id.
      + apply dl_inv. pose proof (P (d2t a)); lra.
      + field. pose proof (P (d2t a)); lra.
    - pose proof (P (d2t a)). d2f; unfold sqr; field; lra.
  Qed.
End Fun2.

Lemma c2_hypot f g t y x : carries2 f t y -> carries2 g t x -> (f t <> 0 \/ g t <> 0) ->
  carries2 (fun s => hypot (f s) (g s)) t (d2_hypot y x).
Proof.
  intros Hy Hx Hn. assert (P : 0 < f t * f t + g t * g t) by (destruct Hn; nra).
  pose proof (c2_sqrt _ t _ (c2_add _ _ t _ _ (c2_mul _ _ t _ _ Hy Hy) (c2_mul _ _ t _ _ Hx Hx)) P) as H.
  eapply c2_eq; [exact H|]. destruct Hy as [Ey _], Hx as [Ex _]. rewrite <- Ey, <- Ex in P.
  pose proof (sqrt_lt_R0 _ P). apply d2_ext; simpl; auto; unfold hypot, sqr; field; lra.
Qed.

Lemma c2_atan2 f g t y x : carries2 f t y -> carries2 g t x -> (f t <> 0 \/ 0 < g t) ->
  carries2 (fun s => atan2 (f s) (g s)) t (d2_atan2 y x).
Proof.
  intros Hy Hx Hn. pose proof (c2_first _ _ _ Hy) as Dy. pose proof (c2_first _ _ _ Hx) as Dx.
  pose proof Hy as (Ey & _). pose proof Hx as (Ex & _).
  destruct (Rtotal_order (f t) 0) as [L|[L|L]].
  - eapply (c2_near (fun s => - (PI / 2) - atan (g s / f s))).
    + eapply near_imp; [|apply (near_cont f t _ _ Dy (near_neg _ L))]. intros s Hs. symmetry. apply atan2_down; auto.
    + eapply c2_eq; [apply c2_ssub, c2_atan, (c2_div g f t x y Hx Hy); lra|].
      apply d2_ext; simpl; rewrite Ey, Ex; [rewrite atan2_down; auto| |]; unfold sqr; field; repeat split; nra.
  - assert (P : 0 < g t) by (destruct Hn; lra). eapply (c2_near (fun s => atan (f s / g s))).
    + eapply near_imp; [|apply (near_cont g t _ _ Dx (near_pos _ P))]. intros s Hs. symmetry. apply atan2_right; auto.
    + eapply c2_eq; [apply c2_atan, (c2_div f g t y x Hy Hx); lra|].
      apply d2_ext; simpl; rewrite Ey, Ex; [rewrite atan2_right; auto| |]; unfold sqr; field; repeat split; nra.
  - eapply (c2_near (fun s => PI / 2 - atan (g s / f s))).
    + eapply near_imp; [|apply (near_cont f t _ _ Dy (near_pos _ L))]. intros s Hs. symmetry. apply atan2_up; auto.
    + eapply c2_eq; [apply c2_ssub, c2_atan, (c2_div g f t x y Hx Hy); lra|].
      apply d2_ext; simpl; rewrite Ey, Ex; [rewrite atan2_up; auto| |]; unfold sqr; field; repeat split; nra.
Qed.
