(** Property theorems C34.  Definitions: InertiaModel.v (code), InertiaSpec.v
    (particles, momentum, kinetic energy). *)
From Coq Require Import Reals List Lra.
From Verif Require Import FramesModel FramesSpec FramesProofs RotationProofs InertiaModel InertiaSpec InertiaProofs.
Import ListNotations.
Local Open Scope R_scope.

(** An inertia built from the mass, centre of gravity and central rotational
    inertia of a body maps every twist to the momentum of that body. *)
Theorem C34_momentum : forall b, total_mass b <> 0 ->
  let c := v_div (first_moment b) (total_mass b) in
  describes (rb_make (total_mass b) c (rotational_inertia b c)) b.
Proof. exact describes_make_cog. Qed.
Print Assumptions C34_momentum.

Theorem C34_kinetic_energy : forall I b t, describes I b -> tw_dot t (rb_app I t) = 2 * kinetic_energy b t.
Proof. exact describes_energy. Qed.
Print Assumptions C34_kinetic_energy.

(** Adding inertias merges the bodies; transforming an inertia moves the body. *)
Theorem C34_bodies : forall I J a b, describes I a -> describes J b ->
  describes (rb_add I J) (a ++ b) /\
  (forall s, describes (rb_scale s I) (map (fun x => mkParticle (s * pm x) (pp x)) a)) /\
  (forall p, describes (rb_RefPoint I p) (map (fun x => mkParticle (pm x) (v_sub (pp x) p)) a)) /\
  (forall M, is_rotation M -> describes (r_app_rb M I) (map (fun x => mkParticle (pm x) (r_app M (pp x))) a)) /\
  (forall F, rigid F -> describes (f_app_rb F I) (map (fun x => mkParticle (pm x) (f_app F (pp x))) a)).
Proof.
  exact (fun I J a b A B => conj (describes_add I J a b A B) (conj (fun s => describes_scale s I a A)
    (conj (fun p => describes_RefPoint I a p A) (conj (fun M H => describes_rot M I a H A)
    (fun F H => describes_frame F I a H A))))).
Qed.
Print Assumptions C34_bodies.

(** (F*I)(F*t) = F*(I*t), for every inertia value whatsoever *)
Theorem C34_transform_momentum : forall I t,
  (forall F, rigid F -> rb_app (f_app_rb F I) (f_app_t F t) = f_app_w F (rb_app I t)) /\
  (forall M, is_rotation M -> rb_app (r_app_rb M I) (r_app_t M t) = r_app_w M (rb_app I t)) /\
  (forall p, rb_app (rb_RefPoint I p) (t_RefPoint t p) = w_RefPoint (rb_app I t) p).
Proof.
  exact (fun I t => conj (fun F => rb_app_frame F I t) (conj (fun M => rb_app_rot M I t) (fun p => rb_app_RefPoint I p t))).
Qed.
Print Assumptions C34_transform_momentum.

Theorem C34_transform_energy : forall I t,
  (forall F, rigid F -> tw_dot (f_app_t F t) (rb_app (f_app_rb F I) (f_app_t F t)) = tw_dot t (rb_app I t)) /\
  (forall M, is_rotation M -> tw_dot (r_app_t M t) (rb_app (r_app_rb M I) (r_app_t M t)) = tw_dot t (rb_app I t)) /\
  (forall p, tw_dot (t_RefPoint t p) (rb_app (rb_RefPoint I p) (t_RefPoint t p)) = tw_dot t (rb_app I t)).
Proof.
  exact (fun I t => conj (fun F => rb_frame_energy F I t) (conj (fun M => rb_rot_energy M I t) (fun p => rb_RefPoint_energy I p t))).
Qed.
Print Assumptions C34_transform_energy.

Theorem C34_transform_laws : forall F G I J, rigid F -> rigid G ->
  f_app_rb (f_mul F G) I = f_app_rb F (f_app_rb G I) /\ f_app_rb f_id I = I /\
  f_app_rb (f_of_rot (fM F)) I = r_app_rb (fM F) I /\
  f_app_rb F (rb_add I J) = rb_add (f_app_rb F I) (f_app_rb F J).
Proof.
  exact (fun F G I J HF HG => conj (rb_frame_mul F G I HF HG) (conj (rb_frame_id I)
    (conj (rb_frame_rot (fM F) I HF) (rb_frame_add F I J HF)))).
Qed.
Print Assumptions C34_transform_laws.

Theorem C34_linear : forall I J s t u,
  rb_app (rb_add I J) t = w_add (rb_app I t) (rb_app J t) /\
  rb_app (rb_scale s I) t = w_scale_l s (rb_app I t) /\
  rb_app I (t_add t u) = w_add (rb_app I t) (rb_app I u) /\
  rb_app I (t_scale_l s t) = w_scale_l s (rb_app I t) /\
  rb_app rb_zero t = w_zero.
Proof.
  exact (fun I J s t u => conj (rb_app_add I J t) (conj (rb_app_scale s I t) (conj (rb_app_tadd I t u)
    (conj (rb_app_tscale I s t) (rb_app_zero t))))).
Qed.
Print Assumptions C34_linear.

(** Whatever a user builds by nesting API calls is symmetric, and positive
    semidefinite when the ingredients are physical. *)
Theorem C34_symmetric : forall e, rb_symmetric (rb_eval e).
Proof. exact rb_eval_symmetric. Qed.
Print Assumptions C34_symmetric.

Theorem C34_positive : forall e, rb_physical e -> rb_psd (rb_eval e).
Proof. exact rb_eval_psd. Qed.
Print Assumptions C34_positive.

Theorem C34_cog : forall m c I, m <> 0 -> rb_getCOG (rb_make m c I) = c.
Proof. exact rb_getCOG_make. Qed.
Print Assumptions C34_cog.

Theorem C34_cog_frame : forall F I, rigid F -> rb_m I <> 0 ->
  rb_m (f_app_rb F I) = rb_m I /\ rb_getCOG (f_app_rb F I) = f_app F (rb_getCOG I).
Proof. exact rb_getCOG_frame. Qed.
Print Assumptions C34_cog_frame.

(** Articulated-body inertias: the same laws, and agreement with rigid bodies.
    The frame and reference-point laws need a symmetric mass block. *)
Theorem C34_articulated_of_rigid : forall I J t,
  ab_app (ab_of_rb I) t = rb_app I t /\ ab_of_rb (rb_add I J) = ab_add (ab_of_rb I) (ab_of_rb J) /\
  (forall F, rigid F -> ab_of_rb (f_app_rb F I) = f_app_ab F (ab_of_rb I)).
Proof.
  exact (fun I J t => conj (ab_of_rb_app I t) (conj (ab_of_rb_add I J) (fun F => ab_of_rb_frame F I))).
Qed.
Print Assumptions C34_articulated_of_rigid.

Theorem C34_articulated_linear : forall I J s t,
  ab_app (ab_add I J) t = w_add (ab_app I t) (ab_app J t) /\
  ab_app (ab_sub I J) t = w_sub (ab_app I t) (ab_app J t) /\
  ab_app (ab_scale s I) t = w_scale_l s (ab_app I t).
Proof. exact (fun I J s t => conj (ab_app_add I J t) (conj (ab_app_sub I J t) (ab_app_scale s I t))). Qed.
Print Assumptions C34_articulated_linear.

Theorem C34_articulated_transform : forall I t, symmetric3 (ab_M I) ->
  (forall F, rigid F -> ab_app (f_app_ab F I) (f_app_t F t) = f_app_w F (ab_app I t)) /\
  (forall M, is_rotation M -> ab_app (r_app_ab M I) (r_app_t M t) = r_app_w M (ab_app I t)) /\
  (forall p, ab_app (ab_RefPoint I p) (t_RefPoint t p) = w_RefPoint (ab_app I t) p) /\
  (symmetric3 (ab_I I) -> ab_symmetric I) /\
  (forall F, rigid F -> ab_psd I -> ab_psd (f_app_ab F I)).
Proof.
  exact (fun I t S => conj (fun F H => ab_app_frame F I t H S) (conj (fun M => ab_app_rot M I t)
    (conj (fun p => ab_app_RefPoint I p t S) (conj (ab_symmetric_data I S) (fun F H => ab_frame_psd F I H S))))).
Qed.
Print Assumptions C34_articulated_transform.

(** A dumbbell: two particles; and a physical expression built from it. *)
Example C34_nonvacuous :
  let b := [mkParticle 1 (mkV 1 0 0); mkParticle 3 (mkV 0 2 0)] in
  total_mass b = 4 /\ describes (rb_make 4 (v_div (first_moment b) 4) (rotational_inertia b (v_div (first_moment b) 4))) b /\
  rb_physical (RAdd (RMake 4 (mkV 1 0 0) 1 2 3 0 0 0) (RFrame (mkF (r_RotZ 1) (mkV 1 2 3)) (RMake 2 v_zero 1 1 1 0 0 0))).
Proof.
  intros b. assert (M : total_mass b = 4) by (unfold b, total_mass, r_sum; simpl; ring).
  split; [exact M|]. split.
  - pose proof (C34_momentum b) as H. rewrite M in H. apply H. lra.
  - simpl. assert (V : forall x y z, 0 <= x -> 0 <= y -> 0 <= z -> ri_valid (ri_make x y z 0 0 0)).
    { intros x y z Hx Hy Hz. split; [repeat split|]. intros [p q r].
      unfold ri_app, ri_make, eig, m3_tr, m3_app, v_dot. cbn [ri_data vx vy vz r0 r1 r2 r3 r4 r5 r6 r7 r8].
      pose proof (Rmult_le_pos x (p * p) Hx (Rle_0_sqr p)). pose proof (Rmult_le_pos y (q * q) Hy (Rle_0_sqr q)).
      pose proof (Rmult_le_pos z (r * r) Hz (Rle_0_sqr r)). nra. }
    split; [split; [lra|apply V; lra]|]. split; [apply is_rotation_RotZ|]. split; [lra|apply V; lra].
Qed.
