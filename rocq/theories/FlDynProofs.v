(** Errors that are linear in the rounding error: composition through the operations and loops of inverse dynamics. *)
From Coq Require Import Reals String List ZArith Bool Lra Lia.
From Verif Require Import FramesModel Outcome InertiaModel DualModel KinModel LinModel DynModel FlModel FlJacModel FlRotModel FlDynModel FlSpec LipProofs.
Import ListNotations.
Local Open Scope list_scope.
Local Open Scope R_scope.

(** An arithmetic. *)
Record env := mkEnv { e_eps : R; e_rnd : R -> R; e_sin : R -> R; e_cos : R -> R;
  e_lo : 0 <= e_eps; e_hi : e_eps <= 1; e_r : rounds e_eps e_rnd; e_s : computes e_eps e_sin sin; e_c : computes e_eps e_cos cos }.

(** How fine an arithmetic has to be for a bound to hold: always, or from some error on. *)
Class mode := { md : R -> Prop; md1 : md 1; mdmin : forall a b, md a -> md b -> md (Rmin a b) }.
Section Mode.
Context {mo : mode}.

(** [x' e] is [x] up to a multiple of the error of [e]. *)
Definition lin (x' : env -> R) (x : R) : Prop := exists K d, 0 <= K /\ md d /\ forall e, e_eps e <= d -> Rabs (x' e - x) <= K * e_eps e.

Lemma lin_const x : lin (fun _ => x) x.
Proof. exists 0, 1. split; [lra|]. split; [apply md1|]. intros e _. rewrite Rminus_diag_eq, Rabs_R0 by reflexivity. lra. Qed.
Lemma lin_add x' x y' y : lin x' x -> lin y' y -> lin (fun e => x' e + y' e) (x + y).
Proof.
  intros (K & d & K0 & D & HK) (L & d' & L0 & D' & HL). exists (K + L), (Rmin d d'). split; [lra|]. split; [apply mdmin; assumption|].
  intros e M. pose proof (Rmin_l d d'). pose proof (Rmin_r d d'). specialize (HK e ltac:(lra)). specialize (HL e ltac:(lra)).
  replace (x' e + y' e - (x + y)) with ((x' e - x) + (y' e - y)) by ring.
  eapply Rle_trans; [apply Rabs_triang|]. lra.
Qed.
Lemma lin_opp x' x : lin x' x -> lin (fun e => - x' e) (- x).
Proof.
  intros (K & d & K0 & D & HK). exists K, d. split; [lra|]. split; [exact D|]. intros e M. specialize (HK e M).
  replace (- x' e - - x) with (- (x' e - x)) by ring. rewrite Rabs_Ropp. exact HK.
Qed.
Lemma lin_sub x' x y' y : lin x' x -> lin y' y -> lin (fun e => x' e - y' e) (x - y).
Proof. intros. apply lin_add; [|apply lin_opp]; assumption. Qed.
Lemma lin_mul x' x y' y : lin x' x -> lin y' y -> lin (fun e => x' e * y' e) (x * y).
Proof.
  intros (K & d & K0 & D & HK) (L & d' & L0 & D' & HL). pose proof (Rabs_pos x). pose proof (Rabs_pos y).
  assert (0 <= (Rabs x + K) * L) by (apply Rmult_le_pos; lra).
  assert (0 <= Rabs y * K) by (apply Rmult_le_pos; lra).
  exists ((Rabs x + K) * L + Rabs y * K), (Rmin d d'). split; [lra|]. split; [apply mdmin; assumption|].
  intros e M. pose proof (Rmin_l d d'). pose proof (Rmin_r d d'). specialize (HK e ltac:(lra)). specialize (HL e ltac:(lra)).
  pose proof (e_lo e). pose proof (e_hi e).
  assert (X : Rabs (x' e) <= Rabs x + K).
  { replace (x' e) with (x + (x' e - x)) by ring. eapply Rle_trans; [apply Rabs_triang|].
    assert (K * e_eps e <= K * 1) by (apply Rmult_le_compat_l; lra). lra. }
  replace (x' e * y' e - x * y) with (x' e * (y' e - y) + y * (x' e - x)) by ring.
  eapply Rle_trans; [apply Rabs_triang|]. rewrite !Rabs_mult.
  assert (Rabs (x' e) * Rabs (y' e - y) <= (Rabs x + K) * (L * e_eps e)) by (apply Rmult_le_compat; auto using Rabs_pos).
  assert (Rabs y * Rabs (x' e - x) <= Rabs y * (K * e_eps e)) by (apply Rmult_le_compat_l; auto using Rabs_pos).
  lra.
Qed.
Lemma lin_rnd x' x : lin x' x -> lin (fun e => e_rnd e (x' e)) x.
Proof.
  intros (K & d & K0 & D & HK). pose proof (Rabs_pos x). exists (Rabs x + K + 1 + K), d. split; [lra|]. split; [exact D|]. intros e M. specialize (HK e M).
  pose proof (e_lo e). pose proof (e_hi e). pose proof (e_r e (x' e)) as Q.
  assert (X : Rabs (x' e) <= Rabs x + K).
  { replace (x' e) with (x + (x' e - x)) by ring. eapply Rle_trans; [apply Rabs_triang|].
    assert (K * e_eps e <= K * 1) by (apply Rmult_le_compat_l; lra). lra. }
  replace (e_rnd e (x' e) - x) with ((e_rnd e (x' e) - x' e) + (x' e - x)) by ring.
  eapply Rle_trans; [apply Rabs_triang|].
  assert (e_eps e * (Rabs (x' e) + 1) <= e_eps e * (Rabs x + K + 1)) by (apply Rmult_le_compat_l; lra). lra.
Qed.
Lemma lin_cos x' x : lin x' x -> lin (fun e => e_cos e (x' e)) (cos x).
Proof.
  intros (K & d & K0 & D & HK). exists (1 + K), d. split; [lra|]. split; [exact D|]. intros e M. specialize (HK e M).
  pose proof (e_c e (x' e)) as Q. pose proof (cos_lip (x' e) x).
  replace (e_cos e (x' e) - cos x) with ((e_cos e (x' e) - cos (x' e)) + (cos (x' e) - cos x)) by ring.
  eapply Rle_trans; [apply Rabs_triang|]. lra.
Qed.
Lemma lin_sin x' x : lin x' x -> lin (fun e => e_sin e (x' e)) (sin x).
Proof.
  intros (K & d & K0 & D & HK). exists (1 + K), d. split; [lra|]. split; [exact D|]. intros e M. specialize (HK e M).
  pose proof (e_s e (x' e)) as Q. pose proof (sin_lip (x' e) x).
  replace (e_sin e (x' e) - sin x) with ((e_sin e (x' e) - sin (x' e)) + (sin (x' e) - sin x)) by ring.
  eapply Rle_trans; [apply Rabs_triang|]. lra.
Qed.

(** * Entrywise *)
Definition vlin (v' : env -> Vector) (v : Vector) : Prop :=
  lin (fun e => vx (v' e)) (vx v) /\ lin (fun e => vy (v' e)) (vy v) /\ lin (fun e => vz (v' e)) (vz v).
Definition rlin (M' : env -> Rotation) (M : Rotation) : Prop :=
  (lin (fun e => r0 (M' e)) (r0 M) /\ lin (fun e => r1 (M' e)) (r1 M) /\ lin (fun e => r2 (M' e)) (r2 M)) /\
  (lin (fun e => r3 (M' e)) (r3 M) /\ lin (fun e => r4 (M' e)) (r4 M) /\ lin (fun e => r5 (M' e)) (r5 M)) /\
  (lin (fun e => r6 (M' e)) (r6 M) /\ lin (fun e => r7 (M' e)) (r7 M) /\ lin (fun e => r8 (M' e)) (r8 M)).
Definition flin (f' : env -> Frame) (f : Frame) : Prop := rlin (fun e => fM (f' e)) (fM f) /\ vlin (fun e => fp (f' e)) (fp f).
Definition tlin (t' : env -> Twist) (t : Twist) : Prop := vlin (fun e => tvel (t' e)) (tvel t) /\ vlin (fun e => trot (t' e)) (trot t).
Definition wlin (w' : env -> Wrench) (w : Wrench) : Prop := vlin (fun e => wforce (w' e)) (wforce w) /\ vlin (fun e => wtorque (w' e)) (wtorque w).

Ltac lin1 := first [assumption | apply lin_const | apply lin_rnd | apply lin_add | apply lin_sub | apply lin_mul | apply lin_opp | apply lin_cos | apply lin_sin].
Ltac linop := intros; unfold flin, tlin, wlin, rlin, vlin, fl_dot3 in *;
  cbn [vx vy vz r0 r1 r2 r3 r4 r5 r6 r7 r8 fM fp tvel trot wforce wtorque] in *;
  repeat match goal with H : _ /\ _ |- _ => destruct H end;
  repeat match goal with |- _ /\ _ => split end; repeat lin1.

Lemma vlin_const v : vlin (fun _ => v) v. Proof. linop. Qed.
Lemma rlin_const M : rlin (fun _ => M) M. Proof. linop. Qed.
Lemma flin_const f : flin (fun _ => f) f. Proof. linop. Qed.
Lemma tlin_const t : tlin (fun _ => t) t. Proof. linop. Qed.
Lemma wlin_const w : wlin (fun _ => w) w. Proof. linop. Qed.
Lemma l_v_add a' a b' b : vlin a' a -> vlin b' b -> vlin (fun e => fl_v_add (e_rnd e) (a' e) (b' e)) (v_add a b).
Proof. unfold fl_v_add, v_add. linop. Qed.
Lemma l_v_sub a' a b' b : vlin a' a -> vlin b' b -> vlin (fun e => fl_v_sub (e_rnd e) (a' e) (b' e)) (v_sub a b).
Proof. unfold fl_v_sub, v_sub. linop. Qed.
Lemma l_v_cross a' a b' b : vlin a' a -> vlin b' b -> vlin (fun e => fl_v_cross (e_rnd e) (a' e) (b' e)) (v_cross a b).
Proof. unfold fl_v_cross, v_cross. linop. Qed.
Lemma l_v_scale a' a s' s : vlin a' a -> lin s' s -> vlin (fun e => fl_v_scale (e_rnd e) (a' e) (s' e)) (v_scale a s).
Proof. unfold fl_v_scale, v_scale. linop. Qed.
Lemma l_v_scale_l a' a s' s : lin s' s -> vlin a' a -> vlin (fun e => fl_v_scale_l (e_rnd e) (s' e) (a' e)) (v_scale_l s a).
Proof. unfold fl_v_scale_l, v_scale_l. linop. Qed.
Lemma l_v_dot a' a b' b : vlin a' a -> vlin b' b -> lin (fun e => fl_v_dot (e_rnd e) (a' e) (b' e)) (v_dot a b).
Proof. unfold fl_v_dot, v_dot. linop. Qed.
Lemma l_r_app M' M v' v : rlin M' M -> vlin v' v -> vlin (fun e => fl_r_app (e_rnd e) (M' e) (v' e)) (r_app M v).
Proof. unfold fl_r_app, r_app. linop. Qed.
Lemma l_r_invapp M' M v' v : rlin M' M -> vlin v' v -> vlin (fun e => fl_r_invapp (e_rnd e) (M' e) (v' e)) (r_invapp M v).
Proof. unfold fl_r_invapp, r_invapp. linop. Qed.
Lemma l_r_mul M' M n' n : rlin M' M -> rlin n' n -> rlin (fun e => fl_r_mul (e_rnd e) (M' e) (n' e)) (r_mul M n).
Proof. unfold fl_r_mul, r_mul. linop. Qed.
Lemma l_Rot2 v a' a : lin a' a -> rlin (fun e => fl_Rot2 (e_rnd e) (e_sin e) (e_cos e) v (a' e)) (r_Rot2 v a).
Proof. unfold fl_Rot2, r_Rot2. cbv zeta. linop. Qed.
Lemma l_f_mul M' M n' n : flin M' M -> flin n' n -> flin (fun e => fl_f_mul (e_rnd e) (M' e) (n' e)) (f_mul M n).
Proof.
  intros [A B] [C D]. split; cbn [fM fp fl_f_mul f_mul].
  - apply l_r_mul; assumption.
  - apply l_v_add; [apply l_r_app|]; assumption.
Qed.
Lemma l_t_add a' a b' b : tlin a' a -> tlin b' b -> tlin (fun e => fl_t_add (e_rnd e) (a' e) (b' e)) (t_add a b).
Proof. intros [A B] [C D]. split; cbn [tvel trot fl_t_add t_add]; apply l_v_add; assumption. Qed.
Lemma l_t_scale a' a s' s : tlin a' a -> lin s' s -> tlin (fun e => fl_t_scale (e_rnd e) (a' e) (s' e)) (t_scale a s).
Proof. intros [A B] C. split; cbn [tvel trot fl_t_scale t_scale]; apply l_v_scale; assumption. Qed.
Lemma l_t_cross a' a b' b : tlin a' a -> tlin b' b -> tlin (fun e => fl_t_cross (e_rnd e) (a' e) (b' e)) (t_cross a b).
Proof.
  intros [A B] [C D]. split; cbn [tvel trot fl_t_cross t_cross].
  - apply l_v_add; apply l_v_cross; assumption.
  - apply l_v_cross; assumption.
Qed.
Lemma l_r_invapp_t M' M t' t : rlin M' M -> tlin t' t -> tlin (fun e => fl_r_invapp_t (e_rnd e) (M' e) (t' e)) (r_invapp_t M t).
Proof. intros A [C D]. split; cbn [tvel trot fl_r_invapp_t r_invapp_t]; apply l_r_invapp; assumption. Qed.
Lemma l_f_invapp_t f' f t' t : flin f' f -> tlin t' t -> tlin (fun e => fl_f_invapp_t (e_rnd e) (f' e) (t' e)) (f_invapp_t f t).
Proof.
  intros [A B] [C D]. split; cbn [tvel trot fl_f_invapp_t f_invapp_t]; apply l_r_invapp; auto.
  apply l_v_sub; auto. apply l_v_cross; auto.
Qed.
Lemma l_t_RefPoint t' t v' v : tlin t' t -> vlin v' v -> tlin (fun e => fl_t_RefPoint (e_rnd e) (t' e) (v' e)) (t_RefPoint t v).
Proof.
  intros [A B] C. split; cbn [tvel trot fl_t_RefPoint t_RefPoint]; auto. apply l_v_add; auto. apply l_v_cross; auto.
Qed.
Lemma l_w_add a' a b' b : wlin a' a -> wlin b' b -> wlin (fun e => fl_w_add (e_rnd e) (a' e) (b' e)) (w_add a b).
Proof. intros [A B] [C D]. split; cbn [wforce wtorque fl_w_add w_add]; apply l_v_add; assumption. Qed.
Lemma l_w_sub a' a b' b : wlin a' a -> wlin b' b -> wlin (fun e => fl_w_sub (e_rnd e) (a' e) (b' e)) (w_sub a b).
Proof. intros [A B] [C D]. split; cbn [wforce wtorque fl_w_sub w_sub]; apply l_v_sub; assumption. Qed.
Lemma l_tw_cross a' a b' b : tlin a' a -> wlin b' b -> wlin (fun e => fl_tw_cross (e_rnd e) (a' e) (b' e)) (tw_cross a b).
Proof.
  intros [A B] [C D]. split; cbn [wforce wtorque fl_tw_cross tw_cross].
  - apply l_v_cross; assumption.
  - apply l_v_add; apply l_v_cross; assumption.
Qed.
Lemma l_tw_dot a' a b' b : tlin a' a -> wlin b' b -> lin (fun e => fl_tw_dot (e_rnd e) (a' e) (b' e)) (tw_dot a b).
Proof. intros [A B] [C D]. unfold fl_tw_dot, tw_dot. apply lin_rnd, lin_add; apply l_v_dot; assumption. Qed.
Lemma l_f_app_w f' f b' b : flin f' f -> wlin b' b -> wlin (fun e => fl_f_app_w (e_rnd e) (f' e) (b' e)) (f_app_w f b).
Proof.
  intros [A B] [C D]. unfold fl_f_app_w, f_app_w. cbv zeta. split; cbn [wforce wtorque].
  - apply l_r_app; assumption.
  - apply l_v_add; [apply l_r_app; assumption|]. apply l_v_cross; [assumption|]. apply l_r_app; assumption.
Qed.
Lemma l_ri_app I v' v : vlin v' v -> vlin (fun e => fl_ri_app (e_rnd e) I (v' e)) (ri_app I v).
Proof. intros. unfold fl_ri_app, ri_app. apply (l_r_app (fun _ => eig (ri_data I)) (eig (ri_data I))); [apply rlin_const|assumption]. Qed.
Lemma l_rb_app I t' t : tlin t' t -> wlin (fun e => fl_rb_app (e_rnd e) I (t' e)) (rb_app I t).
Proof.
  intros [A B]. split; cbn [wforce wtorque fl_rb_app rb_app].
  - apply l_v_sub; [apply (l_v_scale_l _ _ (fun _ => rb_m I)); auto; apply lin_const|].
    apply (l_v_cross (fun _ => rb_h I)); auto. apply vlin_const.
  - apply l_v_add; [apply l_ri_app; auto|]. apply (l_v_cross (fun _ => rb_h I)); auto. apply vlin_const.
Qed.

Lemma l_joint_pose j q : flin (fun e => fl_joint_pose (e_rnd e) (e_sin e) (e_cos e) j q) (joint_pose j q).
Proof.
  unfold fl_joint_pose, joint_pose. cbv zeta.
  assert (L : lin (fun e => e_rnd e (e_rnd e (jscale j * q) + joffset j)) (jscale j * q + joffset j)) by (repeat lin1).
  destruct (jtype j).
  - split; cbn [fM fp]; [apply l_Rot2, L|apply vlin_const].
  - unfold f_of_rot, fl_RotX, r_RotX, v_zero. cbv zeta. linop.
  - unfold f_of_rot, fl_RotY, r_RotY, v_zero. cbv zeta. linop.
  - unfold f_of_rot, fl_RotZ, r_RotZ, v_zero. cbv zeta. linop.
  - unfold f_of_vec. split; cbn [fM fp]; [apply rlin_const|]. apply (l_v_add (fun _ => jorigin j)); [apply vlin_const|].
    apply (l_v_scale (fun _ => jaxis j)); [apply vlin_const|exact L].
  - unfold f_of_vec, r_id. linop.
  - unfold f_of_vec, r_id. linop.
  - unfold f_of_vec, r_id. linop.
  - apply flin_const.
Qed.
Lemma l_joint_twist j qd : tlin (fun e => fl_joint_twist (e_rnd e) j qd) (joint_twist j qd).
Proof.
  unfold fl_joint_twist, joint_twist. cbv zeta.
  assert (L : lin (fun e => e_rnd e (jscale j * qd)) (jscale j * qd)) by (repeat lin1).
  destruct (jtype j); unfold t_zero, v_zero; linop.
Qed.
Lemma l_segment_pose s q : flin (fun e => fl_segment_pose (e_rnd e) (e_sin e) (e_cos e) s q) (segment_pose s q).
Proof. unfold fl_segment_pose, segment_pose. apply (l_f_mul _ _ (fun _ => sf_tip s)); [apply l_joint_pose|apply flin_const]. Qed.
Lemma l_segment_twist s q qd : tlin (fun e => fl_segment_twist (e_rnd e) (e_sin e) (e_cos e) s q qd) (segment_twist s q qd).
Proof.
  unfold fl_segment_twist, segment_twist. apply l_t_RefPoint; [apply l_joint_twist|].
  apply (l_r_app _ _ (fun _ => fp (sf_tip s))); [|apply vlin_const]. exact (proj1 (l_joint_pose (sjoint s) q)).
Qed.

(** * Arrays *)
Definition llin {A : Type} (RA : (env -> A) -> A -> Prop) (l' : env -> list A) (l : list A) : Prop :=
  exists L, (forall e, l' e = map (fun a => a e) L) /\ Forall2 RA L l.

Lemma llin_const {A} (RA : (env -> A) -> A -> Prop) l : (forall a, RA (fun _ => a) a) -> llin RA (fun _ => l) l.
Proof.
  intros H. exists (map (fun a _ => a) l). split.
  - intros e. rewrite map_map. symmetry. apply map_id.
  - induction l; cbn; constructor; auto.
Qed.
Lemma Forall2_len {A B} (P : A -> B -> Prop) l m : Forall2 P l m -> length l = length m.
Proof. induction 1; cbn; congruence. Qed.
Lemma Forall2_imp {A B} (P Q : A -> B -> Prop) l m : (forall a b, P a b -> Q a b) -> Forall2 P l m -> Forall2 Q l m.
Proof. intros H. induction 1; constructor; auto. Qed.
Lemma Forall2_upd {A B} (P : A -> B -> Prop) l m i a b : Forall2 P l m -> P a b -> Forall2 P (upd l i a) (upd m i b).
Proof. intros H. revert i. induction H; intros i Hp; destruct i; cbn; constructor; auto. Qed.
Lemma map_upd_ {A B} (f : A -> B) l i a : map f (upd l i a) = upd (map f l) i (f a).
Proof. revert i. induction l; intros [|i]; cbn; auto. f_equal. apply IHl. Qed.

(** * Runs *)
Definition olin {A : Type} (RA : (env -> A) -> A -> Prop) (F : env -> outcome A) (x : outcome A) : Prop :=
  match x with
  | Ret a => exists a', (forall e, F e = Ret (a' e)) /\ RA a' a
  | Undef => forall e, F e = Undef
  end.
Lemma olin_ext {A} (RA : (env -> A) -> A -> Prop) F G x : (forall e, F e = G e) -> olin RA G x -> olin RA F x.
Proof.
  intros E. destruct x; cbn.
  - intros (a' & H & K). exists a'. split; auto. intros e. rewrite E. apply H.
  - intros H e. rewrite E. apply H.
Qed.
Lemma olin_ret {A} (RA : (env -> A) -> A -> Prop) a' a : RA a' a -> olin RA (fun e => Ret (a' e)) (Ret a).
Proof. intros H. exists a'. auto. Qed.
Lemma olin_bind {A B} (RA : (env -> A) -> A -> Prop) (RB : (env -> B) -> B -> Prop) F x G g :
  olin RA F x -> (forall a' a, RA a' a -> olin RB (fun e => G e (a' e)) (g a)) ->
  olin RB (fun e => obind (F e) (G e)) (obind x g).
Proof.
  intros HF HG. destruct x as [a|]; cbn in *.
  - destruct HF as (a' & H & Ra). apply olin_ext with (G := fun e => G e (a' e)); [|auto]. intros e. rewrite H. reflexivity.
  - intros e. rewrite HF. reflexivity.
Qed.
Lemma olin_same {A B} (RB : (env -> B) -> B -> Prop) (x : outcome A) G g :
  (forall a, olin RB (fun e => G e a) (g a)) -> olin RB (fun e => obind x (G e)) (obind x g).
Proof. intros H. destruct x; cbn; auto. Qed.
Lemma olin_aget {A} (RA : (env -> A) -> A -> Prop) l' l i : llin RA l' l -> olin RA (fun e => aget (l' e) i) (aget l i).
Proof.
  intros (L & E & H).
  apply olin_ext with (G := fun e => aget (map (fun a => a e) L) i); [intros e; rewrite E; reflexivity|]. clear E l'.
  unfold aget. revert i. induction H; intros [|i]; cbn.
  - reflexivity.
  - reflexivity.
  - exists x. auto.
  - apply IHForall2.
Qed.
Lemma olin_aset {A} (RA : (env -> A) -> A -> Prop) l' l i a' a : llin RA l' l -> RA a' a ->
  olin (llin RA) (fun e => aset (l' e) i (a' e)) (aset l i a).
Proof.
  intros (L & E & H) Ha.
  apply olin_ext with (G := fun e => aset (map (fun a => a e) L) i (a' e)); [intros e; rewrite E; reflexivity|].
  unfold aset. pose proof (Forall2_len _ _ _ H) as Q.
  destruct (Nat.ltb i (length l)) eqn:Hi.
  - exists (fun e => upd (map (fun a => a e) L) i (a' e)). split.
    + intros e. rewrite map_length, Q, Hi. reflexivity.
    + exists (upd L i a'). split; [|apply Forall2_upd; auto]. intros e. rewrite map_upd_. reflexivity.
  - intros e. rewrite map_length, Q, Hi. reflexivity.
Qed.
Lemma olin_zaget {A} (RA : (env -> A) -> A -> Prop) l' l z : llin RA l' l -> olin RA (fun e => zaget (l' e) z) (zaget l z).
Proof. intros H. unfold zaget. destruct (z <? 0)%Z; [intros e; reflexivity|apply olin_aget, H]. Qed.
Lemma olin_zaset {A} (RA : (env -> A) -> A -> Prop) l' l z a' a : llin RA l' l -> RA a' a ->
  olin (llin RA) (fun e => zaset (l' e) z (a' e)) (zaset l z a).
Proof. intros H Ha. unfold zaset. destruct (z <? 0)%Z; [intros e; reflexivity|apply olin_aset; assumption]. Qed.
Lemma olin_loop {St} (RS : (env -> St) -> St -> Prop) (B : env -> nat -> St -> outcome St) b n :
  (forall i s' s, RS s' s -> olin RS (fun e => B e i (s' e)) (b i s)) ->
  forall i s' s, RS s' s -> olin RS (fun e => for_loop n i (B e) (s' e)) (for_loop n i b s).
Proof.
  intros H. induction n; intros i s' s Hs; cbn [for_loop].
  - apply olin_ret, Hs.
  - apply olin_bind with (RA := RS); [apply H, Hs|]. intros a' a Ha. apply IHn, Ha.
Qed.
End Mode.
