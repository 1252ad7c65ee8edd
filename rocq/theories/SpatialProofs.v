(** The principle of virtual work along a serial linkage, abstractly: [X i] is
    the pose of link i in its predecessor, [A i] its joint axis (a twist in link
    coordinates), [n] the number of links. *)
From Coq Require Import Reals List Arith Lia Lra.
From Verif Require Import FramesModel FramesSpec FramesProofs FrameOpsProofs RotationProofs InertiaModel InertiaSpec
  InertiaProofs KinSpec KinProofs JacProofs LinSpec SumProofs.
Local Open Scope R_scope.

Local Arguments f_app_w : simpl never.
Local Arguments f_invapp_t : simpl never.
Local Arguments t_add : simpl never.
Local Arguments t_scale : simpl never.
Local Arguments w_add : simpl never.
Local Arguments tw_dot : simpl never.

Lemma f_invapp_t_add F a b : f_invapp_t F (t_add a b) = t_add (f_invapp_t F a) (f_invapp_t F b). Proof. geo. Qed.
Lemma f_invapp_t_scale F a s : f_invapp_t F (t_scale a s) = t_scale (f_invapp_t F a) s. Proof. geo. Qed.
Lemma f_invapp_t_zero F : f_invapp_t F t_zero = t_zero. Proof. geo. Qed.
Lemma f_app_w_zero F : f_app_w F w_zero = w_zero. Proof. geo. Qed.
Lemma f_app_w_add F a b : f_app_w F (w_add a b) = w_add (f_app_w F a) (f_app_w F b). Proof. geo. Qed.
Lemma w_add_0_r a : w_add a w_zero = a. Proof. geo. Qed.
Lemma w_add_0_l a : w_add w_zero a = a. Proof. geo. Qed.
Lemma w_add_assoc a b c : w_add (w_add a b) c = w_add a (w_add b c). Proof. geo. Qed.
Lemma tw_dot_zero_l w : tw_dot t_zero w = 0. Proof. geo. Qed.
Lemma tw_dot_zero_r t : tw_dot t w_zero = 0. Proof. geo. Qed.
Lemma tw_dot_wsub t a b : tw_dot t (w_sub a b) = tw_dot t a - tw_dot t b. Proof. geo. Qed.
Lemma t_add_swap a b c d : t_add (t_add a b) (t_add c d) = t_add (t_add a c) (t_add b d). Proof. geo. Qed.
Lemma t_scale_add_l a b s : t_scale (t_add a b) s = t_add (t_scale a s) (t_scale b s). Proof. geo. Qed.
Lemma t_scale_plus a s r : t_scale a (s + r) = t_add (t_scale a s) (t_scale a r). Proof. geo. Qed.
Lemma t_scale_scale a s r : t_scale (t_scale a s) r = t_scale a (s * r). Proof. geo. Qed.

(** f_invapp_t inverts f_app_t *)
Lemma f_app_invapp_t F t : rigid F -> f_app_t F (f_invapp_t F t) = t.
Proof.
  intros H. destruct F as [M p], t as [v w]. unfold rigid in H. cbn [fM] in H.
  unfold f_app_t, f_invapp_t. cbn [fM fp tvel trot].
  rewrite !r_app_invapp by exact H. clear. geo.
Qed.
Lemma power_back F t w : rigid F -> tw_dot t (f_app_w F w) = tw_dot (f_invapp_t F t) w.
Proof. intros H. rewrite <- (f_app_invapp_t F t H) at 1. apply f_power. exact H. Qed.

Section Links.
Variables (n : nat) (X : nat -> Frame) (A : nat -> Twist).
Hypothesis HX : forall i, rigid (X i).

(** the twist of the first k links' end, in its own coordinates, when the joints
    move at the rates [d] and the base is at rest *)
Fixpoint bt (d : nat -> R) (k : nat) : Twist :=
  match k with O => t_zero | S m => t_add (f_invapp_t (X m) (bt d m)) (t_scale (A m) (d m)) end.

Lemma bt_ext d e k : (forall i, (i < k)%nat -> d i = e i) -> bt d k = bt e k.
Proof. induction k as [|k IH]; intros H; simpl; [reflexivity|]. rewrite IH, (H k) by (intros; try apply H; lia). reflexivity. Qed.
Lemma bt_add d e k : bt (fun i => d i + e i) k = t_add (bt d k) (bt e k).
Proof. induction k as [|k IH]; simpl; [geo|]. rewrite IH, f_invapp_t_add, t_scale_plus. apply t_add_swap. Qed.
Lemma bt_scale d s k : bt (fun i => d i * s) k = t_scale (bt d k) s.
Proof. induction k as [|k IH]; simpl; [geo|]. rewrite IH, f_invapp_t_scale, t_scale_add_l, t_scale_scale. reflexivity. Qed.
Lemma bt_zero d k : (forall i, (i < k)%nat -> d i = 0) -> bt d k = t_zero.
Proof.
  induction k as [|k IH]; intros H; simpl; [reflexivity|]. rewrite IH, (H k) by (intros; try apply H; lia).
  rewrite f_invapp_t_zero, t_scale_0, t_add_0_l. reflexivity.
Qed.

(** the force link i passes to its predecessor when the links carry [F] *)
Fixpoint tr (F : nat -> Wrench) (m : nat) : Wrench :=
  match m with O => w_zero | S m' => f_app_w (X (n - S m')) (w_add (F (n - S m')%nat) (tr F m')) end.
Definition gf F i := tr F (n - i).
Definition full F i := w_add (F i) (gf F (S i)).

Lemma gf_end F : gf F n = w_zero. Proof. unfold gf. rewrite Nat.sub_diag. reflexivity. Qed.
Lemma gf_S F i : (i < n)%nat -> gf F i = f_app_w (X i) (full F i).
Proof.
  intros H. unfold full, gf. replace (n - i)%nat with (S (n - S i)) by lia. cbn [tr].
  replace (n - S (n - S i))%nat with i by lia. reflexivity.
Qed.

Lemma vwork_k d F k : (k <= n)%nat ->
  sumn k (fun i => d i * tw_dot (A i) (full F i)) = sumn k (fun i => tw_dot (bt d (S i)) (F i)) + tw_dot (bt d k) (gf F k).
Proof.
  induction k as [|k IH]; intros Hk.
  - cbn [sumn bt]. rewrite tw_dot_zero_l. ring.
  - cbn [sumn]. rewrite IH by lia. rewrite (gf_S F k) by lia. rewrite power_back by apply HX.
    unfold full. cbn [bt]. rewrite !tw_dot_wadd, !tw_dot_tadd, !tw_dot_tscale. ring.
Qed.
Lemma vwork d F : sumn n (fun i => d i * tw_dot (A i) (full F i)) = sumn n (fun i => tw_dot (bt d (S i)) (F i)).
Proof. rewrite (vwork_k d F n (le_n _)), gf_end, tw_dot_zero_r. ring. Qed.

Definition only (l i : nat) : R := if Nat.eqb i l then 1 else 0.
Lemma vwork_only l F : (l < n)%nat -> tw_dot (A l) (full F l) = sumn n (fun i => tw_dot (bt (only l) (S i)) (F i)).
Proof.
  intros H. rewrite <- vwork. rewrite (sumn_one n l).
  - unfold only. rewrite Nat.eqb_refl. ring.
  - exact H.
  - intros j _ Hj. unfold only. apply Nat.eqb_neq in Hj. rewrite Hj. ring.
Qed.

(** the composite body of links i..n-1 *)
Variable I : nat -> RigidBodyInertia.
Fixpoint cw (m : nat) (t : Twist) : Wrench :=
  match m with
  | O => w_zero
  | S m' => w_add (rb_app (I (n - S m')) t) (f_app_w (X (S (n - S m'))) (cw m' (f_invapp_t (X (S (n - S m'))) t)))
  end.
Definition comp i := cw (n - i).
Lemma comp_S i t : (i < n)%nat -> comp i t = w_add (rb_app (I i) t) (f_app_w (X (S i)) (comp (S i) (f_invapp_t (X (S i)) t))).
Proof.
  intros H. unfold comp. replace (n - i)%nat with (S (n - S i)) by lia. cbn [cw].
  replace (n - S (n - S i))%nat with i by lia. reflexivity.
Qed.
Lemma comp_end t : comp n t = w_zero. Proof. unfold comp. rewrite Nat.sub_diag. reflexivity. Qed.

(** only joint m moves: the force at link i >= m is that of the composite body *)
Lemma full_comp m : forall k i, (m <= i)%nat -> (i + S k = n)%nat ->
  full (fun j => rb_app (I j) (bt (only m) (S j))) i = comp i (bt (only m) (S i)).
Proof.
  induction k as [|k IH]; intros i Hm Hi.
  - rewrite comp_S by lia. replace (S i) with n by lia. unfold full. replace (S i) with n by lia. rewrite gf_end, comp_end, f_app_w_zero. reflexivity.
  - rewrite comp_S by lia. unfold full at 1. rewrite gf_S by lia. rewrite IH by lia. do 3 f_equal.
    change (bt (only m) (S (S i))) with (t_add (f_invapp_t (X (S i)) (bt (only m) (S i))) (t_scale (A (S i)) (only m (S i)))).
    unfold only at 2. destruct (Nat.eqb_spec (S i) m); [lia|]. rewrite t_scale_0, t_add_0_r. reflexivity.
Qed.
(** ... and is only transported below *)
Lemma full_below m l : (l < m)%nat -> (m < n)%nat ->
  full (fun j => rb_app (I j) (bt (only m) (S j))) l = f_app_w (X (S l)) (full (fun j => rb_app (I j) (bt (only m) (S j))) (S l)).
Proof.
  intros H Hm. unfold full at 1. rewrite gf_S by lia. rewrite (bt_zero (only m) (S l)).
  - rewrite rb_app_zero_t, w_add_0_l. reflexivity.
  - intros i Hi. unfold only. destruct (Nat.eqb_spec i m); [lia|reflexivity].
Qed.
Lemma bt_only_at m : bt (only m) (S m) = A m.
Proof.
  cbn [bt]. rewrite bt_zero.
  - unfold only. rewrite Nat.eqb_refl, f_invapp_t_zero, t_add_0_l, t_scale_1. reflexivity.
  - intros i Hi. unfold only. destruct (Nat.eqb_spec i m); [lia|reflexivity].
Qed.
End Links.
