(** Calculus for moving vectors, rotations and frames. *)
From Coq Require Import Reals List Lra.
From Verif Require Import FramesModel FramesSpec FramesProofs RotationProofs FrameOpsProofs
  Outcome InertiaModel DualModel KinModel KinSpec.
Import ListNotations.
Local Open Scope R_scope.

Lemma dl_eq f t l l' : derivable_pt_lim f t l -> l = l' -> derivable_pt_lim f t l'.
Proof. intros H <-. exact H. Qed.

Lemma dl_ext f g t l : (forall s, f s = g s) -> derivable_pt_lim f t l -> derivable_pt_lim g t l.
Proof.
  intros E H e He. destruct (H e He) as [d Hd]. exists d. intros h Hh Hl.
  rewrite <- !E. apply Hd; auto.
Qed.

Ltac dstep :=
  match goal with
  | |- derivable_pt_lim (fun _ => ?c) ?t _ => apply (derivable_pt_lim_const c t)
  | H : derivable_pt_lim ?f ?t ?l |- derivable_pt_lim ?g ?t _ => unify f g; exact H
  | |- derivable_pt_lim (fun s => s) ?t _ => apply (derivable_pt_lim_id t)
  | |- derivable_pt_lim (fun s => @?a s + @?b s) ?t _ => eapply (derivable_pt_lim_plus a b t)
  | |- derivable_pt_lim (fun s => @?a s - @?b s) ?t _ => eapply (derivable_pt_lim_minus a b t)
  | |- derivable_pt_lim (fun s => - @?a s) ?t _ => eapply (derivable_pt_lim_opp a t)
  | |- derivable_pt_lim (fun s => @?a s * @?b s) ?t _ => eapply (derivable_pt_lim_mult a b t)
  | |- derivable_pt_lim (fun s => cos (@?a s)) ?t _ =>
      eapply (derivable_pt_lim_comp a cos t); [|apply derivable_pt_lim_cos]
  | |- derivable_pt_lim (fun s => sin (@?a s)) ?t _ =>
      eapply (derivable_pt_lim_comp a sin t); [|apply derivable_pt_lim_sin]
  end.
Ltac dl := eapply dl_eq; [cbv beta; repeat (dstep; cbv beta) | cbv beta; try ring].

(** Componentwise derivative of a matrix. *)
Definition r_derive (f : R -> Rotation) (t : R) (d : Rotation) : Prop :=
  derivable_pt_lim (fun s => r0 (f s)) t (r0 d) /\ derivable_pt_lim (fun s => r1 (f s)) t (r1 d) /\
  derivable_pt_lim (fun s => r2 (f s)) t (r2 d) /\ derivable_pt_lim (fun s => r3 (f s)) t (r3 d) /\
  derivable_pt_lim (fun s => r4 (f s)) t (r4 d) /\ derivable_pt_lim (fun s => r5 (f s)) t (r5 d) /\
  derivable_pt_lim (fun s => r6 (f s)) t (r6 d) /\ derivable_pt_lim (fun s => r7 (f s)) t (r7 d) /\
  derivable_pt_lim (fun s => r8 (f s)) t (r8 d).

(** omega x (columns of M) *)
Definition r_spin (w : Vector) (M : Rotation) : Rotation :=
  r_cols (v_cross w (r_UnitX M)) (v_cross w (r_UnitY M)) (v_cross w (r_UnitZ M)).

Lemma r_spin_app w M x : r_app (r_spin w M) x = v_cross w (r_app M x).
Proof. unfold r_spin. geo. Qed.

Lemma v_derive_ext f g t d : (forall s, f s = g s) -> v_derive f t d -> v_derive g t d.
Proof.
  intros E (Hx & Hy & Hz).
  repeat split; [eapply dl_ext; [|exact Hx] | eapply dl_ext; [|exact Hy] | eapply dl_ext; [|exact Hz]];
    intros s; cbv beta; rewrite E; reflexivity.
Qed.
Lemma v_derive_eq f t d d' : v_derive f t d -> d = d' -> v_derive f t d'.
Proof. intros H <-; exact H. Qed.
Lemma v_derive_const v t : v_derive (fun _ => v) t v_zero.
Proof. repeat split; apply derivable_pt_lim_const. Qed.
Lemma v_derive_add f g t a b : v_derive f t a -> v_derive g t b ->
  v_derive (fun s => v_add (f s) (g s)) t (v_add a b).
Proof.
  intros (Hx & Hy & Hz) (Gx & Gy & Gz).
  repeat split; cbn [v_add vx vy vz]; dl.
Qed.
Lemma v_derive_sub f g t a b : v_derive f t a -> v_derive g t b ->
  v_derive (fun s => v_sub (f s) (g s)) t (v_sub a b).
Proof.
  intros (Hx & Hy & Hz) (Gx & Gy & Gz).
  repeat split; cbn [v_sub vx vy vz]; dl.
Qed.
Lemma v_derive_neg f t a : v_derive f t a -> v_derive (fun s => v_neg (f s)) t (v_neg a).
Proof.
  intros (Hx & Hy & Hz). repeat split; cbn [v_neg vx vy vz]; dl.
Qed.
Lemma v_derive_scale f g t a b : v_derive f t a -> derivable_pt_lim g t b ->
  v_derive (fun s => v_scale (f s) (g s)) t (v_add (v_scale a (g t)) (v_scale (f t) b)).
Proof.
  intros (Hx & Hy & Hz) Hg. repeat split; cbn [v_scale v_add vx vy vz]; dl.
Qed.
Lemma v_derive_cross f g t a b : v_derive f t a -> v_derive g t b ->
  v_derive (fun s => v_cross (f s) (g s)) t (v_add (v_cross a (g t)) (v_cross (f t) b)).
Proof.
  intros (Hx & Hy & Hz) (Gx & Gy & Gz). repeat split; cbn [v_cross v_add vx vy vz]; dl.
Qed.
Lemma dot_derive f g t a b : v_derive f t a -> v_derive g t b ->
  derivable_pt_lim (fun s => v_dot (f s) (g s)) t (v_dot a (g t) + v_dot (f t) b).
Proof. intros (Hx & Hy & Hz) (Gx & Gy & Gz). unfold v_dot. dl. Qed.

Lemma r_app_derive M v t dM dv : r_derive M t dM -> v_derive v t dv ->
  v_derive (fun s => r_app (M s) (v s)) t (v_add (r_app dM (v t)) (r_app (M t) dv)).
Proof.
  intros (H0 & H1 & H2 & H3 & H4 & H5 & H6 & H7 & H8) (Gx & Gy & Gz).
  repeat split; cbn [r_app v_add vx vy vz]; dl.
Qed.
Lemma r_derive_ext f g t d : (forall s, f s = g s) -> r_derive f t d -> r_derive g t d.
Proof.
  intros E (H0 & H1 & H2 & H3 & H4 & H5 & H6 & H7 & H8).
  repeat split;
  [eapply dl_ext; [|exact H0] | eapply dl_ext; [|exact H1] | eapply dl_ext; [|exact H2]
  |eapply dl_ext; [|exact H3] | eapply dl_ext; [|exact H4] | eapply dl_ext; [|exact H5]
  |eapply dl_ext; [|exact H6] | eapply dl_ext; [|exact H7] | eapply dl_ext; [|exact H8]];
    intros s; cbv beta; rewrite E; reflexivity.
Qed.
Lemma r_derive_eq f t d d' : r_derive f t d -> d = d' -> r_derive f t d'.
Proof. intros H <-; exact H. Qed.
Lemma r_derive_const M t : r_derive (fun _ => M) t m3_zero.
Proof. repeat split; cbn [r0 r1 r2 r3 r4 r5 r6 r7 r8 m3_zero]; apply derivable_pt_lim_const. Qed.
Lemma r_inv_derive M t dM : r_derive M t dM -> r_derive (fun s => r_inv (M s)) t (r_inv dM).
Proof. intros (H0 & H1 & H2 & H3 & H4 & H5 & H6 & H7 & H8). repeat split; cbn [r_inv r0 r1 r2 r3 r4 r5 r6 r7 r8]; assumption. Qed.

(** The pointwise notion of frame velocity is the entrywise one. *)
Lemma frame_velocity_entries F t tw :
  frame_velocity F t tw <->
  v_derive (fun s => fp (F s)) t (tvel tw) /\ r_derive (fun s => fM (F s)) t (r_spin (trot tw) (fM (F t))).
Proof.
  split.
  - intros H.
    assert (Hp : v_derive (fun s => fp (F s)) t (tvel tw)).
    { eapply v_derive_eq; [eapply v_derive_ext; [|exact (H v_zero)]|].
      - intros s. unfold f_app. rewrite r_app_0, v_add_0_l. reflexivity.
      - rewrite r_app_0, v_cross_0_r, v_add_0_r. reflexivity. }
    assert (Hc : forall x, v_derive (fun s => r_app (fM (F s)) x) t (v_cross (trot tw) (r_app (fM (F t)) x))).
    { intros x. pose proof (v_derive_sub _ _ _ _ _ (H x) Hp) as Hs.
      eapply v_derive_eq; [eapply v_derive_ext; [|exact Hs]|].
      - intros s. cbv beta. unfold f_app. apply v_sub_add.
      - geo. }
    split; [exact Hp|].
    destruct (Hc (mkV 1 0 0)) as (Ax & Ay & Az).
    destruct (Hc (mkV 0 1 0)) as (Bx & By & Bz).
    destruct (Hc (mkV 0 0 1)) as (Cx & Cy & Cz).
    repeat split;
    [ eapply dl_eq; [eapply dl_ext; [|exact Ax] |] | eapply dl_eq; [eapply dl_ext; [|exact Bx] |]
    | eapply dl_eq; [eapply dl_ext; [|exact Cx] |] | eapply dl_eq; [eapply dl_ext; [|exact Ay] |]
    | eapply dl_eq; [eapply dl_ext; [|exact By] |] | eapply dl_eq; [eapply dl_ext; [|exact Cy] |]
    | eapply dl_eq; [eapply dl_ext; [|exact Az] |] | eapply dl_eq; [eapply dl_ext; [|exact Bz] |]
    | eapply dl_eq; [eapply dl_ext; [|exact Cz] |] ]; try intros s;
      cbn [r_app vx vy vz r_spin r_cols v_cross r_UnitX r_UnitY r_UnitZ r0 r1 r2 r3 r4 r5 r6 r7 r8]; ring.
  - intros [Hp HM] x. unfold f_app.
    pose proof (v_derive_add _ _ _ _ _ (r_app_derive _ _ _ _ _ HM (v_derive_const x t)) Hp) as H.
    eapply v_derive_eq; [exact H|]. cbv beta. rewrite r_spin_app. geo.
Qed.

(** Velocity of a composed frame. *)
Lemma frame_velocity_mul F G t a b :
  rigid (F t) -> frame_velocity F t a -> frame_velocity G t b ->
  frame_velocity (fun s => f_mul (F s) (G s)) t
    (t_add (t_RefPoint a (r_app (fM (F t)) (fp (G t)))) (r_app_t (fM (F t)) b)).
Proof.
  intros HR HF HG x.
  pose proof (HG x) as Hx.
  apply frame_velocity_entries in HF. destruct HF as [Hp HM].
  pose proof (v_derive_add _ _ _ _ _ (r_app_derive _ _ _ _ _ HM Hx) Hp) as H.
  eapply v_derive_eq; [eapply v_derive_ext; [|exact H]|].
  - intros s. cbv beta. symmetry. rewrite f_mul_app. reflexivity.
  - cbv beta. rewrite r_spin_app.
    cbn [t_add t_RefPoint r_app_t tvel trot f_mul fM].
    unfold f_app. rewrite !r_app_add, r_mul_app.
    rewrite r_app_cross by exact HR.
    remember (r_app (fM (F t)) (tvel b)) as vb. remember (r_app (fM (F t)) (trot b)) as wb.
    remember (r_app (fM (F t)) (r_app (fM (G t)) x)) as y. remember (r_app (fM (F t)) (fp (G t))) as pg.
    clear. geo.
Qed.

Lemma frame_velocity_const F t : frame_velocity (fun _ => F) t t_zero.
Proof.
  intros x. eapply v_derive_eq; [apply v_derive_const|].
  cbn [t_zero tvel trot]. rewrite v_cross_0_l. geo.
Qed.

Lemma frame_velocity_ext F G t a : (forall s, F s = G s) -> frame_velocity F t a -> frame_velocity G t a.
Proof.
  intros E H x. eapply v_derive_eq; [eapply v_derive_ext; [|exact (H x)]|].
  - intros s. cbv beta. rewrite E. reflexivity.
  - rewrite E. reflexivity.
Qed.
Lemma frame_velocity_eq F t a b : frame_velocity F t a -> a = b -> frame_velocity F t b.
Proof. intros H <-; exact H. Qed.

(** The velocity twist is unique. *)
Lemma v_derive_unique f t a b : v_derive f t a -> v_derive f t b -> a = b.
Proof.
  intros (Hx & Hy & Hz) (Gx & Gy & Gz). apply v_ext; eapply uniqueness_limite; eassumption.
Qed.

(** * Rotations *)
Lemma Rot2_derive n a t da : unit_vector n -> derivable_pt_lim a t da ->
  r_derive (fun s => r_Rot2 n (a s)) t (r_spin (v_scale n da) (r_Rot2 n (a t))).
Proof.
  intros Hn Ha. destruct n as [x y z]. unfold unit_vector in Hn. psimp.
  assert (Ez : z * z = 1 - x * x - y * y) by lra.
  unfold r_derive, r_Rot2, r_spin, r_cols, r_UnitX, r_UnitY, r_UnitZ, v_cross, v_scale.
  psimp.
  repeat split; dl; ring_simplify;
  repeat match goal with |- context [z ^ 2] => replace (z ^ 2) with (1 - x * x - y * y) by lra
                       | |- context [z ^ 3] => replace (z ^ 3) with (z * (1 - x * x - y * y)) by (rewrite <- Ez; ring) end;
  try ring.
Qed.

Lemma RotX_Rot2 a : r_RotX a = r_Rot2 (mkV 1 0 0) a.
Proof. unfold r_RotX, r_Rot2. apply r_ext; psimp; ring. Qed.
Lemma RotY_Rot2 a : r_RotY a = r_Rot2 (mkV 0 1 0) a.
Proof. unfold r_RotY, r_Rot2. apply r_ext; psimp; ring. Qed.
Lemma RotZ_Rot2 a : r_RotZ a = r_Rot2 (mkV 0 0 1) a.
Proof. unfold r_RotZ, r_Rot2. apply r_ext; psimp; ring. Qed.
