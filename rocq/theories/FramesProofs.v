(** Lemmas about the geometric primitives. *)
From Coq Require Import Reals Lra Lia List Bool Psatz.
From Verif Require Import FramesModel FramesSpec.
Import ListNotations.
Local Open Scope R_scope.

(** * Extensionality tactics *)

Ltac geo_destruct :=
  repeat match goal with
  | v : Vector |- _ => destruct v
  | r : Rotation |- _ => destruct r
  | t : Twist |- _ => destruct t
  | w : Wrench |- _ => destruct w
  | f : Frame |- _ => destruct f
  | v : Vector2 |- _ => destruct v
  | r : Rotation2 |- _ => destruct r
  | f : Frame2 |- _ => destruct f
  end.

Ltac geo_unfold :=
  cbv [v_zero v_add v_sub v_scale v_scale_l v_div v_cross v_neg v_dot
       r_cols r_UnitX r_UnitY r_UnitZ r_id r_app r_mul r_inv r_invapp
       t_zero t_add t_sub t_neg t_scale t_scale_l t_div t_RefPoint r_app_t r_invapp_t t_cross
       w_zero w_add w_sub w_neg w_scale w_scale_l w_div w_RefPoint r_app_w r_invapp_w tw_cross tw_dot
       f_id f_of_rot f_of_vec f_mul f_app f_invapp f_inv f_app_t f_invapp_t f_app_w f_invapp_w
       v2_zero v2_add v2_sub v2_scale v2_div v2_neg rot2_app rot2_mul rot2_inv rot2_invapp rot2_id
       f2_id f2_mul f2_app f2_invapp f2_inv
       vx vy vz r0 r1 r2 r3 r4 r5 r6 r7 r8 tvel trot wforce wtorque fM fp
       v2x v2y rot2_c rot2_s f2M f2p] in *.

(** * Extensionality lemmas *)

Lemma v_ext a b : vx a = vx b -> vy a = vy b -> vz a = vz b -> a = b.
Proof. destruct a, b; simpl; intros; subst; reflexivity. Qed.

Lemma r_ext a b :
  r0 a = r0 b -> r1 a = r1 b -> r2 a = r2 b ->
  r3 a = r3 b -> r4 a = r4 b -> r5 a = r5 b ->
  r6 a = r6 b -> r7 a = r7 b -> r8 a = r8 b -> a = b.
Proof. destruct a, b; simpl; intros; subst; reflexivity. Qed.

Lemma t_ext a b : tvel a = tvel b -> trot a = trot b -> a = b.
Proof. destruct a, b; simpl; intros; subst; reflexivity. Qed.

Lemma w_ext a b : wforce a = wforce b -> wtorque a = wtorque b -> a = b.
Proof. destruct a, b; simpl; intros; subst; reflexivity. Qed.

Lemma f_ext a b : fM a = fM b -> fp a = fp b -> a = b.
Proof. destruct a, b; simpl; intros; subst; reflexivity. Qed.

Lemma v2_ext a b : v2x a = v2x b -> v2y a = v2y b -> a = b.
Proof. destruct a, b; simpl; intros; subst; reflexivity. Qed.

Lemma rot2_ext a b : rot2_c a = rot2_c b -> rot2_s a = rot2_s b -> a = b.
Proof. destruct a, b; simpl; intros; subst; reflexivity. Qed.

Lemma f2_ext a b : f2M a = f2M b -> f2p a = f2p b -> a = b.
Proof. destruct a, b; simpl; intros; subst; reflexivity. Qed.

(** Reduce record projections only. *)
Ltac psimp := cbn [vx vy vz r0 r1 r2 r3 r4 r5 r6 r7 r8 tvel trot wforce wtorque fM fp
       v2x v2y rot2_c rot2_s f2M f2p fst snd] in *.

Ltac geo_split :=
  repeat match goal with
  | |- @eq Vector _ _ => apply v_ext
  | |- @eq Rotation _ _ => apply r_ext
  | |- @eq Twist _ _ => apply t_ext
  | |- @eq Wrench _ _ => apply w_ext
  | |- @eq Frame _ _ => apply f_ext
  | |- @eq Vector2 _ _ => apply v2_ext
  | |- @eq Rotation2 _ _ => apply rot2_ext
  | |- @eq Frame2 _ _ => apply f2_ext
  end.

(** Polynomial identities between geometric objects. *)
Ltac geo := intros; geo_split; geo_destruct; geo_unfold; unfold Rdiv; try ring.

(** * Vector algebra *)

Lemma v_add_comm a b : v_add a b = v_add b a. Proof. geo. Qed.
Lemma v_add_assoc a b c : v_add (v_add a b) c = v_add a (v_add b c). Proof. geo. Qed.
Lemma v_add_0_l a : v_add v_zero a = a. Proof. geo. Qed.
Lemma v_add_0_r a : v_add a v_zero = a. Proof. geo. Qed.
Lemma v_sub_diag a : v_sub a a = v_zero. Proof. geo. Qed.
Lemma v_sub_add a b : v_sub (v_add a b) b = a. Proof. geo. Qed.
Lemma v_add_sub a b : v_add (v_sub a b) b = a. Proof. geo. Qed.
Lemma v_scale_0 a : v_scale a 0 = v_zero. Proof. geo. Qed.
Lemma v_scale_1 a : v_scale a 1 = a. Proof. geo. Qed.
Lemma v_zero_scale s : v_scale v_zero s = v_zero. Proof. geo. Qed.
Lemma v_scale_scale a s t : v_scale (v_scale a s) t = v_scale a (s * t). Proof. geo. Qed.
Lemma v_scale_add a s t : v_scale a (s + t) = v_add (v_scale a s) (v_scale a t). Proof. geo. Qed.
Lemma v_add_scale a b s : v_scale (v_add a b) s = v_add (v_scale a s) (v_scale b s). Proof. geo. Qed.
Lemma v_cross_diag a : v_cross a a = v_zero. Proof. geo. Qed.
Lemma v_cross_anti a b : v_cross a b = v_neg (v_cross b a). Proof. geo. Qed.
Lemma v_cross_0_l a : v_cross v_zero a = v_zero. Proof. geo. Qed.
Lemma v_cross_0_r a : v_cross a v_zero = v_zero. Proof. geo. Qed.
Lemma v_cross_add_l a b c : v_cross (v_add a b) c = v_add (v_cross a c) (v_cross b c). Proof. geo. Qed.
Lemma v_cross_add_r a b c : v_cross a (v_add b c) = v_add (v_cross a b) (v_cross a c). Proof. geo. Qed.
Lemma v_cross_scale_l a b s : v_cross (v_scale a s) b = v_scale (v_cross a b) s. Proof. geo. Qed.
Lemma v_cross_scale_r a b s : v_cross a (v_scale b s) = v_scale (v_cross a b) s. Proof. geo. Qed.
Lemma v_dot_comm a b : v_dot a b = v_dot b a. Proof. geo. Qed.
Lemma v_scale_l_r s a : v_scale_l s a = v_scale a s. Proof. geo. Qed.
Lemma v_neg_neg a : v_neg (v_neg a) = a. Proof. geo. Qed.
Lemma v_div_scale a s : v_div a s = v_scale a (/ s). Proof. geo. Qed.

(** * Rotation algebra not needing orthonormality *)

Lemma r_app_add r a b : r_app r (v_add a b) = v_add (r_app r a) (r_app r b). Proof. geo. Qed.
Lemma r_app_sub r a b : r_app r (v_sub a b) = v_sub (r_app r a) (r_app r b). Proof. geo. Qed.
Lemma r_app_neg r a : r_app r (v_neg a) = v_neg (r_app r a). Proof. geo. Qed.
Lemma r_app_scale r a s : r_app r (v_scale a s) = v_scale (r_app r a) s. Proof. geo. Qed.
Lemma r_app_0 r : r_app r v_zero = v_zero. Proof. geo. Qed.
Lemma r_app_id v : r_app r_id v = v. Proof. geo. Qed.
Lemma r_mul_app a b v : r_app (r_mul a b) v = r_app a (r_app b v). Proof. geo. Qed.
Lemma r_mul_assoc a b c : r_mul (r_mul a b) c = r_mul a (r_mul b c). Proof. geo. Qed.
Lemma r_mul_id_l a : r_mul r_id a = a. Proof. geo. Qed.
Lemma r_mul_id_r a : r_mul a r_id = a. Proof. geo. Qed.
Lemma r_inv_mul a b : r_inv (r_mul a b) = r_mul (r_inv b) (r_inv a). Proof. geo. Qed.
Lemma r_inv_inv a : r_inv (r_inv a) = a. Proof. geo. Qed.
Lemma r_inv_id : r_inv r_id = r_id. Proof. reflexivity. Qed.
Lemma r_invapp_inv r v : r_invapp r v = r_app (r_inv r) v. Proof. geo. Qed.
Lemma det3_mul a b : det3 (r_mul a b) = det3 a * det3 b.
Proof. unfold det3; geo. Qed.
Lemma det3_inv a : det3 (r_inv a) = det3 a.
Proof. unfold det3; geo. Qed.

(** * Proper rotations *)

Section RotationFacts.
  Variable r : Rotation.
  Hypothesis H : is_rotation r.

  (** With orthonormal columns x,y,z and det = 1, z = x cross y. *)
  Lemma sumsq0 a b c : a * a + b * b + c * c = 0 -> a = 0 /\ b = 0 /\ c = 0.
  Proof.
    intros E. pose proof (Rle_0_sqr a). pose proof (Rle_0_sqr b). pose proof (Rle_0_sqr c).
    unfold Rsqr in *. assert (a * a = 0) by lra. assert (b * b = 0) by lra. assert (c * c = 0) by lra.
    repeat split; apply Rsqr_0_uniq; unfold Rsqr; assumption.
  Qed.

  Lemma cof_z : r2 r = r3 r * r7 r - r6 r * r4 r /\ r5 r = r6 r * r1 r - r0 r * r7 r
                /\ r8 r = r0 r * r4 r - r3 r * r1 r.
  Proof.
    destruct H as [a b c d e f g]. unfold det3 in g.
    destruct r as [x0 y0 z0 x1 y1 z1 x2 y2 z2]; psimp.
    pose (A := x1 * y2 - x2 * y1). pose (B := x2 * y0 - x0 * y2). pose (C := x0 * y1 - x1 * y0).
    assert (E : (z0 - A) * (z0 - A) + (z1 - B) * (z1 - B) + (z2 - C) * (z2 - C) = 0).
    { replace ((z0 - A) * (z0 - A) + (z1 - B) * (z1 - B) + (z2 - C) * (z2 - C))
        with ((z0 ^ 2 + z1 ^ 2 + z2 ^ 2)
              + ((x0 ^ 2 + x1 ^ 2 + x2 ^ 2) * (y0 ^ 2 + y1 ^ 2 + y2 ^ 2) - (x0*y0+x1*y1+x2*y2)^2)
              - 2 * (x0 * (y1 * z2 - z1 * y2) - y0 * (x1 * z2 - z1 * x2) + z0 * (x1 * y2 - y1 * x2)))
        by (unfold A, B, C; ring).
      rewrite a, b, c, d, g. ring. }
    apply sumsq0 in E. destruct E as (E1 & E2 & E3). unfold A, B, C in *. repeat split; lra.
  Qed.

  Lemma cof_x : r0 r = r4 r * r8 r - r7 r * r5 r /\ r3 r = r7 r * r2 r - r1 r * r8 r
                /\ r6 r = r1 r * r5 r - r4 r * r2 r.
  Proof.
    destruct H as [a b c d e f g]. unfold det3 in g.
    destruct r as [x0 y0 z0 x1 y1 z1 x2 y2 z2]; psimp.
    pose (A := y1 * z2 - y2 * z1). pose (B := y2 * z0 - y0 * z2). pose (C := y0 * z1 - y1 * z0).
    assert (E : (x0 - A) * (x0 - A) + (x1 - B) * (x1 - B) + (x2 - C) * (x2 - C) = 0).
    { replace ((x0 - A) * (x0 - A) + (x1 - B) * (x1 - B) + (x2 - C) * (x2 - C))
        with ((x0 ^ 2 + x1 ^ 2 + x2 ^ 2)
              + ((z0 ^ 2 + z1 ^ 2 + z2 ^ 2) * (y0 ^ 2 + y1 ^ 2 + y2 ^ 2) - (y0*z0+y1*z1+y2*z2)^2)
              - 2 * (x0 * (y1 * z2 - z1 * y2) - y0 * (x1 * z2 - z1 * x2) + z0 * (x1 * y2 - y1 * x2)))
        by (unfold A, B, C; ring).
      rewrite a, b, c, f, g. ring. }
    apply sumsq0 in E. destruct E as (E1 & E2 & E3). unfold A, B, C in *. repeat split; lra.
  Qed.

  Lemma cof_y : r1 r = r5 r * r6 r - r8 r * r3 r /\ r4 r = r8 r * r0 r - r2 r * r6 r
                /\ r7 r = r2 r * r3 r - r5 r * r0 r.
  Proof.
    destruct H as [a b c d e f g]. unfold det3 in g.
    destruct r as [x0 y0 z0 x1 y1 z1 x2 y2 z2]; psimp.
    pose (A := z1 * x2 - z2 * x1). pose (B := z2 * x0 - z0 * x2). pose (C := z0 * x1 - z1 * x0).
    assert (E : (y0 - A) * (y0 - A) + (y1 - B) * (y1 - B) + (y2 - C) * (y2 - C) = 0).
    { replace ((y0 - A) * (y0 - A) + (y1 - B) * (y1 - B) + (y2 - C) * (y2 - C))
        with ((y0 ^ 2 + y1 ^ 2 + y2 ^ 2)
              + ((z0 ^ 2 + z1 ^ 2 + z2 ^ 2) * (x0 ^ 2 + x1 ^ 2 + x2 ^ 2) - (x0*z0+x1*z1+x2*z2)^2)
              - 2 * (x0 * (y1 * z2 - z1 * y2) - y0 * (x1 * z2 - z1 * x2) + z0 * (x1 * y2 - y1 * x2)))
        by (unfold A, B, C; ring).
      rewrite a, b, c, e, g. ring. }
    apply sumsq0 in E. destruct E as (E1 & E2 & E3). unfold A, B, C in *. repeat split; lra.
  Qed.

  Lemma row00 : r0 r ^ 2 + r1 r ^ 2 + r2 r ^ 2 = 1.
  Proof.
    pose proof cof_x as (X0 & X1 & X2). pose proof cof_y as (Y0 & Y1 & Y2). pose proof cof_z as (Z0 & Z1 & Z2).
    pose proof (rdet _ H) as D. unfold det3 in D. rewrite <- D.
    replace (r0 r ^ 2 + r1 r ^ 2 + r2 r ^ 2) with (r0 r * r0 r + r1 r * r1 r + r2 r * r2 r) by ring.
    rewrite X0 at 2. rewrite Y0 at 2. rewrite Z0 at 2. ring.
  Qed.
  Lemma row11 : r3 r ^ 2 + r4 r ^ 2 + r5 r ^ 2 = 1.
  Proof.
    pose proof cof_x as (X0 & X1 & X2). pose proof cof_y as (Y0 & Y1 & Y2). pose proof cof_z as (Z0 & Z1 & Z2).
    pose proof (rdet _ H) as D. unfold det3 in D. rewrite <- D.
    replace (r3 r ^ 2 + r4 r ^ 2 + r5 r ^ 2) with (r3 r * r3 r + r4 r * r4 r + r5 r * r5 r) by ring.
    rewrite X1 at 2. rewrite Y1 at 2. rewrite Z1 at 2. ring.
  Qed.
  Lemma row22 : r6 r ^ 2 + r7 r ^ 2 + r8 r ^ 2 = 1.
  Proof.
    pose proof cof_x as (X0 & X1 & X2). pose proof cof_y as (Y0 & Y1 & Y2). pose proof cof_z as (Z0 & Z1 & Z2).
    pose proof (rdet _ H) as D. unfold det3 in D. rewrite <- D.
    replace (r6 r ^ 2 + r7 r ^ 2 + r8 r ^ 2) with (r6 r * r6 r + r7 r * r7 r + r8 r * r8 r) by ring.
    rewrite X2 at 2. rewrite Y2 at 2. rewrite Z2 at 2. ring.
  Qed.
  Lemma row01 : r0 r * r3 r + r1 r * r4 r + r2 r * r5 r = 0.
  Proof.
    pose proof cof_x as (X0 & X1 & X2). pose proof cof_y as (Y0 & Y1 & Y2). pose proof cof_z as (Z0 & Z1 & Z2).
    rewrite X0, Y0, Z0. ring.
  Qed.
  Lemma row02 : r0 r * r6 r + r1 r * r7 r + r2 r * r8 r = 0.
  Proof.
    pose proof cof_x as (X0 & X1 & X2). pose proof cof_y as (Y0 & Y1 & Y2). pose proof cof_z as (Z0 & Z1 & Z2).
    rewrite X0, Y0, Z0. ring.
  Qed.
  Lemma row12 : r3 r * r6 r + r4 r * r7 r + r5 r * r8 r = 0.
  Proof.
    pose proof cof_x as (X0 & X1 & X2). pose proof cof_y as (Y0 & Y1 & Y2). pose proof cof_z as (Z0 & Z1 & Z2).
    rewrite X1, Y1, Z1. ring.
  Qed.

  Lemma r_inv_l : r_mul (r_inv r) r = r_id.
  Proof.
    destruct H as [a b c d e f g].
    apply r_ext; unfold r_mul, r_inv, r_id; simpl; nra.
  Qed.

  Lemma r_inv_r : r_mul r (r_inv r) = r_id.
  Proof.
    pose proof row00. pose proof row11. pose proof row22.
    pose proof row01. pose proof row02. pose proof row12.
    apply r_ext; unfold r_mul, r_inv, r_id; simpl; lra.
  Qed.

  Lemma r_inv_rotation : is_rotation (r_inv r).
  Proof.
    pose proof row00. pose proof row11. pose proof row22.
    pose proof row01. pose proof row02. pose proof row12.
    constructor; try (simpl; simpl in *; lra).
    rewrite det3_inv. apply (rdet _ H).
  Qed.

  Lemma r_invapp_app v : r_invapp r (r_app r v) = v.
  Proof. rewrite r_invapp_inv, <- r_mul_app, r_inv_l. apply r_app_id. Qed.

  Lemma r_app_invapp v : r_app r (r_invapp r v) = v.
  Proof. rewrite r_invapp_inv, <- r_mul_app, r_inv_r. apply r_app_id. Qed.

  Lemma r_app_cross a b : r_app r (v_cross a b) = v_cross (r_app r a) (r_app r b).
  Proof.
    pose proof cof_x as (X0 & X1 & X2). pose proof cof_y as (Y0 & Y1 & Y2). pose proof cof_z as (Z0 & Z1 & Z2).
    destruct a as [a0 a1 a2], b as [b0 b1 b2].
    apply v_ext; unfold r_app, v_cross; simpl.
    - rewrite X0 at 1. rewrite Y0 at 1. rewrite Z0 at 1. ring.
    - rewrite X1 at 1. rewrite Y1 at 1. rewrite Z1 at 1. ring.
    - rewrite X2 at 1. rewrite Y2 at 1. rewrite Z2 at 1. ring.
  Qed.

  Lemma r_app_dot a b : v_dot (r_app r a) (r_app r b) = v_dot a b.
  Proof.
    destruct H as [A B C D E F G]. destruct a as [a0 a1 a2], b as [b0 b1 b2].
    unfold v_dot, r_app; simpl.
    transitivity (b0 * a0 * (r0 r ^ 2 + r3 r ^ 2 + r6 r ^ 2) + b1 * a1 * (r1 r ^ 2 + r4 r ^ 2 + r7 r ^ 2)
       + b2 * a2 * (r2 r ^ 2 + r5 r ^ 2 + r8 r ^ 2)
       + (b0 * a1 + b1 * a0) * (r0 r * r1 r + r3 r * r4 r + r6 r * r7 r)
       + (b0 * a2 + b2 * a0) * (r0 r * r2 r + r3 r * r5 r + r6 r * r8 r)
       + (b1 * a2 + b2 * a1) * (r1 r * r2 r + r4 r * r5 r + r7 r * r8 r)).
    - ring.
    - rewrite A, B, C, D, E, F. ring.
  Qed.
End RotationFacts.

Lemma is_rotation_mul a b : is_rotation a -> is_rotation b -> is_rotation (r_mul a b).
Proof.
  intros Ha Hb.
  assert (Q : forall u v, v_dot (r_app (r_mul a b) u) (r_app (r_mul a b) v) = v_dot u v).
  { intros u v. rewrite !r_mul_app. rewrite (r_app_dot _ Ha), (r_app_dot _ Hb). reflexivity. }
  pose (e0 := mkV 1 0 0). pose (e1 := mkV 0 1 0). pose (e2 := mkV 0 0 1).
  pose proof (Q e0 e0) as q00. pose proof (Q e1 e1) as q11. pose proof (Q e2 e2) as q22.
  pose proof (Q e0 e1) as q01. pose proof (Q e0 e2) as q02. pose proof (Q e1 e2) as q12.
  assert (D : det3 (r_mul a b) = 1) by (rewrite det3_mul, (rdet _ Ha), (rdet _ Hb); ring).
  clear Q. set (m := r_mul a b) in *. clearbody m.
  unfold e0, e1, e2, v_dot, r_app in *. simpl in *.
  constructor; try assumption; lra.
Qed.

Lemma is_rotation_id : is_rotation r_id.
Proof. constructor; unfold det3, r_id; simpl; ring. Qed.

(** Trig helper: introduces c,s with c*c = 1 - s*s. *)
Lemma cc1 x : cos x * cos x = 1 - sin x * sin x.
Proof. pose proof (sin2_cos2 x) as E. unfold Rsqr in E. lra. Qed.

Lemma is_rotation_RotX a : is_rotation (r_RotX a).
Proof. pose proof (cc1 a) as E. constructor; unfold det3, r_RotX; simpl; ring [E]. Qed.
Lemma is_rotation_RotY a : is_rotation (r_RotY a).
Proof. pose proof (cc1 a) as E. constructor; unfold det3, r_RotY; simpl; ring [E]. Qed.
Lemma is_rotation_RotZ a : is_rotation (r_RotZ a).
Proof. pose proof (cc1 a) as E. constructor; unfold det3, r_RotZ; simpl; ring [E]. Qed.

Lemma RPY_product r p y : r_RPY r p y = r_mul (r_RotZ y) (r_mul (r_RotY p) (r_RotX r)).
Proof. apply r_ext; unfold r_RPY, r_mul, r_RotX, r_RotY, r_RotZ; simpl; ring. Qed.
Lemma EulerZYX_product a b c : r_EulerZYX a b c = r_mul (r_RotZ a) (r_mul (r_RotY b) (r_RotX c)).
Proof. apply RPY_product. Qed.
Lemma EulerZYZ_product a b c : r_EulerZYZ a b c = r_mul (r_RotZ a) (r_mul (r_RotY b) (r_RotZ c)).
Proof. apply r_ext; unfold r_EulerZYZ, r_mul, r_RotX, r_RotY, r_RotZ; simpl; ring. Qed.
Lemma DoRotX_mul r a : r_DoRotX r a = r_mul r (r_RotX a).
Proof. apply r_ext; unfold r_DoRotX, r_mul, r_RotX; simpl; ring. Qed.
Lemma DoRotY_mul r a : r_DoRotY r a = r_mul r (r_RotY a).
Proof. apply r_ext; unfold r_DoRotY, r_mul, r_RotY; simpl; ring. Qed.
Lemma DoRotZ_mul r a : r_DoRotZ r a = r_mul r (r_RotZ a).
Proof. apply r_ext; unfold r_DoRotZ, r_mul, r_RotZ; simpl; ring. Qed.

Lemma is_rotation_RPY r p y : is_rotation (r_RPY r p y).
Proof.
  rewrite RPY_product. repeat apply is_rotation_mul;
  auto using is_rotation_RotX, is_rotation_RotY, is_rotation_RotZ.
Qed.
Lemma is_rotation_EulerZYZ a b c : is_rotation (r_EulerZYZ a b c).
Proof.
  rewrite EulerZYZ_product. repeat apply is_rotation_mul;
  auto using is_rotation_RotX, is_rotation_RotY, is_rotation_RotZ.
Qed.

Lemma is_rotation_Rot2 n a : unit_vector n -> is_rotation (r_Rot2 n a).
Proof.
  intros U. unfold unit_vector in U. pose proof (cc1 a) as E.
  destruct n as [x y z]; simpl in U.
  assert (Z : z * z = 1 - x * x - y * y) by lra.
  constructor; unfold det3, r_Rot2; simpl; set (c := cos a) in *; set (s := sin a) in *;
    ring [E Z].
Qed.

Lemma is_rotation_Quaternion x y z w :
  x ^ 2 + y ^ 2 + z ^ 2 + w ^ 2 = 1 -> is_rotation (r_Quaternion x y z w).
Proof.
  intros U. assert (W : w * w = 1 - x * x - y * y - z * z) by lra.
  constructor; unfold det3, r_Quaternion; simpl; ring [W].
Qed.
