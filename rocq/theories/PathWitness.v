(** Concrete paths that meet the hypotheses of the path and trajectory theorems. *)
From Coq Require Import Reals List Lra Lia.
From Verif Require Import FramesModel FramesSpec FramesProofs RotationProofs Outcome KinSpec ProfModel ProfSpec ProfProofs2 PathModel PathSpec TrajSpec
  PathProofs PathProofs2 PathProofs3 PathProofs4 PathProofs5 PathProofs7 TrajProofs TrajProofs2 TrajProofs3.
Import ListNotations.
Local Open Scope R_scope.

(** one metre forward *)
Lemma step_resolved x a : Rabs a = 1 -> resolved (mkF r_id (mkV x 0 0)) (mkF r_id (mkV (x + a) 0 0)).
Proof.
  intros H. split; [apply is_rotation_id|]. split; [apply is_rotation_id|]. split; [apply resolved_id, is_rotation_id|].
  right. apply max_abs_1. left. cbn. replace (x + a - x) with a by ring. lra.
Qed.
Lemma tab_smooth : all_leaves smooth_leaf there_and_back.
Proof.
  rewrite tab_eq. cbn. assert (B : Rabs (-1) = 1) by (rewrite Rabs_left; lra).
  split; [|split; [|exact I]]; unfold smooth_leaf; cbn [leaf_Pos leaf_Vel leaf_Acc]; apply line_correct.
  - exact (step_resolved 0 1 Rabs_R1).
  - lra.
  - exact (step_resolved 1 (-1) B).
  - lra.
Qed.
Lemma tab_copyable : copyable there_and_back.
Proof.
  rewrite tab_eq. assert (B : Rabs (-1) = 1) by (rewrite Rabs_left; lra).
  split; [apply (line_copyable sa_make _ _ 1 (step_resolved 0 1 Rabs_R1)); lra|]. split; [|exact I].
  apply (line_copyable sa_make _ _ 1 (step_resolved 1 (-1) B)); lra.
Qed.
Lemma composite_witness : made there_and_back /\ inhabited_path there_and_back /\ joined there_and_back /\
  all_leaves smooth_leaf there_and_back /\ inside there_and_back (/ 2) /\ inside there_and_back (3 / 2) /\ ~ knot there_and_back (/ 2) /\
  copyable there_and_back /\ path_len there_and_back = 2.
Proof.
  split; [apply tab_made|]. split; [apply tab_inhabited|]. split; [apply tab_joined|]. split; [apply tab_smooth|].
  pose proof tab_copyable as TC. assert (B : Rabs (-1) = 1) by (rewrite Rabs_left; lra).
  rewrite tab_eq in *. cbn [inside knot path_len leaf_len]. rewrite !x_line_eq by (rewrite ?Rabs_R1; auto). cbn [ln_len].
  split; [left; lra|]. split; [right; split; [lra|]; left; lra|].
  split; [intros [(A & _)|[(_ & A)|(A & _)]]; lra|]. split; [|reflexivity]. rewrite !x_line_eq in TC by (rewrite ?Rabs_R1; auto). exact TC.
Qed.

(** the cyclic repetition of a there-and-back path *)
Lemma cyclic_witness : made (PCyclic there_and_back 3) /\ inhabited_path (PCyclic there_and_back 3) /\
  path_len (PCyclic there_and_back 3) = 6 /\ inside (PCyclic there_and_back 3) (5 / 2).
Proof.
  destruct composite_witness as (M & N & _ & _ & I1 & _ & _ & _ & L).
  split; [constructor; [exact M|lia]|]. split; [cbn [inhabited_path]; rewrite L; split; [lra|exact N]|].
  split; [cbn [path_len]; rewrite L; ring|].
  cbn [inside]. exists 1%Z. split; [lia|]. rewrite L. replace (5 / 2 - 1 * 2) with (/ 2) by field. exact I1.
Qed.

(** a quarter turn about x while moving one metre along z *)
Lemma line_witness : resolved (mkF (r_RotZ (PI / 2)) v_zero) (mkF (r_mul (r_RotZ (PI / 2)) (r_RotX (PI / 2))) (mkV 0 0 1)).
Proof.
  split; [apply is_rotation_RotZ|]. split; [apply is_rotation_mul; [apply is_rotation_RotZ|apply is_rotation_RotX]|]. split.
  - left. cbn [fM]. rewrite <- r_mul_assoc, r_inv_l, r_mul_id_l by apply is_rotation_RotZ.
    right; right. unfold r_RotX. cbn. rewrite sin_PI2. rewrite Rabs_left; unfold kdl_epsilon; lra.
  - right. apply max_abs_1. right; right. cbn. replace (1 - 0) with 1 by ring. rewrite Rabs_R1. lra.
Qed.
Lemma arc_witness : exists c, circle_make unit_arc_start v_zero (mkV 0 1 0) r_id 1 sa_make 1 = Val c /\ ci_len c = 1.
Proof. destruct (unit_arc 1 ltac:(lra)) as (c & E & _ & L & _). eauto. Qed.

Lemma via_witness : stepwise resolved (mkF r_id (mkV 0 0 0)) [mkF r_id (mkV (0 + 1) 0 0); mkF r_id (mkV (0 + 1 + -1) 0 0)].
Proof.
  split; [exact (step_resolved 0 1 Rabs_R1)|]. split; [|exact I]. apply step_resolved. rewrite Rabs_left; lra.
Qed.
Lemma trap_clonable : exists m, trap_setProfile (trap_make 1 1) 0 2 = Ret m /\ copyable_traj (TSegment there_and_back (PTrap m)).
Proof.
  destruct (trap_profile (trap_make 1 1) 0 2) as (m & E & _); try (cbn; lra).
  exists m. split; [exact E|]. split; [apply tab_made|]. split; [apply tab_copyable|].
  exists (PTrap m). split; [|apply same_answers_refl]. cbn [prof_clone].
  rewrite (trap_clone_same (trap_make 1 1) m 0 2); [reflexivity| | | |left; exact E]; cbn; lra.
Qed.
