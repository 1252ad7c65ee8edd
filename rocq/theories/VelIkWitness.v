(** Concrete chains, trees and decompositions for the inverse velocity solvers. *)
From Coq Require Import Reals String List ZArith Bool Arith Lia Lra.
From Verif Require Import FramesModel FramesSpec FramesProofs FrameOpsProofs Outcome InertiaModel DualModel KinModel KinSpec KinProofs JacProofs JacDotProofs
  TreeModel TreeSpec TreeProofs TreeCopyProofs TreeSolverProofs TreeFinal TreeWitness IkModel IkTreeProofs IkWitness
  LinModel LinSpec SumProofs LmaModel LmaSpec LmaProofs LmaProofs2 LmaWitness VelIkModel VelIkSpec VelIkLin VelIkProofs VelIkProofs2 VelIkProofs3 VelIkProofs4.
Import ListNotations.
Local Open Scope list_scope.
Local Open Scope R_scope.

(** A gantry: slides along x, y and z followed by rotations about x, y and z, the
    last one with scale k. *)
Definition ax (ty : JointType) (k : R) : Segment := mkS "link"%string (mkJ "axis"%string ty k 0 0 0 0 v_zero v_zero) rb_zero f_id.
Definition gantry (k : R) : Chain := mkCh 6 6 [ax TransX 1; ax TransY 1; ax TransZ 1; ax RotX 1; ax RotY 1; ax RotZ k].
Definition home : list R := [0; 0; 0; 0; 0; 0].
Lemma gantry_ok k : chain_ok (gantry k).
Proof.
  split; [split; reflexivity | ]. repeat (constructor; [split; [intros X; discriminate | apply is_rotation_id] | ]). constructor.
Qed.
Lemma ax_pose ty k : ty <> RotAxis -> segment_pose (ax ty k) 0 = f_id.
Proof.
  intros N. unfold segment_pose, joint_pose, ax. cbn [sjoint jtype jscale joffset sf_tip jaxis jorigin].
  replace (k * 0 + 0) with 0 by ring. destruct ty; try congruence; unfold r_RotX, r_RotY, r_RotZ; rewrite ?cos_0, ?sin_0; geo.
Qed.
Lemma jac_is_jacl c q : chain_ok c -> length q = ch_nj c -> jacobian_at c (-1) q = jacl (ch_segs c) q.
Proof.
  intros Hok Hq. pose proof Hok as [[Hs Hj] _]. unfold jacobian_at.
  rewrite (jac_result c (jacsolver_make c) q (jac_make (ch_nj c)) (-1) (length (ch_segs c)) Hok) by (left; split; [lia|reflexivity]).
  unfold jacsolver_make, jac_make. rewrite !repeat_length, Hq, Nat.eqb_refl. cbn [negb andb].
  rewrite Nat.leb_refl, jac_closed_nolock by (auto; split; auto). rewrite firstn_all, Hj.
  replace (count_moving (ch_segs c) - count_moving (ch_segs c))%nat with 0%nat by lia. apply app_nil_r.
Qed.
Definition axis6 (i : nat) (x : R) : Twist :=
  match i with
  | 0%nat => mkT (mkV x 0 0) (mkV 0 0 0) | 1%nat => mkT (mkV 0 x 0) (mkV 0 0 0) | 2%nat => mkT (mkV 0 0 x) (mkV 0 0 0)
  | 3%nat => mkT (mkV 0 0 0) (mkV x 0 0) | 4%nat => mkT (mkV 0 0 0) (mkV 0 x 0) | _ => mkT (mkV 0 0 0) (mkV 0 0 x)
  end.
Lemma ref_zero T : t_RefPoint T (r_app (fM f_id) (fp f_id)) = T.
Proof. destruct T as [[a b c] [d e f]]. geo. Qed.
Lemma rot_zero l : map (r_app_t (fM f_id)) l = l.
Proof. induction l as [ | [[a b c] [d e f]] l IH]; [reflexivity | ]. cbn [map]. rewrite IH. f_equal. geo. Qed.
Definition axis_of (ty : JointType) (k : R) : Twist :=
  match ty with TransX => axis6 0 k | TransY => axis6 1 k | TransZ => axis6 2 k | RotX => axis6 3 k | RotY => axis6 4 k | _ => axis6 5 k end.
Lemma ax_twist ty k : In ty [TransX; TransY; TransZ; RotX; RotY; RotZ] -> segment_twist (ax ty k) 0 1 = axis_of ty k.
Proof. intros [<- | [<- | [<- | [<- | [<- | [<- | []]]]]]]; unfold segment_twist, ax; cbn; unfold t_RefPoint, r_app_t, r_app, v_add, v_sub, v_cross, v_scale, v_zero; cbn; f_equal; f_equal; ring. Qed.
Lemma ax_jacl l : Forall (fun p => In (fst p) [TransX; TransY; TransZ; RotX; RotY; RotZ]) l ->
  jacl (map (fun p => ax (fst p) (snd p)) l) (repeat 0 (length l)) = map (fun p => axis_of (fst p) (snd p)) l /\
  pose_product (assign (map (fun p => ax (fst p) (snd p)) l) (repeat 0 (length l))) = f_id.
Proof.
  induction 1 as [ | [ty k] l H _ [IH1 IH2]]; [split; reflexivity | ]. cbn [fst snd] in H. cbn [map length repeat jacl assign fst snd].
  replace (moving (ax ty k)) with true by (destruct H as [<- | [<- | [<- | [<- | [<- | [<- | []]]]]]]; reflexivity).
  assert (N : ty <> RotAxis) by (intros ->; destruct H as [X | [X | [X | [X | [X | [X | []]]]]]]; discriminate).
  cbv zeta. cbn [pose_product]. rewrite IH1, IH2, ax_pose by exact N. rewrite ref_zero, rot_zero, ax_twist by exact H.
  split; [reflexivity | apply f_mul_id_l].
Qed.
Definition gantry_axes (k : R) := [(TransX, 1); (TransY, 1); (TransZ, 1); (RotX, 1); (RotY, 1); (RotZ, k)].
Lemma gantry_jac k : jacobian_at (gantry k) (-1) home = [axis6 0 1; axis6 1 1; axis6 2 1; axis6 3 1; axis6 4 1; axis6 5 k].
Proof.
  rewrite jac_is_jacl by (first [apply gantry_ok | reflexivity]).
  apply (ax_jacl (gantry_axes k)). repeat constructor; cbn; tauto.
Qed.
Definition gantry_svd (k : R) (rc : Z) : Decomp := mkD rc delta (fun i => if Nat.eqb i 5 then k else 1) delta.
Lemma gantry_jac_entry k r j : (r < 6)%nat -> (j < 6)%nat -> tip_jacobian (gantry k) home r j = delta r j * (if Nat.eqb j 5 then k else 1).
Proof.
  intros Hr Hj. unfold tip_jacobian. rewrite gantry_jac.
  do 6 (destruct r as [ | r]; [do 6 (destruct j as [ | j]; [unfold delta; cbn; try ring | ]); lia | ]). lia.
Qed.
Lemma gantry_svd_of k rc : svd_of 6 6 (tip_jacobian (gantry k) home) (gantry_svd k rc).
Proof.
  assert (D : forall i j, (i < 6)%nat -> (j < 6)%nat -> sumn 6 (fun k => delta k i * delta k j) = delta i j).
  { intros i j Hi Hj. rewrite (sumn_ext 6 _ (fun m => delta i m * delta m j)) by (intros x Hx; rewrite (delta_sym x i); reflexivity).
    apply (sumn_delta' 6 i (fun m => delta m j) Hi). }
  split; [ | split; [exact D | intros; apply D; assumption]].
  intros r j Hr Hj. rewrite gantry_jac_entry by assumption. cbn [gantry_svd dc_U dc_S dc_V].
  rewrite (sumn_ext 6 _ (fun i => delta r i * ((if Nat.eqb i 5 then k else 1) * delta j i))) by (intros; ring).
  rewrite (sumn_delta' 6 r (fun i => (if Nat.eqb i 5 then k else 1) * delta j i) Hr).
  unfold delta. destruct (Nat.eqb_spec r j) as [-> | N].
  - rewrite Nat.eqb_refl. ring.
  - destruct (Nat.eqb_spec j r); [congruence | ring].
Qed.
Lemma gantry_sorted k rc : 0 <= k <= 1 -> svd_sorted 6 6 (gantry_svd k rc).
Proof.
  intros [H0 H1]. split; [ | split].
  - intros i j Hi Hj. cbn [gantry_svd dc_S]. destruct (Nat.eqb_spec j 5), (Nat.eqb_spec i 5); lra || lia.
  - intros i Hi. cbn [gantry_svd dc_S]. destruct (Nat.eqb i 5); lra.
  - intros i Hi. lia.
Qed.
Definition push : Twist := mkT (mkV 1 2 3) (mkV 4 5 6).
Lemma gantry_wjac k eps it : forall r j, (r < 6)%nat -> (j < 6)%nat ->
  mentry (weighted_jac (gantry k) home (wdls_make (gantry k) eps it)) r j = tip_jacobian (gantry k) home r j.
Proof. intros. apply weighted_jac_id; auto. Qed.

(** The gantry meets every hypothesis of the chain theorems. *)
Lemma velik_nonvacuous : exists c svd s1 s2 s3 q v (qdot : list R),
  chain_ok c /\ (6 <= ch_nj c)%nat /\ (Z.of_nat (ch_nj c) < 2 ^ 32)%Z /\ length q = ch_nj c /\ length qdot = ch_nj c /\
  pinv_clean s1 /\ pv_nj s1 = ch_nj c /\ 0 < pv_eps s1 /\
  wdls_clean s2 /\ wdls_shapes s2 /\ wd_nj s2 = ch_nj c /\ 0 < wd_eps s2 /\ wd_ts s2 = m_identity 6 /\ wd_js s2 = m_identity (ch_nj c) /\
  symmetric 6 (mentry (wd_ts s2)) /\
  nso_clean s3 /\ ns_nj s3 = ch_nj c /\ 0 < ns_eps s3 /\ length (ns_opt s3) = ch_nj c /\ length (ns_weights s3) = ch_nj c /\
  0 <= ns_alpha s3 /\ (forall i, (i < ch_nj c)%nat -> 0 <= nth i (ns_weights s3) 0) /\
  (let d := svd (pv_maxiter s1) (mkM 6 (ch_nj c) (tip_jacobian c q)) in
   dc_rc d = 0%Z /\ svd_of 6 (ch_nj c) (tip_jacobian c q) d /\ no_small (ch_nj c) (pv_eps s1) d) /\
  (let d := svd (wd_maxiter s2) (weighted_jac c q s2) in
   dc_rc d = 0%Z /\ svd_of 6 (ch_nj c) (mentry (weighted_jac c q s2)) d /\ svd_of 6 (ch_nj c) (tip_jacobian c q) d /\ svd_sorted 6 (ch_nj c) d /\
   wd_eps s2 <= dc_S d 5) /\
  (exists i, t_at v i <> 0).
Proof.
  exists (gantry 1), (fun _ _ => gantry_svd 1 0), (pinv_make (gantry 1) (1/1000) 150), (wdls_make (gantry 1) (1/1000) 150),
    (nso_make (gantry 1) home [1;1;1;1;1;1] (1/1000) 150 (1/4)), home, push, home.
  split; [apply gantry_ok | ]. split; [cbn; lia | ]. split; [reflexivity | ]. split; [reflexivity | ]. split; [reflexivity | ].
  split; [apply pinv_make_clean | ]. split; [reflexivity | ]. split; [cbn; lra | ].
  destruct (wdls_make_clean (gantry 1) (1/1000) 150) as (A & B & _). split; [exact A | ]. split; [exact B | ].
  split; [reflexivity | ]. split; [cbn; lra | ]. split; [reflexivity | ]. split; [reflexivity | ].
  split; [intros i j _ _; cbn; rewrite Nat.eqb_sym; reflexivity | ].
  split; [apply nso_make_clean | ]. split; [reflexivity | ]. split; [cbn; lra | ]. split; [reflexivity | ]. split; [reflexivity | ].
  split; [cbn; lra | ]. split. { intros i Hi. do 6 (destruct i as [ | i]; [cbn; lra | ]). cbn in Hi. lia. }
  split. { split; [reflexivity | ]. split; [apply gantry_svd_of | ]. intros i Hi. cbn. destruct (Nat.eqb i 5); rewrite Rabs_R1; intros; lra. }
  split. { split; [reflexivity | ]. split.
    - destruct (gantry_svd_of 1 0) as (P & Q). split; [ | exact Q]. intros r j Hr Hj. cbn in Hj. rewrite gantry_wjac by assumption. apply P; assumption.
    - split; [apply gantry_svd_of | ]. split; [apply gantry_sorted; lra | ]. cbn. lra. }
  exists 0%nat. cbn. lra.
Qed.
(** The default weighted solver (lambda 0) is undefined at a singular position. *)
Lemma wdls_default_singular : exists c svd q, chain_ok c /\ (6 <= ch_nj c)%nat /\ length q = ch_nj c /\
  forall it v qdot, length qdot = ch_nj c ->
  let s := wdls_make c (1 / 1000) it in
  let d := svd it (weighted_jac c q s) in
  dc_rc d = 0%Z /\ svd_of 6 (ch_nj c) (mentry (weighted_jac c q s)) d /\ svd_sorted 6 (ch_nj c) d /\ wdls_CartToJnt svd c s q v qdot = Undef.
Proof.
  exists (gantry 0), (fun _ _ => gantry_svd 0 0), home. split; [apply gantry_ok | ]. split; [cbn; lia | ]. split; [reflexivity | ].
  intros it v qdot Hq. cbv zeta. split; [reflexivity | ]. split.
  { destruct (gantry_svd_of 0 0) as (P & Q). split; [ | exact Q]. intros r j Hr Hj. cbn in Hj. rewrite gantry_wjac by assumption. apply P; assumption. }
  split; [apply gantry_sorted; lra | ].
  destruct (wdls_make_clean (gantry 0) (1/1000) it) as (A & B & _).
  destruct (wdls_codes (fun _ _ => gantry_svd 0 0) (gantry 0) (wdls_make (gantry 0) (1/1000) it) home v qdot (gantry_ok 0) A B) as (_ & _ & _ & _ & C).
  apply C; try reflexivity; try (cbn; lra); try (cbn; lia); [split; [reflexivity | exact Hq] | exists 5%nat; split; [lia | reflexivity]].
Qed.
(** A joint weight of the wrong shape but the right number of entries is accepted,
    and the next call multiplies matrices that do not fit. *)
Lemma wdls_weight_shape : exists c s M, chain_ok c /\ wdls_clean s /\ wdls_shapes s /\ wd_nj s = ch_nj c /\ mrows M <> ch_nj c /\
  exists s', wdls_setWeightJS c s M = (E_NOERROR, s') /\
  forall svd q v qdot, length q = ch_nj c -> length qdot = ch_nj c -> wdls_CartToJnt svd c s' q v qdot = Undef.
Proof.
  exists (gantry 1), (wdls_make (gantry 1) (1/1000) 150), (mkM 9 4 (fun _ _ => 1)).
  destruct (wdls_make_clean (gantry 1) (1/1000) 150) as (A & B & _).
  split; [apply gantry_ok | ]. split; [exact A | ]. split; [exact B | ]. split; [reflexivity | ]. split; [cbn; lia | ].
  eexists. split; [reflexivity | ]. intros svd q v qdot Hq Hd. unfold wdls_CartToJnt. cbn [wd_nj wdls_make wd_locked wd_jac].
  rewrite Hq, Hd, Nat.eqb_refl. cbn [negb orb]. unfold jacsolver_make.
  rewrite jac_now by (auto using gantry_ok; unfold jac_make; rewrite repeat_length; reflexivity). cbn [obind]. change (E_NOERROR <? 0)%Z with false. cbn match.
  unfold m_mul at 1. cbn [mcols mrows jac_mat wd_js]. rewrite jacobian_at_length by (auto using gantry_ok). reflexivity.
Qed.

(** Two slides along the same axis. *)
Definition rails : Chain := mkCh 2 2 [ax TransX 1; ax TransX 1].
Lemma rails_ok : chain_ok rails.
Proof. split; [split; reflexivity | ]. repeat (constructor; [split; [intros X; discriminate | apply is_rotation_id] | ]). constructor. Qed.
Lemma rails_jac : jacobian_at rails (-1) [0; 0] = [axis6 0 1; axis6 0 1].
Proof.
  rewrite jac_is_jacl by (first [apply rails_ok | reflexivity]).
  apply (ax_jacl [(TransX, 1); (TransX, 1)]). repeat constructor; cbn; tauto.
Qed.
Definition rails_A (r j : nat) : R := if Nat.eqb r 0 then 1 else 0.
Definition rails_svd (rc : Z) : Decomp := mkD rc (fun r i => if Nat.eqb r 0 && Nat.eqb i 0 then 1 else 0)
  (fun i => if Nat.eqb i 0 then sqrt 2 else 0) (fun j i => if Nat.eqb j 1 && Nat.eqb i 1 then - / sqrt 2 else / sqrt 2).
Lemma sqrt2_sq : sqrt 2 * sqrt 2 = 2. Proof. apply sqrt_def; lra. Qed.
Lemma sqrt2_pos : 0 < sqrt 2. Proof. apply sqrt_lt_R0; lra. Qed.
Lemma rails_svd_of rc : svd_of 6 2 rails_A (rails_svd rc) /\ svd_sorted 6 2 (rails_svd rc).
Proof.
  pose proof sqrt2_sq as Q. pose proof sqrt2_pos as P.
  assert (I : / sqrt 2 * / sqrt 2 = 1 / 2). { rewrite <- Rinv_mult, Q. lra. }
  split; [split; [ | split] | split; [ | split]].
  - intros r j Hr Hj. unfold rails_A, rails_svd; cbn [dc_U dc_S dc_V sumn Nat.eqb].
    destruct r; destruct j as [ | [ | j]]; try lia; cbn; field; lra.
  - intros [ | [ | i]] [ | [ | k]] Hi Hk; try lia; unfold rails_svd, delta; cbn; lra.
  - intros [ | [ | i]] [ | [ | k]] Hi Hk Si Sk; try lia; unfold rails_svd in *; cbn in *; try (exfalso; lra). unfold delta; cbn. ring.
  - intros [ | [ | i]] [ | [ | k]] Hi Hk; try lia; unfold rails_svd; cbn; lra.
  - intros [ | [ | i]] Hi; try lia; unfold rails_svd; cbn; lra.
  - intros i Hi; lia.
Qed.
(** A singular two-joint chain is not reported as singular. *)
Lemma pinv_few_joints : exists c svd q, chain_ok c /\ length q = ch_nj c /\ forall eps it v qdot, 0 < eps -> length qdot = ch_nj c ->
  let s := pinv_make c eps it in
  let d := svd it (mkM 6 (ch_nj c) (tip_jacobian c q)) in
  dc_rc d = 0%Z /\ svd_of 6 (ch_nj c) (tip_jacobian c q) d /\ dc_S d 1 = 0 /\
  exists out s', pinv_CartToJnt svd c s q v qdot = Ret (E_NOERROR, out, s').
Proof.
  exists rails, (fun _ _ => rails_svd 0), [0; 0]. split; [apply rails_ok | ]. split; [reflexivity | ]. intros eps it v qdot He Hq. cbv zeta.
  split; [reflexivity | ]. split.
  { destruct (rails_svd_of 0) as ((P & Q) & _). split; [ | exact Q]. intros r j Hr Hj. etransitivity; [ | apply P; assumption].
    unfold tip_jacobian, rails_A. rewrite rails_jac. cbn in Hj. destruct j as [ | [ | j]]; try lia; do 6 (destruct r as [ | r]; [reflexivity | ]); lia. }
  split; [reflexivity | ].
  destruct (pinv_call (fun _ _ => rails_svd 0) rails (pinv_make rails eps it) [0; 0] v qdot rails_ok) as (code & out & s' & E & P);
    [apply pinv_make_clean | exact He | reflexivity | ].
  cbv zeta in P. do 5 apply proj2 in P. destruct P as (_ & _ & P). specialize (P eq_refl (conj eq_refl Hq)). destruct P as (_ & _ & P).
  specialize (P eq_refl). destruct P as (P1 & P2 & _). exists out, s'. rewrite E. destruct P1 as [-> | ->]; [ | reflexivity].
  exfalso. destruct (proj1 P2 eq_refl) as [X _]. cbn in X. lia.
Qed.

(** The tree root - a - b with the same two slides. *)
Definition rt1 := snd (tree_addSegment (tree_make "root"%string) (mkS "a"%string (w_slide "ja" 1) rb_zero f_id) "root"%string).
Definition rail_tree := snd (tree_addSegment rt1 (mkS "b"%string (w_slide "jb" 1) rb_zero f_id) "a"%string).
Lemma rail_tree_reachable : reachable rail_tree.
Proof.
  apply (reach_addSegment rt1 (mkS "b"%string (w_slide "jb" 1) rb_zero f_id) "a"%string true); [ | reflexivity].
  apply (reach_addSegment (tree_make "root"%string) (mkS "a"%string (w_slide "ja" 1) rb_zero f_id) "root"%string true); [ | reflexivity]. constructor.
Qed.
Lemma rail_tree_ok : tree_ok rail_tree.
Proof.
  intros n e H. apply smap_find_In in H. apply (in_map snd) in H. simpl in H.
  destruct H as [<- | [<- | [<- | []]]]; simpl; (split; [ | try apply rigid_id]).
  all: first [apply w_slide_constructed | (left; exists "NoName"%string, Fixed, 1, 0, 0, 0, 0; reflexivity) | (apply rigid_mul; [apply rigid_inv | ]; apply rigid_id)].
Qed.
Lemma rail_tree_jac st buf J : treejac_make rail_tree = Ret st -> length buf = 2%nat -> treejac_JntToJac st [0; 0] buf "b"%string = Ret (0%Z, J) ->
  J = [axis6 0 1; axis6 0 1].
Proof.
  intros E L H. vm_compute in E. injection E as <-. destruct buf as [ | b0 [ | b1 [ | ]]]; try discriminate L.
  cbn in H. injection H as <-. change (mkR R1 R0 R0 R0 R1 R0 R0 R0 R1) with r_id. change (mkV R0 R0 R0) with v_zero.
  change R0 with 0. change R1 with 1. rewrite !r_mul_id_l.
  unfold segment_twist; cbn [sjoint sf_tip joint_twist jtype jscale]. change (mkV 0 0 0) with v_zero. rewrite ?r_app_zero.
  assert (I1 : forall T, r_app_t r_id T = T) by (intros [[a b c] [d e f]]; geo).
  assert (I2 : forall T, r_invapp_t r_id T = T) by (intros [[a b c] [d e f]]; geo).
  assert (I3 : forall T, r_app r_id T = T) by (intros [a b c]; geo).
  rewrite ?I1, ?I2, ?I3. unfold axis6. unfold t_RefPoint, v_add, v_sub, v_cross, v_zero; cbn [tvel trot vx vy vz fp].
  repeat f_equal; ring.
Qed.
Definition rail_twists : dict Twist := [("b"%string, push)].
Lemma rail_tree_make lam : exists s, twdls_make rail_tree ["b"%string] = Ret s /\ let s' := twdls_setLambda s lam in
  twdls_for rail_tree ["b"%string] s' /\ twdls_shapes rail_tree ["b"%string] s' /\ tw_lambda s = 0 /\ tw_lambda s' = lam /\
  forall l, gathered rail_tree s' [0; 0] rail_twists l ->
    svd_of 6 2 (times 6 (mentry (tw_Wy s')) (times 2 (stacked_jac l) (mentry (tw_Wq s')))) (rails_svd 0) /\ svd_sorted 6 2 (rails_svd 0).
Proof.
  destruct (twdls_make_ok rail_tree ["b"%string] rail_tree_reachable) as (s & E & Fo & Sh & L & Y & Q). exists s. split; [exact E | ]. cbv zeta.
  destruct (twdls_setters _ _ _ (m_identity 0) lam Fo) as (_ & _ & Fo' & _ & _ & _ & _ & _ & _ & L' & Q' & Y'). split; [exact Fo' | ].
  split. { unfold twdls_shapes in *. rewrite Q', Y'. exact Sh. } split; [exact L | ]. split; [exact L' | ]. intros l G.
  destruct (rails_svd_of 0) as ((P1 & P2) & P3). split; [ | exact P3]. split; [ | exact P2]. intros r j Hr Hj.
  rewrite <- P1 by assumption. rewrite Q', Y', Y, Q.
  assert (EJ : tw_jacs s = dict_of ["b"%string] (jac_make 2)) by (vm_compute in E; injection E as <-; reflexivity).
  destruct Fo as (Mk & _). unfold gathered in G. cbn [tw_jacs twdls_setLambda tw_tree] in G. rewrite EJ in G. cbn [dict_of fold_left dict_insert] in G.
  assert (SJ : stacked_jac l r j = rails_A r j).
  { inversion G as [ | e1 p1 l1 l2 (G1 & _ & _) G2 X1 X2]. inversion G2; subst. cbn [fst snd] in G1.
    apply (rail_tree_jac _ _ _ Mk) in G1; [ | reflexivity]. unfold stacked_jac. rewrite Nat.div_small, Nat.mod_small by exact Hr. cbn [nth].
    rewrite G1. unfold rails_A. destruct j as [ | [ | j]]; try lia; do 6 (destruct r as [ | r]; [reflexivity | ]); lia. }
  unfold times. cbn [length Nat.mul Nat.add m_identity mentry].
  change (tr_nj rail_tree) with 2%nat.
  transitivity (stacked_jac l r j); [ | exact SJ].
  rewrite (sumn_ext 6 _ (fun k => delta r k * stacked_jac l k j)).
  - apply (sumn_delta' 6 r (fun k => stacked_jac l k j) Hr).
  - intros k Hk. f_equal. cbn. destruct j as [ | [ | j]]; try lia; cbn; ring.
Qed.
(** The hypotheses of the tree theorem are met. *)
Lemma twdls_nonvacuous : exists t endpoints s svd q v_in, reachable t /\ tree_ok t /\ twdls_for t endpoints s /\ twdls_shapes t endpoints s /\
  (forall k tw, In (k, tw) v_in -> In k endpoints) /\ (forall k, In k endpoints -> tfind t k <> None /\ dict_find v_in k <> None) /\
  length q = tr_nj t /\ (0 < tr_nj t)%nat /\ tw_lambda s = 1 /\
  forall l, gathered t s q v_in l ->
  let m := (6 * length endpoints)%nat in let n := tr_nj t in
  let B := times m (mentry (tw_Wy s)) (times n (stacked_jac l) (mentry (tw_Wq s))) in
  let d := svd 150%Z (mkM m n B) in dc_rc d = 0%Z /\ svd_of m n B d /\ svd_sorted m n d.
Proof.
  destruct (rail_tree_make 1) as (s & E & Fo & Sh & _ & L & G).
  exists rail_tree, ["b"%string], (twdls_setLambda s 1), (fun _ _ => rails_svd 0), [0; 0], rail_twists.
  split; [apply rail_tree_reachable | ]. split; [apply rail_tree_ok | ]. split; [exact Fo | ]. split; [exact Sh | ].
  split; [intros k tw [X | []]; injection X as <- _; left; reflexivity | ].
  split; [intros k [<- | []]; split; discriminate | ]. split; [reflexivity | ]. split; [cbn; lia | ]. split; [exact L | ].
  intros l Gl. cbv zeta. split; [reflexivity | ]. exact (G l Gl).
Qed.
(** The freshly constructed tree solver (lambda 0) divides by zero on a redundant arm. *)
Lemma twdls_default_singular : exists t endpoints s svd q v_in, reachable t /\ tree_ok t /\ twdls_make t endpoints = Ret s /\ length q = tr_nj t /\
  (forall k, In k endpoints <-> exists tw, In (k, tw) v_in) /\ (forall k, In k endpoints -> tfind t k <> None) /\
  (exists l, gathered t s q v_in l /\
  let m := (6 * length endpoints)%nat in let n := tr_nj t in
  let B := times m (mentry (tw_Wy s)) (times n (stacked_jac l) (mentry (tw_Wq s))) in
  let d := svd 150%Z (mkM m n B) in dc_rc d = 0%Z /\ svd_of m n B d /\ svd_sorted m n d) /\
  forall qdot, twdls_CartToJnt svd s q v_in qdot = Undef.
Proof.
  destruct (rail_tree_make 0) as (s & E & Fo & Sh & L0 & L & G).
  assert (Es : twdls_setLambda s 0 = s) by (destruct s; cbn in L0; subst; reflexivity). rewrite Es in *.
  exists rail_tree, ["b"%string], s, (fun _ _ => rails_svd 0), [0; 0], rail_twists.
  split; [apply rail_tree_reachable | ]. split; [apply rail_tree_ok | ]. split; [exact E | ]. split; [reflexivity | ].
  split. { intros k; split; [intros [<- | []]; exists push; left; reflexivity | intros (tw & [X | []]); injection X as <- _; left; reflexivity]. }
  split; [intros k [<- | []]; discriminate | ].
  assert (S : forall qdot, exists l, gathered rail_tree s [0; 0] rail_twists l /\ twdls_CartToJnt (fun _ _ => rails_svd 0) s [0; 0] rail_twists qdot = Undef).
  { intros qdot. destruct (twdls_solution (fun _ _ => rails_svd 0) rail_tree ["b"%string] s [0; 0] rail_twists qdot rail_tree_reachable rail_tree_ok Fo Sh) as (l & Gl & _ & _ & U).
    - intros k tw [X | []]; injection X as <- _; left; reflexivity.
    - intros k [<- | []]; split; discriminate.
    - reflexivity.
    - cbn; lia.
    - exists l. split; [exact Gl | ]. apply U; [cbn; lia | exact L0 | exists 1%nat; split; [cbn; lia | reflexivity]]. }
  split.
  - destruct (S []) as (l & Gl & _). exists l. split; [exact Gl | ]. cbv zeta. split; [reflexivity | ]. exact (G l Gl).
  - intros qdot. destruct (S qdot) as (l & _ & X). exact X.
Qed.
