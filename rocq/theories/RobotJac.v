(** C80: the Jacobian of the Puma and its singular configurations. *)
From Coq Require Import String Reals List Arith Lia Lra Psatz ZArith Bool.
From Verif Require Import FramesModel FramesSpec FramesProofs FrameOpsProofs RotationProofs Outcome LoopProofs InertiaModel InertiaSpec
  InertiaProofs DualModel KinModel KinSpec KinProofs JacProofs LinModel LinSpec SumProofs DynModel DynSpec PosDefSpec PosDefProofs RobotModel RobotSpec RobotProofs.
Import ListNotations.
Local Open Scope R_scope.

Lemma jacl_rot f b rest x q : jacl (mkseg (RotZ, f, b) :: rest) (x :: q) =
  mkT (v_cross ez (r_app (r_RotZ x) (f_app f (fp (pose_product (assign rest q)))))) ez :: map (r_app_t (r_mul (r_RotZ x) (fM f))) (jacl rest q).
Proof.
  cbn [jacl]. rewrite moving_rot, pose_rot, twist_rot. apply f_equal2; [|reflexivity].
  cbn [fM f_mul f_of_rot]. rewrite r_mul_app. generalize (fp (pose_product (assign rest q))) (r_RotZ x). clear. unfold ez. geo.
Qed.
Lemma jacl_fix f b rest q : jacl (mkseg (Fixed, f, b) :: rest) q = map (r_app_t (fM f)) (jacl rest q).
Proof. cbn [jacl]. rewrite moving_fix, pose_fix. reflexivity. Qed.
Lemma assign_rot f b rest x q : pose_product (assign (mkseg (RotZ, f, b) :: rest) (x :: q)) = f_mul (f_mul (f_of_rot (r_RotZ x)) f) (pose_product (assign rest q)).
Proof. cbn [assign]. rewrite moving_rot. cbn [pose_product]. rewrite pose_rot. reflexivity. Qed.
Lemma assign_fix f b rest q : pose_product (assign (mkseg (Fixed, f, b) :: rest) q) = f_mul f (pose_product (assign rest q)).
Proof. cbn [assign]. rewrite moving_fix. cbn [pose_product]. rewrite pose_fix. reflexivity. Qed.

Definition R1 := mkR 1 0 0 0 0 (-1) 0 1 0.
Definition R2 := mkR 1 0 0 0 0 1 0 (-1) 0.
Definition pd : R := 15005/100000.
Definition h3 q2 q3 := 203/10000 * sin (q2 + q3) + 4318/10000 * cos (q2 + q3).
Definition r3 q2 q3 := 203/10000 * cos (q2 + q3) - 4318/10000 * sin (q2 + q3).
Definition rr q2 q3 := 4318/10000 * cos q2 + r3 q2 q3.
Definition hh q2 q3 := 4318/10000 * sin q2 + h3 q2 q3.
Definition z4 q1 q2 q3 := mkV (- (cos q1 * sin (q2 + q3))) (- (sin q1 * sin (q2 + q3))) (cos (q2 + q3)).
Definition z5 q1 q2 q3 q4 := mkV (cos q1 * cos (q2 + q3) * sin q4 + sin q1 * cos q4) (sin q1 * cos (q2 + q3) * sin q4 - cos q1 * cos q4) (sin (q2 + q3) * sin q4).
Definition z6 q1 q2 q3 q4 q5 := 
  let x := - (cos (q2 + q3) * cos q4 * sin q5) - sin (q2 + q3) * cos q5 in let y := - (sin q4 * sin q5) in
  mkV (cos q1 * x - sin q1 * y) (sin q1 * x + cos q1 * y) (cos (q2 + q3) * cos q5 - sin (q2 + q3) * cos q4 * sin q5).
Definition puma_cols q1 q2 q3 q4 q5 : list Twist :=
  [ mkT (mkV (- (sin q1 * rr q2 q3 - cos q1 * pd)) (cos q1 * rr q2 q3 + sin q1 * pd) 0) ez;
    mkT (mkV (- (hh q2 q3 * cos q1)) (- (hh q2 q3 * sin q1)) (rr q2 q3)) (mkV (sin q1) (- cos q1) 0);
    mkT (mkV (- (h3 q2 q3 * cos q1)) (- (h3 q2 q3 * sin q1)) (r3 q2 q3)) (mkV (sin q1) (- cos q1) 0);
    mkT v_zero (z4 q1 q2 q3); mkT v_zero (z5 q1 q2 q3 q4); mkT v_zero (z6 q1 q2 q3 q4 q5) ].

(** the tip of the last segments and their Jacobian, from the hand backwards *)
Definition last (n : nat) : list Segment := map mkseg (skipn n puma560_segments).
Definition tipv (n : nat) (q : list R) : Vector := fp (pose_product (assign (last n) q)).
Definition jl (n : nat) (q : list R) : list Twist := jacl (last n) q.
Lemma fp_mul a b : fp (f_mul a b) = f_app a (fp b). Proof. reflexivity. Qed.
Ltac small := rewrite ?DH0, ?RotX_q, ?RotX_nq, ?RotX_0; unfold r_RotZ, ez; geo_unfold;
  repeat match goal with
  | |- @eq (list _) _ _ => apply f_equal2 || reflexivity
  | |- @eq Twist _ _ => apply f_equal2
  | |- @eq Vector _ _ => apply f_equal3
  | |- @eq R _ _ => field
  end.
Lemma tip9 q6 : tipv 9 [q6] = v_zero.
Proof. unfold tipv, last. cbn [skipn puma560_segments map]. unfold no_segment. cbn [map]. rewrite assign_rot, assign_fix. cbn [assign pose_product]. small. Qed.
Lemma jl9 q6 : jl 9 [q6] = [mkT v_zero ez].
Proof.
  unfold jl, last. cbn [skipn puma560_segments map]. unfold no_segment. cbn [map]. rewrite jacl_rot, jacl_fix, assign_fix. cbn [assign pose_product jacl map].
  small.
Qed.
Ltac step n l := change (last n) with (mkseg l :: last (S n)).
Lemma tip8 q5 q6 : tipv 8 [q5; q6] = v_zero.
Proof. pose proof (tip9 q6) as T. unfold tipv in *. change (last 8) with (mkseg (nth 8 puma560_segments no_segment) :: last 9). cbn [nth puma560_segments].
  rewrite assign_rot, fp_mul, T. small. Qed.
Lemma jl8 q5 q6 : jl 8 [q5; q6] = [mkT v_zero ez; mkT v_zero (mkV (- sin q5) (cos q5) 0)].
Proof. pose proof (tip9 q6) as T. pose proof (jl9 q6) as J. unfold jl, tipv in *. change (last 8) with (mkseg (nth 8 puma560_segments no_segment) :: last 9). cbn [nth puma560_segments].
  rewrite jacl_rot, T, J. cbn [map]. small. Qed.
Lemma tip6 q5 q6 : tipv 6 [q5; q6] = v_zero.
Proof. rewrite <- (tip8 q5 q6). unfold tipv. change (last 6) with (mkseg no_segment :: mkseg no_segment :: last 8). unfold no_segment. rewrite !assign_fix, !f_mul_id_l. reflexivity. Qed.
Lemma jl6 q5 q6 : jl 6 [q5; q6] = jl 8 [q5; q6].
Proof.
  unfold jl. change (last 6) with (mkseg no_segment :: mkseg no_segment :: last 8). unfold no_segment. rewrite !jacl_fix. rewrite map_map.
  rewrite (map_ext _ (fun x => x)), map_id; [reflexivity|]. clear. intros [[a b c] [d e f]]. small.
Qed.
Lemma tip5 q4 q5 q6 : tipv 5 [q4; q5; q6] = mkV 0 0 (4318/10000).
Proof. pose proof (tip6 q5 q6) as T. unfold tipv in *. change (last 5) with (mkseg (nth 5 puma560_segments no_segment) :: last 6). cbn [nth puma560_segments].
  rewrite assign_rot, fp_mul, T. small. Qed.
Lemma jl5 q4 q5 q6 : jl 5 [q4; q5; q6] =
  [mkT v_zero ez; mkT v_zero (mkV (sin q4) (- cos q4) 0); mkT v_zero (mkV (- (cos q4 * sin q5)) (- (sin q4 * sin q5)) (cos q5))].
Proof. pose proof (tip6 q5 q6) as T. pose proof (jl6 q5 q6) as J. rewrite jl8 in J. unfold jl, tipv in *. change (last 5) with (mkseg (nth 5 puma560_segments no_segment) :: last 6).
  cbn [nth puma560_segments]. rewrite jacl_rot, T, J. cbn [map]. small. Qed.
Lemma tip4 q3 q4 q5 q6 : tipv 4 [q3; q4; q5; q6] = mkV (203/10000 * cos q3 - 4318/10000 * sin q3) (203/10000 * sin q3 + 4318/10000 * cos q3) pd.
Proof. pose proof (tip5 q4 q5 q6) as T. unfold tipv in *. change (last 4) with (mkseg (nth 4 puma560_segments no_segment) :: last 5). cbn [nth puma560_segments].
  rewrite assign_rot, fp_mul, T. unfold pd. small. Qed.
Lemma jl4 q3 q4 q5 q6 : jl 4 [q3; q4; q5; q6] =
  [mkT (mkV (- (203/10000 * sin q3 + 4318/10000 * cos q3)) (203/10000 * cos q3 - 4318/10000 * sin q3) 0) ez;
   mkT v_zero (mkV (- sin q3) (cos q3) 0); mkT v_zero (mkV (cos q3 * sin q4) (sin q3 * sin q4) (cos q4));
   mkT v_zero (mkV (- (cos q3 * cos q4 * sin q5) - sin q3 * cos q5) (cos q3 * cos q5 - sin q3 * cos q4 * sin q5) (sin q4 * sin q5))].
Proof. pose proof (tip5 q4 q5 q6) as T. pose proof (jl5 q4 q5 q6) as J. unfold jl, tipv in *. change (last 4) with (mkseg (nth 4 puma560_segments no_segment) :: last 5).
  cbn [nth puma560_segments]. rewrite jacl_rot, T, J. cbn [map]. small. Qed.
Lemma tip3 q3 q4 q5 q6 : tipv 3 [q3; q4; q5; q6] = tipv 4 [q3; q4; q5; q6].
Proof. unfold tipv. change (last 3) with (mkseg no_segment :: last 4). unfold no_segment. rewrite assign_fix, f_mul_id_l. reflexivity. Qed.
Lemma jl3 q3 q4 q5 q6 : jl 3 [q3; q4; q5; q6] = jl 4 [q3; q4; q5; q6].
Proof.
  unfold jl. change (last 3) with (mkseg no_segment :: last 4). unfold no_segment. rewrite jacl_fix.
  rewrite (map_ext _ (fun x => x)), map_id; [reflexivity|]. clear. intros [[a b c] [d e f]]. small.
Qed.
Lemma tip2 q2 q3 q4 q5 q6 : tipv 2 [q2; q3; q4; q5; q6] = mkV (rr q2 q3) (hh q2 q3) pd.
Proof. pose proof (tip3 q3 q4 q5 q6) as T. rewrite tip4 in T. unfold tipv in *. change (last 2) with (mkseg (nth 2 puma560_segments no_segment) :: last 3). cbn [nth puma560_segments].
  rewrite assign_rot, fp_mul, T. unfold pd, rr, hh, h3, r3. rewrite cos_plus, sin_plus. small. Qed.
Lemma jl2 q2 q3 q4 q5 q6 : jl 2 [q2; q3; q4; q5; q6] =
  [mkT (mkV (- hh q2 q3) (rr q2 q3) 0) ez; mkT (mkV (- h3 q2 q3) (r3 q2 q3) 0) ez;
   mkT v_zero (mkV (- sin (q2 + q3)) (cos (q2 + q3)) 0); mkT v_zero (mkV (cos (q2 + q3) * sin q4) (sin (q2 + q3) * sin q4) (cos q4));
   mkT v_zero (mkV (- (cos (q2 + q3) * cos q4 * sin q5) - sin (q2 + q3) * cos q5) (cos (q2 + q3) * cos q5 - sin (q2 + q3) * cos q4 * sin q5) (sin q4 * sin q5))].
Proof. pose proof (tip3 q3 q4 q5 q6) as T. rewrite tip4 in T. pose proof (jl3 q3 q4 q5 q6) as J. rewrite jl4 in J. unfold jl, tipv in *. change (last 2) with (mkseg (nth 2 puma560_segments no_segment) :: last 3).
  cbn [nth puma560_segments]. rewrite jacl_rot, T, J. cbn [map]. unfold pd, rr, hh, h3, r3. rewrite !cos_plus, !sin_plus. small. Qed.
Lemma jl1 q1 q2 q3 q4 q5 q6 : jl 1 [q1; q2; q3; q4; q5; q6] = puma_cols q1 q2 q3 q4 q5.
Proof. pose proof (tip2 q2 q3 q4 q5 q6) as T. pose proof (jl2 q2 q3 q4 q5 q6) as J. unfold jl, tipv in *. change (last 1) with (mkseg (nth 1 puma560_segments no_segment) :: last 2).
  cbn [nth puma560_segments]. rewrite jacl_rot, T, J. cbn [map]. unfold puma_cols, z4, z5, z6. generalize (cos (q2 + q3)) (sin (q2 + q3)) (rr q2 q3) (hh q2 q3) (h3 q2 q3) (r3 q2 q3) pd. intros. small. Qed.
Lemma puma_jacl q1 q2 q3 q4 q5 q6 : jacl (ch_segs puma) [q1; q2; q3; q4; q5; q6] = puma_cols q1 q2 q3 q4 q5.
Proof.
  change (ch_segs puma) with (mkseg no_segment :: last 1). unfold no_segment. rewrite jacl_fix.
  rewrite (map_ext _ (fun x => x)), map_id; [apply jl1|]. clear. intros [[a b c] [d e f]]. small.
Qed.

(** * The solvers *)
Lemma puma_all : denotes puma (-1) 11. Proof. left. split; [lia|reflexivity]. Qed.
Lemma puma_fk q1 q2 q3 q4 q5 q6 : fk_JntToCart puma [q1; q2; q3; q4; q5; q6] (-1) =
  Ret (E_NOERROR, mkF (puma_hand q1 q2 q3 q4 q5 q6) (puma_wrist q1 q2 q3)).
Proof. rewrite (fk_result puma _ (-1) 11 (robot_wf _) puma_all). rewrite puma_tip. reflexivity. Qed.
Lemma puma_jac q1 q2 q3 q4 q5 q6 : jacobian_at puma (-1) [q1; q2; q3; q4; q5; q6] = puma_cols q1 q2 q3 q4 q5.
Proof.
  unfold jacobian_at, jacsolver_make. rewrite (jac_result puma _ _ _ (-1) 11 puma_ok puma_all). unfold jac_make. rewrite !repeat_length, Nat.eqb_refl.
  change (negb (length [q1; q2; q3; q4; q5; q6] =? ch_nj puma)%nat) with false. cbn [negb andb]. 
  change (11 <=? length (ch_segs puma))%nat with true. cbv iota.
  change (negb ((length [q1; q2; q3; q4; q5; q6] =? ch_nj puma)%nat && true)) with false. cbv iota.
  rewrite jac_closed_nolock by (try apply robot_wf; reflexivity).
  change (firstn 11 (ch_segs puma)) with (ch_segs puma). rewrite puma_jacl. change (ch_nj puma - count_moving (ch_segs puma))%nat with 0%nat. apply app_nil_r.
Qed.
