(** C36, C37 for arms whose links have mass; C80 - the robots of the models directory. *)
From Coq Require Import Reals String List ZArith.
From Verif Require Import FramesModel FramesSpec Outcome InertiaModel InertiaSpec DualModel KinModel KinSpec LinModel LinSpec DynModel DynSpec
  PosDefSpec PosDefProofs RobotModel RobotSpec RobotProofs RobotJac RobotSing RobotDyn
  JntModel IkModel IkSpec VelIkModel VelIkSpec VelIkWitness NewtonSpec NewtonWitness RobotIk RobotKuka.
Import ListNotations.
Local Open Scope list_scope.
Local Open Scope R_scope.

(** ** C36: the mass matrix is positive definite if every joint carries mass *)
Theorem C36_kinetic_positive : forall c q qd, chain_ok c -> inertias_psd c -> joints_carry c -> length q = ch_nj c -> length qd = ch_nj c ->
  (exists j, (j < ch_nj c)%nat /\ nth j qd 0 <> 0) -> 0 < kinetic c q qd.
Proof. exact carry_kinetic. Qed.
Print Assumptions C36_kinetic_positive.
Theorem C36_positive_definite : forall g c ds q H, chain_ok c -> inertias_symmetric c -> inertias_psd c -> joints_carry c ->
  dyn_reach g c ds -> dyn_current c ds -> length q = ch_nj c -> mrows H = ch_nj c -> mcols H = ch_nj c ->
  exists M, dyn_JntToMass c ds q H = Ret (E_NOERROR, M) /\ symmetric (ch_nj c) (mentry M) /\ positive_definite (ch_nj c) (mentry M).
Proof. exact pd_mass. Qed.
Print Assumptions C36_positive_definite.
(** it is enough that the links that joints move have definite inertias *)
Theorem C36_definite_links : forall c, chain_ok c ->
  Forall (fun s => moving s = true -> 0 <= jinertia (sjoint s) /\ joint_effective (sjoint s) /\ rb_definite (sI s)) (ch_segs c) -> joints_carry c.
Proof. exact definite_carry. Qed.
Print Assumptions C36_definite_links.

(** ** C37 for such arms, with no condition on the mass matrix *)
Theorem C37_arms_with_mass : forall g c st rs q qd tau fext qdd tau0, chain_ok c -> inertias_symmetric c -> inertias_psd c -> joints_carry c ->
  fd_reach g c c st -> fd_current c st -> rne_reach g c rs -> rne_current c rs ->
  length q = ch_nj c -> length qd = ch_nj c -> length tau = ch_nj c -> length qdd = ch_nj c -> length fext = ch_ns c -> length tau0 = ch_nj c ->
  exists out st', fd_CartToJnt c st q qd tau fext qdd = Ret (E_NOERROR, out, st') /\ length out = ch_nj c /\
    rne_CartToJnt c rs q qd out fext tau0 = Ret (E_NOERROR, tau) /\
    (forall a, length a = ch_nj c -> rne_CartToJnt c rs q qd a fext tau0 = Ret (E_NOERROR, tau) -> out = a).
Proof. exact pd_forward. Qed.
Print Assumptions C37_arms_with_mass.

(** ** C70 for arms with six joints: it is enough that the position is not singular *)
Theorem C70_nr_regular : forall svd c q0 rho k, chain_ok c -> ch_nj c = 6%nat -> length q0 = 6%nat -> 0 < rho -> ~ singular_at c q0 ->
  (forall q, joints_within rho q q0 -> let d := svd k (mkM 6 6 (tip_jacobian c q)) in dc_rc d = 0%Z /\ svd_of 6 6 (tip_jacobian c q) d) ->
  exists eps0, 0 < eps0 /\ forall eps, 0 < eps <= eps0 -> exists delta, 0 < delta /\ forall m maxiter epsp q g qo,
    0 < epsp <= / 2 -> 1 <= 2 ^ m * epsp -> ((m + 1) * (m + 1) <= maxiter)%nat -> length qo = 6%nat ->
    joints_within delta q q0 -> rigid g -> f_close (tip c q0) g delta ->
    exists q' s' w', nr_CartToJnt (own_fk c) (pinv_CartToJnt svd c) c (nr_make c maxiter epsp) (pinv_make c eps k) q g qo = Ret (E_NOERROR, q', s', w') /\
      joints_within rho q' q0 /\ pose_within epsp (tip c q') g.
Proof. exact nr_regular. Qed.
Print Assumptions C70_nr_regular.
Theorem C70_nrjl_regular : forall svd c q0 rho k, chain_ok c -> ch_nj c = 6%nat -> length q0 = 6%nat -> 0 < rho -> ~ singular_at c q0 ->
  (forall q, joints_within rho q q0 -> let d := svd k (mkM 6 6 (tip_jacobian c q)) in dc_rc d = 0%Z /\ svd_of 6 6 (tip_jacobian c q) d) ->
  exists eps0, 0 < eps0 /\ forall eps, 0 < eps <= eps0 -> exists delta, 0 < delta /\ forall m maxiter epsp lo hi q g qo,
    0 < epsp <= / 2 -> 1 <= 2 ^ m * epsp -> ((m + 1) * (m + 1) <= maxiter)%nat -> length qo = 6%nat ->
    length lo = 6%nat -> length hi = 6%nat -> (forall i, (i < 6)%nat -> nth i lo 0 + rho <= nth i q0 0 <= nth i hi 0 - rho) ->
    joints_within delta q q0 -> rigid g -> f_close (tip c q0) g delta ->
    exists q' s' w', nrjl_CartToJnt (own_fk c) (pinv_CartToJnt svd c) c (nrjl_make c lo hi maxiter epsp) (pinv_make c eps k) q g qo = Ret (E_NOERROR, q', s', w') /\
      joints_within rho q' q0 /\ pose_within epsp (tip c q') g.
Proof. exact nrjl_regular. Qed.
Print Assumptions C70_nrjl_regular.
Theorem C70_regular_example : chain_ok (gantry 1) /\ ch_nj (gantry 1) = 6%nat /\ length home = 6%nat /\ ~ singular_at (gantry 1) home /\
  forall q, joints_within 1 q home -> let d := wrist_svd 150 (mkM 6 6 (tip_jacobian (gantry 1) q)) in dc_rc d = 0%Z /\ svd_of 6 6 (tip_jacobian (gantry 1) q) d.
Proof. exact regular_example. Qed.
Print Assumptions C70_regular_example.

(** ** C80: Puma560() and KukaLWR_DHnew() *)
Theorem C80_puma_built : Puma560 = Made puma /\ chain_ok puma /\ ch_nj puma = 6%nat /\ ch_ns puma = 11%nat.
Proof. exact (conj puma_made (conj puma_ok puma_counts)). Qed.
Print Assumptions C80_puma_built.
Theorem C80_puma_pose : forall q1 q2 q3 q4 q5 q6, fk_JntToCart puma [q1; q2; q3; q4; q5; q6] (-1) =
  Ret (E_NOERROR, mkF (puma_hand q1 q2 q3 q4 q5 q6) (puma_wrist q1 q2 q3)).
Proof. exact puma_fk. Qed.
Print Assumptions C80_puma_pose.
Theorem C80_puma_wrist : forall q q', length q = 6%nat -> length q' = 6%nat -> firstn 3 q = firstn 3 q' -> fp (tip_at puma (-1) q) = fp (tip_at puma (-1) q').
Proof. exact puma_spherical. Qed.
Print Assumptions C80_puma_wrist.
Theorem C80_puma_singularities : forall q1 q2 q3 q4 q5 q6, singular_at puma [q1; q2; q3; q4; q5; q6] <-> puma_singular q2 q3 q5.
Proof. exact puma_singularities. Qed.
Print Assumptions C80_puma_singularities.
(** stretched out it is singular, with the hand at a right angle it is not *)
Theorem C80_example : singular_at puma [0; 0; 0; 0; 0; 0] /\ ~ singular_at puma [0; 0; 0; 0; PI / 2; 0].
Proof. exact puma_examples. Qed.
Print Assumptions C80_example.
(** inverse kinematics near every position that is not singular *)
Theorem C80_puma_inverse_kinematics : forall svd rho k q1 q2 q3 q4 q5 q6, let q0 := [q1; q2; q3; q4; q5; q6] in 0 < rho -> ~ puma_singular q2 q3 q5 ->
  (forall q, joints_within rho q q0 -> let d := svd k (mkM 6 6 (tip_jacobian puma q)) in dc_rc d = 0%Z /\ svd_of 6 6 (tip_jacobian puma q) d) ->
  exists eps0, 0 < eps0 /\ forall eps, 0 < eps <= eps0 -> exists delta, 0 < delta /\ forall m maxiter epsp q g qo,
    0 < epsp <= / 2 -> 1 <= 2 ^ m * epsp -> ((m + 1) * (m + 1) <= maxiter)%nat -> length qo = 6%nat ->
    joints_within delta q q0 -> rigid g -> f_close (tip puma q0) g delta ->
    exists q' s' w', nr_CartToJnt (own_fk puma) (pinv_CartToJnt svd puma) puma (nr_make puma maxiter epsp) (pinv_make puma eps k) q g qo = Ret (E_NOERROR, q', s', w') /\
      joints_within rho q' q0 /\ pose_within epsp (tip puma q') g.
Proof. exact puma_ik. Qed.
Print Assumptions C80_puma_inverse_kinematics.
Theorem C80_puma_dynamics : inertias_symmetric puma /\ inertias_psd puma /\ joints_carry puma.
Proof. exact (conj puma_symmetric (conj puma_psd puma_carry)). Qed.
Print Assumptions C80_puma_dynamics.
Theorem C80_puma_mass : forall g q H, length q = 6%nat -> mrows H = 6%nat -> mcols H = 6%nat ->
  exists M, dyn_JntToMass puma (dyn_make puma g) q H = Ret (E_NOERROR, M) /\ symmetric 6 (mentry M) /\ positive_definite 6 (mentry M).
Proof. exact puma_mass. Qed.
Print Assumptions C80_puma_mass.
Theorem C80_puma_forward_dynamics : forall g q qd tau fext qdd tau0, length q = 6%nat -> length qd = 6%nat -> length tau = 6%nat -> length qdd = 6%nat ->
  length fext = 11%nat -> length tau0 = 6%nat ->
  exists out st', fd_CartToJnt puma (fd_make puma g) q qd tau fext qdd = Ret (E_NOERROR, out, st') /\ length out = 6%nat /\
    rne_CartToJnt puma (rne_make puma g) q qd out fext tau0 = Ret (E_NOERROR, tau).
Proof. exact puma_forward. Qed.
Print Assumptions C80_puma_forward_dynamics.

Theorem C80_kuka_built : KukaLWR_DHnew = Made kuka /\ chain_ok kuka /\ ch_nj kuka = 7%nat /\ ch_ns kuka = 8%nat /\ inertias_symmetric kuka.
Proof. exact (conj kuka_made (conj kuka_ok (conj (proj1 kuka_counts) (conj (proj2 kuka_counts) kuka_symmetric)))). Qed.
Print Assumptions C80_kuka_built.
(** Where the tip is, for all positions of the joints: turns about seven axes, 0.31 m up to the shoulder, 0.4 m to the elbow, 0.39 m to the wrist. *)
Theorem C80_kuka_pose : forall q1 q2 q3 q4 q5 q6 q7, tip_at kuka (-1) [q1; q2; q3; q4; q5; q6; q7] =
  mkF (kuka_hand quarter q1 q2 q3 q4 q5 q6 q7) (kuka_wrist_at quarter q1 q2 q3 q4).
Proof. exact kuka_pose. Qed.
Print Assumptions C80_kuka_pose.
(** How far the wrist is from the shoulder depends on the elbow only: the law of cosines, with the code's rounded quarter turn. *)
Theorem C80_kuka_reach : forall q1 q2 q3 q4 q5 q6 q7,
  let r := v_sub (fp (tip_at kuka (-1) [q1; q2; q3; q4; q5; q6; q7])) (mkV 0 0 0.31) in
  v_dot r r = 0.4 * 0.4 + 0.39 * 0.39 + 2 * 0.4 * 0.39 * (sin quarter * sin quarter * cos q4 + cos quarter * cos quarter).
Proof. exact kuka_reach. Qed.
Print Assumptions C80_kuka_reach.
Theorem C80_kuka_masses : forall k, (1 <= k <= 7)%nat -> rb_m (link_inertia kuka k) = 2.
Proof. exact kuka_masses. Qed.
Print Assumptions C80_kuka_masses.
Theorem C80_kuka_wrist : forall q q', length q = 7%nat -> length q' = 7%nat -> firstn 4 q = firstn 4 q' -> fp (tip_at kuka (-1) q) = fp (tip_at kuka (-1) q').
Proof. exact kuka_spherical. Qed.
Print Assumptions C80_kuka_wrist.
(** "the inertias of the robot are those of bodies" is false of the Kuka: each of five links has a motion with negative kinetic energy *)
Theorem C80_kuka_inertia_refuted : forall k, (2 <= k <= 6)%nat -> exists t, tw_dot t (rb_app (link_inertia kuka k) t) < 0.
Proof. exact kuka_negative. Qed.
Print Assumptions C80_kuka_inertia_refuted.
