(** The gantry with a wrist meets the hypotheses of the convergence theorem of ChainIkSolverPos_LMA. *)
From Coq Require Import Reals String List ZArith Bool Arith Lia Lra Psatz.
From Verif Require Import FramesModel FramesSpec FramesProofs FrameOpsProofs Outcome InertiaModel DualModel KinModel KinSpec DerivProofs KinProofs JacProofs JntModel
  LinModel LinSpec LmaModel LmaSpec LmaProofs LmaProofs2 SumProofs IkModel IkSpec VelIkModel VelIkSpec VelIkLin VelIkWitness GivensSpec NewtonSpec NewtonProofs NewtonLoop NewtonPinv NewtonThms NewtonWitness
  LmaConv3 LmaConv4.
Import ListNotations.
Local Open Scope list_scope.
Local Open Scope R_scope.

(** A decomposition of entry functions as one of columns. *)
Definition svd_columns (n : nat) (d : Decomp) : Svd :=
  mkSvd (map (fun i => mkT (mkV (dc_U d 0 i) (dc_U d 1 i) (dc_U d 2 i)) (mkV (dc_U d 3 i) (dc_U d 4 i) (dc_U d 5 i))) (seq 0 n))
        (map (dc_S d) (seq 0 n)) (map (fun i => map (fun j => dc_V d j i) (seq 0 n)) (seq 0 n)).
Lemma nth_map_seq' {A} (f : nat -> A) n j x : (j < n)%nat -> nth j (map f (seq 0 n)) x = f j.
Proof.
  intros H. rewrite (nth_indep _ x (f 0%nat)) by (rewrite map_length, seq_length; exact H). rewrite map_nth. rewrite seq_nth by exact H. reflexivity.
Qed.
Lemma svd_columns_ok n J d : svd_of 6 n (fun r j => t_at (nth j J t_zero) r) d -> (forall i, (i < n)%nat -> 0 < dc_S d i) -> is_svd n J (svd_columns n d).
Proof.
  intros (HA & HV & HU) HS. unfold is_svd, svd_columns. cbn [svd_U svd_S svd_V]. rewrite !map_length, seq_length.
  split; [reflexivity|]. split; [reflexivity|]. split.
  { intros i Hi. rewrite nth_map_seq' by exact Hi. rewrite map_length, seq_length. reflexivity. }
  split.
  { intros m e Hm.
    rewrite (sumn_ext n _ (fun i => (dc_U d 0 i * dc_S d i * dc_V d m i) * t_at e 0 + (dc_U d 1 i * dc_S d i * dc_V d m i) * t_at e 1 + (dc_U d 2 i * dc_S d i * dc_V d m i) * t_at e 2 +
      (dc_U d 3 i * dc_S d i * dc_V d m i) * t_at e 3 + (dc_U d 4 i * dc_S d i * dc_V d m i) * t_at e 4 + (dc_U d 5 i * dc_S d i * dc_V d m i) * t_at e 5)).
    - rewrite !sumn_add, !sumn_scale_r. rewrite <- !HA by lia. cbn [t_at]. reflexivity.
    - intros i Hi. rewrite !nth_map_seq' by assumption. unfold t_dot6. cbn [tvel trot vx vy vz t_at]. ring. }
  split.
  { intros i j Hi Hj. rewrite !nth_map_seq' by assumption. split.
    - rewrite <- (HU i j Hi Hj) by (apply Rgt_not_eq, HS; assumption). unfold t_dot6. cbn [tvel trot vx vy vz sumn]. ring.
    - rewrite <- (HV i j Hi Hj). apply sumn_ext. intros m Hm. rewrite !nth_map_seq' by assumption. reflexivity. }
  intros i Hi. rewrite nth_map_seq' by exact Hi. left. apply HS, Hi.
Qed.

Definition unit_weights : Twist := mkT (mkV 1 1 1) (mkV 1 1 1).
Lemma weigh_unit t : weigh unit_weights t = t.
Proof. destruct t as [[a b c] [d e f]]. unfold weigh, unit_weights; cbn [tvel trot vx vy vz]. f_equal; f_equal; ring. Qed.
Definition wrist_columns (J : list Twist) : Svd := svd_columns 6 (wrist_svd 0 (mkM 6 6 (fun r j => t_at (nth j J t_zero) r))).
Lemma entry_def c q r j : t_at (nth j (jacobian_at c (-1) q) t_zero) r = tip_jacobian c q r j.
Proof. reflexivity. Qed.
Lemma wrist_positive v b : t_at (nth 5 v t_zero) 3 = sin b -> -1 < sin b < 1 ->
  forall i, (i < 6)%nat -> 0 < dc_S (wrist_svd 0 (mkM 6 6 (fun r j => t_at (nth j v t_zero) r))) i.
Proof.
  intros G Sb i Hi. unfold wrist_svd. cbn [dc_S mentry]. rewrite G.
  do 3 (destruct i as [|i]; [lra|]). destruct i as [|i]; [apply sqrt_lt_R0; lra|]. destruct i as [|i]; [lra|]. destruct i as [|i]; [apply sqrt_lt_R0; lra|]. lra.
Qed.
Lemma wrist_columns_near q : joints_within 1 q home ->
  is_svd 6 (weighted_jacobian unit_weights (gantry 1) q) (wrist_columns (weighted_jacobian unit_weights (gantry 1) q)).
Proof.
  intros H. assert (E : weighted_jacobian unit_weights (gantry 1) q = jacobian_at (gantry 1) (-1) q).
  { unfold weighted_jacobian. rewrite (map_ext _ (fun t => t) weigh_unit). apply map_id. }
  rewrite E. unfold wrist_columns. apply svd_columns_ok.
  - pose proof (wrist_svd_near 0 q H) as W. cbv zeta in W. destruct W as (_ & W). unfold tip_jacobian in W. exact W.
  - destruct (within_home q H) as (x & y & z & a & b & g & -> & Hb).
    assert (Sb : -1 < sin b < 1).
    { pose proof PI2_1. rewrite <- sin_PI2. replace (-1) with (- sin (PI / 2)) by (rewrite sin_PI2; lra). rewrite <- sin_neg. split; apply sin_increasing_1; lra. }
    apply (wrist_positive _ b); [|exact Sb]. rewrite entry_def, gantry_at by lia. reflexivity.
Qed.

Lemma lma_gantry : exists delta C, 0 < delta /\ 0 < C /\ forall eps, C * kdl_epsilon <= eps ->
  exists epsj maxiter, 0 < epsj /\ forall q g, joints_within delta q home -> rigid g -> f_close (tip (gantry 1) home) g delta ->
    exists q' s', lma_CartToJnt wrist_columns (gantry 1) (lma_make (gantry 1) unit_weights eps maxiter epsj) q g home = Ret (E_NOERROR, q', s') /\
      weighted_error unit_weights (gantry 1) g q' < eps.
Proof.
  destruct (lma_converges wrist_columns (gantry 1) home 1 1 unit_weights) as (delta & C & kappa & theta & Hd & HC & Hk & Ht & H).
  - apply gantry_ok.
  - reflexivity.
  - lra.
  - lra.
  - apply gantry_regular.
  - intros i Hi. do 6 (destruct i as [|i]; [cbn; lra|]). lia.
  - intros q Hq. apply wrist_columns_near. exact Hq.
  - exists delta, C. split; [exact Hd|]. split; [exact HC|]. intros eps He.
    assert (EP : 0 < eps). { assert (0 < C * kdl_epsilon) by (apply Rmult_lt_0_compat; [exact HC|unfold kdl_epsilon; lra]). lra. }
    destruct (pow_lt_1_zero theta ltac:(rewrite Rabs_pos_eq; lra) eps EP) as (m & Hm). specialize (Hm m (le_n m)).
    exists (kappa * eps), m. split; [apply Rmult_lt_0_compat; assumption|]. intros q g Wq Hg Fc.
    destruct (H (lma_make (gantry 1) unit_weights eps m (kappa * eps)) m q g home) as (q' & s' & R1 & _ & R2 & _); auto.
    + apply lma_make_sized.
    + cbn [lma_make la_epsj la_eps]. split; [apply Rmult_lt_0_compat; assumption|lra].
    + cbn [lma_make la_eps]. pose proof (Rle_abs (theta ^ m)). lra.
    + exists q', s'. split; assumption.
Qed.
