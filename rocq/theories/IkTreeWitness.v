(** Concrete runs of the tree position solvers, and the library's own forward
    solver as inner solver. *)
From Coq Require Import Reals String List ZArith Bool Arith Lia Lra.
From Verif Require Import FramesModel FramesSpec FramesProofs Outcome LoopProofs InertiaModel DualModel KinModel KinSpec JntModel
  LinModel LinSpec SumProofs TreeModel TreeSpec TreeFinal IkModel IkSpec IkProofs IkProofs2 IkWitness IkTreeProofs IkTreeProofs2.
Import ListNotations.
Local Open Scope list_scope.
Local Open Scope R_scope.

(** TreeFkSolverPos_recursive, whose return code the solvers ignore. *)
Definition kdl_tfk (st : Tree) : unit -> list R -> string -> Frame -> outcome (Frame * unit) :=
  fun w q k f => let! (_, f') := treefk_JntToCart st q f k in Ret (f', w).
Lemma kdl_tfk_correct t st : reachable t -> treefk_make t = Ret st -> (0 < tr_nj t)%nat ->
  exists pose, tfk_correct (fun k => tfind t k <> None) (tr_nj t) pose (kdl_tfk st) /\
    forall q k, length q = tr_nj t -> tfind t k <> None -> tree_at st q k (pose q k).
Proof.
  intros RT MK NJ.
  exists (fun q k => match treefk_JntToCart st q f_id k with Ret (_, F) => F | Undef => f_id end). split.
  - intros w q k f f' w' P L H. unfold kdl_tfk in H.
    destruct (proj2 (proj2 (f_fk t st q f k RT MK)) L NJ P) as (F & E & A & _).
    destruct (proj2 (proj2 (f_fk t st q f_id k RT MK)) L NJ P) as (F2 & E2 & A2 & _).
    rewrite E in H. cbn [obind] in H. injection H as <- _. rewrite E2.
    unfold treefk_JntToCart in E, E2. destruct (negb _); [discriminate|]. destruct (tfind st k); [|discriminate].
    destruct (treefk_rec _ _ _ _); cbn [obind] in *; congruence.
  - intros q k L P. destruct (proj2 (proj2 (f_fk t st q f_id k RT MK)) L NJ P) as (F2 & E2 & A2 & _).
    rewrite E2. exact A2.
Qed.

(** One slide that carries every endpoint, and a velocity solver that adds up
    the requested velocities along it. *)
Definition sled (q : list R) (k : string) : Frame := at_x (nth 0 q 0).
Definition sled_fk : unit -> list R -> string -> Frame -> outcome (Frame * unit) := fun w q k f => Ret (sled q k, w).
Definition sled_ik : unit -> list R -> dict Twist -> list R -> outcome (R * list R * unit) :=
  fun w q ts d => let v := fold_right Rplus 0 (map (fun e => vx (tvel (snd e))) ts) in Ret (Rabs v, [v], w).
Lemma sled_ok P : tfk_correct P 1 sled sled_fk.
Proof. intros w q k f f' w' _ _ H. injection H as <- _. reflexivity. Qed.
Lemma sled_total : tinner_total sled_fk sled_ik 1.
Proof. split; [intros; unfold sled_fk; eauto|]. intros. unfold sled_ik. do 3 eexists. split; reflexivity. Qed.

Lemma clamp_both1 a b x : a <= x <= b -> clamp_both [a] [b] [x] = Ret [x].
Proof.
  intros H. unfold clamp_both. cbn. destruct (Rlt_dec x a); [lra|]. cbn. destruct (Rgt_dec x b); [lra|]. reflexivity.
Qed.
Lemma enforce1 x d : Rabs x <= d -> enforceJointVelLimits [x] [d] = Ret [x].
Proof.
  intros H. unfold enforceJointVelLimits, overshoot. cbn.
  assert (- d <= x <= d) by (revert H; unfold Rabs; destruct Rcase_abs; lra).
  destruct (Rgt_dec x d); [lra|]. destruct (Rlt_dec x (- d)); [lra|]. reflexivity.
Qed.
Lemma cart_small x : 0 <= x <= 100 -> enforceCartVelLimits 100 100 (mkT (mkV x 0 0) (mkV 0 0 0)) = mkT (mkV x 0 0) (mkV 0 0 0).
Proof.
  intros H. unfold enforceCartVelLimits. cbn [tvel trot vx vy vz].
  replace (x ^ 2 + 0 ^ 2 + 0 ^ 2) with (x * x) by ring. replace (0 ^ 2 + 0 ^ 2 + 0 ^ 2) with (0 * 0) by ring.
  rewrite !sqrt_square by lra. destruct (Rgt_dec x 100); [lra|]. destruct (Rgt_dec 0 100); [lra|]. reflexivity.
Qed.

Definition online0 : online := online_make 1 ["a"%string; "b"%string] [-10] [10] [5] 100 100.
Lemma online_step s w tw f0 x y k : on_trans s = 100 -> on_rot s = 100 -> on_min s = [-10] -> on_max s = [10] -> on_dmax s = [5] ->
  on_twists s = tw -> dict_find (on_frames s) k = Some f0 -> dict_find tw k <> None ->
  let tw' := dict_put tw k (f_diff (at_x x) (at_x y) 1) in
  let v := fold_right Rplus 0 (map (fun e => vx (tvel (snd e))) tw') in
  0 <= y - x <= 100 -> Rabs v <= 5 -> -10 <= x + v <= 10 ->
  online_CartToJnt sled_fk sled_ik s w [x] [(k, at_x y)] =
    Ret (Rabs v, [x + v], mkON (dict_put (on_frames s) k (at_x x)) tw' [v] [-10] [10] [5] 100 100, w).
Proof.
  intros E1 E2 E3 E4 E5 E6 F T tw' v HY HV HX. unfold online_CartToJnt.
  unfold endpoints_known. cbn [forallb fst]. rewrite F. cbn [andb negb endpoint_errors]. rewrite F, E6.
  destruct (dict_find tw k) as [t0|] eqn:T'; [|contradiction]. unfold sled_fk at 1. cbn [obind].
  change (sled [x] k) with (at_x x).
  assert (CS : enforceCartVelLimits 100 100 (f_diff (at_x x) (at_x y) 1) = f_diff (at_x x) (at_x y) 1)
    by (rewrite slide_diff; apply cart_small; lra).
  rewrite E1, E2, CS. fold tw'.
  unfold sled_ik at 1. cbn [obind]. fold v. cbn [fst snd]. rewrite E3, E4, E5. cbn [length Nat.eqb negb orb].
  destruct (Rlt_dec (Rabs v) 0) as [N|N]; [pose proof (Rabs_pos v); lra|].
  rewrite enforce1 by exact HV. cbn [obind]. unfold jnt_plus. cbn [length Nat.eqb combine map fst snd obind].
  rewrite clamp_both1 by exact HX. cbn [obind]. reflexivity.
Qed.

(** The first call aims "a" at 1 and gets there; the second asks only for "b" at
    1, where it is, and the error of the first call drives the joint on. *)
Lemma online_stale : exists s1 s2 r,
  online_CartToJnt sled_fk sled_ik online0 tt [0] [("a"%string, at_x 1)] = Ret (1, [1], s1, tt) /\
  sled [1] "b" = at_x 1 /\
  online_CartToJnt sled_fk sled_ik s1 tt [1] [("b"%string, at_x 1)] = Ret (r, [2], s2, tt).
Proof.
  do 3 eexists. split; [|split; [reflexivity|]].
  - rewrite (online_step online0 tt (on_twists online0) f_id 0 1 "a"%string) by
      (try reflexivity; try discriminate; try lra; cbn; rewrite ?slide_diff; cbn [tvel vx snd]; try (rewrite Rabs_right by lra); lra).
    cbn [dict_put on_twists online0 online_make dict_of fold_left dict_insert String.eqb String.ltb].
    cbn. rewrite slide_diff. cbn [tvel vx]. replace ((1 - 0) / 1 + (0 + 0)) with 1 by field. rewrite Rplus_0_l, Rabs_R1. reflexivity.
  - erewrite (online_step _ tt _ f_id 1 1 "b"%string); try reflexivity; try (cbn; discriminate); try lra;
      cbn; rewrite ?slide_diff; cbn [tvel vx snd].
    + match goal with |- context [[?a]] => replace a with 2 by field end. reflexivity.
    + rewrite Rabs_right by lra. lra.
    + lra.
Qed.

(** The same with TreeIkSolverPos_NR_JL: a target that is already reached is
    left, and never reported as reached. *)
Definition tn0 : tnrjl := tnrjl_make 1 ["a"%string; "b"%string] [-10] [10] 1 (1 / 100).
Lemma tn_step s w tw f0 x y k : tn_maxiter s = 1%nat -> tn_eps s = 1 / 100 -> tn_min s = [-10] -> tn_max s = [10] ->
  tn_twists s = tw -> dict_find (tn_frames s) k = Some f0 -> dict_find tw k <> None ->
  let tw' := dict_put tw k (f_diff (at_x x) (at_x y) 1) in
  let v := fold_right Rplus 0 (map (fun e => vx (tvel (snd e))) tw') in
  1 / 100 <= Rabs v -> -10 <= x + v <= 10 ->
  tnrjl_CartToJnt sled_fk sled_ik s w [x] [(k, at_x y)] =
    Ret (-3, [x + v], mkTN (dict_put (tn_frames s) k (at_x x)) tw' [-10] [10] [v] 1 (1 / 100), w).
Proof.
  intros E1 E2 E3 E4 E6 F T tw' v HV HX. unfold tnrjl_CartToJnt.
  unfold endpoints_known. cbn [forallb fst]. rewrite F. rewrite E1. cbn [andb negb tnrjl_loop endpoint_errors]. rewrite F, E6.
  destruct (dict_find tw k) as [t0|] eqn:T'; [|contradiction]. unfold sled_fk at 1. cbn [obind].
  change (sled [x] k) with (at_x x). fold tw'.
  unfold sled_ik at 1. cbn [obind]. fold v. rewrite E2, E3, E4.
  destruct (Rlt_dec (Rabs v) (1 / 100)) as [N|N]; [lra|].
  unfold jnt_plus. cbn [length Nat.eqb combine map fst snd obind].
  rewrite clamp_both1 by exact HX. cbn [obind]. reflexivity.
Qed.
Lemma tnrjl_stale : exists s1 s2,
  tnrjl_CartToJnt sled_fk sled_ik tn0 tt [0] [("a"%string, at_x 1)] = Ret (-3, [1], s1, tt) /\
  sled [1] "b" = at_x 1 /\
  tnrjl_CartToJnt sled_fk sled_ik s1 tt [1] [("b"%string, at_x 1)] = Ret (-3, [2], s2, tt).
Proof.
  do 2 eexists. split; [|split; [reflexivity|]].
  - rewrite (tn_step tn0 tt (tn_twists tn0) f_id 0 1 "a"%string) by
      (try reflexivity; try discriminate; try lra; cbn; rewrite ?slide_diff; cbn [tvel vx snd]; try (rewrite Rabs_right by lra); lra).
    cbn. rewrite slide_diff. cbn [tvel vx]. replace ((1 - 0) / 1 + (0 + 0)) with 1 by field. rewrite Rplus_0_l. reflexivity.
  - erewrite (tn_step _ tt _ f_id 1 1 "b"%string); try reflexivity; try (cbn; discriminate); try lra;
      cbn; rewrite ?slide_diff; cbn [tvel vx snd].
    + match goal with |- context [[?a]] => replace a with 2 by field end. reflexivity.
    + rewrite Rabs_right by lra. lra.
    + lra.
Qed.

(** A twist whose rotation is too fast is multiplied by ten. *)
Lemma cart_speeds_up : let t := mkT (mkV 1 0 0) (mkV (9 / 10) 0 0) in
  euclid_norm (trot t) = 9 / 10 /\ euclid_norm (trot (enforceCartVelLimits 10 (5 / 10) t)) = 9.
Proof.
  cbn zeta. assert (E : forall x, 0 <= x -> sqrt (x ^ 2 + 0 ^ 2 + 0 ^ 2) = x).
  { intros x H. replace (x ^ 2 + 0 ^ 2 + 0 ^ 2) with (x * x) by ring. apply sqrt_square. exact H. }
  unfold euclid_norm, enforceCartVelLimits. cbn [tvel trot vx vy vz]. rewrite !E by lra.
  split; [reflexivity|].
  destruct (Rgt_dec 1 10); [lra|]. destruct (Rgt_dec (9 / 10) (5 / 10)); [|lra]. destruct (Rgt_dec 1 (9 / 10)); [|lra].
  cbn [trot v_scale vx vy vz]. replace (9 / 10 * (10 / 1)) with 9 by field.
  replace (0 * (10 / 1)) with 0 by ring. apply E. lra.
Qed.
(** Equal speeds are not limited at all. *)
Lemma cart_unlimited : forall v tmax rmax, 0 <= v ->
  enforceCartVelLimits tmax rmax (mkT (mkV v 0 0) (mkV v 0 0)) = mkT (mkV v 0 0) (mkV v 0 0).
Proof.
  intros v tm rm H. assert (E : forall x, 0 <= x -> sqrt (x ^ 2 + 0 ^ 2 + 0 ^ 2) = x).
  { intros x Hx. replace (x ^ 2 + 0 ^ 2 + 0 ^ 2) with (x * x) by ring. apply sqrt_square. exact Hx. }
  unfold enforceCartVelLimits. cbn [tvel trot vx vy vz]. rewrite !E by exact H.
  destruct (Rgt_dec v tm), (Rgt_dec v rm), (Rgt_dec v v); try lra; reflexivity.
Qed.
