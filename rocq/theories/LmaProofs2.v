(** Proofs about ChainIkSolverPos_LMA: the iteration. *)
From Coq Require Import Reals List ZArith Bool Arith Lia Lra.
From Verif Require Import FramesModel FramesSpec FramesProofs RotationProofs FrameOpsProofs Outcome LoopProofs
  InertiaModel DualModel KinModel KinSpec KinProofs JacProofs LinModel LinSpec SumProofs JacDotProofs IkSpec LmaModel LmaSpec LmaProofs.
Import ListNotations.
Local Open Scope R_scope.

Lemma weigh_norm L c goal q : norm6 (weigh L (pose_error c goal q)) = weighted_error L c goal q.
Proof. unfold norm6, weighted_error. f_equal. unfold t_dot6, weigh; cbn [tvel trot vx vy vz]. ring. Qed.
Lemma weighted_error_pos L c goal q : 0 <= weighted_error L c goal q.
Proof. apply sqrt_pos. Qed.
Lemma jacobian_at_length c q : chain_ok c -> length q = ch_nj c -> length (jacobian_at c (-1) q) = ch_nj c.
Proof.
  intros Hok Hq. pose proof Hok as [[Hs Hj] _]. unfold jacobian_at.
  rewrite (jac_result c (jacsolver_make c) q (jac_make (ch_nj c)) (-1) (length (ch_segs c)) Hok) by (left; split; [lia|reflexivity]).
  unfold jacsolver_make, jac_make. rewrite !repeat_length, Hq, Nat.eqb_refl. cbn [negb andb].
  rewrite Nat.leb_refl. unfold jac_closed. rewrite firstn_all.
  assert (JL : length (jacl (ch_segs c) q) = ch_nj c) by (rewrite jacl_length; lia).
  rewrite app_length, repeat_length, unlocked_all by lia. lia.
Qed.
Lemma grad_sum J e : vdot (map (fun col => t_dot6 col e) J) (map (fun col => t_dot6 col e) J) =
  sumn (length J) (fun m => t_dot6 (nth m J t_zero) e * t_dot6 (nth m J t_zero) e).
Proof.
  rewrite vdot_sum by reflexivity. rewrite map_length. apply sumn_ext. intros m Hm.
  assert (M2 : nth m (map (fun col => t_dot6 col e) J) 0 = t_dot6 (nth m J t_zero) e).
  { rewrite (nth_indep _ 0 (t_dot6 t_zero e)) by (rewrite map_length; lia). apply (map_nth (fun col => t_dot6 col e)). }
  rewrite M2. reflexivity.
Qed.

Section Loop.
Variable svd : list Twist -> Svd.
Variables (c : Chain) (s : lma) (goal : Frame).
Hypothesis OK : chain_ok c.
Hypothesis NJ : la_nj s = ch_nj c.
Hypothesis SVD : svd_correct (ch_nj c) svd.
Hypothesis EJ : 0 < la_epsj s.

Let E q := weighted_error (la_L s) c goal q.
Let WE q := weigh (la_L s) (pose_error c goal q).
Let WJ q := weighted_jacobian (la_L s) c q.

(** What a finished iteration guarantees about the joints [q0] it started from. *)
Definition lma_post (q0 : list R) (i0 n : nat) (r : lma_end) : Prop :=
  length (le_q r) = ch_nj c /\ length (le_jac r) = ch_nj c /\ length (le_roots r) = ch_nj c /\ length (le_tips r) = ch_nj c /\
  E (le_q r) <= E q0 /\ le_diff r = E (le_q r) /\ (i0 <= le_iter r <= i0 + n)%nat /\
  (le_code r = E_NOERROR <-> E (le_q r) < la_eps s) /\
  (le_code r = E_NOERROR -> E (le_q r) < E q0) /\
  (le_code r <> E_MAX_ITERATIONS_EXCEEDED ->
     le_trans r = norm3 (tvel (pose_error c goal (le_q r))) /\ le_rot r = norm3 (trot (pose_error c goal (le_q r)))) /\
  (le_code r = E_MAX_ITERATIONS_EXCEEDED -> le_iter r = la_maxiter s /\
     le_trans r = norm3 (tvel (WE (le_q r))) /\ le_rot r = norm3 (trot (WE (le_q r)))) /\
  (le_code r = E_INCREMENT_JOINTS_TOO_SMALL -> exists lambda d, 0 < lambda /\
     damped_minimum (ch_nj c) (WJ (le_q r)) (WE (le_q r)) lambda d /\ max_norm d < la_epsj s) /\
  (le_code r = E_GRADIENT_JOINTS_TOO_SMALL ->
     sumn (ch_nj c) (fun m => t_dot6 (nth m (WJ (le_q r)) t_zero) (WE (le_q r)) ^ 2) < la_epsj s ^ 2) /\
  In (le_code r) [E_NOERROR; E_MAX_ITERATIONS_EXCEEDED; E_INCREMENT_JOINTS_TOO_SMALL; E_GRADIENT_JOINTS_TOO_SMALL].

Lemma lma_loop_ok : forall n i q lambda v roots tips, (i + n = la_maxiter s)%nat -> length q = ch_nj c -> 0 < lambda -> 0 < v -> la_eps s <= E q ->
  length roots = ch_nj c -> length tips = ch_nj c ->
  exists r, lma_loop svd n i c s goal q (WE q) (E q) lambda v (WJ q) roots tips = Ret r /\ lma_post q i n r.
Proof.
  assert (LWJ : forall q, length q = ch_nj c -> length (WJ q) = ch_nj c).
  { intros q Hq. unfold WJ, weighted_jacobian. rewrite map_length. apply jacobian_at_length; assumption. }
  induction n as [|n IH]; intros i q lambda v roots tips HI Hq HL HV HE HR HT; cbn [lma_loop].
  - eexists. split; [reflexivity|]. unfold lma_post. cbn [le_code le_q le_iter le_diff le_trans le_rot le_jac le_roots le_tips].
    split; [exact Hq|]. split; [apply LWJ, Hq|]. split; [exact HR|]. split; [exact HT|]. split; [apply Rle_refl|]. split; [reflexivity|].
    split; [lia|]. split; [split; [discriminate|intros; lra]|]. split; [discriminate|]. split; [intros X; contradiction X; reflexivity|].
    split; [intros _; repeat split; reflexivity|]. split; [discriminate|]. split; [discriminate|]. cbn; tauto.
  - destruct (step_normal svd (ch_nj c) (WJ q) (WE q) lambda (LWJ q Hq) (SVD _ (LWJ q Hq)) HL) as (d & ES & LD & ND).
    pose proof (normal_minimum (ch_nj c) (WJ q) (WE q) lambda (LWJ q Hq) HL d LD ND) as MIN.
    rewrite NJ, ES. cbn [obind].
    destruct (lma_fwd c q roots tips (proj1 OK) Hq HR HT) as (r1 & t1 & F1 & LR1 & LT1 & _).
    assert (ND1 : (E_INCREMENT_JOINTS_TOO_SMALL <> E_NOERROR)%Z) by discriminate.
    destruct (Rlt_dec (max_norm d) (la_epsj s)) as [SM|SM].
    + rewrite F1. cbn [obind]. eexists. split; [reflexivity|]. unfold lma_post. cbn [le_code le_q le_iter le_diff le_trans le_rot le_jac le_roots le_tips].
      split; [exact Hq|]. split; [apply LWJ, Hq|]. split; [exact LR1|]. split; [exact LT1|]. split; [apply Rle_refl|]. split; [reflexivity|].
      split; [lia|]. split; [split; [discriminate|intros; lra]|]. split; [discriminate|]. split; [intros _; split; reflexivity|].
      split; [discriminate|]. split; [intros _; exists lambda, d; auto|]. split; [discriminate|]. cbn; tauto.
    + destruct (Rlt_dec (vdot _ _) _) as [SG|SG].
      * rewrite F1. cbn [obind]. eexists. split; [reflexivity|]. unfold lma_post. cbn [le_code le_q le_iter le_diff le_trans le_rot le_jac le_roots le_tips].
        split; [exact Hq|]. split; [apply LWJ, Hq|]. split; [exact LR1|]. split; [exact LT1|]. split; [apply Rle_refl|]. split; [reflexivity|].
        split; [lia|]. split; [split; [discriminate|intros; lra]|]. split; [discriminate|]. split; [intros _; split; reflexivity|].
        split; [discriminate|]. split; [discriminate|]. split; [|cbn; tauto]. intros _.
        rewrite grad_sum, (LWJ q Hq) in SG. replace (la_epsj s ^ 2) with (la_epsj s * la_epsj s) by ring.
        erewrite sumn_ext; [exact SG|]. intros; cbn; ring.
      * clear SG F1. set (q2 := vplus q d).
        assert (Hq2 : length q2 = ch_nj c) by (unfold q2; rewrite vplus_length by congruence; exact Hq).
        destruct (lma_fwd c q2 roots tips (proj1 OK) Hq2 HR HT) as (r2 & t2 & F2 & LR2 & LT2 & FP). rewrite F2. cbn [obind].
        change (f_diff (tip_frame c q2 (length (ch_segs c))) goal 1) with (pose_error c goal q2).
        rewrite weigh_norm. fold (E q2). fold (WE q2).
        rewrite (normal_gain (ch_nj c) (WJ q) (WE q) lambda (LWJ q Hq) d LD ND).
        assert (GP : 0 < t_dot6 (jac_mul (WJ q) d) (jac_mul (WJ q) d) + 2 * lambda * sumn (ch_nj c) (fun m => nth m d 0 * nth m d 0))
          by (apply gain_pos; [exact HL|exact LD|lra]).
        set (g := t_dot6 (jac_mul (WJ q) d) (jac_mul (WJ q) d) + 2 * lambda * sumn (ch_nj c) (fun m => nth m d 0 * nth m d 0)) in *.
        unfold rdiv. destruct (Req_EM_T g 0) as [Z|_]; [lra|]. cbn [obind].
        destruct (Rgt_dec ((E q * E q - E q2 * E q2) / g) 0) as [RH|RH].
        -- assert (DEC : E q2 < E q).
           { pose proof (weighted_error_pos (la_L s) c goal q) as P1. pose proof (weighted_error_pos (la_L s) c goal q2) as P2.
             fold (E q) in P1. fold (E q2) in P2.
             assert (0 < E q * E q - E q2 * E q2).
             { replace (E q * E q - E q2 * E q2) with ((E q * E q - E q2 * E q2) / g * g) by (field; lra). apply Rmult_lt_0_compat; lra. }
             apply Rnot_le_lt. intros A. assert (E q * E q <= E q2 * E q2) by (apply Rmult_le_compat; lra). lra. }
           destruct (Rlt_dec (E q2) (la_eps s)) as [C|C].
           ++ eexists. split; [reflexivity|]. unfold lma_post. cbn [le_code le_q le_iter le_diff le_trans le_rot le_jac le_roots le_tips].
              split; [exact Hq2|]. split; [apply LWJ, Hq|]. split; [exact LR2|]. split; [exact LT2|]. split; [lra|]. split; [reflexivity|].
              split; [lia|]. split; [split; auto|]. split; [auto|]. split; [intros _; split; reflexivity|].
              split; [discriminate|]. split; [discriminate|]. split; [discriminate|]. cbn; tauto.
           ++ rewrite (lma_jac c q2 r2 t2 (WJ q) OK Hq2 (LWJ q Hq) FP). cbn [obind].
              change (map (weigh (la_L s)) (jacobian_at c (-1) q2)) with (WJ q2).
              match goal with |- context [lma_loop svd n (S i) c s goal q2 (WE q2) (E q2) ?l 2] => destruct (IH (S i) q2 l 2 r2 t2) as (r & ER & PR) end.
              ** lia.
              ** exact Hq2.
              ** apply Rmult_lt_0_compat; [exact HL|]. eapply Rlt_le_trans; [|apply Rmax_l]. lra.
              ** lra.
              ** lra.
              ** exact LR2.
              ** exact LT2.
              ** exists r. split; [exact ER|]. unfold lma_post in *. destruct PR as (A1 & A2 & A3 & A4 & A5 & A6 & A7 & A8 & A9 & A10).
                 repeat (split; [first [assumption | lra | lia | (intros X; specialize (A9 X); lra)]|]). exact A10.
        -- destruct (IH (S i) q (lambda * v) (2 * v) r2 t2) as (r & ER & PR); auto; try lia; try lra.
           { apply Rmult_lt_0_compat; assumption. }
           exists r. split; [exact ER|]. unfold lma_post in *. destruct PR as (A1 & A2 & A3 & A4 & A5 & A6 & A7 & A8 & A9 & A10).
           repeat (split; [first [assumption | lia]|]). exact A10.
Qed.
End Loop.

(** Solver states whose buffers have the size of the chain. *)
Lemma lma_make_sized c L eps n epsj : lma_sized c (lma_make c L eps n epsj).
Proof. unfold lma_sized, lma_make; cbn. rewrite !repeat_length. auto. Qed.
Lemma lma_update_sized c s : lma_sized c (lma_update c s).
Proof. unfold lma_sized, lma_update; cbn. rewrite !vec_resize_length. auto. Qed.

Lemma lma_call svd c s q_init goal q_out : chain_ok c -> svd_correct (ch_nj c) svd -> 0 < la_epsj s ->
  (la_nj s = ch_nj c -> lma_sized c s) ->
  exists code q s', lma_CartToJnt svd c s q_init goal q_out = Ret (code, q, s') /\
    la_error s' = code /\ la_nj s' = la_nj s /\ la_L s' = la_L s /\ la_maxiter s' = la_maxiter s /\ la_eps s' = la_eps s /\ la_epsj s' = la_epsj s /\
    (la_nj s = ch_nj c -> lma_sized c s') /\
    (code = E_NOT_UP_TO_DATE <-> la_nj s <> ch_nj c) /\
    (code = E_SIZE_MISMATCH <-> la_nj s = ch_nj c /\ ~ (length q_init = la_nj s /\ length q_out = la_nj s)) /\
    (code = E_NOT_UP_TO_DATE \/ code = E_SIZE_MISMATCH -> q = q_out) /\
    (la_nj s = ch_nj c -> length q_init = la_nj s -> length q_out = la_nj s ->
       length q = ch_nj c /\
       weighted_error (la_L s) c goal q <= weighted_error (la_L s) c goal q_init /\
       (code = E_NOERROR <-> weighted_error (la_L s) c goal q < la_eps s) /\
       (weighted_error (la_L s) c goal q_init < la_eps s -> q = q_init) /\
       (~ weighted_error (la_L s) c goal q_init < la_eps s -> code = E_NOERROR ->
          weighted_error (la_L s) c goal q < weighted_error (la_L s) c goal q_init) /\
       (la_iter s' <= la_maxiter s)%nat /\
       (~ weighted_error (la_L s) c goal q_init < la_eps s -> la_diff s' = weighted_error (la_L s) c goal q) /\
       (code <> E_MAX_ITERATIONS_EXCEEDED -> la_trans s' = norm3 (tvel (pose_error c goal q)) /\ la_rot s' = norm3 (trot (pose_error c goal q))) /\
       (code = E_MAX_ITERATIONS_EXCEEDED -> la_iter s' = la_maxiter s) /\
       (code = E_INCREMENT_JOINTS_TOO_SMALL -> exists lambda d, 0 < lambda /\
          damped_minimum (ch_nj c) (weighted_jacobian (la_L s) c q) (weigh (la_L s) (pose_error c goal q)) lambda d /\ max_norm d < la_epsj s) /\
       (code = E_GRADIENT_JOINTS_TOO_SMALL ->
          sumn (ch_nj c) (fun m => t_dot6 (nth m (weighted_jacobian (la_L s) c q) t_zero) (weigh (la_L s) (pose_error c goal q)) ^ 2) < la_epsj s ^ 2) /\
       In code [E_NOERROR; E_MAX_ITERATIONS_EXCEEDED; E_INCREMENT_JOINTS_TOO_SMALL; E_GRADIENT_JOINTS_TOO_SMALL]).
Proof.
  intros OK SV EJ SZ. unfold lma_CartToJnt.
  destruct (Nat.eqb_spec (la_nj s) (ch_nj c)) as [NJ|NJ]; cbn [negb].
  2:{ do 3 eexists. split; [reflexivity|]. cbn [la_error la_nj la_L la_maxiter la_eps la_epsj la_iter la_diff la_trans la_rot].
      repeat (split; [first [reflexivity|intros; contradiction|tauto]|]).
      split; [split; [discriminate|tauto]|]. split; [reflexivity|]. intros; contradiction. }
  specialize (SZ NJ). pose proof SZ as (_ & S1 & S2 & S3).
  destruct (Nat.eqb_spec (la_nj s) (length q_init)) as [L1|L1]; cbn [negb orb].
  2:{ do 3 eexists. split; [reflexivity|]. cbn [la_error la_nj la_L la_maxiter la_eps la_epsj la_iter la_diff la_trans la_rot].
      repeat (split; [first [reflexivity|intros; unfold lma_sized; cbn; auto; fail|split; [discriminate|contradiction]]|]).
      split; [split; [intros _; split; [exact NJ|]; intros [A _]; congruence|reflexivity]|]. split; [reflexivity|]. intros; congruence. }
  destruct (Nat.eqb_spec (la_nj s) (length q_out)) as [L2|L2]; cbn [negb].
  2:{ do 3 eexists. split; [reflexivity|]. cbn [la_error la_nj la_L la_maxiter la_eps la_epsj la_iter la_diff la_trans la_rot].
      repeat (split; [first [reflexivity|intros; unfold lma_sized; cbn; auto; fail|split; [discriminate|contradiction]]|]).
      split; [split; [intros _; split; [exact NJ|]; intros [_ A]; congruence|reflexivity]|]. split; [reflexivity|]. intros; congruence. }
  assert (Hq : length q_init = ch_nj c) by congruence.
  destruct (lma_fwd c q_init (la_roots s) (la_tips s) (proj1 OK) Hq S2 S3) as (r1 & t1 & F1 & LR1 & LT1 & FP).
  rewrite F1. cbn [obind]. change (f_diff (tip_frame c q_init (length (ch_segs c))) goal 1) with (pose_error c goal q_init).
  rewrite weigh_norm.
  destruct (Rlt_dec (weighted_error (la_L s) c goal q_init) (la_eps s)) as [C|C].
  - cbn [obind le_code le_q le_iter le_diff le_trans le_rot le_jac le_roots le_tips].
    do 3 eexists. split; [reflexivity|]. cbn [la_error la_nj la_L la_maxiter la_eps la_epsj la_iter la_diff la_trans la_rot].
    repeat (split; [reflexivity|]). split; [intros; unfold lma_sized; cbn; auto|].
    split; [split; [discriminate|contradiction]|]. split; [split; [discriminate|intros [_ A]; contradiction A; auto]|].
    split; [intros [A|A]; discriminate|]. intros _ _ _. split; [exact Hq|]. split; [apply Rle_refl|]. split; [split; auto|].
    split; [reflexivity|]. split; [contradiction|]. split; [lia|]. split; [contradiction|]. split; [intros _; split; reflexivity|].
    split; [discriminate|]. split; [discriminate|]. split; [discriminate|]. cbn; tauto.
  - rewrite (lma_jac c q_init r1 t1 (la_jac s) OK Hq S1 FP). cbn [obind].
    destruct (lma_loop_ok svd c s goal OK NJ SV EJ (la_maxiter s) 0 q_init 10 2 r1 t1) as (r & ER & PR); auto; try lra.
    unfold weighted_jacobian in ER. rewrite ER. cbn [obind].
    do 3 eexists. split; [reflexivity|]. cbn [la_error la_nj la_L la_maxiter la_eps la_epsj la_iter la_diff la_trans la_rot].
    destruct PR as (A1 & A2 & A3 & A4 & A5 & A6 & A7 & A8 & A9 & A10 & A11 & A12 & A13 & A14).
    repeat (split; [reflexivity|]). split; [intros; unfold lma_sized; cbn; auto|].
    assert (NC : le_code r <> E_NOT_UP_TO_DATE /\ le_code r <> E_SIZE_MISMATCH).
    { destruct A14 as [<-|[<-|[<-|[<-|[]]]]]; split; discriminate. }
    split; [split; [intros A; destruct NC; contradiction|contradiction]|].
    split; [split; [intros A; destruct NC; contradiction|intros [_ A]; contradiction A; auto]|].
    split; [intros [A|A]; destruct NC; contradiction|].
    intros _ _ _. split; [exact A1|]. split; [exact A5|]. split; [exact A8|]. split; [contradiction|].
    split; [intros _; exact A9|]. split; [lia|]. split; [intros _; exact A6|]. split; [exact A10|]. split; [intros X; apply A11, X|].
    split; [exact A12|]. split; [exact A13|exact A14].
Qed.
