(** Drift of rotations and frames: final forms, doubles, concrete programs. *)
From Coq Require Import Reals String List ZArith Bool Arith Lia Lra Psatz.
From Flocq Require Import Core.
From Verif Require Import FramesModel FramesSpec FramesProofs RotationProofs FrameOpsProofs PathProofs PathProofs6 RotNear LipProofs SvdRound FlModel FlSpec FlProofs FlJoint FlWitness
  FlRotModel FlRotSpec FlRotProofs FlFrameProofs.
Local Open Scope R_scope.

Lemma rot_drift eps rnd fsin fcos p' p : 0 <= eps <= / 2500 -> rounds eps rnd -> computes eps fsin sin -> computes eps fcos cos -> prog_stored eps p' p ->
  is_rotation (run p) /\ r_near ((1 + 110 * eps) ^ calls p - 1) (fl_run rnd fsin fcos p') (run p).
Proof. intros He Hr Hs Hc H. destruct (drift eps rnd fsin fcos He Hr Hs Hc _ _ H) as [I O]. split; [exact I|apply near_opb; exact O]. Qed.
Lemma rot_linear eps n : 0 <= eps -> 220 * INR n * eps <= 1 -> (1 + 110 * eps) ^ n - 1 <= 220 * INR n * eps.
Proof. intros He H. pose proof (pow_lin (110 * eps) n ltac:(lra) ltac:(lra)). lra. Qed.
Lemma rot_orthonormal eps rnd fsin fcos p' p : 0 <= eps <= / 2500 -> rounds eps rnd -> computes eps fsin sin -> computes eps fcos cos -> prog_stored eps p' p ->
  let M := fl_run rnd fsin fcos p' in r_near ((1 + 110 * eps) ^ (2 * calls p) - 1) (r_mul (r_inv M) M) r_id.
Proof.
  intros He Hr Hs Hc H M. destruct (drift eps rnd fsin fcos He Hr Hs Hc _ _ H) as [I O]. fold M in O. set (a := (1 + 110 * eps) ^ calls p) in *. apply near_opb.
  pose proof (opb_from _ _ _ I O) as B. replace (1 + (a - 1)) with a in B by ring. set (N := run p) in *.
  assert (E : r_minus (r_mul (r_inv M) M) r_id = r_plus (r_mul (r_inv (r_minus M N)) M) (r_mul (r_inv N) (r_minus M N))).
  { assert (IN : r_mul (r_inv N) N = r_id) by (apply r_inv_l; exact I). rewrite <- IN. clearbody M N. clear. destruct M, N; unfold r_minus, r_mul, r_plus, r_inv; cbn; f_equal; ring. }
  rewrite E. eapply opb_weaken; [apply opb_plus; [apply opb_mul; [apply opb_inv; exact O|exact B]|apply opb_mul; [apply opb_rot, r_inv_rotation; exact I|exact O]]|].
  replace (2 * calls p)%nat with (calls p + calls p)%nat by lia. rewrite pow_add. fold a. lra.
Qed.
Lemma rot_double fsin fcos p' p : computes ulp1 fsin sin -> computes ulp1 fcos cos -> prog_stored ulp1 p' p -> INR (calls p) <= 1000000 ->
  let M := fl_run double fsin fcos p' in is_rotation (run p) /\ r_near (1 / 10 ^ 7) M (run p) /\ r_near (2 / 10 ^ 7) (r_mul (r_inv M) M) r_id.
Proof.
  intros Hs Hc H Hn M. assert (U : 0 <= ulp1 <= / 2500) by (rewrite ulp1_eq; lra). pose proof (pos_INR (calls p)) as N0.
  destruct (rot_drift ulp1 double fsin fcos p' p U double_rounds_fl Hs Hc H) as [I N]. split; [exact I|].
  assert (P2 : INR (2 * calls p) = 2 * INR (calls p)) by (rewrite mult_INR; reflexivity).
  split.
  - eapply rnear_weaken; [exact N|]. eapply Rle_trans; [apply rot_linear; [lra|]|]; rewrite ulp1_eq; lra.
  - eapply rnear_weaken; [apply (rot_orthonormal ulp1 double fsin fcos p' p U double_rounds_fl Hs Hc H)|].
    eapply Rle_trans; [apply rot_linear; [lra|]|]; rewrite P2, ulp1_eq; lra.
Qed.

Lemma frame_error eps D rnd fsin fcos p' p : 0 <= eps <= / 2500 -> 1 <= D -> rounds eps rnd -> computes eps fsin sin -> computes eps fcos cos -> frame_stored eps D p' p ->
  rigid (frun p) /\ r_near ((1 + 110 * eps) ^ fcalls p - 1) (fM (fl_frun rnd fsin fcos p')) (fM (frun p)) /\
  v_near (D * INR (fcalls p) * ((1 + 110 * eps) ^ fweight p - 1)) (fp (fl_frun rnd fsin fcos p')) (fp (frun p)).
Proof.
  intros He HD Hr Hs Hc H. destruct (frame_drift eps D rnd fsin fcos He HD Hr Hs Hc _ _ H) as (I & O & _ & E).
  split; [exact I|]. split; [apply near_opb; exact O|apply near_en; exact E].
Qed.
Lemma point_error eps D rnd fsin fcos p' p v : 0 <= eps <= / 2500 -> 1 <= D -> rounds eps rnd -> computes eps fsin sin -> computes eps fcos cos -> frame_stored eps D p' p ->
  euclid_norm v <= D -> v_near (D * INR (S (fcalls p)) * ((1 + 110 * eps) ^ S (fweight p) - 1)) (fl_f_app rnd (fl_frun rnd fsin fcos p') v) (f_app (frun p) v).
Proof. intros He HD Hr Hs Hc H Hv. apply near_en. apply (point_drift eps D rnd fsin fcos He HD Hr Hs Hc _ _ _ H Hv). Qed.
(** no inverse: as many roundings as calls; in general at most the square *)
Lemma weight_plain p : without_inverse p -> fweight p = fcalls p.
Proof. induction p as [r v|l IHl r IHr|p IH]; cbn; [reflexivity| |contradiction]. intros [H1 H2]. rewrite (IHl H1), (IHr H2). lia. Qed.
Lemma weight_square p : (fweight p <= fcalls p * fcalls p)%nat.
Proof. induction p as [r v|l IHl r IHr|p IH]; cbn [fweight fcalls]; nia. Qed.
Lemma frame_double fsin fcos p' p : computes ulp1 fsin sin -> computes ulp1 fcos cos -> frame_stored ulp1 2 p' p -> INR (fcalls p) * INR (fweight p) <= 1000000 ->
  rigid (frun p) /\ r_near (1 / 10 ^ 7) (fM (fl_frun double fsin fcos p')) (fM (frun p)) /\ v_near (1 / 10 ^ 7) (fp (fl_frun double fsin fcos p')) (fp (frun p)).
Proof.
  intros Hs Hc H Hn. assert (U : 0 <= ulp1 <= / 2500) by (rewrite ulp1_eq; lra).
  destruct (frame_error ulp1 2 double fsin fcos p' p U ltac:(lra) double_rounds_fl Hs Hc H) as (I & M & E). split; [exact I|].
  assert (N1 : 1 <= INR (fcalls p)) by (apply (le_INR 1); apply fcalls_pos). assert (W : (fcalls p <= fweight p)%nat) by (clear; induction p; cbn; lia). apply le_INR in W.
  assert (P1 : INR (fweight p) <= 1000000) by (assert (1 * INR (fweight p) <= INR (fcalls p) * INR (fweight p)) by (apply Rmult_le_compat_r; lra); lra).
  split.
  - eapply rnear_weaken; [exact M|]. eapply Rle_trans; [apply rot_linear; [lra|]|]; rewrite ulp1_eq; lra.
  - eapply vnear_weaken; [exact E|]. assert (L : (1 + 110 * ulp1) ^ fweight p - 1 <= 220 * INR (fweight p) * ulp1) by (apply rot_linear; [lra|]; rewrite ulp1_eq; lra).
    assert (2 * INR (fcalls p) * ((1 + 110 * ulp1) ^ fweight p - 1) <= 2 * INR (fcalls p) * (220 * INR (fweight p) * ulp1)) by (apply Rmult_le_compat_l; lra).
    replace (2 * INR (fcalls p) * (220 * INR (fweight p) * ulp1)) with (440 * (INR (fcalls p) * INR (fweight p)) * ulp1) in H0 by ring. rewrite ulp1_eq in *. lra.
Qed.

Lemma spin_stored a n : prog_stored ulp1 (spin double a n) (spin (fun x => x) a n).
Proof. induction n as [|n IH]; cbn; [|constructor; exact IH]. apply ps_quat; first [apply same_err | apply small_err; apply Rabs_le; lra | field]. Qed.
Lemma spin_calls r a n : calls (spin r a n) = S n. Proof. induction n; cbn; auto. Qed.
Lemma spin_run a n : run (spin (fun x => x) a n) = r_mul (r_Quaternion (3/5) 0 0 (4/5)) (r_RotZ (INR n * a)).
Proof.
  induction n as [|n IH].
  - cbn [spin run INR]. rewrite Rmult_0_l. unfold r_RotZ. rewrite cos_0, sin_0. unfold r_mul, r_Quaternion; cbn [r0 r1 r2 r3 r4 r5 r6 r7 r8]. f_equal; ring.
  - cbn [spin run]. rewrite IH, DoRotZ_mul. rewrite S_INR, Rmult_plus_distr_r, Rmult_1_l. set (b := INR n * a). unfold r_RotZ. rewrite cos_plus, sin_plus.
    unfold r_mul, r_Quaternion; cbn [r0 r1 r2 r3 r4 r5 r6 r7 r8]. f_equal; ring.
Qed.
Lemma spin_example a n : INR n + 1 <= 1000000 ->
  let M := fl_run double (fun x => double (sin x)) (fun x => double (cos x)) (spin double a n) in
  r_near (1 / 10 ^ 7) M (r_mul (r_Quaternion (3/5) 0 0 (4/5)) (r_RotZ (INR n * a))) /\ r_near (2 / 10 ^ 7) (r_mul (r_inv M) M) r_id.
Proof.
  intros H M. rewrite <- spin_run. apply (rot_double _ _ _ _ libm_sin libm_cos (spin_stored a n)). rewrite spin_calls.
  rewrite S_INR. exact H.
Qed.
Lemma back_example a : let F := fl_frun double (fun x => double (sin x)) (fun x => double (cos x)) (back double a) in
  r_near (1 / 10 ^ 7) (fM F) r_id /\ v_near (1 / 10 ^ 7) (fp F) v_zero.
Proof.
  assert (S : frame_stored ulp1 2 (back double a) (back (fun x => x) a)).
  { assert (B : frame_stored ulp1 2 (GMake (PRPY a 1 (1/2)) (mkV (double (1/3)) (double (1/10)) 1)) (GMake (PRPY a 1 (1/2)) (mkV (1/3) (1/10) 1))).
    { apply fs_make; [constructor| |].
      - repeat split; cbn [vx vy vz]; first [apply same_err | apply small_err; apply Rabs_le; lra].
      - apply en_le; cbn [vx vy vz]; lra. }
    apply fs_mul; [exact B|apply fs_inv; exact B]. }
  intros F. destruct (frame_double _ _ _ _ libm_sin libm_cos S) as (I & M & P); [cbn; lra|]. fold F in M, P.
  assert (E : frun (back (fun x => x) a) = f_id) by (apply f_inv_r; apply is_rotation_RPY).
  rewrite E in M, P. split; [exact M|exact P].
Qed.
