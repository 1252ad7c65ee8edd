(** A gantry with a wrist meets the hypotheses of the convergence theorems. *)
From Coq Require Import Reals String List ZArith Bool Arith Lia Lra Psatz.
From Verif Require Import FramesModel FramesSpec FramesProofs FrameOpsProofs Outcome InertiaModel DualModel KinModel KinSpec DerivProofs KinProofs JacProofs JntModel
  LinModel LinSpec LmaSpec SumProofs IkModel IkSpec VelIkModel VelIkSpec VelIkLin VelIkWitness GivensSpec NewtonSpec NewtonProofs NewtonLoop NewtonPinv NewtonThms.
Import ListNotations.
Local Open Scope list_scope.
Local Open Scope R_scope.

Definition wrist_col (a b : R) (j : nat) : Twist :=
  match j with
  | 0%nat => axis6 0 1 | 1%nat => axis6 1 1 | 2%nat => axis6 2 1 | 3%nat => axis6 3 1
  | 4%nat => mkT (mkV 0 0 0) (mkV 0 (cos a) (sin a))
  | _ => mkT (mkV 0 0 0) (mkV (sin b) (- (sin a * cos b)) (cos a * cos b))
  end.
Lemma rot_rot a b : f_mul (f_of_rot a) (f_of_rot b) = f_of_rot (r_mul a b). Proof. geo. Qed.
Lemma RefPoint_origin t r : t_RefPoint t (r_app r v_zero) = t. Proof. destruct t as [[a b c] [d e f]]. geo. Qed.
Lemma gantry_at x y z a b g r j : (r < 6)%nat -> (j < 6)%nat ->
  tip_jacobian (gantry 1) [x; y; z; a; b; g] r j = t_at (wrist_col a b j) r.
Proof.
  intros Hr Hj. unfold tip_jacobian. rewrite jac_is_jacl by (first [apply gantry_ok|reflexivity]).
  f_equal. clear r Hr. unfold gantry. cbn [ch_segs].
  repeat (cbn [jacl assign pose_product List.map]; change (moving (ax TransX 1)) with true; change (moving (ax TransY 1)) with true; change (moving (ax TransZ 1)) with true;
    change (moving (ax RotX 1)) with true; change (moving (ax RotY 1)) with true; change (moving (ax RotZ 1)) with true; cbv iota zeta).
  unfold segment_twist, segment_pose, joint_twist, joint_pose, ax. cbn [sjoint jtype jscale joffset sf_tip].
  replace (1 * a + 0) with a by ring. replace (1 * b + 0) with b by ring. replace (1 * g + 0) with g by ring.
  rewrite !f_mul_id_r, !rot_rot. change (fp f_id) with v_zero. rewrite !RefPoint_origin.
  do 3 (destruct j as [|j]; [cbn [List.nth wrist_col axis6]; unfold t_RefPoint, r_app_t, f_of_vec; cbn [fM fp tvel trot]; rewrite ?r_app_id; unfold v_add, v_cross; cbn [vx vy vz]; f_equal; f_equal; ring|]).
  cbn [fM fp f_of_vec f_of_rot]. rewrite !r_app_t_id.
  do 3 (destruct j as [|j]; [cbn [List.nth wrist_col axis6]; unfold r_app_t, r_app, r_RotX, r_RotY, r_RotZ; cbn [tvel trot vx vy vz r0 r1 r2 r3 r4 r5 r6 r7 r8]; f_equal; f_equal; ring|]). lia.
Qed.

(** A decomposition of the Jacobian, computed from its entries. *)
Definition wrist_svd (k : Z) (A : Mat) : Decomp :=
  let e := mentry A in
  let s := e 3%nat 5%nat in let ca := e 4%nat 4%nat in let sa := e 5%nat 4%nat in
  let cb := ca * e 5%nat 5%nat - sa * e 4%nat 5%nat in
  let h := / sqrt 2 in let sp := sqrt (1 + s) in let sm := sqrt (1 - s) in
  mkD 0
    (fun r i => if (r <? 3)%nat then delta r i else
       match i with
       | 3%nat => match r with 3%nat => (1 + s) * h / sp | 4%nat => - (sa * cb) * h / sp | _ => ca * cb * h / sp end
       | 4%nat => match r with 3%nat => 0 | 4%nat => ca | _ => sa end
       | 5%nat => match r with 3%nat => (1 - s) * h / sm | 4%nat => sa * cb * h / sm | _ => - (ca * cb) * h / sm end
       | _ => 0
       end)
    (fun i => match i with 3%nat => sp | 5%nat => sm | _ => 1 end)
    (fun j i => match j, i with
       | 3%nat, 3%nat => h | 5%nat, 3%nat => h | 3%nat, 5%nat => h | 5%nat, 5%nat => - h
       | 3%nat, _ => 0 | 5%nat, _ => 0 | _, _ => delta j i
       end).
Lemma wrist_svd_of k x y z a b g : -1 < sin b < 1 ->
  let d := wrist_svd k (mkM 6 6 (tip_jacobian (gantry 1) [x; y; z; a; b; g])) in
  dc_rc d = 0%Z /\ svd_of 6 6 (tip_jacobian (gantry 1) [x; y; z; a; b; g]) d.
Proof.
  intros Hb. split; [reflexivity|]. unfold wrist_svd. cbn [mentry].
  rewrite !gantry_at by lia. cbn [wrist_col t_at trot tvel vx vy vz].
  set (s := sin b) in *. set (ca := cos a). set (sa := sin a). set (cb := cos b).
  assert (Ea : sa * sa + ca * ca = 1) by (unfold sa, ca; pose proof (sin2_cos2 a); unfold Rsqr in *; lra).
  assert (Eb : s * s + cb * cb = 1) by (unfold s, cb; pose proof (sin2_cos2 b); unfold Rsqr in *; lra).
  replace (ca * (ca * cb) - sa * - (sa * cb)) with cb by (transitivity ((sa * sa + ca * ca) * cb); [rewrite Ea; ring|ring]).
  assert (S2 : sqrt 2 * sqrt 2 = 2) by (apply sqrt_sqrt; lra).
  assert (N2 : 0 < sqrt 2) by (apply sqrt_lt_R0; lra).
  set (h := / sqrt 2). assert (Hh : h * h = / 2) by (unfold h; rewrite <- Rinv_mult, S2; reflexivity).
  set (sp := sqrt (1 + s)). set (sm := sqrt (1 - s)).
  assert (P2 : sp * sp = 1 + s) by (apply sqrt_sqrt; lra). assert (M2 : sm * sm = 1 - s) by (apply sqrt_sqrt; lra).
  assert (P0 : 0 < sp) by (apply sqrt_lt_R0; lra). assert (M0 : 0 < sm) by (apply sqrt_lt_R0; lra).
  unfold Rdiv. set (ip := / sp). set (im := / sm).
  assert (Pi : sp * ip = 1) by (unfold ip; field; lra). assert (Mi : sm * im = 1) by (unfold im; field; lra).
  assert (G : forall r j, (r < 6)%nat -> (j < 6)%nat -> tip_jacobian (gantry 1) [x; y; z; a; b; g] r j =
     t_at (match j with
           | 0%nat => axis6 0 1 | 1%nat => axis6 1 1 | 2%nat => axis6 2 1 | 3%nat => axis6 3 1
           | 4%nat => mkT (mkV 0 0 0) (mkV 0 ca sa)
           | _ => mkT (mkV 0 0 0) (mkV s (- (sa * cb)) (ca * cb))
           end) r) by (intros r j Hr Hj; exact (gantry_at x y z a b g r j Hr Hj)).
  clearbody s ca sa cb h sp sm ip im. clear N2 S2 P0 M0 Hb.
  assert (Hh2 : 2 * (h * h) = 1) by lra.
  assert (Pi2 : (1 + s) * (ip * ip) = 1) by (rewrite <- P2; transitivity ((sp * ip) * (sp * ip)); [ring|rewrite Pi; ring]).
  assert (Mi2 : (1 - s) * (im * im) = 1) by (rewrite <- M2; transitivity ((sm * im) * (sm * im)); [ring|rewrite Mi; ring]).
  split; [|split]; cbn [dc_U dc_S dc_V].
  - intros r j Hr Hj. rewrite G by assumption.
    assert (X1 : (1 + s) * h * ip * sp * h + (1 - s) * h * im * sm * h = 1).
    { transitivity ((1 + s) * (h * h) * (sp * ip) + (1 - s) * (h * h) * (sm * im)); [ring|]. rewrite Pi, Mi, Hh. field. }
    assert (X2 : (1 + s) * h * ip * sp * h + (1 - s) * h * im * sm * - h = s).
    { transitivity ((1 + s) * (h * h) * (sp * ip) - (1 - s) * (h * h) * (sm * im)); [ring|]. rewrite Pi, Mi, Hh. field. }
    assert (X3 : forall u, - u * h * ip * sp * h + u * h * im * sm * h = 0).
    { intros u. transitivity (u * (h * h) * (- (sp * ip) + sm * im)); [ring|]. rewrite Pi, Mi. ring. }
    assert (X3' : forall u, u * h * ip * sp * h + - u * h * im * sm * h = 0).
    { intros u. transitivity (u * (h * h) * (sp * ip - sm * im)); [ring|]. rewrite Pi, Mi. ring. }
    assert (X4 : forall u, - u * h * ip * sp * h + u * h * im * sm * - h = - u).
    { intros u. transitivity (- u * (h * h) * (sp * ip + sm * im)); [ring|]. rewrite Pi, Mi, Hh. field. }
    assert (X5 : forall u, u * h * ip * sp * h + - u * h * im * sm * - h = u).
    { intros u. transitivity (u * (h * h) * (sp * ip + sm * im)); [ring|]. rewrite Pi, Mi, Hh. field. }
    do 3 (destruct r as [|r]; [do 6 (destruct j as [|j]; [cbn; unfold delta; cbn; ring|]); lia|]).
    destruct r as [|r]; [do 6 (destruct j as [|j]; [cbn; unfold delta; cbn; lra|]); lia|].
    destruct r as [|r]; [do 6 (destruct j as [|j]; [cbn; unfold delta; cbn; pose proof (X3 (sa * cb)); pose proof (X4 (sa * cb)); lra|]); lia|].
    destruct r as [|r]; [do 6 (destruct j as [|j]; [cbn; unfold delta; cbn; pose proof (X3' (ca * cb)); pose proof (X5 (ca * cb)); lra|]); lia|]. lia.
  - intros i j Hi Hj.
    do 6 (destruct i as [|i]; [do 6 (destruct j as [|j]; [cbn; unfold delta; cbn; lra|]); lia|]). lia.
  - intros i j Hi Hj _ _.
    assert (Y3 : (1 + s) * h * ip * ((1 + s) * h * ip) + - (sa * cb) * h * ip * (- (sa * cb) * h * ip) + ca * cb * h * ip * (ca * cb * h * ip) = 1).
    { transitivity ((h * h) * (ip * ip) * ((1 + s) * (1 + s) + (sa * sa + ca * ca) * (cb * cb))); [ring|]. rewrite Ea, Hh. replace (cb * cb) with (1 - s * s) by lra.
      transitivity (1 / 2 * 2 * ((1 + s) * (ip * ip))); [field|]. rewrite Pi2. field. }
    assert (Y5 : (1 - s) * h * im * ((1 - s) * h * im) + sa * cb * h * im * (sa * cb * h * im) + - (ca * cb) * h * im * (- (ca * cb) * h * im) = 1).
    { transitivity ((h * h) * (im * im) * ((1 - s) * (1 - s) + (sa * sa + ca * ca) * (cb * cb))); [ring|]. rewrite Ea, Hh. replace (cb * cb) with (1 - s * s) by lra.
      transitivity (1 / 2 * 2 * ((1 - s) * (im * im))); [field|]. rewrite Mi2. field. }
    assert (Y35 : (1 + s) * h * ip * ((1 - s) * h * im) + - (sa * cb) * h * ip * (sa * cb * h * im) + ca * cb * h * ip * (- (ca * cb) * h * im) = 0).
    { transitivity ((h * h) * (ip * im) * (1 - s * s - (sa * sa + ca * ca) * (cb * cb))); [ring|]. rewrite Ea. replace (cb * cb) with (1 - s * s) by lra. ring. }
    do 6 (destruct i as [|i]; [do 6 (destruct j as [|j]; [cbn; unfold delta; cbn; lra|]); lia|]). lia.
Qed.

(** At home the Jacobian is the identity, which stretches every vector by one. *)
Lemma gantry_regular : stretches 6 6 1 (transposed (tip_jacobian (gantry 1) home)).
Proof.
  intros x. unfold sq, mv, transposed. cbn [sumn]. rewrite !gantry_jac_entry by lia. unfold delta. cbn [Nat.eqb]. right. ring.
Qed.
Lemma within_home q : joints_within 1 q home -> exists x y z a b g, q = [x; y; z; a; b; g] /\ -1 <= b <= 1.
Proof.
  intros (L & H). destruct q as [|x [|y [|z [|a [|b [|g [|? ?]]]]]]]; try (cbn in L; lia).
  exists x, y, z, a, b, g. split; [reflexivity|]. specialize (H 4%nat). cbn in H. specialize (H ltac:(lia)).
  pose proof (Rle_abs (b - 0)). pose proof (Rle_abs (- (b - 0))). rewrite Rabs_Ropp in *. lra.
Qed.
Lemma wrist_svd_near k q : joints_within 1 q home ->
  let d := wrist_svd k (mkM 6 6 (tip_jacobian (gantry 1) q)) in dc_rc d = 0%Z /\ svd_of 6 6 (tip_jacobian (gantry 1) q) d.
Proof.
  intros H. destruct (within_home q H) as (x & y & z & a & b & g & -> & Hb). apply wrist_svd_of.
  pose proof PI2_1. rewrite <- sin_PI2. replace (-1) with (- sin (PI / 2)) by (rewrite sin_PI2; lra). rewrite <- sin_neg.
  split; apply sin_increasing_1; lra.
Qed.
(** Both solvers, with the pseudo-inverse inside, bring the gantry to every target close enough to its home pose, in at most 441 steps when
    eps is at least 2^-20. *)
Lemma gantry_converges : exists delta, 0 < delta /\ forall q g,
  joints_within delta q home -> rigid g -> f_close (tip (gantry 1) home) g delta ->
  (exists q' s' w', nr_CartToJnt (own_fk (gantry 1)) (pinv_CartToJnt wrist_svd (gantry 1)) (gantry 1) (nr_make (gantry 1) 441 (/ 1048576))
      (pinv_make (gantry 1) (1/1000) 150) q g home = Ret (E_NOERROR, q', s', w') /\ pose_within (/ 1048576) (tip (gantry 1) q') g) /\
  (exists q' s' w', nrjl_CartToJnt (own_fk (gantry 1)) (pinv_CartToJnt wrist_svd (gantry 1)) (gantry 1) (nrjl_make (gantry 1) [-2;-2;-2;-2;-2;-2] [2;2;2;2;2;2] 441 (/ 1048576))
      (pinv_make (gantry 1) (1/1000) 150) q g home = Ret (E_NOERROR, q', s', w') /\ pose_within (/ 1048576) (tip (gantry 1) q') g).
Proof.
  destruct (nr_pinv wrist_svd (gantry 1) home 1 (1/1000) 150 1 2) as (d1 & P1 & H1);
    [apply gantry_ok|reflexivity|cbn; lia|lra|lra|lra|lra|apply gantry_regular|intros q Hq; exact (wrist_svd_near 150 q Hq)|].
  destruct (nrjl_pinv wrist_svd (gantry 1) home 1 (1/1000) 150 1 2) as (d2 & P2 & H2);
    [apply gantry_ok|reflexivity|cbn; lia|lra|lra|lra|lra|apply gantry_regular|intros q Hq; exact (wrist_svd_near 150 q Hq)|].
  exists (Rmin d1 d2). split; [apply Rmin_glb_lt; assumption|]. intros q g Wq Hg Fg.
  assert (E : forall d, Rmin d1 d2 <= d -> joints_within d q home /\ f_close (tip (gantry 1) home) g d).
  { intros d Hd. split.
    - destruct Wq as (L & W). split; [exact L|]. intros i Hi. eapply Rle_trans; [apply W; exact Hi|exact Hd].
    - destruct Fg as ((A & B & C) & (D0 & D1 & D2 & D3 & D4 & D5 & D6 & D7 & D8)). unfold close in *. repeat split; unfold close; lra. }
  destruct (E d1 (Rmin_l _ _)) as (W1 & F1). destruct (E d2 (Rmin_r _ _)) as (W2 & F2). split.
  - destruct (H1 20%nat 441%nat (/ 1048576) q g home) as (q' & s' & w' & R1 & _ & P); auto; [lra|cbn; lra|]. exists q', s', w'. auto.
  - destruct (H2 20%nat 441%nat (/ 1048576) [-2;-2;-2;-2;-2;-2] [2;2;2;2;2;2] q g home) as (q' & s' & w' & R1 & _ & P); auto; [lra|cbn; lra| |exists q', s', w'; auto].
    intros i Hi. cbn in Hi. do 6 (destruct i as [|i]; [cbn; lra|]). lia.
Qed.
