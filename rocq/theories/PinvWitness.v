(** Two machines: one meets the hypotheses of the accuracy theorem, the other shows that they are needed. *)
From Coq Require Import Reals String List ZArith Lra Lia Bool Arith Psatz.
From Flocq Require Import Core.
From Verif Require Import FramesModel FramesSpec FramesProofs FrameOpsProofs Outcome InertiaModel DualModel KinModel KinSpec KinProofs JacProofs TreeModel LinModel LinSpec SumProofs IkModel LmaModel LmaSpec LmaProofs LmaProofs2
  SvdModel SvdSpec SvdNorm SvdHouse SvdBidiag SvdAccum SvdDiag SvdFinal SvdLast SvdRound SvdWitness SkewRun VelIkModel VelIkSpec VelIkLin VelIkProofs VelIkWitness PinvModel PinvSpec PinvProofs.
Import ListNotations.
Local Open Scope list_scope.
Local Open Scope R_scope.

Lemma sq_nn' n f : 0 <= sumn n (fun i => f i * f i).
Proof. induction n; cbn [sumn]; [lra|]. pose proof (Rle_0_sqr (f n)) as Q. unfold Rsqr in Q. lra. Qed.

(** ** The run on a diagonal matrix *)
Definition off_zero (rows cols : nat) (U : mat) : Prop := forall a b, (a < rows)%nat -> (b < cols)%nat -> a <> b -> U a b = 0.
Section Diagonal.
Variables (rows cols : nat) (A : mat) (checked : bool).
Hypothesis HA : off_zero rows cols A.
Hypothesis tall : (cols <= rows)%nat.

Definition diag_inv (i : nat) (st : hh) : Prop :=
  off_zero rows cols (hU st) /\ hscale st * hg st = 0 /\ (forall k, (k < i)%nat -> hT st k = 0) /\
  (forall k, (i <= k < cols)%nat -> hU st k k = A k k) /\ (forall k, (k < i)%nat -> Rabs (hS st k) = Rabs (A k k)).
Lemma diag_col i U : off_zero rows cols U -> (i < cols)%nat -> exists U' sc g, hh_col checked 0 rows cols i U = Go (U', sc, g) /\
  off_zero rows cols U' /\ Rabs (sc * g) = Rabs (U i i) /\ forall k, (i < k < cols)%nat -> U' k k = U k k.
Proof.
  intros H Hi. destruct (hh_col_ok checked 0 rows cols (Rle_refl 0) i U Hi) as (U' & sc & g & E & K & C). exists U', sc, g. split; [exact E|].
  destruct C as [(Z & EU & Z0) | (Hr & N & Ns & Q & K1 & K2)].
  - split; [intros a b Ha Hb Nab; rewrite EU; apply H; assumption|]. split; [rewrite Z, (Z0 eq_refl i) by lia; reflexivity|]. intros; apply EU.
  - assert (Cz : forall k, (i <= k < rows)%nat -> k <> i -> U' k i = 0).
    { intros k Hk Nk. pose proof (K1 k Hk) as X. destruct (Nat.eqb_spec k i); [contradiction|]. rewrite (H k i) in X by lia. lra. }
    rewrite (from_pick i rows i) in Q by (first [lia | intros k Hk Nk; rewrite (Cz k Hk Nk); ring]).
    assert (D : U' i i = -2 * (sc * g)).
    { apply Rmult_eq_reg_l with (U' i i); [|exact N]. rewrite Q. ring. }
    pose proof (K1 i ltac:(lia)) as X. rewrite Nat.eqb_refl in X.
    assert (R : forall j, (i < j < cols)%nat -> U' i j = 0).
    { intros j Hj. pose proof (K2 i j ltac:(lia) Hj) as Y. rewrite (from_pick i rows i) in Y by (first [lia | intros k Hk Nk; rewrite (Cz k Hk Nk); ring]).
      rewrite (H i j) in Y by lia. rewrite D in Y. set (s := sc * g) in *. replace (U' i j + 1 / (-2 * s * s) * (-2 * s * U' i j) * (-2 * s)) with (- U' i j) in Y by (field; exact Ns). lra. }
    split; [|split].
    + intros a b Ha Hb Nab. destruct (le_lt_dec i a) as [La|La]; [|rewrite K by lia; apply H; assumption].
      destruct (le_lt_dec i b) as [Lb|Lb]; [|rewrite K by lia; apply H; assumption].
      destruct (Nat.eq_dec b i) as [->|Nb]; [apply Cz; lia|]. destruct (Nat.eq_dec a i) as [->|Na]; [apply R; lia|].
      pose proof (K2 a b ltac:(lia) ltac:(lia)) as Y. rewrite (Cz a ltac:(lia) Na), (H a b) in Y by lia. lra.
    + rewrite X, D. rewrite <- Rabs_Ropp. f_equal. ring.
    + intros k Hk. pose proof (K2 k k ltac:(lia) Hk) as Y. rewrite (Cz k ltac:(lia) ltac:(lia)) in Y. lra.
Qed.
Lemma diag_bidiagonal S0 T0 : exists b, iter cols 0 (hh_step checked 0 rows cols) (hh_start rows cols A S0 T0) = Go b /\ diag_inv cols b.
Proof.
  apply (iter_ok diag_inv).
  - unfold diag_inv, hh_start. cbn [hU hS hT hscale hg hanorm]. split; [|split; [ring|split; [intros; lia|split; [|intros; lia]]]].
    + intros a b Ha Hb N. destruct (Nat.ltb_spec a rows); [|lia]. destruct (Nat.ltb_spec b cols); [|lia]. cbn [andb]. apply HA; assumption.
    + intros k Hk. destruct (Nat.ltb_spec k rows); [|lia]. destruct (Nat.ltb_spec k cols); [|lia]. reflexivity.
  - intros i st Hi (HU & HZ & HT & HD & HS). unfold hh_step.
    destruct (diag_col i (hU st) HU ltac:(lia)) as (U1 & sc & g & E & H1 & AB & K). rewrite E. cbn [rbind].
    assert (R : hh_row checked 0 rows cols i U1 (vset (hT st) i (hscale st * hg st)) = Go (U1, vset (hT st) i (hscale st * hg st), 0, 0)).
    { unfold hh_row. destruct (Nat.ltb_spec i rows); [|reflexivity]. destruct (Nat.eqb_spec (i + 1) cols) as [|N]; cbn [andb negb]; [reflexivity|].
      cbv zeta. rewrite from_zero by (intros k Hk; rewrite (H1 i k) by lia; apply Rabs_R0). rewrite Rabs_R0. destruct (Rlt_dec 0 0); [lra|reflexivity]. }
    rewrite R. cbn [rbind]. eexists. split; [reflexivity|]. unfold diag_inv. cbn [hU hS hT hscale hg hanorm]. split; [exact H1|]. split; [ring|]. split; [|split].
    + intros k Hk. unfold vset. destruct (Nat.eqb_spec k i); [exact HZ|apply HT; lia].
    + intros k Hk. rewrite K by lia. apply HD. lia.
    + intros k Hk. unfold vset. destruct (Nat.eqb_spec k i) as [->|]; [rewrite AB, HD by lia; reflexivity|apply HS; lia].
Qed.
Lemma diag_pass rnd anorm k st : keeps_units rnd -> anorm = 0 \/ anorm = 1 -> sT st k = 0 ->
  qr_pass rnd checked 0 rows cols anorm k st =
  Go (if Rlt_dec (sS st k) 0 then mkSV (sU st) (vset (sS st) k (- sS st k)) (fun a b => if Nat.eqb b k && within 0 cols a then - sV st a b else sV st a b) (sT st)
      else mkSV (sU st) (sS st) (sV st) (sT st), true).
Proof.
  intros HU Ha Z. unfold qr_pass.
  assert (Q : split_at rnd anorm (sS st) (sT st) k = Go (k, false)) by (destruct k; cbn [split_at]; rewrite Z, absorbed_zero by assumption; reflexivity).
  rewrite Q. cbn [rbind]. rewrite Nat.eqb_refl. destruct (Rlt_dec (sS st k) 0); reflexivity.
Qed.
Lemma diag_core maxiter S0 V0 T0 : (1 <= maxiter)%Z ->
  exists d its used, (forall rnd, keeps_units rnd -> svd_core rnd checked 0 rows cols maxiter A S0 V0 T0 = Go (d, its, used)) /\
    (forall k, (k < cols)%nat -> used k = 1%Z) /\ forall k, (k < cols)%nat -> Rabs (sS d k) = Rabs (A k k).
Proof.
  intros Hm. unfold svd_core.
  destruct (diag_bidiagonal S0 T0) as (b & E & HI & _ & HT0 & _ & HS). rewrite E. cbn [rbind].
  destruct (bidiag_ok rows cols checked 0 (Rle_refl 0) A S0 T0) as (b' & E' & AN & _ & HB). rewrite E in E'. injection E' as <-.
  destruct HB as [Z|(T & HT & _ & HST & HH)].
  { rewrite Z. cbn [iter_down Nat.min rbind]. eexists _, _, _. split; [reflexivity|]. split; intros; lia. }
  destruct (right_ok rows cols checked 0 (Rle_refl 0) (hU b) (hS b) T HST (hT b) V0 (hg b) HT) as (V & g & EV & HV). rewrite EV. cbn [rbind].
  destruct (HV eq_refl) as (Ws & W).
  destruct (left_ok rows cols checked 0 (Rle_refl 0) (hU b) (hS b) T HST A V Ws HH (fun _ => W)) as (U & EU & _). rewrite EU. cbn [rbind]. clear - HT0 HS AN Hm.
  destruct (Z.to_nat maxiter) as [|m] eqn:EM; [lia|].
  set (st0 := mkSV U (hS b) V (hT b)).
  assert (G : forall n st its used, (n <= cols)%nat -> (forall k, (k < n)%nat -> sT st k = 0) -> (forall k, (k < cols)%nat -> Rabs (sS st k) = Rabs (A k k)) -> (forall k, (n <= k < cols)%nat -> used k = 1%Z) ->
    exists d its' used', (forall rnd, keeps_units rnd -> iter_down n (diag_step rnd checked 0 rows cols (hanorm b) maxiter) (st, its, used) = Go (d, its', used')) /\
      (forall k, (k < cols)%nat -> used' k = 1%Z) /\ forall k, (k < cols)%nat -> Rabs (sS d k) = Rabs (A k k)).
  { induction n as [|n IH]; intros st its used Hn Z SA UA.
    - exists st, its, used. split; [reflexivity|]. split; [intros; apply UA; lia|exact SA].
    - set (st1 := if Rlt_dec (sS st n) 0 then mkSV (sU st) (vset (sS st) n (- sS st n)) (fun a b => if Nat.eqb b n && within 0 cols a then - sV st a b else sV st a b) (sT st)
        else mkSV (sU st) (sS st) (sV st) (sT st)).
      destruct (IH st1 1%Z (fun a => if Nat.eqb a n then 1%Z else used a)) as (d & its' & used' & E & P).
      + lia.
      + intros k Hk. unfold st1. destruct (Rlt_dec (sS st n) 0); apply Z; lia.
      + intros k Hk. unfold st1. destruct (Rlt_dec (sS st n) 0); cbn [sS]; [|apply SA; exact Hk]. unfold vset. destruct (Nat.eqb_spec k n) as [->|]; [rewrite Rabs_Ropp|]; apply SA; lia.
      + intros k Hk. destruct (Nat.eqb_spec k n); [reflexivity|apply UA; lia].
      + exists d, its', used'. split; [|exact P]. intros rnd HU. cbn [iter_down]. unfold diag_step at 1. rewrite EM. cbn [qr_loop].
        rewrite (diag_pass rnd (hanorm b) n st HU AN (Z n ltac:(lia))). cbn [rbind]. fold st1. apply E, HU. }
  destruct (G cols st0 (-1)%Z (fun _ => 0%Z) (le_n _) HT0 HS ltac:(intros; lia)) as (d & its & used & P). exists d, its, used. exact P.
Qed.
End Diagonal.

(** ** The gantry meets every hypothesis of the accuracy theorem *)
Lemma gantry_accurate rnd S0 V0 T0 v : keeps_units rnd ->
  let c := gantry 1 in let s := pinv_make c (1 / 100000) 150 in
  chain_ok c /\ pinv_clean s /\ 0 < pv_eps s /\ (6 <= ch_nj c)%nat /\ (Z.of_nat (ch_nj c) < 2 ^ 32)%Z /\ pv_nj s = ch_nj c /\ length home = ch_nj c /\
  exists d used out s',
    svd_HH_calculate rnd 6 6 (tip_jacobian c home) S0 V0 T0 (pv_maxiter s) = Go (0%Z, d, used) /\
    svd_HH_calculate (guarded rnd) 6 6 (tip_jacobian c home) S0 V0 T0 (pv_maxiter s) = Go (0%Z, d, used) /\
    converged 6 (pv_maxiter s) used /\
    pinv_CartToJnt (svd_HH_routine rnd S0 V0 T0) c s home v home = Ret (E_NOERROR, out, s').
Proof.
  intros HU c s. split; [apply gantry_ok|]. split; [apply pinv_make_clean|]. split; [cbn; lra|]. split; [cbn; lia|]. split; [reflexivity|]. split; [reflexivity|]. split; [reflexivity|].
  assert (HA : off_zero 6 6 (tip_jacobian c home)).
  { intros a b Ha Hb N. unfold c. rewrite gantry_jac_entry by assumption. unfold delta. destruct (Nat.eqb_spec a b); [contradiction|ring]. }
  destruct (diag_core 6 6 (tip_jacobian c home) false HA (le_n _) 150 S0 V0 T0 ltac:(lia)) as (d & its & used & E & UA & SA).
  destruct (hh_codes rnd 6 6 (tip_jacobian c home) S0 V0 T0 150 HU) as (rc & d' & used' & E1 & CC & C1 & _).
  assert (rc = 0%Z). { destruct CC as [|X]; [assumption|]. apply C1 in X; [discriminate|lia]. } subst rc.
  pose proof E1 as E2. unfold svd_HH_calculate in E2. rewrite (E rnd HU) in E2. cbn [rbind] in E2. injection E2 as EC <- <-.
  assert (E3 : svd_HH_calculate (guarded rnd) 6 6 (tip_jacobian c home) S0 V0 T0 150 = Go (0%Z, d, used)).
  { unfold svd_HH_calculate. rewrite (E (guarded rnd) (guarded_units rnd HU)). cbn [rbind]. rewrite EC. reflexivity. }
  set (D := svd_HH_routine rnd S0 V0 T0 150 (mkM 6 6 (tip_jacobian c home))).
  assert (ED : D = mkD 0 (sU d) (sS d) (sV d)) by (unfold D, svd_HH_routine; cbn [mrows mcols mentry]; rewrite E1; reflexivity).
  destruct (pinv_answer (svd_HH_routine rnd S0 V0 T0) c s home v home) as (s' & EA); try reflexivity; [apply gantry_ok|apply pinv_make_clean|cbn; lra| |].
  { change (dc_rc D = 0%Z). rewrite ED. reflexivity. }
  exists d, used, (pinv_sol 6 6 (1/100000) D (t_at v)), s'. split; [exact E1|]. split; [exact E3|]. split; [intros k Hk; rewrite (UA k Hk); cbn; lia|].
  rewrite EA. change (svd_HH_routine rnd S0 V0 T0 (pv_maxiter s) (mkM 6 (ch_nj c) (tip_jacobian c home))) with D. f_equal. f_equal. f_equal.
  unfold singular_code. replace (count_below (pv_eps s) (dc_S D) (ch_nj c)) with 0%nat; [reflexivity|].
  symmetry. unfold count_below. change (ch_nj c) with 6%nat. change (pv_eps s) with (1/100000). rewrite ED. cbn [dc_S].
  assert (F : forall k, (k < 6)%nat -> (if Rlt_dec (Rabs (sS d k)) (1/100000) then true else false) = false).
  { intros k Hk. rewrite (SA k Hk). unfold c. rewrite gantry_jac_entry by assumption. unfold delta. rewrite Nat.eqb_refl.
    replace (if Nat.eqb k 5 then 1 else 1) with 1 by (destruct (Nat.eqb k 5); reflexivity). rewrite Rmult_1_r, Rabs_R1. destruct (Rlt_dec 1 (1/100000)); [lra|reflexivity]. }
  cbn [seq filter]. rewrite !F by lia. reflexivity.
Qed.

(** ** A machine that is driven the wrong way *)
(** A slide along x with a transmission ratio of two carries a hinge about z with the tip one unit below. *)
Definition bent_arm : Chain := mkCh 2 2 [ax TransX 2; mkS "arm"%string (mkJ "hinge"%string RotZ 1 0 0 0 0 v_zero v_zero) rb_zero (mkF r_id (mkV 0 (-1) 0))].
Lemma bent_ok : chain_ok bent_arm.
Proof. split; [split; reflexivity|]. repeat (constructor; [split; [intros X; discriminate | apply is_rotation_id] | ]). constructor. Qed.
Lemma bent_jac : jacobian_at bent_arm (-1) [0;0] = [mkT (mkV 2 0 0) (mkV 0 0 0); mkT (mkV 1 0 0) (mkV 0 0 1)].
Proof.
  rewrite jac_is_jacl by (first [apply bent_ok | reflexivity]). unfold bent_arm. cbn [ch_segs jacl moving ax sjoint jtype map assign pose_product].
  unfold segment_twist, segment_pose, joint_pose, joint_twist. cbn [sjoint jtype jscale joffset sf_tip jaxis jorigin].
  replace (2 * 0 + 0) with 0 by ring. replace (1 * 0 + 0) with 0 by ring. unfold r_RotZ. rewrite cos_0, sin_0.
  cbn. unfold t_RefPoint, r_app_t, r_app, v_add, v_sub, v_cross, v_scale, v_zero. cbn.
  repeat (f_equal; try ring).
Qed.
Lemma bent_holds : holds (tip_jacobian bent_arm [0;0]) [2;0;0;0;0;0] [1;0;0;0;0;1].
Proof. apply holds_by; unfold tip_jacobian; rewrite bent_jac; cbn; repeat split; reflexivity. Qed.

Lemma bent_wrong rnd S0 V0 T0 eps maxiter : keeps_units rnd -> rnd 2 = 2 -> rnd (-1) = -1 -> 0 < eps <= 1 -> (2 <= maxiter)%Z ->
  let s := pinv_make bent_arm eps maxiter in let v := mkT (mkV 2 0 0) (mkV 0 0 0) in
  exists out s', pinv_CartToJnt (svd_HH_routine rnd S0 V0 T0) bent_arm s [0;0] v [0;0] = Ret (E_NOERROR, out, s') /\
    (forall r, (r < 6)%nat -> image 2 (tip_jacobian bent_arm [0;0]) [1;0] r = t_at v r) /\
    image 2 (tip_jacobian bent_arm [0;0]) out 0 < 0 /\ image 2 (tip_jacobian bent_arm [0;0]) out 5 = 1.
Proof.
  intros (R0 & R1) R2 RM He Hm s v. set (J := tip_jacobian bent_arm [0;0]).
  destruct (run_core rnd false 0 ltac:(lra) R1 R2 RM J maxiter S0 V0 T0 bent_holds ltac:(lia)) as (d & used & E & _ & D0 & D1 & V00 & V01 & V10 & V11 & HU).
  assert (E1 : svd_HH_calculate rnd 6 2 J S0 V0 T0 maxiter = Go (0%Z, d, used)).
  { unfold svd_HH_calculate. rewrite E. cbn [rbind]. unfold svd_code. destruct (Z.eqb_spec 1 maxiter); [lia|reflexivity]. }
  set (D := svd_HH_routine rnd S0 V0 T0 maxiter (mkM 6 2 J)).
  assert (ED : D = mkD 0 (sU d) (sS d) (sV d)) by (unfold D, svd_HH_routine; cbn [mrows mcols mentry]; rewrite E1; reflexivity).
  destruct (pinv_answer (svd_HH_routine rnd S0 V0 T0) bent_arm s [0;0] v [0;0]) as (s' & EA); try reflexivity; [apply bent_ok|apply pinv_make_clean|cbn; lra| |].
  { change (dc_rc D = 0%Z). rewrite ED. reflexivity. }
  change (svd_HH_routine rnd S0 V0 T0 (pv_maxiter s) (mkM 6 (ch_nj bent_arm) (tip_jacobian bent_arm [0;0]))) with D in EA.
  change (pv_eps s) with eps in EA. change (ch_nj bent_arm) with 2%nat in EA.
  destruct root2 as (P2 & Q2). assert (L2 : 1 < sqrt 2) by nra.
  assert (B0 : forall k, (k < 2)%nat -> (if Rlt_dec (Rabs (dc_S D k)) eps then true else false) = false).
  { intros k Hk. rewrite ED. cbn [dc_S]. destruct k as [|[|]]; [rewrite D0, (Rabs_right 2) by lra; destruct (Rlt_dec 2 eps); [lra|reflexivity]|rewrite D1, (Rabs_right (sqrt 2)) by lra; destruct (Rlt_dec (sqrt 2) eps); [lra|reflexivity]|lia]. }
  assert (EC : singular_code eps D 2 = E_NOERROR).
  { unfold singular_code. replace (count_below eps (dc_S D) 2) with 0%nat; [reflexivity|]. symmetry. unfold count_below. cbn [seq filter]. rewrite !B0 by lia. reflexivity. }
  assert (F0 : inv_factor eps D 0 = / 2). { unfold inv_factor. pose proof (B0 0%nat ltac:(lia)) as X. rewrite ED in *. cbn [dc_S] in *. destruct (Rlt_dec (Rabs (sS d 0%nat)) eps); [discriminate|]. rewrite D0. reflexivity. }
  assert (F1 : inv_factor eps D 1 = / sqrt 2). { unfold inv_factor. pose proof (B0 1%nat ltac:(lia)) as X. rewrite ED in *. cbn [dc_S] in *. destruct (Rlt_dec (Rabs (sS d 1%nat)) eps); [discriminate|]. rewrite D1. reflexivity. }
  destruct (holds_all _ _ _ HU) as ((A0 & A1 & A2 & A3 & A4 & A5) & C0 & C1 & C2 & C3 & C4 & C5). cbn [nth] in *.
  assert (EO : pinv_sol 6 2 eps D (t_at v) = [- / sqrt 2; 1]).
  { unfold pinv_sol, sol, vlist. cbn [map seq sumn]. rewrite F0, F1, ED. cbn [dc_U dc_V]. unfold coef. cbn [sumn]. rewrite A0, A1, A2, A3, A4, A5, C0, C1, C2, C3, C4, C5, V00, V01, V10, V11. cbn [t_at v tvel trot vx vy vz].
    f_equal; [field; lra|f_equal]. 
    replace 1 with (2 / (sqrt 2 * sqrt 2)) by (rewrite Q2; field). field. lra. }
  rewrite EC, EO in EA. exists [- / sqrt 2; 1], s'. split; [exact EA|].
  destruct (holds_all _ _ _ bent_holds) as ((G0 & G1 & G2 & G3 & G4 & G5) & K0 & K1 & K2 & K3 & K4 & K5). cbn [nth] in *. fold J in G0, G1, G2, G3, G4, G5, K0, K1, K2, K3, K4, K5.
  split.
  - intros r Hr. unfold image. cbn [sumn nth]. do 6 (destruct r as [|r]; [rewrite ?G0, ?G1, ?G2, ?G3, ?G4, ?G5, ?K0, ?K1, ?K2, ?K3, ?K4, ?K5; cbn; ring|]). lia.
  - unfold image. cbn [sumn nth]. rewrite G0, K0, G5, K5. split; [|ring].
    assert (/ sqrt 2 * 2 = sqrt 2) by (rewrite <- Q2 at 2; field; lra). lra.
Qed.
Lemma bent_wrong_double S0 V0 T0 :
  let s := pinv_make bent_arm (1 / 100000) 150 in let v := mkT (mkV 2 0 0) (mkV 0 0 0) in
  exists out s', pinv_CartToJnt (svd_HH_routine double S0 V0 T0) bent_arm s [0;0] v [0;0] = Ret (E_NOERROR, out, s') /\
    (forall r, (r < 6)%nat -> image 2 (tip_jacobian bent_arm [0;0]) [1;0] r = t_at v r) /\
    image 2 (tip_jacobian bent_arm [0;0]) out 0 < 0 /\ image 2 (tip_jacobian bent_arm [0;0]) out 5 = 1.
Proof. apply bent_wrong; [apply double_units|apply double_units2|apply double_units2|lra|lia]. Qed.

(** ** Doubles, the default parameters and six to ten joints *)
Lemma pinv_accurate_double S0 V0 T0 c q v qdot : chain_ok c -> (6 <= ch_nj c <= 10)%nat -> length q = ch_nj c -> length qdot = ch_nj c ->
  let n := ch_nj c in
  let J := tip_jacobian c q in
  let svd r := svd_HH_calculate r 6 n J S0 V0 T0 150 in
  exists rc d used code out s', svd double = Go (rc, d, used) /\
    pinv_CartToJnt (svd_HH_routine double S0 V0 T0) c (pinv_make c (1 / 100000) 150) q v qdot = Ret (code, out, s') /\
    (code = E_NOERROR \/ code = E_CONVERGE_PINV_SINGULAR) /\
    (code = E_NOERROR -> svd (guarded double) = svd double -> converged n 150 used ->
      misfit 6 n J (t_at v) out <= / 10^12 * sumn 6 (fun r => t_at v r * t_at v r) /\
      forall y, length y = n -> (forall r, (r < 6)%nat -> image n J y r = t_at v r) ->
        norm2 n out <= (1 + / 10^6) * (1 + / 10^6) * norm2 n y).
Proof.
  intros Hok Hn Hq Hd n J svd. set (s := pinv_make c (1 / 100000) 150).
  destruct (pinv_accurate double _ S0 V0 T0 c s q v qdot double_units double_rounds Hok (proj1 (pinv_make_clean c (1/100000) 150)) ltac:(cbn; lra) ltac:(lia) ltac:(lia) eq_refl Hq Hd)
    as (rc & d & used & code & out & s' & E & EA & CF & P). exists rc, d, used, code, out, s'. split; [exact E|]. split; [exact EA|].
  change (pv_maxiter s) with 150%Z in *. change (pv_eps s) with (1/100000) in P. fold n in P. fold J in P.
  destruct (error_double n ltac:(unfold n; lia)) as (P0 & P1). set (e := pinv_error n 150 (bpow radix2 (-53)) (1/100000)) in *. split.
  - pose proof (pinv_call (svd_HH_routine double S0 V0 T0) c s q v qdot Hok (proj1 (pinv_make_clean c (1/100000) 150)) ltac:(cbn; lra) ltac:(lia)) as (code2 & out2 & s2 & EA2 & _ & _ & _ & _ & _ & Q).
    rewrite EA in EA2. injection EA2 as <- <- <-. cbv zeta in Q. destruct Q as (_ & _ & Q). destruct (Q eq_refl (conj Hq Hd)) as (_ & Q1 & Q2).
    match type of Q1 with ?x <> _ -> _ => destruct (Z.eq_dec x 0) as [Z|N] end; [destruct (Q2 Z) as ([X|X] & _); auto|].
    destruct (Q1 N) as (X & _). apply CF in X. discriminate.
  - intros NE G C. destruct (P NE G C) as (M & Sh). cbv zeta in M. split.
    + eapply Rle_trans; [exact M|]. apply Rmult_le_compat_r; [apply sq_nn'|]. cbn [pow] in *. nra.
    + intros y Ly Hy. eapply Rle_trans; [exact (Sh y Ly Hy)|]. apply Rmult_le_compat_r; [apply sq_nn'|]. cbn [pow] in *. nra.
Qed.
