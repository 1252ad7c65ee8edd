(** The gantry meets the hypotheses of the convergence theorems with ChainIkSolverVel_wdls inside. *)
From Coq Require Import Reals String List ZArith Bool Arith Lia Lra Psatz.
From Verif Require Import FramesModel FramesSpec FramesProofs FrameOpsProofs Outcome InertiaModel DualModel KinModel KinSpec DerivProofs KinProofs JacProofs JntModel
  LinModel LinSpec LmaSpec SumProofs IkModel IkSpec VelIkModel VelIkSpec VelIkLin VelIkWitness GivensSpec NewtonSpec NewtonProofs NewtonLoop NewtonPinv NewtonThms NewtonWitness NewtonWdls.
Import ListNotations.
Local Open Scope list_scope.
Local Open Scope R_scope.

(** The decomposition of [wrist_svd] with the singular values in descending order. *)
Definition wrist_order (s : R) (i : nat) : nat :=
  if Rle_dec 0 s then match i with 0 => 3 | 1 => 0 | 2 => 1 | 3 => 2 | 4 => 4 | _ => 5 end%nat
  else match i with 0 => 5 | 1 => 0 | 2 => 1 | 3 => 2 | 4 => 4 | _ => 3 end%nat.
Definition wrist_sorted (k : Z) (A : Mat) : Decomp :=
  let d := wrist_svd k A in let p := wrist_order (mentry A 3 5) in
  mkD 0 (fun r i => dc_U d r (p i)) (fun i => dc_S d (p i)) (fun j i => dc_V d j (p i)).
Lemma order_sum s f : sumn 6 (fun i => f (wrist_order s i)) = sumn 6 f.
Proof. unfold wrist_order. destruct (Rle_dec 0 s); cbn [sumn]; ring. Qed.
Lemma order_lt s i : (i < 6)%nat -> (wrist_order s i < 6)%nat.
Proof. unfold wrist_order. destruct (Rle_dec 0 s); do 6 (destruct i as [|i]; [lia|]); lia. Qed.
Lemma order_delta s i k : (i < 6)%nat -> (k < 6)%nat -> delta (wrist_order s i) (wrist_order s k) = delta i k.
Proof. intros Hi Hk. unfold wrist_order. destruct (Rle_dec 0 s); do 6 (destruct i as [|i]; [do 6 (destruct k as [|k]; [reflexivity|]); lia|]); lia. Qed.
Lemma sorted_of A k : svd_of 6 6 (mentry A) (wrist_svd k A) -> svd_of 6 6 (mentry A) (wrist_sorted k A).
Proof.
  intros (HA & HV & HU). unfold wrist_sorted. set (p := wrist_order (mentry A 3 5)). split; [|split]; cbn [dc_U dc_S dc_V].
  - intros r j Hr Hj. rewrite HA by assumption. symmetry.
    apply (order_sum (mentry A 3 5) (fun i => dc_U (wrist_svd k A) r i * dc_S (wrist_svd k A) i * dc_V (wrist_svd k A) j i)).
  - intros i l Hi Hl. rewrite HV by (apply order_lt; assumption). apply order_delta; assumption.
  - intros i l Hi Hl Ni Nl. rewrite HU by (first [apply order_lt; assumption|assumption]). apply order_delta; assumption.
Qed.
Lemma sorted_ok A k : -1 <= mentry A 3 5 <= 1 -> svd_sorted 6 6 (wrist_sorted k A).
Proof.
  intros Hs. unfold wrist_sorted, wrist_svd. set (s := mentry A 3 5) in *.
  assert (S1 : sqrt 1 = 1) by exact sqrt_1.
  assert (Sp : 0 <= s -> 1 <= sqrt (1 + s) /\ sqrt (1 - s) <= 1).
  { intros H. split; [eapply Rle_trans; [right; symmetry; exact S1|]; apply sqrt_le_1_alt; lra|eapply Rle_trans; [|right; exact S1]; apply sqrt_le_1_alt; lra]. }
  assert (Sn : s <= 0 -> 1 <= sqrt (1 - s) /\ sqrt (1 + s) <= 1).
  { intros H. split; [eapply Rle_trans; [right; symmetry; exact S1|]; apply sqrt_le_1_alt; lra|eapply Rle_trans; [|right; exact S1]; apply sqrt_le_1_alt; lra]. }
  pose proof (sqrt_pos (1 + s)). pose proof (sqrt_pos (1 - s)).
  split; [|split]; cbn [dc_S].
  - intros i k0 Hik Hk. unfold wrist_order. destruct (Rle_dec 0 s) as [P|P].
    + destruct (Sp P). do 6 (destruct i as [|i]; [do 6 (destruct k0 as [|k0]; [try lia; cbv iota; lra|]); lia|]). lia.
    + destruct (Sn ltac:(lra)). do 6 (destruct i as [|i]; [do 6 (destruct k0 as [|k0]; [try lia; cbv iota; lra|]); lia|]). lia.
  - intros i Hi. unfold wrist_order. destruct (Rle_dec 0 s); do 6 (destruct i as [|i]; [cbv iota; lra|]); lia.
  - intros i Hi. lia.
Qed.

(** Weights one, damping 1/10. *)
Definition damped : wdls := wdls_setLambda (wdls_make (gantry 1) (1/1000) 150) (1/10).
Lemma six_times_id f i : (i < 6)%nat -> sumn 6 (fun l => delta i l * f l) = f i.
Proof. apply (sumn_delta' 6 i f). Qed.
Lemma damped_entry q r j : (r < 6)%nat -> (j < 6)%nat -> mentry (weighted_jac (gantry 1) q damped) r j = tip_jacobian (gantry 1) q r j.
Proof.
  intros Hr Hj. unfold weighted_jac. cbn [mentry]. change (ch_nj (gantry 1)) with 6%nat. change (mentry (wd_ts damped)) with delta. change (mentry (wd_js damped)) with delta.
  unfold times. rewrite (six_times_id _ r Hr). rewrite (sumn_ext 6 _ (fun l => delta j l * tip_jacobian (gantry 1) q r l)) by (intros l Hl; rewrite (delta_sym l j); ring).
  apply six_times_id. exact Hj.
Qed.
Lemma wrist_svd_same k A B : (forall r j, (r < 6)%nat -> (j < 6)%nat -> mentry A r j = mentry B r j) -> wrist_svd k A = wrist_svd k B.
Proof. intros E. unfold wrist_svd. cbv zeta. rewrite !E by lia. reflexivity. Qed.
Lemma svd_of_same m n A B d : (forall r j, (r < m)%nat -> (j < n)%nat -> A r j = B r j) -> svd_of m n A d -> svd_of m n B d.
Proof. intros E (HA & HV & HU). split; [|split; assumption]. intros r j Hr Hj. rewrite <- E by assumption. apply HA; assumption. Qed.
Lemma damped_svd q : joints_within 1 q home -> let d := wrist_sorted (wd_maxiter damped) (weighted_jac (gantry 1) q damped) in
  dc_rc d = 0%Z /\ svd_of 6 6 (mentry (weighted_jac (gantry 1) q damped)) d /\ svd_sorted 6 6 d.
Proof.
  intros H d. split; [reflexivity|]. change (wd_maxiter damped) with 150%Z in d. unfold d. clear d.
  destruct (wrist_svd_near 150 q H) as (_ & Sv). split.
  - apply sorted_of. rewrite (wrist_svd_same 150 _ (mkM 6 6 (tip_jacobian (gantry 1) q))) by (intros r j Hr Hj; apply damped_entry; assumption).
    eapply svd_of_same; [|exact Sv]. intros r j Hr Hj. symmetry. apply damped_entry; assumption.
  - apply sorted_ok. rewrite damped_entry by lia. destruct (within_home q H) as (x & y & z & a & b & g & -> & _).
    rewrite gantry_at by lia. cbn [wrist_col t_at trot vx]. pose proof (SIN_bound b). lra.
Qed.
Lemma damped_regular : stretches 6 6 1 (transposed (mentry (weighted_jac (gantry 1) home damped))).
Proof.
  intros x. unfold sq, mv, transposed. cbn [sumn]. rewrite !damped_entry by lia. rewrite !gantry_jac_entry by lia. unfold delta. cbn [Nat.eqb]. right. ring.
Qed.
Lemma damped_weights : symmetric 6 (mentry (wd_ts damped)) /\
  (forall y, (forall r, (r < 6)%nat -> sumn 6 (fun k => mentry (wd_ts damped) r k * y k) = 0) -> forall r, (r < 6)%nat -> y r = 0).
Proof.
  change (mentry (wd_ts damped)) with delta. split; [intros i j _ _; apply delta_sym|].
  intros y H r Hr. rewrite <- (six_times_id y r Hr). apply H. exact Hr.
Qed.
Lemma damped_clean : wdls_clean damped /\ wdls_shapes damped /\ wd_nj damped = ch_nj (gantry 1).
Proof. repeat split. Qed.

Lemma gantry_damped : exists delta, 0 < delta /\ forall q g,
  joints_within delta q home -> rigid g -> f_close (tip (gantry 1) home) g delta ->
  (exists q' s' w', nr_CartToJnt (own_fk (gantry 1)) (wdls_CartToJnt wrist_sorted (gantry 1)) (gantry 1) (nr_make (gantry 1) 441 (/ 1048576))
      damped q g home = Ret (E_NOERROR, q', s', w') /\ pose_within (/ 1048576) (tip (gantry 1) q') g) /\
  (exists q' s' w', nrjl_CartToJnt (own_fk (gantry 1)) (wdls_CartToJnt wrist_sorted (gantry 1)) (gantry 1) (nrjl_make (gantry 1) [-2;-2;-2;-2;-2;-2] [2;2;2;2;2;2] 441 (/ 1048576))
      damped q g home = Ret (E_NOERROR, q', s', w') /\ pose_within (/ 1048576) (tip (gantry 1) q') g).
Proof.
  destruct damped_weights as (Sy & Inj). destruct damped_clean as (Cl & Sh & Nj).
  destruct (nr_wdls wrist_sorted (gantry 1) home 1 damped 1 2) as (d1 & P1 & H1);
    [apply gantry_ok|reflexivity|cbn; lia|cbn; lia|lra|lra|exact Cl|exact Sh|exact Nj|cbn; lra|cbn; lra|exact Sy|exact Inj|exact damped_regular|exact damped_svd|].
  destruct (nrjl_wdls wrist_sorted (gantry 1) home 1 damped 1 2) as (d2 & P2 & H2);
    [apply gantry_ok|reflexivity|cbn; lia|cbn; lia|lra|lra|exact Cl|exact Sh|exact Nj|cbn; lra|cbn; lra|exact Sy|exact Inj|exact damped_regular|exact damped_svd|].
  exists (Rmin d1 d2). split; [apply Rmin_glb_lt; assumption|]. intros q g Wq Hg Fg.
  assert (E : forall d, Rmin d1 d2 <= d -> joints_within d q home /\ f_close (tip (gantry 1) home) g d).
  { intros d Hd. split.
    - destruct Wq as (L & W). split; [exact L|]. intros i Hi. eapply Rle_trans; [apply W; exact Hi|exact Hd].
    - destruct Fg as ((A & B & C) & (D0 & D1 & D2 & D3 & D4 & D5 & D6 & D7 & D8)). unfold close in *. repeat split; unfold close; lra. }
  destruct (E d1 (Rmin_l _ _)) as (W1 & F1). destruct (E d2 (Rmin_r _ _)) as (W2 & F2). split.
  - destruct (H1 20%nat 441%nat (/ 1048576) q g home) as (q' & s' & w' & R1 & _ & P); auto; [lra|cbn; lra|]. exists q', s', w'. auto.
  - destruct (H2 20%nat 441%nat (/ 1048576) [-2;-2;-2;-2;-2;-2] [2;2;2;2;2;2] q g home) as (q' & s' & w' & R1 & _ & P); auto; [lra|cbn; lra| |exists q', s', w'; auto].
    intros i Hi. cbn in Hi. do 6 (destruct i as [|i]; [cbn; lra|]). lia.
Qed.
