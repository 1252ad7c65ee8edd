(** Inverse dynamics in rounded arithmetic. *)
From Coq Require Import Reals String List ZArith Bool Lra Lia.
From Flocq Require Import Core Relative.
From Verif Require Import FramesModel FramesSpec Outcome InertiaModel DualModel KinModel KinSpec LinModel DynModel DynSpec DynProofs FdProofs DynWitness FlModel FlJacModel FlRotModel FlDynModel FlSpec FlDynSpec FlDynProofs FlDynMain.
Import ListNotations.
Local Open Scope list_scope.
Local Open Scope R_scope.

Theorem rne_same_call c st q qd qdd fext tau : exists K, 0 <= K /\ forall eps rnd fsin fcos, arithmetic eps rnd fsin fcos ->
  same_call (K * eps) (fl_rne_CartToJnt rnd fsin fcos c st q qd qdd fext tau) (rne_CartToJnt c st q qd qdd fext tau).
Proof.
  destruct (fl_rne_error c st q qd qdd fext tau) as (K & K0 & H). exists K. split; [exact K0|].
  intros eps rnd fsin fcos (He & Hr & Hs & Hc). specialize (H eps rnd fsin fcos He Hr Hs Hc). unfold same_call, within.
  destruct (rne_CartToJnt c st q qd qdd fext tau) as [[a b]|]; destruct (fl_rne_CartToJnt rnd fsin fcos c st q qd qdd fext tau) as [[a' b']|]; auto.
Qed.

Lemma same_ret d F code T : same_call d F (Ret (code, T)) -> exists T', F = Ret (code, T') /\ within d T' T.
Proof. unfold same_call. destruct F as [[a b]|]; [|tauto]. intros [-> H]. exists b. auto. Qed.

Theorem rne_torques g c st q qd qdd fext tau : chain_ok c -> rne_reach g c st -> rne_current c st ->
  length q = ch_nj c -> length qd = ch_nj c -> length qdd = ch_nj c -> length tau = ch_nj c -> length fext = ch_ns c ->
  exists K T, 0 <= K /\ rne_CartToJnt c st q qd qdd fext tau = Ret (E_NOERROR, T) /\
    forall eps rnd fsin fcos, arithmetic eps rnd fsin fcos ->
    exists T', fl_rne_CartToJnt rnd fsin fcos c st q qd qdd fext tau = Ret (E_NOERROR, T') /\ within (K * eps) T' T.
Proof.
  intros Hc Hr [E1 E2] Hq Hqd Hqdd Ht Hf.
  destruct (rne_recovers g c st q qd qdd fext tau Hc Hr Hq Hqd Hqdd Ht Hf) as (T & E & _).
  assert (U : rne_update c st = st) by (destruct st; unfold rne_update in *; cbn in *; subst; reflexivity). rewrite U in E.
  destruct (rne_same_call c st q qd qdd fext tau) as (K & K0 & H). exists K, T. split; [exact K0|]. split; [exact E|].
  intros eps rnd fsin fcos A. specialize (H eps rnd fsin fcos A). rewrite E in H. apply same_ret, H.
Qed.

Theorem dyn_same_call c st q qd out : exists K, 0 <= K /\ forall eps rnd fsin fcos, arithmetic eps rnd fsin fcos ->
  same_call (K * eps) (fl_dyn_JntToCoriolis rnd fsin fcos c st q qd out) (dyn_JntToCoriolis c st q qd out) /\
  same_call (K * eps) (fl_dyn_JntToGravity rnd fsin fcos c st q out) (dyn_JntToGravity c st q out).
Proof.
  destruct (rne_same_call c (dp_coriolis st) q qd (map (fun _ => 0) (dp_null st)) (dp_wnull st) out) as (K & K0 & H).
  destruct (rne_same_call c (dp_gravity st) q (map (fun _ => 0) (dp_null st)) (map (fun _ => 0) (dp_null st)) (dp_wnull st) out) as (L & L0 & H').
  exists (K + L). split; [lra|]. intros eps rnd fsin fcos A. pose proof (proj1 A) as [e0 _].
  assert (0 <= K * eps) by (apply Rmult_le_pos; lra). assert (0 <= L * eps) by (apply Rmult_le_pos; lra).
  assert (W : forall d d' r' r, d <= d' -> same_call d r' r -> same_call d' r' r).
  { intros d d' r' r D S. unfold same_call in *. destruct r' as [[? ?]|], r as [[? ?]|]; auto. destruct S as [S1 S2]. split; [exact S1|].
    eapply Forall2_imp; [|exact S2]. cbn. intros; lra. }
  split; [eapply W; [|apply (H eps rnd fsin fcos A)]|eapply W; [|apply (H' eps rnd fsin fcos A)]]; lra.
Qed.

Lemma digits_arithmetic p : (1 <= p)%Z -> arithmetic (bpow radix2 (1 - p)) (digits p) (fun x => digits p (sin x)) (fun x => digits p (cos x)).
Proof.
  intros Hp. assert (B0 : 0 < bpow radix2 (1 - p)) by apply bpow_gt_0.
  assert (B1 : bpow radix2 (1 - p) <= 1) by (change 1 with (bpow radix2 0); apply bpow_le; lia).
  assert (E : forall x, Rabs (digits p x - x) <= bpow radix2 (1 - p) * Rabs x).
  { intros x. unfold digits. assert (P : Prec_gt_0 p) by (unfold Prec_gt_0; lia).
    pose proof (relative_error_N_FLX radix2 p P (fun x => negb (Z.even x)) x) as Q. replace (- p + 1)%Z with (1 - p)%Z in Q by ring.
    assert (0 <= bpow radix2 (1 - p) * Rabs x) by (apply Rmult_le_pos; [lra|apply Rabs_pos]). eapply Rle_trans; [exact Q|]. lra. }
  assert (T : forall y, -1 <= y <= 1 -> Rabs (digits p y - y) <= bpow radix2 (1 - p)).
  { intros y Hy. eapply Rle_trans; [apply E|]. assert (Rabs y <= 1) by (apply Rabs_le; lra).
    assert (bpow radix2 (1 - p) * Rabs y <= bpow radix2 (1 - p) * 1) by (apply Rmult_le_compat_l; lra). lra. }
  split; [lra|]. split; [|split].
  - intros x. eapply Rle_trans; [apply E|]. apply Rmult_le_compat_l; lra.
  - intros x. apply T, SIN_bound.
  - intros x. apply T, COS_bound.
Qed.

Theorem rne_digits c st q qd qdd fext tau : exists K, 0 <= K /\ forall p, (1 <= p)%Z ->
  same_call (K * bpow radix2 (1 - p)) (fl_rne_CartToJnt (digits p) (fun x => digits p (sin x)) (fun x => digits p (cos x)) c st q qd qdd fext tau)
    (rne_CartToJnt c st q qd qdd fext tau).
Proof.
  destruct (rne_same_call c st q qd qdd fext tau) as (K & K0 & H). exists K. split; [exact K0|].
  intros p Hp. apply H, digits_arithmetic, Hp.
Qed.

Theorem rne_limit c st q qd qdd fext tau tol : 0 < tol -> exists e0, 0 < e0 /\ forall eps rnd fsin fcos, arithmetic eps rnd fsin fcos -> eps <= e0 ->
  same_call tol (fl_rne_CartToJnt rnd fsin fcos c st q qd qdd fext tau) (rne_CartToJnt c st q qd qdd fext tau).
Proof.
  intros Ht. destruct (rne_same_call c st q qd qdd fext tau) as (K & K0 & H). exists (tol / (K + 1)). split; [apply Rdiv_lt_0_compat; lra|].
  intros eps rnd fsin fcos A L. specialize (H eps rnd fsin fcos A). pose proof (proj1 A) as [e0 _].
  assert (D : K * eps <= tol).
  { assert (K * eps <= (K + 1) * eps) by lra. assert ((K + 1) * eps <= (K + 1) * (tol / (K + 1))) by (apply Rmult_le_compat_l; lra).
    replace ((K + 1) * (tol / (K + 1))) with tol in * by (field; lra). lra. }
  unfold same_call in *. destruct (fl_rne_CartToJnt rnd fsin fcos c st q qd qdd fext tau) as [[? ?]|], (rne_CartToJnt c st q qd qdd fext tau) as [[? ?]|]; auto.
  destruct H as [S1 S2]. split; [exact S1|]. eapply Forall2_imp; [|exact S2]. cbn. intros; lra.
Qed.

(** The arm of C35 in p-digit arithmetic, moving under gravity and a push. *)
Theorem warm_digits : exists K T, 0 <= K /\
  rne_CartToJnt wchain (rne_make wchain wgrav) [1 / 3; 1 / 7] [1; 2] [3; -1] (repeat (mkW (mkV 1 2 3) (mkV 0 0 1)) 3) [0; 0] = Ret (E_NOERROR, T) /\
  forall p, (1 <= p)%Z -> exists T', fl_rne_CartToJnt (digits p) (fun x => digits p (sin x)) (fun x => digits p (cos x)) wchain (rne_make wchain wgrav)
    [1 / 3; 1 / 7] [1; 2] [3; -1] (repeat (mkW (mkV 1 2 3) (mkV 0 0 1)) 3) [0; 0] = Ret (E_NOERROR, T') /\ within (K * bpow radix2 (1 - p)) T' T.
Proof.
  destruct (rne_torques wgrav wchain (rne_make wchain wgrav) [1 / 3; 1 / 7] [1; 2] [3; -1] (repeat (mkW (mkV 1 2 3) (mkV 0 0 1)) 3) [0; 0]
    wchain_ok (rne_r_make _ _) (conj eq_refl eq_refl) eq_refl eq_refl eq_refl eq_refl eq_refl) as (K & T & K0 & E & H).
  exists K, T. split; [exact K0|]. split; [exact E|].
  intros p Hp. apply H, digits_arithmetic, Hp.
Qed.
