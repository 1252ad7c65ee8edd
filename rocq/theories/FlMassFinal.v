(** Mass matrices and forward dynamics in rounded arithmetic. *)
From Coq Require Import Reals String List ZArith Bool Lra Lia.
From Flocq Require Import Core.
From Verif Require Import FramesModel FramesSpec Outcome InertiaModel InertiaSpec DualModel KinModel KinSpec LinModel LinSpec LdlProofs DynModel DynSpec DynProofs FdProofs DynWitness
  PosDefSpec PosDefProofs FlModel FlDynModel FlMassModel FlSpec FlDynSpec FlMassSpec FlDynProofs FlDynMain FlDynFinal FlMassProofs FlFdProofs.
Import ListNotations.
Local Open Scope list_scope.
Local Open Scope R_scope.

Theorem mass_same_call c st q H : exists K, 0 <= K /\ forall eps rnd fsin fcos, arithmetic eps rnd fsin fcos ->
  same_mass (K * eps) (fl_dyn_JntToMass rnd fsin fcos c st q H) (dyn_JntToMass c st q H).
Proof.
  pose proof (@mass_lin always c st q H) as O. destruct (dyn_JntToMass c st q H) as [[code M]|]; cbn in O.
  - destruct O as (m' & E & (z & M' & Ma & E' & X & HM)). injection X as <- <-.
    destruct (mlin_bound M' M (mrows M) (mcols M) HM) as (K & d & K0 & D & HK). cbn in D. subst d. exists K. split; [exact K0|].
    intros eps rnd fsin fcos ([e0 e1] & R1 & R2 & R3). pose (e := mkEnv eps rnd fsin fcos e0 e1 R1 R2 R3).
    pose proof (E e) as Ee. rewrite E' in Ee. cbn in Ee. rewrite Ee. cbn. split; [reflexivity|]. destruct HM as (H1 & H2 & _).
    split; [apply H1|]. split; [apply H2|]. apply (HK e), e1.
  - exists 0. split; [lra|]. intros eps rnd fsin fcos ([e0 e1] & R1 & R2 & R3). pose proof (O (mkEnv eps rnd fsin fcos e0 e1 R1 R2 R3)) as Ee. cbn in Ee. rewrite Ee. exact I.
Qed.

Lemma made_inv g c0 st : fd_made g c0 st <-> fd_inv g c0 st.
Proof. reflexivity. Qed.

Lemma forward_of g c0 c st q qd tau fext qdd M : chain_ok c -> same_counts c0 c -> fd_inv g c0 st -> fd_current c st ->
  length q = ch_nj c -> length qd = ch_nj c -> length tau = ch_nj c -> length qdd = ch_nj c -> length fext = ch_ns c ->
  dyn_JntToMass c (dyn_make c0 g) q (fd_H st) = Ret (E_NOERROR, M) -> pivots_ok (ch_nj c) (mentry M) ->
  exists K e0 out st', 0 <= K /\ 0 < e0 /\ fd_CartToJnt c st q qd tau fext qdd = Ret (E_NOERROR, out, st') /\
    forall eps rnd fsin fcos, arithmetic eps rnd fsin fcos -> eps <= e0 ->
    exists out', fl_fd_CartToJnt rnd fsin fcos c st q qd tau fext qdd = Ret (E_NOERROR, out') /\ within (K * eps) out' out.
Proof.
  intros Hok Sc Iv Cu Hq Hqd Ht Hqdd Hf EM Pv.
  destruct (fd_lin g c0 c st q qd (fun _ => tau) tau fext qdd M Hok Sc Iv Cu (llin_const lin tau lin_const) Hq Hqd Ht Hqdd Hf EM Pv) as (out & st' & x' & E & Hx & E').
  destruct (llin_bound _ _ Hx) as (K & d & K0 & D & HK). cbn in D.
  exists K, d, out, st'. split; [exact K0|]. split; [exact D|]. split; [exact E|].
  intros eps rnd fsin fcos ([e0 e1] & R1 & R2 & R3) Le. pose (e := mkEnv eps rnd fsin fcos e0 e1 R1 R2 R3).
  exists (x' e). split; [apply (E' e)|apply (HK e Le)].
Qed.

Theorem forward_buffers g c0 c st q qd tau fext qdd ds H M : chain_ok c -> fd_made g c0 st -> same_counts c0 c -> fd_current c st -> inertias_symmetric c ->
  dyn_reach g c ds -> dyn_current c ds -> mrows H = ch_nj c -> mcols H = ch_nj c ->
  length q = ch_nj c -> length qd = ch_nj c -> length tau = ch_nj c -> length qdd = ch_nj c -> length fext = ch_ns c ->
  dyn_JntToMass c ds q H = Ret (E_NOERROR, M) -> pivots_ok (ch_nj c) (mentry M) ->
  exists K e0 out st', 0 <= K /\ 0 < e0 /\ fd_CartToJnt c st q qd tau fext qdd = Ret (E_NOERROR, out, st') /\
    forall eps rnd fsin fcos, arithmetic eps rnd fsin fcos -> eps <= e0 ->
    exists out', fl_fd_CartToJnt rnd fsin fcos c st q qd tau fext qdd = Ret (E_NOERROR, out') /\ within (K * eps) out' out.
Proof.
  intros Hok Iv Sc Cu Sy Dr Dc R1 R2 Hq Hqd Ht Hqdd Hf EM Pv. apply made_inv in Iv. pose proof Sc as [N1 N2]. pose proof Iv as (_ & _ & B1 & B2 & _). rewrite N1 in B1, B2.
  destruct (fd_result g c0 c st q qd tau fext qdd Hok Sc Iv Cu Hq Hqd Ht Hqdd Hf) as (_ & _ & M2 & _ & _ & _ & _ & _ & EM2 & _).
  apply (forward_of g c0 c st q qd tau fext qdd M2); auto.
  apply (pivots_ext _ (mentry M)); [|exact Pv].
  apply (mass_same g c ds (dyn_make c0 g) q H (fd_H st) M M2 Hok Sy Dr Dc (proj1 (same_counts_reach g c0 c))); auto.
Qed.

Theorem forward_error g c0 c st q qd tau fext qdd ds H M : chain_ok c0 -> fd_reach g c0 c st -> same_counts c0 c -> fd_current c st -> inertias_symmetric c ->
  dyn_reach g c ds -> dyn_current c ds -> mrows H = ch_nj c -> mcols H = ch_nj c ->
  length q = ch_nj c -> length qd = ch_nj c -> length tau = ch_nj c -> length qdd = ch_nj c -> length fext = ch_ns c ->
  dyn_JntToMass c ds q H = Ret (E_NOERROR, M) -> pivots_ok (ch_nj c) (mentry M) ->
  exists K e0 out st', 0 <= K /\ 0 < e0 /\ fd_CartToJnt c st q qd tau fext qdd = Ret (E_NOERROR, out, st') /\
    forall eps rnd fsin fcos, arithmetic eps rnd fsin fcos -> eps <= e0 ->
    exists out', fl_fd_CartToJnt rnd fsin fcos c st q qd tau fext qdd = Ret (E_NOERROR, out') /\ within (K * eps) out' out.
Proof.
  intros H0 Fr. destruct (fd_reach_inv g c0 c st H0 Fr) as [Iv Hok]. apply forward_buffers; assumption.
Qed.

Theorem forward_mass g c st q qd tau fext qdd : chain_ok c -> inertias_symmetric c -> inertias_psd c -> joints_carry c ->
  fd_reach g c c st -> fd_current c st ->
  length q = ch_nj c -> length qd = ch_nj c -> length tau = ch_nj c -> length qdd = ch_nj c -> length fext = ch_ns c ->
  exists K e0 out st', 0 <= K /\ 0 < e0 /\ fd_CartToJnt c st q qd tau fext qdd = Ret (E_NOERROR, out, st') /\
    forall eps rnd fsin fcos, arithmetic eps rnd fsin fcos -> eps <= e0 ->
    exists out', fl_fd_CartToJnt rnd fsin fcos c st q qd tau fext qdd = Ret (E_NOERROR, out') /\ within (K * eps) out' out.
Proof.
  intros Hok Sy Ps Jc Fr Cu Hq Hqd Ht Hqdd Hf.
  destruct (pd_mass g c (dyn_make c g) q (mat_zero (ch_nj c)) Hok Sy Ps Jc (dyn_r_make _ _) (conj eq_refl eq_refl) Hq eq_refl eq_refl) as (M & EM & SM & PM).
  apply (forward_error g c c st q qd tau fext qdd (dyn_make c g) (mat_zero (ch_nj c)) M); auto; try reflexivity.
  - split; reflexivity.
  - apply dyn_r_make.
  - split; reflexivity.
  - apply pd_pivots; assumption.
Qed.

(** Solving A x = b alone. *)
Theorem ldl_error A v L D t q n : mrows A = n -> mcols A = n -> length v = n -> mrows L = n -> mcols L = n -> length D = n -> length t = n -> length q = n -> pivots_ok n (mentry A) ->
  exists K e0 L2 D2 y x, 0 <= K /\ 0 < e0 /\ ldl_solver A v L D t q = Ret (E_NOERROR, (L2, D2, y, x)) /\
    forall eps rnd, 0 <= eps <= 1 -> rounds eps rnd -> eps <= e0 ->
    exists x', fl_ldl_solver rnd A v L D t q = Ret (E_NOERROR, x') /\ within (K * eps) x' x.
Proof.
  intros HA1 HA2 Lv HL1 HL2 HD Ht Hq Pv.
  destruct (ldl_lin (fun _ => A) A (fun _ => v) v L D t q n (mlin_const A) (llin_const lin v lin_const) HA1 HA2 Lv HL1 HL2 HD Ht Hq Pv) as (L2 & D2 & y & x & x' & E & _ & Hx & E').
  destruct (llin_bound _ _ Hx) as (K & d & K0 & Dd & HK). cbn in Dd. exists K, d, L2, D2, y, x. split; [exact K0|]. split; [exact Dd|]. split; [exact E|].
  intros eps rnd [e0 e1] R1 Le.
  assert (R2 : computes eps sin sin) by (intros z; rewrite Rminus_diag_eq, Rabs_R0 by reflexivity; exact e0).
  assert (R3 : computes eps cos cos) by (intros z; rewrite Rminus_diag_eq, Rabs_R0 by reflexivity; exact e0).
  pose (e := mkEnv eps rnd sin cos e0 e1 R1 R2 R3).
  exists (x' e). split; [apply (E' e)|apply (HK e Le)].
Qed.

Lemma digits_below e0 : 0 < e0 -> exists p0, (1 <= p0)%Z /\ forall p, (p0 <= p)%Z -> bpow radix2 (1 - p) <= e0.
Proof.
  intros H. exists (Z.max 1 (2 - mag radix2 e0)). split; [lia|]. intros p Hp.
  apply Rle_trans with (bpow radix2 (mag radix2 e0 - 1)); [apply bpow_le; lia|].
  pose proof (bpow_mag_le radix2 e0 ltac:(lra)) as Q. rewrite Rabs_pos_eq in Q by lra. exact Q.
Qed.

(** The arm of C35 in p-digit arithmetic. *)
Theorem warm_forward : exists K p0 out st', 0 <= K /\
  fd_CartToJnt wchain (fd_make wchain wgrav) [1 / 3; 1 / 7] [1; 2] [3; -1] (repeat (mkW (mkV 1 2 3) (mkV 0 0 1)) 3) [0; 0] = Ret (E_NOERROR, out, st') /\
  forall p, (p0 <= p)%Z -> exists out', fl_fd_CartToJnt (digits p) (fun x => digits p (sin x)) (fun x => digits p (cos x)) wchain (fd_make wchain wgrav)
    [1 / 3; 1 / 7] [1; 2] [3; -1] (repeat (mkW (mkV 1 2 3) (mkV 0 0 1)) 3) [0; 0] = Ret (E_NOERROR, out') /\ within (K * bpow radix2 (1 - p)) out' out.
Proof.
  destruct dyn_nonvacuous as (Hok & Sy & _ & _ & _ & _ & _ & _ & _ & _ & _ & Pv).
  destruct (Pv [1 / 3; 1 / 7] (mat_zero 2) eq_refl eq_refl eq_refl) as (M & EM & PM).
  destruct (forward_error wgrav wchain wchain (fd_make wchain wgrav) [1 / 3; 1 / 7] [1; 2] [3; -1] (repeat (mkW (mkV 1 2 3) (mkV 0 0 1)) 3) [0; 0] (dyn_make wchain wgrav) (mat_zero 2) M
    Hok (fd_r_make _ _) (conj eq_refl eq_refl) (conj eq_refl eq_refl) Sy (dyn_r_make _ _) (conj eq_refl eq_refl) eq_refl eq_refl eq_refl eq_refl eq_refl eq_refl eq_refl EM PM)
    as (K & e0 & out & st' & K0 & E0 & E & H).
  destruct (digits_below e0 E0) as (p0 & P1 & P0). exists K, p0, out, st'. split; [exact K0|]. split; [exact E|].
  intros p Hp. apply H; [apply digits_arithmetic; lia|apply P0, Hp].
Qed.

(** Calls that are refused are refused alike. *)
Theorem forward_refused rnd fsin fcos c st q qd tau fext qdd :
  (~ fd_current c st -> fl_fd_CartToJnt rnd fsin fcos c st q qd tau fext qdd = Ret (E_NOT_UP_TO_DATE, qdd) /\
     fd_CartToJnt c st q qd tau fext qdd = Ret (E_NOT_UP_TO_DATE, qdd, st)) /\
  (fd_current c st -> ~ (length q = ch_nj c /\ length qd = ch_nj c /\ length qdd = ch_nj c /\ length tau = ch_nj c /\ length fext = ch_ns c) ->
     fl_fd_CartToJnt rnd fsin fcos c st q qd tau fext qdd = Ret (E_SIZE_MISMATCH, qdd) /\
     fd_CartToJnt c st q qd tau fext qdd = Ret (E_SIZE_MISMATCH, qdd, st)).
Proof.
  unfold fl_fd_CartToJnt, fd_CartToJnt. split.
  - intros N. destruct (Nat.eqb_spec (fd_nj st) (ch_nj c)); cbn [negb orb]; [|auto].
    destruct (Nat.eqb_spec (fd_ns st) (ch_ns c)); cbn [negb orb]; [|auto]. exfalso. apply N. split; assumption.
  - intros [E1 E2] N. rewrite E1, E2, !Nat.eqb_refl. cbn [negb orb].
    destruct (Nat.eqb_spec (length q) (ch_nj c)); cbn [andb negb]; [|auto]. destruct (Nat.eqb_spec (length qd) (ch_nj c)); cbn [andb negb]; [|auto].
    destruct (Nat.eqb_spec (length qdd) (ch_nj c)); cbn [andb negb]; [|auto]. destruct (Nat.eqb_spec (length tau) (ch_nj c)); cbn [andb negb]; [|auto].
    destruct (Nat.eqb_spec (length fext) (ch_ns c)); cbn [andb negb]; [|auto]. exfalso. apply N. auto.
Qed.
Theorem ldl_refused rnd A v L D t q : ~ (mcols A = mrows A /\ length v = mrows A /\ mrows L = mrows A /\ mcols L = mrows A /\ length D = mrows A /\ length t = mrows A /\ length q = mrows A) ->
  fl_ldl_solver rnd A v L D t q = Ret (E_SIZE_MISMATCH, q) /\ ldl_solver A v L D t q = Ret (E_SIZE_MISMATCH, (L, D, t, q)).
Proof.
  intros N. unfold fl_ldl_solver, ldl_solver.
  destruct (Nat.eqb_spec (mcols A) (mrows A)); cbn [andb negb]; [|auto]. destruct (Nat.eqb_spec (length v) (mrows A)); cbn [andb negb]; [|auto].
  destruct (Nat.eqb_spec (mrows L) (mrows A)); cbn [andb negb]; [|auto]. destruct (Nat.eqb_spec (mcols L) (mrows A)); cbn [andb negb]; [|auto].
  destruct (Nat.eqb_spec (length D) (mrows A)); cbn [andb negb]; [|auto]. destruct (Nat.eqb_spec (length t) (mrows A)); cbn [andb negb]; [|auto].
  destruct (Nat.eqb_spec (length q) (mrows A)); cbn [andb negb]; [|auto]. exfalso. apply N. auto 8.
Qed.
Lemma refused_example : forall rnd fsin fcos,
  fl_fd_CartToJnt rnd fsin fcos wchain (fd_make wchain wgrav) [1] [1; 2] [3; -1] (repeat (mkW (mkV 1 2 3) (mkV 0 0 1)) 3) [5; 6] = Ret (E_SIZE_MISMATCH, [5; 6]) /\
  fl_fd_CartToJnt rnd fsin fcos wchain' (fd_make wchain wgrav) [1; 1] [1; 2] [3; -1] (repeat (mkW (mkV 1 2 3) (mkV 0 0 1)) 3) [5; 6] = Ret (E_NOT_UP_TO_DATE, [5; 6]).
Proof.
  intros. split.
  - apply (forward_refused rnd fsin fcos wchain (fd_make wchain wgrav)); [split; reflexivity|]. intros [H _]. discriminate H.
  - apply (forward_refused rnd fsin fcos wchain' (fd_make wchain wgrav)). intros [H _]. discriminate H.
Qed.
