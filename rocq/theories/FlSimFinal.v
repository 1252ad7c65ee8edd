(** Simulations in rounded arithmetic. *)
From Coq Require Import Reals String List ZArith Bool Lra Lia.
From Flocq Require Import Core.
From Verif Require Import FramesModel FramesSpec Outcome InertiaModel InertiaSpec DualModel KinModel KinSpec LinModel LinSpec DynModel DynSpec DynProofs FdProofs
  PosDefSpec PosDefProofs RobotModel RobotSpec RobotProofs RobotDyn FlModel FlDynModel FlMassModel FlSpec FlDynSpec FlMassSpec FlDynProofs FlDynMain FlDynFinal FlMassProofs FlFdProofs FlMassFinal
  FlSimModel FlSimSpec FlSimProofs.
Import ListNotations.
Local Open Scope list_scope.
Local Open Scope R_scope.

Theorem sim_buffers g c st tau fext dt qdd n q v : chain_ok c -> inertias_symmetric c -> inertias_psd c -> joints_carry c ->
  fd_made g c st -> fd_current c st ->
  length q = ch_nj c -> length v = ch_nj c -> length tau = ch_nj c -> length qdd = ch_nj c -> length fext = ch_ns c ->
  exists K e0, 0 <= K /\ 0 < e0 /\ forall eps rnd fsin fcos, arithmetic eps rnd fsin fcos -> eps <= e0 ->
    exists q' v', fl_simulate rnd fsin fcos c st tau fext dt qdd n q v = Ret (q', v') /\
      within (K * eps) q' (fst (simulate (stage c st tau fext) dt qdd n q v)) /\ within (K * eps) v' (snd (simulate (stage c st tau fext) dt qdd n q v)).
Proof.
  intros Hok Sy Ps Jc Iv Cu Lq Lv Lt Lo Lf. apply made_inv in Iv. pose proof Iv as (_ & _ & B1 & B2 & _).
  assert (Pv : forall q, length q = ch_nj c -> exists M, dyn_JntToMass c (dyn_make c g) q (fd_H st) = Ret (E_NOERROR, M) /\ pivots_ok (ch_nj c) (mentry M)).
  { intros p Lp. destruct (pd_mass g c (dyn_make c g) p (fd_H st) Hok Sy Ps Jc (dyn_r_make _ _) (conj eq_refl eq_refl) Lp B1 B2) as (M & EM & SM & PM).
    exists M. split; [exact EM|]. apply pd_pivots; assumption. }
  destruct (simulate_lin g c st tau fext Hok Iv Cu Lt Lf Pv dt qdd Lo n (fun _ => q) q (fun _ => v) v (llin_const lin q lin_const) (llin_const lin v lin_const) Lq Lv) as (q' & v' & HQ & HV & E).
  destruct (llin_bound _ _ HQ) as (K & d & K0 & D & HK), (llin_bound _ _ HV) as (K2 & d2 & K20 & D2 & HK2). cbn in D, D2.
  exists (K + K2), (Rmin d d2). split; [lra|]. split; [apply Rmin_glb_lt; assumption|].
  intros eps rnd fsin fcos ([e0 e1] & R1 & R2 & R3) Le. pose (e := mkEnv eps rnd fsin fcos e0 e1 R1 R2 R3). pose proof (Rmin_l d d2). pose proof (Rmin_r d d2).
  assert (0 <= K * eps) by (apply Rmult_le_pos; lra). assert (0 <= K2 * eps) by (apply Rmult_le_pos; lra).
  exists (q' e), (v' e). split; [apply (E e)|]. split.
  - eapply Forall2_imp; [|apply (HK e); cbn; lra]. cbn. intros; lra.
  - eapply Forall2_imp; [|apply (HK2 e); cbn; lra]. cbn. intros; lra.
Qed.

Theorem sim_error g c st tau fext dt qdd n q v : chain_ok c -> inertias_symmetric c -> inertias_psd c -> joints_carry c ->
  fd_reach g c c st -> fd_current c st ->
  length q = ch_nj c -> length v = ch_nj c -> length tau = ch_nj c -> length qdd = ch_nj c -> length fext = ch_ns c ->
  exists K e0, 0 <= K /\ 0 < e0 /\ forall eps rnd fsin fcos, arithmetic eps rnd fsin fcos -> eps <= e0 ->
    exists q' v', fl_simulate rnd fsin fcos c st tau fext dt qdd n q v = Ret (q', v') /\
      within (K * eps) q' (fst (simulate (stage c st tau fext) dt qdd n q v)) /\ within (K * eps) v' (snd (simulate (stage c st tau fext) dt qdd n q v)).
Proof. intros Hok Sy Ps Jc Fr. apply sim_buffers with (g := g); auto. apply made_inv, (fd_reach_inv g c c st Hok Fr). Qed.

Theorem sim_limit g c st tau fext dt qdd n q v tol : chain_ok c -> inertias_symmetric c -> inertias_psd c -> joints_carry c ->
  fd_reach g c c st -> fd_current c st ->
  length q = ch_nj c -> length v = ch_nj c -> length tau = ch_nj c -> length qdd = ch_nj c -> length fext = ch_ns c -> 0 < tol ->
  exists e0, 0 < e0 /\ forall eps rnd fsin fcos, arithmetic eps rnd fsin fcos -> eps <= e0 ->
    exists q' v', fl_simulate rnd fsin fcos c st tau fext dt qdd n q v = Ret (q', v') /\
      within tol q' (fst (simulate (stage c st tau fext) dt qdd n q v)) /\ within tol v' (snd (simulate (stage c st tau fext) dt qdd n q v)).
Proof.
  intros Hok Sy Ps Jc Fr Cu Lq Lv Lt Lo Lf Tl.
  destruct (sim_error g c st tau fext dt qdd n q v Hok Sy Ps Jc Fr Cu Lq Lv Lt Lo Lf) as (K & e0 & K0 & E0 & H).
  assert (P : 0 < tol / (K + 1)) by (apply Rdiv_lt_0_compat; lra).
  exists (Rmin e0 (tol / (K + 1))). split; [apply Rmin_glb_lt; assumption|]. intros eps rnd fsin fcos A Le.
  pose proof (Rmin_l e0 (tol / (K + 1))). pose proof (Rmin_r e0 (tol / (K + 1))). pose proof (proj1 A) as [z0 _].
  destruct (H eps rnd fsin fcos A ltac:(lra)) as (q' & v' & E & Wq & Wv). exists q', v'. split; [exact E|].
  assert (D : K * eps <= tol).
  { assert (K * eps <= (K + 1) * eps) by lra. assert ((K + 1) * eps <= (K + 1) * (tol / (K + 1))) by (apply Rmult_le_compat_l; lra).
    replace ((K + 1) * (tol / (K + 1))) with tol in * by (field; lra). lra. }
  split; (eapply Forall2_imp; [|eassumption]; cbn; intros; lra).
Qed.

(** In exact arithmetic the buffers do not matter. *)
Theorem stage_same g c st st2 tau fext q v old old2 : chain_ok c -> inertias_symmetric c -> inertias_psd c -> joints_carry c ->
  fd_reach g c c st -> fd_current c st -> fd_reach g c c st2 -> fd_current c st2 ->
  length q = ch_nj c -> length v = ch_nj c -> length tau = ch_nj c -> length old = ch_nj c -> length old2 = ch_nj c -> length fext = ch_ns c ->
  stage c st tau fext q v old = stage c st2 tau fext q v old2.
Proof.
  intros Hok Sy Ps Jc F1 C1 F2 C2 Lq Lv Lt Lo Lo2 Lf.
  destruct (pd_forward g c st (rne_make c g) q v tau fext old tau Hok Sy Ps Jc F1 C1 (rne_r_make _ _) (conj eq_refl eq_refl) Lq Lv Lt Lo Lf Lt) as (out & s1 & E1 & _ & _ & U).
  destruct (pd_forward g c st2 (rne_make c g) q v tau fext old2 tau Hok Sy Ps Jc F2 C2 (rne_r_make _ _) (conj eq_refl eq_refl) Lq Lv Lt Lo2 Lf Lt) as (out2 & s2 & E2 & L2 & R2 & _).
  unfold stage. rewrite E1, E2. apply U; assumption.
Qed.

(** The Puma 560 of the models directory, released from any position and velocity, in p-digit arithmetic. *)
Theorem puma_sim g tau dt n q v : length q = 6%nat -> length v = 6%nat -> length tau = 6%nat ->
  exists K p0, 0 <= K /\ forall p, (p0 <= p)%Z ->
    exists q' v', fl_simulate (digits p) (fun x => digits p (sin x)) (fun x => digits p (cos x)) puma (fd_make puma g) tau (repeat w_zero 11) dt (repeat 0 6) n q v = Ret (q', v') /\
      within (K * bpow radix2 (1 - p)) q' (fst (simulate (stage puma (fd_make puma g) tau (repeat w_zero 11)) dt (repeat 0 6) n q v)) /\
      within (K * bpow radix2 (1 - p)) v' (snd (simulate (stage puma (fd_make puma g) tau (repeat w_zero 11)) dt (repeat 0 6) n q v)).
Proof.
  intros Lq Lv Lt. destruct puma_counts as [N1 N2].
  destruct (sim_error g puma (fd_make puma g) tau (repeat w_zero 11) dt (repeat 0 6) n q v puma_ok puma_symmetric puma_psd puma_carry (fd_r_make _ _) (conj eq_refl eq_refl))
    as (K & e0 & K0 & E0 & H); rewrite ?N1, ?N2; auto; try (apply repeat_length).
  destruct (digits_below e0 E0) as (p0 & P1 & P0). exists K, p0. split; [exact K0|]. intros p Hp. apply H; [apply digits_arithmetic; lia|apply P0, Hp].
Qed.

(** * Arguments stored as floating point numbers *)
Lemma llin_rounded {mo : mode} l : llin lin (fun e => map (e_rnd e) l) l.
Proof.
  exists (map (fun x e => e_rnd e x) l). split.
  - intros e. rewrite map_map. reflexivity.
  - induction l as [|x l IH]; cbn [map]; constructor; [|exact IH]. apply (lin_rnd (fun _ => x)), lin_const.
Qed.
Theorem rne_stored c st q qd qdd fext tau : exists K, 0 <= K /\ forall eps rnd fsin fcos, arithmetic eps rnd fsin fcos ->
  same_call (K * eps) (fl_rne_CartToJnt rnd fsin fcos c st (map rnd q) (map rnd qd) (map rnd qdd) fext tau) (rne_CartToJnt c st q qd qdd fext tau).
Proof.
  pose proof (@rne_lin_w always c st _ q _ qd _ qdd fext tau (llin_rounded q) (llin_rounded qd) (llin_rounded qdd)) as H.
  destruct (rne_CartToJnt c st q qd qdd fext tau) as [[code T]|]; cbn in H.
  - destruct H as (r' & E & (j & t' & t & Er & X & Ht)). injection X as <- <-.
    destruct (llin_bound _ _ Ht) as (K & d & K0 & D & HK). cbn in D. subst d. exists K. split; [exact K0|].
    intros eps rnd fsin fcos ([e0 e1] & R1 & R2 & R3). pose (e := mkEnv eps rnd fsin fcos e0 e1 R1 R2 R3). pose proof (E e) as Ee.
    rewrite Er in Ee. cbn in Ee. rewrite Ee. split; [reflexivity|]. apply (HK e), e1.
  - exists 0. split; [lra|]. intros eps rnd fsin fcos ([e0 e1] & R1 & R2 & R3). pose proof (H (mkEnv eps rnd fsin fcos e0 e1 R1 R2 R3)) as Ee. cbn in Ee. rewrite Ee. exact I.
Qed.
Theorem mass_stored c st q H : exists K, 0 <= K /\ forall eps rnd fsin fcos, arithmetic eps rnd fsin fcos ->
  same_mass (K * eps) (fl_dyn_JntToMass rnd fsin fcos c st (map rnd q) H) (dyn_JntToMass c st q H).
Proof.
  pose proof (@mass_lin_v always c st _ q H (llin_rounded q)) as O. destruct (dyn_JntToMass c st q H) as [[code M]|]; cbn in O.
  - destruct O as (m' & E & (z & M' & Ma & E' & X & HM)). injection X as <- <-.
    destruct (mlin_bound M' M (mrows M) (mcols M) HM) as (K & d & K0 & D & HK). cbn in D. subst d. exists K. split; [exact K0|].
    intros eps rnd fsin fcos ([e0 e1] & R1 & R2 & R3). pose (e := mkEnv eps rnd fsin fcos e0 e1 R1 R2 R3).
    pose proof (E e) as Ee. rewrite E' in Ee. cbn in Ee. rewrite Ee. cbn. split; [reflexivity|]. destruct HM as (H1 & H2 & _).
    split; [apply H1|]. split; [apply H2|]. apply (HK e), e1.
  - exists 0. split; [lra|]. intros eps rnd fsin fcos ([e0 e1] & R1 & R2 & R3). pose proof (O (mkEnv eps rnd fsin fcos e0 e1 R1 R2 R3)) as Ee. cbn in Ee. rewrite Ee. exact I.
Qed.
Theorem forward_stored g c st q qd tau fext qdd : chain_ok c -> inertias_symmetric c -> inertias_psd c -> joints_carry c ->
  fd_reach g c c st -> fd_current c st ->
  length q = ch_nj c -> length qd = ch_nj c -> length tau = ch_nj c -> length qdd = ch_nj c -> length fext = ch_ns c ->
  exists K e0 out st', 0 <= K /\ 0 < e0 /\ fd_CartToJnt c st q qd tau fext qdd = Ret (E_NOERROR, out, st') /\
    forall eps rnd fsin fcos, arithmetic eps rnd fsin fcos -> eps <= e0 ->
    exists out', fl_fd_CartToJnt rnd fsin fcos c st (map rnd q) (map rnd qd) (map rnd tau) fext qdd = Ret (E_NOERROR, out') /\ within (K * eps) out' out.
Proof.
  intros Hok Sy Ps Jc Fr Cu Lq Lv Lt Lo Lf. destruct (fd_reach_inv g c c st Hok Fr) as [Iv _]. pose proof Iv as (_ & _ & B1 & B2 & _).
  destruct (pd_mass g c (dyn_make c g) q (fd_H st) Hok Sy Ps Jc (dyn_r_make _ _) (conj eq_refl eq_refl) Lq B1 B2) as (M & EM & SM & PM).
  destruct (fd_lin_v g c c st _ q _ qd _ tau fext (fun _ => qdd) qdd M Hok (conj eq_refl eq_refl) Iv Cu (llin_rounded q) (llin_rounded qd) (llin_rounded tau)
    (fun _ => eq_refl) Lq Lv Lt Lo Lf EM (pd_pivots _ _ SM PM)) as (out & st' & x' & E & Hx & _ & E').
  destruct (llin_bound _ _ Hx) as (K & d & K0 & D & HK). cbn in D. exists K, d, out, st'. split; [exact K0|]. split; [exact D|]. split; [exact E|].
  intros eps rnd fsin fcos ([e0 e1] & R1 & R2 & R3) Le. pose (e := mkEnv eps rnd fsin fcos e0 e1 R1 R2 R3).
  exists (x' e). split; [apply (E' e)|apply (HK e Le)].
Qed.
