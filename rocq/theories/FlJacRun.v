(** Error of the Jacobian in rounded arithmetic: the whole solver. *)
From Coq Require Import Reals String List ZArith Bool Arith Lia Lra Psatz FunctionalExtensionality.
From Flocq Require Import Core.
From Verif Require Import FramesModel FramesSpec FramesProofs FrameOpsProofs Outcome LoopProofs InertiaModel DualModel KinModel KinSpec DerivProofs KinProofs JacProofs
  SvdRound RotNear LipProofs FlModel FlSpec FlProofs FlJoint FlChain FlWitness FlJacModel FlJacSpec FlJacProofs FlJacCols.
Import ListNotations.
Local Open Scope list_scope.
Local Open Scope R_scope.

(** Two loops in lock step. *)
Lemma for_loop_rel {S1 S2} (Rl : nat -> S1 -> S2 -> Prop) b1 b2 n : forall i s1 s2 t2,
  (forall k u1 u2 v2, (i <= k < i + n)%nat -> Rl k u1 u2 -> b2 k u2 = Ret v2 -> exists v1, b1 k u1 = Ret v1 /\ Rl (S k) v1 v2) ->
  Rl i s1 s2 -> for_loop n i b2 s2 = Ret t2 -> exists t1, for_loop n i b1 s1 = Ret t1 /\ Rl (i + n)%nat t1 t2.
Proof.
  induction n as [|n IH]; intros i s1 s2 t2 Hb Hi E; cbn [for_loop] in *.
  - injection E as <-. exists s1. rewrite Nat.add_0_r. auto.
  - destruct (b2 i s2) as [u2|] eqn:E2; [|discriminate]. cbn [obind] in E. destruct (Hb i s1 s2 u2 ltac:(lia) Hi E2) as (u1 & E1 & H1).
    rewrite E1. cbn [obind]. destruct (IH (S i) u1 u2 t2) as (t1 & E3 & H3); auto.
    + intros k w1 w2 v2 Hk. apply Hb. lia.
    + exists t1. split; [exact E3|]. replace (i + S n)%nat with (S i + n)%nat by lia. exact H3.
Qed.
Lemma Forall2_upd {X Y} (P : X -> Y -> Prop) l1 l2 : Forall2 P l1 l2 -> forall i x y, P x y -> Forall2 P (upd l1 i x) (upd l2 i y).
Proof. induction 1 as [|a b l1 l2 H F IH]; intros [|i] x y Hxy; cbn [upd]; auto. Qed.
Lemma Forall2_map2 {X Y X' Y'} (P : X -> Y -> Prop) (Q : X' -> Y' -> Prop) f g l1 l2 : (forall x y, P x y -> Q (f x) (g y)) -> Forall2 P l1 l2 -> Forall2 Q (map f l1) (map g l2).
Proof. intros H. induction 1; cbn [map]; auto. Qed.
Lemma Forall2_imp {X Y} (P Q : X -> Y -> Prop) l1 l2 : (forall x y, P x y -> Q x y) -> Forall2 P l1 l2 -> Forall2 Q l1 l2.
Proof. intros H. induction 1; auto. Qed.
Lemma Forall2_len {X Y} (P : X -> Y -> Prop) l1 l2 : Forall2 P l1 l2 -> length l1 = length l2. Proof. induction 1; cbn; congruence. Qed.
Lemma Forall2_same {X} (P : X -> X -> Prop) l : (forall x, P x x) -> Forall2 P l l. Proof. intros H. induction l; auto. Qed.

(** One iteration of the exact solver, taken apart. *)
Lemma jac_body_inv c mask q i st st2 : jac_body c mask q i st = Ret st2 -> exists s, chain_getSegment c i = Ret s /\
  if moving s then exists x l, aget q (js_j st) = Ret x /\ aget mask (js_j st) = Ret l /\
    let total := f_mul (js_T st) (segment_pose s x) in let J := map (fun u => t_RefPoint u (v_sub (fp total) (fp (js_T st)))) (js_jac st) in
    if l then st2 = mkJS (S (js_j st)) (js_k st) total (js_t st) J
    else let t := r_app_t (fM (js_T st)) (segment_twist s x 1) in (js_k st < length (js_jac st))%nat /\ st2 = mkJS (S (js_j st)) (S (js_k st)) total t (upd J (js_k st) t)
  else let total := f_mul (js_T st) (segment_pose s 0) in
    st2 = mkJS (js_j st) (js_k st) total (js_t st) (map (fun u => t_RefPoint u (v_sub (fp total) (fp (js_T st)))) (js_jac st)).
Proof.
  unfold jac_body. destruct (chain_getSegment c i) as [s|] eqn:Es; [|discriminate]. cbn [obind]. intros E. exists s. split; [reflexivity|].
  destruct (moving s).
  - destruct (aget q (js_j st)) as [x|]; [|discriminate]. cbn [obind] in E. destruct (aget mask (js_j st)) as [l|]; [|discriminate]. cbn [obind] in E.
    rewrite jac_inplace_map in E. cbn [obind] in E. exists x, l. split; [reflexivity|]. split; [reflexivity|]. cbv zeta. destruct l; cbn [negb] in E.
    + injection E as <-. reflexivity.
    + unfold jac_setColumn in E. match type of E with (let! _ := aset ?a ?b ?d in _) = _ => destruct (aset a b d) as [l'|] eqn:Ea; [|discriminate] end.
      cbn [obind] in E. injection E as <-. apply aset_Ret_inv in Ea. rewrite map_length in Ea. destruct Ea as (L & ->). auto.
  - cbn [obind] in E. rewrite jac_inplace_map in E. cbn [obind] in E. injection E as <-. reflexivity.
Qed.
(** The same iteration of the rounded solver. *)
Lemma fl_jac_body_run rnd fsin fcos c mask q i st s : chain_getSegment c i = Ret s ->
  (if moving s then exists x l, aget q (js_j st) = Ret x /\ aget mask (js_j st) = Ret l /\ (l = false -> (js_k st < length (js_jac st))%nat) else True) ->
  fl_jac_body rnd fsin fcos c mask q i st = Ret
   (if moving s then
      let x := match aget q (js_j st) with Ret x => x | Undef => 0 end in let l := match aget mask (js_j st) with Ret l => l | Undef => false end in
      let total := fl_f_mul rnd (js_T st) (fl_segment_pose rnd fsin fcos s x) in
      let J := map (fun u => fl_t_RefPoint rnd u (fl_v_sub rnd (fp total) (fp (js_T st)))) (js_jac st) in
      if l then mkJS (S (js_j st)) (js_k st) total (js_t st) J
      else let t := fl_r_app_t rnd (fM (js_T st)) (fl_segment_twist rnd fsin fcos s x 1) in mkJS (S (js_j st)) (S (js_k st)) total t (upd J (js_k st) t)
    else let total := fl_f_mul rnd (js_T st) (fl_segment_pose rnd fsin fcos s 0) in
      mkJS (js_j st) (js_k st) total (js_t st) (map (fun u => fl_t_RefPoint rnd u (fl_v_sub rnd (fp total) (fp (js_T st)))) (js_jac st))).
Proof.
  intros Es H. unfold fl_jac_body. rewrite Es. cbn [obind]. destruct (moving s).
  - destruct H as (x & l & Ex & El & Hk). rewrite Ex, El. cbn [obind]. rewrite jac_inplace_map. cbn [obind]. destruct l; cbn [negb]; [reflexivity|].
    unfold jac_setColumn. rewrite aset_ret by (rewrite map_length; auto). reflexivity.
  - cbn [obind]. rewrite jac_inplace_map. reflexivity.
Qed.

Section Run.
Variables (eps A D B : R) (rnd fsin fcos : R -> R).
Hypothesis HA : 1 <= A.
Hypothesis HD : 1 <= D.
Hypothesis HB : 1 <= B.
Hypothesis He : 0 <= eps.
Hypothesis Hrnd : rounds eps rnd.
Hypothesis Hsin : computes eps fsin sin.
Hypothesis Hcos : computes eps fcos cos.

Definition step_rel (c : Chain) (n i : nat) (st' st : jacstate) : Prop :=
  js_j st' = js_j st /\ js_k st' = js_k st /\ js_j st = count_moving (firstn i (ch_segs c)) /\
  run_ok eps A D n i (js_T st') (js_T st) /\ Forall2 (col_ok eps A D B n i (fp (js_T st')) (fp (js_T st))) (js_jac st') (js_jac st).

Lemma jac_step c' c mask q n i st' st st2 : chain_ok c -> chain_stored eps c' c -> length q = ch_nj c -> (n <= length (ch_segs c))%nat ->
  Forall (moves_within A D) (assign (ch_segs c) q) -> Forall (geared_within B) (ch_segs c) -> 2500 * INR n * (eps * A) <= 1 -> (i < n)%nat ->
  step_rel c n i st' st -> jac_body c mask q i st = Ret st2 ->
  exists st2', fl_jac_body rnd fsin fcos c' mask q i st' = Ret st2' /\ step_rel c n (S i) st2' st2.
Proof.
  intros Hok Hst Hq Hn Hmv Hg Hsm Hi (Ej & Ek & Cj & Rn & Cols) E. pose proof (proj1 Hok) as Hw. pose proof (stored_wf _ _ _ Hst Hw) as Hw'.
  destruct Hst as (_ & Ecj & F). pose proof (stored_len _ _ _ F) as Hl.
  destruct (jac_body_inv _ _ _ _ _ _ E) as (s & Es & Inv).
  destruct (chain_lookup c q i Hw Hq ltac:(rewrite (proj1 Hw); lia)) as (s0 & x & En & Eg & Hle & Hx & Ha & Hc). rewrite Es in Eg. injection Eg as <-.
  destruct (chain_lookup c' q i Hw' ltac:(congruence) ltac:(rewrite (proj1 Hw'); lia)) as (s' & x' & En' & Eg' & _).
  destruct (Forall2_nth _ _ _ F i s' En') as (s1 & En1 & St). rewrite En in En1. injection En1 as <-.
  pose proof (stored_moving _ _ _ St) as Ms.
  assert (Sok : segment_ok s) by (pose proof (proj2 Hok) as FF; rewrite Forall_forall in FF; apply FF; eapply nth_error_In, En).
  assert (Sg : geared_within B s) by (rewrite Forall_forall in Hg; apply Hg; eapply nth_error_In, En).
  assert (Mv : moves_within A D (s, x)). { rewrite Forall_forall in Hmv. apply Hmv. apply (assign_in _ _ i); [exact En|rewrite Hq; apply (proj2 Hw)|exact Hx]. }
  pose proof (run_step eps A D rnd fsin fcos HA HD He Hrnd Hsin Hcos n i _ _ s' s x Hi Hsm Sok St Mv Rn) as Rn'.
  pose proof (run_pt eps A D HA HD He n i _ _ ltac:(lia) Rn) as Pa. pose proof (run_pt eps A D HA HD He n (S i) _ _ ltac:(lia) Rn') as Pb.
  assert (Cols' : Forall2 (col_ok eps A D B n (S i) (fp (fl_f_mul rnd (js_T st') (fl_segment_pose rnd fsin fcos s' x))) (fp (f_mul (js_T st) (segment_pose s x))))
    (map (fun u => fl_t_RefPoint rnd u (fl_v_sub rnd (fp (fl_f_mul rnd (js_T st') (fl_segment_pose rnd fsin fcos s' x))) (fp (js_T st')))) (js_jac st'))
    (map (fun u => t_RefPoint u (v_sub (fp (f_mul (js_T st) (segment_pose s x))) (fp (js_T st)))) (js_jac st))).
  { eapply Forall2_map2; [|exact Cols]. intros u' u Hu. apply (col_step eps A D B rnd HA HD HB He Hrnd n i); assumption. }
  destruct (moving s).
  - destruct Inv as (x1 & l & Ex & El & Inv). rewrite Cj, (Ha eq_refl) in Ex. injection Ex as <-.
    rewrite (fl_jac_body_run rnd fsin fcos c' mask q i st' s' Eg').
    2:{ rewrite Ms. exists x, l. rewrite Ej. split; [rewrite Cj; auto|]. split; [exact El|]. intros ->. rewrite Ek, (Forall2_len _ _ _ Cols). apply Inv. }
    rewrite Ms, Ej, Cj, (Ha eq_refl), <- Cj, El. cbv zeta in Inv |- *. destruct l.
    + subst st2. eexists. split; [reflexivity|]. unfold step_rel; cbn [js_j js_k js_T js_jac]. split; [reflexivity|]. split; [exact Ek|]. split; [lia|]. auto.
    + destruct Inv as (_ & ->). eexists. split; [reflexivity|]. unfold step_rel; cbn [js_j js_k js_T js_jac]. split; [reflexivity|]. split; [congruence|]. split; [lia|].
      split; [exact Rn'|]. rewrite Ek. apply Forall2_upd; [exact Cols'|].
      apply (col_new eps A D B rnd fsin fcos HA HD HB He Hrnd Hsin Hcos n i); assumption.
  - subst x. rewrite (fl_jac_body_run rnd fsin fcos c' mask q i st' s' Eg') by (rewrite Ms; exact I). rewrite Ms. cbv zeta in Inv |- *. subst st2.
    eexists. split; [reflexivity|]. unfold step_rel; cbn [js_j js_k js_T js_jac]. split; [exact Ej|]. split; [exact Ek|]. split; [lia|]. auto.
Qed.
End Run.

Lemma t_near_self ev er u : 0 <= ev -> 0 <= er -> t_near ev er u u.
Proof. intros H1 H2. split; apply vnear_self; assumption. Qed.

Lemma fl_jac_error eps A D B rnd fsin fcos c' c mask q jac z n : 1 <= A -> 1 <= D -> 1 <= B -> 0 <= eps ->
  rounds eps rnd -> computes eps fsin sin -> computes eps fcos cos ->
  chain_ok c -> chain_stored eps c' c -> length mask = ch_nj c -> length q = ch_nj c -> length jac = ch_nj c -> denotes c z n -> (n <= length (ch_segs c))%nat ->
  Forall (moves_within A D) (assign (ch_segs c) q) -> Forall (geared_within B) (ch_segs c) -> 2500 * INR n * (eps * A) <= 1 ->
  exists J' J, fl_jac_JntToJac rnd fsin fcos c' mask q jac z = Ret (E_NOERROR, J') /\ jac_JntToJac c mask q jac z = Ret (E_NOERROR, J) /\
    Forall2 (t_near (17200 * INR n * INR n * (eps * A * (B * D))) (510 * INR n * (eps * A * B))) J' J.
Proof.
  intros HA HD HB He Hrnd Hsin Hcos Hok Hst Hm Hq Hjac Hd Hn Hmv Hg Hsm. pose proof (proj1 Hok) as Hw. pose proof (stored_wf _ _ _ Hst Hw) as Hw'.
  pose proof (jac_result c mask q jac z n Hok Hd) as ER. rewrite Hm, Hq, Hjac, !Nat.eqb_refl in ER. cbn [negb andb] in ER. rewrite (proj2 (Nat.leb_le _ _) Hn) in ER.
  set (J := jac_closed c mask q n) in *.
  pose proof Hst as (Es & Ej & F). pose proof (stored_len _ _ _ F) as Hl.
  assert (Hnr : segment_nr c z = n) by (apply (denotes_segment_nr _ _ _ Hw); exact Hd).
  assert (Hnr' : segment_nr c' z = n). { apply (denotes_segment_nr _ _ _ Hw'). unfold denotes in *. rewrite Hl. exact Hd. }
  assert (Hlt : Nat.ltb (ch_ns c) n = false) by (apply Nat.ltb_ge; rewrite (proj1 Hw); lia).
  assert (EL := ER). unfold jac_JntToJac in EL. rewrite Hm, Hq, Hjac, Hnr, !Nat.eqb_refl, Hlt in EL. cbn [negb orb] in EL. cbv zeta in EL.
  destruct (for_loop n 0 (jac_body c mask q) (mkJS 0 0 f_id t_zero (jac_zero jac))) as [st|] eqn:EF; [|discriminate]. cbn [obind] in EL. injection EL as EJ.
  unfold fl_jac_JntToJac. rewrite Ej, Es, Hm, Hq, Hjac, Hnr', !Nat.eqb_refl, Hlt. cbn [negb orb]. cbv zeta.
  assert (S0 : step_rel eps A D B c n 0 (mkJS 0 0 f_id t_zero (jac_zero jac)) (mkJS 0 0 f_id t_zero (jac_zero jac))).
  { unfold step_rel; cbn [js_j js_k js_T js_jac]. split; [reflexivity|]. split; [reflexivity|]. split; [reflexivity|]. split; [apply run_start; assumption|].
    unfold jac_zero. clear - HA HD HB He. induction jac as [|u jac IH]; cbn [map]; constructor; [apply (col_zero eps A D B HA HD HB He)|exact IH]. }
  destruct (for_loop_rel (step_rel eps A D B c n) (fl_jac_body rnd fsin fcos c' mask q) (jac_body c mask q) n 0 _ _ _
    (fun k u1 u2 v2 Hk => jac_step eps A D B rnd fsin fcos HA HD HB He Hrnd Hsin Hcos c' c mask q n k u1 u2 v2 Hok Hst Hq Hn Hmv Hg Hsm (proj2 Hk)) S0 EF) as (st' & E' & _ & _ & _ & Rn & Cols).
  rewrite E'. cbn [obind]. exists (js_jac st'), J. split; [reflexivity|]. split; [exact ER|]. rewrite <- EJ. cbn [Nat.add] in *.
  destruct n as [|n].
  - cbn [for_loop] in E', EF. assert (Q : js_jac st' = js_jac st) by congruence. rewrite Q. apply Forall2_same. intros u. apply t_near_self; cbn [INR]; lra.
  - eapply Forall2_imp; [|exact Cols]. intros u' u Hu.
    apply (col_near eps A D B HA HD HB He (S n) _ _ _ _ ltac:(lia) Hsm (run_pt eps A D HA HD He _ _ _ _ (le_n _) Rn) Hu).
Qed.

(** Doubles, at most 20 segments, angles up to 10 rad, lengths up to 2 m, no gearing up. *)
Lemma t_near_weaken ev er ev' er' a b : t_near ev er a b -> ev <= ev' -> er <= er' -> t_near ev' er' a b.
Proof. intros (H1 & H2) L1 L2. split; eapply vnear_weaken; eassumption. Qed.
Lemma fl_jac_double fsin fcos c' c mask q jac z n : computes ulp1 fsin sin -> computes ulp1 fcos cos ->
  chain_ok c -> chain_stored ulp1 c' c -> length mask = ch_nj c -> length q = ch_nj c -> length jac = ch_nj c -> denotes c z n -> (n <= length (ch_segs c))%nat -> (n <= 20)%nat ->
  Forall (moves_within 10 2) (assign (ch_segs c) q) -> Forall (geared_within 1) (ch_segs c) ->
  exists J' J, fl_jac_JntToJac double fsin fcos c' mask q jac z = Ret (E_NOERROR, J') /\ jac_JntToJac c mask q jac z = Ret (E_NOERROR, J) /\
    Forall2 (t_near (1 / 10 ^ 7) (1 / 10 ^ 10)) J' J.
Proof.
  intros Hs Hc Hok Hst Hm Hq Hj Hd Hn H20 Hmv Hg. assert (U : 0 <= ulp1) by (rewrite ulp1_eq; lra).
  assert (N20 : INR n <= 20) by (apply le_INR in H20; cbn in H20; lra). pose proof (pos_INR n) as N0.
  destruct (fl_jac_error ulp1 10 2 1 double fsin fcos c' c mask q jac z n ltac:(lra) ltac:(lra) ltac:(lra) U double_rounds_fl Hs Hc Hok Hst Hm Hq Hj Hd Hn Hmv Hg) as (J' & J & E1 & E2 & F).
  - rewrite ulp1_eq. lra.
  - exists J', J. split; [exact E1|]. split; [exact E2|]. eapply Forall2_imp; [|exact F]. intros u' u Hu. eapply t_near_weaken; [exact Hu| |]; rewrite ulp1_eq.
    + assert (INR n * INR n <= 400) by nra. lra.
    + lra.
Qed.

(** Each computed column against the derivative of the exact pose. *)
Lemma nth_error_F2 {X Y} (P : X -> Y -> Prop) l1 l2 : Forall2 P l1 l2 -> forall i y, nth_error l2 i = Some y -> exists x, nth_error l1 i = Some x /\ P x y.
Proof. induction 1 as [|a b l1 l2 H F IH]; intros i y Hi; [destruct i; discriminate|]. destruct i as [|i]; [injection Hi as <-; exists a; auto|]. apply IH, Hi. Qed.
Lemma fl_jac_derivative eps A D B rnd fsin fcos c' c q jac z n j : 1 <= A -> 1 <= D -> 1 <= B -> 0 <= eps ->
  rounds eps rnd -> computes eps fsin sin -> computes eps fcos cos ->
  chain_ok c -> chain_stored eps c' c -> length q = ch_nj c -> length jac = ch_nj c -> denotes c z n -> (n <= length (ch_segs c))%nat -> (j < ch_nj c)%nat ->
  Forall (moves_within A D) (assign (ch_segs c) q) -> Forall (geared_within B) (ch_segs c) -> 2500 * INR n * (eps * A) <= 1 ->
  exists J' col' col, fl_jac_JntToJac rnd fsin fcos c' (jacsolver_make c') q jac z = Ret (E_NOERROR, J') /\ length J' = ch_nj c /\ nth_error J' j = Some col' /\
    t_near (17200 * INR n * INR n * (eps * A * (B * D))) (510 * INR n * (eps * A * B)) col' col /\
    frame_velocity (fun u => tip_frame c (upd q j u) n) (nth j q 0) col.
Proof.
  intros HA HD HB He Hrnd Hsin Hcos Hok Hst Hq Hjac Hd Hn Hj Hmv Hg Hsm.
  assert (Em : jacsolver_make c' = jacsolver_make c) by (unfold jacsolver_make; rewrite (proj1 (proj2 Hst)); reflexivity). rewrite Em.
  destruct (fl_jac_error eps A D B rnd fsin fcos c' c (jacsolver_make c) q jac z n HA HD HB He Hrnd Hsin Hcos Hok Hst ltac:(apply repeat_length) Hq Hjac Hd Hn Hmv Hg Hsm)
    as (J' & J & E1 & E2 & F).
  destruct (jac_partial c z n q j jac Hok Hd Hn Hq Hjac Hj) as (J0 & col & E3 & E4 & V). rewrite E2 in E3. injection E3 as <-.
  destruct (nth_error_F2 _ _ _ F j col E4) as (col' & E5 & Hn'). exists J', col', col. split; [exact E1|].
  destruct (jac_times_velocity c z n q (unit_rate (ch_nj c) j) jac) as (J1 & V1 & EJ1 & LJ1 & _); auto.
  { unfold unit_rate. rewrite map_length, seq_length. reflexivity. }
  rewrite E2 in EJ1. injection EJ1 as <-. split; [rewrite (Forall2_len _ _ _ F); exact LJ1|]. split; [exact E5|]. split; [exact Hn'|].
  assert (Eu : forall u, match fk_JntToCart c (upd q j u) z with Ret (_, f) => f | Undef => f_id end = tip_frame c (upd q j u) n).
  { intros u. rewrite (fk_result c (upd q j u) z n (proj1 Hok) Hd), upd_length, Hq, Nat.eqb_refl. rewrite (proj2 (Nat.leb_le _ _) Hn). reflexivity. }
  replace (fun u => tip_frame c (upd q j u) n) with (fun u => match fk_JntToCart c (upd q j u) z with Ret (_, f) => f | Undef => f_id end) by (apply functional_extensionality; exact Eu).
  exact V.
Qed.

(** Rounding does not change the return code, nor the number of columns. *)
Lemma fl_jac_code rnd fsin fcos c mask q jac z : chain_ok c ->
  exists code J J', fl_jac_JntToJac rnd fsin fcos c mask q jac z = Ret (code, J') /\ jac_JntToJac c mask q jac z = Ret (code, J) /\ length J' = length J.
Proof.
  intros Hok. pose proof (proj1 Hok) as Hw. set (n := segment_nr c z). assert (Hd : denotes c z n) by (apply denotes_segment_nr; [exact Hw|reflexivity]).
  pose proof (jac_result c mask q jac z n Hok Hd) as ER. revert ER. unfold jac_JntToJac, fl_jac_JntToJac. fold n.
  destruct (Nat.eqb_spec (length mask) (ch_nj c)) as [Em|]; cbn [negb]; [|intros _; do 3 eexists; split; [reflexivity|split; reflexivity]].
  cbv zeta. destruct (negb (Nat.eqb (length q) (ch_nj c)) || negb (Nat.eqb (length jac) (ch_nj c))); [intros _; do 3 eexists; split; [reflexivity|split; reflexivity]|].
  destruct (Nat.ltb_spec (ch_ns c) n); [intros _; do 3 eexists; split; [reflexivity|split; reflexivity]|].
  destruct (for_loop n 0 (jac_body c mask q) (mkJS 0 0 f_id t_zero (jac_zero jac))) as [st|] eqn:EF; [|discriminate]. intros _. cbn [obind].
  destruct (for_loop_rel (fun i (st' st : jacstate) => js_j st' = js_j st /\ js_k st' = js_k st /\ length (js_jac st') = length (js_jac st))
    (fl_jac_body rnd fsin fcos c mask q) (jac_body c mask q) n 0 (mkJS 0 0 f_id t_zero (jac_zero jac)) (mkJS 0 0 f_id t_zero (jac_zero jac)) st) as (st' & E' & _ & _ & L).
  - intros k u1 u2 v2 Hk (E1 & E2 & E3) Eb. destruct (jac_body_inv _ _ _ _ _ _ Eb) as (s & Es & Inv).
    rewrite (fl_jac_body_run rnd fsin fcos c mask q k u1 s Es).
    + destruct (moving s).
      * destruct Inv as (x & l & Ex & El & Inv). rewrite E1, E2, Ex, El. cbv zeta in *. destruct l; [subst v2|destruct Inv as (_ & ->)]; (eexists; split; [reflexivity|]);
          cbn [js_j js_k js_jac]; rewrite ?upd_length, ?map_length; auto.
      * cbv zeta in *. subst v2. eexists; split; [reflexivity|]. cbn [js_j js_k js_jac]. rewrite !map_length. auto.
    + destruct (moving s); [|exact I]. destruct Inv as (x & l & Ex & El & Inv). exists x, l. rewrite E1, E2, E3. split; [exact Ex|]. split; [exact El|]. intros ->. apply Inv.
  - auto.
  - exact EF.
  - rewrite E'. cbn [obind]. do 3 eexists. split; [reflexivity|]. split; [reflexivity|exact L].
Qed.

(** The arm of C71. *)
Lemma arm_jac a b c : Rabs a <= 10 -> Rabs b <= 10 -> Rabs c <= 10 ->
  exists J' J, fl_jac_JntToJac double (fun x => double (sin x)) (fun x => double (cos x)) (arm double) [false; true; false] [a; b; c] (repeat t_zero 3) (-1)%Z = Ret (E_NOERROR, J') /\
    jac_JntToJac (arm (fun x => x)) [false; true; false] [a; b; c] (repeat t_zero 3) (-1)%Z = Ret (E_NOERROR, J) /\ Forall2 (t_near (1 / 10 ^ 7) (1 / 10 ^ 10)) J' J.
Proof.
  intros Ha Hb Hc. apply (fl_jac_double _ _ _ _ _ _ _ _ 3 libm_sin libm_cos arm_ok arm_stored); try reflexivity; try (cbn; lia).
  - left. split; [lia|reflexivity].
  - apply arm_moves; assumption.
  - cbn [arm ch_segs]. assert (H : geared_within 1 (tilted (fun x => x))) by (unfold geared_within; cbn; rewrite Rabs_R1; lra). auto.
Qed.
