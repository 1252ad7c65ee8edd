(** Boundary cases found by testing the theorems against wrong programs. *)
From Coq Require Import Reals String List ZArith Bool Lia Lra Psatz.
From Verif Require Import FramesModel FramesSpec Outcome InertiaModel KinModel ProfModel ProfSpec PathModel PathSpec PathProofs4 FramesProofs FrameOpsProofs TreeModel TreeSpec TreeProofs TreeCopyProofs EdgeSpec.
Import ListNotations.
Local Open Scope list_scope.
Local Open Scope R_scope.

(** ** Splines *)
Lemma spline_fresh :
  spline_duration spline_make = 0 /\ forall t, spline_pos spline_make t = 0 /\ spline_vel spline_make t = 0 /\ spline_acc spline_make t = 0.
Proof. split; [reflexivity|]. intros t. unfold spline_pos, spline_vel, spline_acc. cbn. repeat split; ring. Qed.
Lemma spline_instant p1 v1 a1 p2 v2 a2 T t : T <= dbl_epsilon ->
  spline_pos (spline_cubic p1 v1 p2 v2 T) t = p2 + v2 * t /\ spline_vel (spline_cubic p1 v1 p2 v2 T) t = v2 /\
  spline_acc (spline_cubic p1 v1 p2 v2 T) t = 0 /\ spline_duration (spline_cubic p1 v1 p2 v2 T) = T /\
  spline_pos (spline_quintic p1 v1 a1 p2 v2 a2 T) t = p2 + v2 * t + a2 / 2 * (t * t) /\
  spline_vel (spline_quintic p1 v1 a1 p2 v2 a2 T) t = v2 + a2 * t /\
  spline_acc (spline_quintic p1 v1 a1 p2 v2 a2 T) t = a2 /\ spline_duration (spline_quintic p1 v1 a1 p2 v2 a2 T) = T.
Proof.
  intros H. unfold spline_cubic, spline_quintic. destruct (Rle_dec T dbl_epsilon); [|contradiction].
  unfold spline_pos, spline_vel, spline_acc, spline_duration. cbn. repeat split; field.
Qed.

(** ** The mask of the Jacobian derivative solver *)
Lemma jd_mask st mask :
  (length mask = length (jd_locked st) -> exists st', jdsolver_setLocked st mask = (E_NOERROR, st') /\ jd_locked st' = mask /\
     jd_inner st' = jd_inner st /\ jd_rep st' = jd_rep st) /\
  (length mask <> length (jd_locked st) -> jdsolver_setLocked st mask = (E_SIZE_MISMATCH, st)).
Proof.
  unfold jdsolver_setLocked. split; intros H.
  - rewrite H, Nat.eqb_refl. cbn [negb]. eexists. split; [reflexivity|]. repeat split.
  - apply Nat.eqb_neq in H. rewrite H. reflexivity.
Qed.
Lemma jac_mask c locked mask : length locked = ch_nj c ->
  (length mask = ch_nj c -> jacsolver_setLocked c locked mask = (E_NOERROR, mask)) /\
  (length mask <> ch_nj c -> jacsolver_setLocked c locked mask = (E_SIZE_MISMATCH, locked)).
Proof.
  intros H. unfold jacsolver_setLocked. rewrite H, Nat.eqb_refl. cbn [negb]. split; intros L.
  - rewrite L, Nat.eqb_refl. reflexivity.
  - apply Nat.eqb_neq in L. rewrite L. reflexivity.
Qed.

(** ** A tree added to itself *)
Lemma addTree_itself t hook e : reachable t -> tfind t (tr_root t) = Some e ->
  tree_addTree_self t hook = Ret (match te_children e with [] => true | _ => false end, t).
Proof.
  intros Hr E. apply reachable_inv in Hr. destruct Hr as [W _]. unfold tree_addTree_self. rewrite E. destruct (te_children e) as [|c cs] eqn:Ec; [reflexivity|].
  destruct (wf_children _ W _ _ c E) as (ce & Hc & _); [rewrite Ec; simpl; auto|]. rewrite Hc.
  destruct (addSegment_cases t (te_seg ce) hook) as [[-> _]|(he & t1 & _ & En & _)]; [reflexivity|].
  rewrite (wf_named _ W _ _ Hc) in En. congruence.
Qed.

(** ** A point as a path; parameters below zero on a cyclic path; rejected way points *)
Lemma point_path F s sd sdd : leaf_len (LPoint F) = 0 /\ leaf_Pos (LPoint F) s = F /\ leaf_Vel (LPoint F) s sd = t_zero /\
  leaf_Acc (LPoint F) s sd sdd = t_zero /\ leaf_Clone (LPoint F) = Val (LPoint F).
Proof. repeat split. Qed.
Lemma fmod_negative s y : s <= 0 -> 0 < y -> exists k, fmod s y = Val (s + IZR k * y) /\ (0 <= k)%Z /\ - y < s + IZR k * y <= 0.
Proof.
  intros Hs Hy. destruct (Rle_lt_or_eq_dec s 0 Hs) as [Ns|Es].
  - unfold fmod. destruct (Req_EM_T y 0); [lra|].
    assert (Q : s / y < 0) by (apply Rmult_lt_reg_r with y; [exact Hy|]; unfold Rdiv; rewrite Rmult_assoc, Rinv_l by lra; lra).
    unfold trunc. destruct (Rle_dec 0 (s / y)); [lra|]. exists (Int_part (- (s / y))). destruct (base_Int_part (- (s / y))) as (B1 & B2).
    rewrite opp_IZR. split; [f_equal; ring|]. assert (E : s = - (- (s / y)) * y) by (field; lra).
    assert (Q0 : 0 < - (s / y)) by lra. set (q := - (s / y)) in *. clearbody q. clear Q. split.
    + assert (-1 < IZR (Int_part q)) by lra. apply (lt_IZR (-1)) in H. lia.
    + rewrite E. split; nra.
  - subst s. unfold fmod. destruct (Req_EM_T y 0); [lra|]. exists 0%Z. replace (0 / y) with 0 by (field; lra). unfold trunc.
    destruct (Rle_dec 0 0); [|lra]. assert (I : Int_part 0 = 0%Z).
    { unfold Int_part. rewrite <- (tech_up 0 1); [reflexivity|lra|lra]. }
    rewrite I. split; [f_equal; ring|]. split; [lia|lra].
Qed.
Lemma cyclic_negative {A} (f : Leaf -> R -> A) g n s : s <= 0 -> 0 < path_len g -> exists k, (0 <= k)%Z /\
  - path_len g < s + IZR k * path_len g <= 0 /\
  path_eval f (PCyclic g n) s =
    match path_eval f g (s + IZR k * path_len g) with Val (a, g') => Val (a, PCyclic g' n) | Throw e => Throw e | Undefd => Undefd end.
Proof.
  intros Hs Hy. destruct (fmod_negative s (path_len g) Hs Hy) as (k & E & K & B). exists k. split; [exact K|]. split; [exact B|].
  cbn [path_eval]. rewrite E. cbn [rbind]. destruct (path_eval f g _) as [[a g']|e|]; reflexivity.
Qed.
Lemma rounded_rejects comp radius eqr n Fs Fv F :
  let p := PRounded comp radius eqr (S (S n)) Fs Fv in
  let ab := v_sub (fp Fv) (fp Fs) in let bc := v_sub (fp F) (fp Fv) in
  let alpha := acos (kdl_max (-1) (kdl_min (v_dot ab bc / v_norm ab / v_norm bc) 1)) in
  let d := radius / tan ((PI - alpha) / 2) in let eps := / 10000000 in
  (v_norm ab < eps -> rounded_Add p F = (p, Throw (NotFeasible 2))) /\
  (eps <= v_norm ab -> v_norm bc < eps -> rounded_Add p F = (p, Throw (NotFeasible 3))) /\
  (eps <= v_norm ab -> eps <= v_norm bc -> PI - alpha < eps -> rounded_Add p F = (p, Throw (NotFeasible 4))) /\
  (eps <= v_norm ab -> eps <= v_norm bc -> eps <= alpha -> eps <= PI - alpha -> v_norm ab <= d -> rounded_Add p F = (p, Throw (NotFeasible 5))) /\
  (eps <= v_norm ab -> eps <= v_norm bc -> eps <= alpha -> eps <= PI - alpha -> d < v_norm ab -> v_norm bc <= d -> rounded_Add p F = (p, Throw (NotFeasible 6))).
Proof.
  intros p ab bc alpha d eps. unfold p, rounded_Add. fold ab bc eps. fold alpha. fold d.
  repeat split; intros;
    repeat match goal with
    | |- context [Rlt_dec ?a ?b] => destruct (Rlt_dec a b); try lra
    | |- context [Rle_dec ?a ?b] => destruct (Rle_dec a b); try lra
    end; reflexivity.
Qed.

(** ** The representation is always one of the three *)
Definition rep_ok (st : jdsolver) := jd_rep st = HYBRID \/ jd_rep st = BODYFIXED \/ jd_rep st = INERTIAL.
Lemma jd_jac_rep c st q qd j n code j' st' : rep_ok st -> jd_JntToJacDot c st q qd j n = Ret (code, j', st') ->
  jd_rep st' = jd_rep st /\ code <> E_JAC_DOT_FAILED.
Proof.
  intros Hr. unfold jd_JntToJacDot.
  destruct (negb _); [intros E; injection E as <- <- <-; split; [reflexivity|discriminate]|]. cbv zeta.
  destruct (negb _ || negb _)%bool; [intros E; injection E as <- <- <-; split; [reflexivity|discriminate]|].
  destruct (Nat.ltb _ _); [intros E; injection E as <- <- <-; split; [reflexivity|discriminate]|].
  destruct (jac_JntToJac _ _ _ _ _) as [[jc J]|]; cbn [obind]; [|discriminate].
  destruct (negb (jc =? E_NOERROR)%Z); [intros E; injection E as <- <- <-; split; [reflexivity|discriminate]|].
  assert (F : forall J', (let! r' := for_loop (segment_nr c n) 0 (jd_body c (jd_locked st) J' qd (jd_rep st)) (0%nat, jd_acc st, jac_zero j) in
     let '(_, acc', jdot') := r' in
     Ret (E_NOERROR, jdot', mkJD (jd_locked st) (jd_unlocked st) (jd_inner st) J' (jd_jdot st) (jd_rep st) acc')) = Ret (code, j', st') ->
     jd_rep st' = jd_rep st /\ code <> E_JAC_DOT_FAILED).
  { intros J'. destruct (for_loop _ _ _ _) as [[[k a] jd]|]; cbn [obind]; [|discriminate]. intros E; injection E as <- <- <-. split; [reflexivity|discriminate]. }
  destruct Hr as [H|[H|H]]; rewrite H in F |- *; cbn [HYBRID BODYFIXED INERTIAL Z.eqb Pos.eqb negb].
  - apply F.
  - destruct (fk_JntToCart _ _ _) as [[fc FF]|]; cbn [obind]; [|discriminate].
    destruct (negb (fc =? E_NOERROR)%Z); [intros E; injection E as <- <- <-; split; [reflexivity|discriminate]|].
    destruct (jac_changeBase _ _) as [J'|]; cbn [obind]; [apply F|discriminate].
  - destruct (fk_JntToCart _ _ _) as [[fc FF]|]; cbn [obind]; [|discriminate].
    destruct (negb (fc =? E_NOERROR)%Z); [intros E; injection E as <- <- <-; split; [reflexivity|discriminate]|].
    destruct (jac_changeRefPoint _ _) as [J'|]; cbn [obind]; [apply F|discriminate].
Qed.
Lemma jd_twist_rep c st q qd t n code t' st' : rep_ok st -> jd_JntToJacDot_twist c st q qd t n = Ret (code, t', st') ->
  jd_rep st' = jd_rep st /\ code <> E_JAC_DOT_FAILED.
Proof.
  intros Hr. unfold jd_JntToJacDot_twist. destruct (jd_JntToJacDot _ _ _ _ _ _) as [[[c0 j] s1]|] eqn:E0; cbn [obind]; [|discriminate].
  destruct (jd_jac_rep _ _ _ _ _ _ _ _ _ Hr E0) as (R0 & C0).
  destruct (negb (c0 =? E_NOERROR)%Z).
  - intros E; injection E as <- <- <-. split; [exact R0|exact C0].
  - destruct (MultiplyJacobian _ _) as [tw|]; cbn [obind]; [|discriminate]. intros E; injection E as <- <- <-. split; [exact R0|discriminate].
Qed.
Lemma jd_do_ok st o code st' : rep_ok st -> jd_do st o = Some (code, st') -> rep_ok st' /\ code <> E_JAC_DOT_FAILED.
Proof.
  intros Hr. destruct o as [m|r|c|c q qd j n|c q qd t n]; cbn [jd_do].
  - unfold jdsolver_setLocked. destruct (negb _); intros E; injection E as <- <-; (split; [exact Hr|discriminate]).
  - intros E; injection E as <- <-. split; [|discriminate]. unfold jdsolver_setRepresentation.
    destruct (r =? HYBRID)%Z eqn:E1; [left; cbn; now apply Z.eqb_eq|].
    destruct (r =? BODYFIXED)%Z eqn:E2; [right; left; cbn; now apply Z.eqb_eq|].
    destruct (r =? INERTIAL)%Z eqn:E3; [right; right; cbn; now apply Z.eqb_eq|exact Hr].
  - intros E; injection E as <- <-. split; [exact Hr|discriminate].
  - destruct (jd_JntToJacDot _ _ _ _ _ _) as [[[c0 j0] s0]|] eqn:E0; [|discriminate]. intros E; injection E as <- <-.
    destruct (jd_jac_rep _ _ _ _ _ _ _ _ _ Hr E0) as (R0 & C0). split; [unfold rep_ok; rewrite R0; exact Hr|exact C0].
  - destruct (jd_JntToJacDot_twist _ _ _ _ _ _) as [[[c0 j0] s0]|] eqn:E0; [|discriminate]. intros E; injection E as <- <-.
    destruct (jd_twist_rep _ _ _ _ _ _ _ _ _ Hr E0) as (R0 & C0). split; [unfold rep_ok; rewrite R0; exact Hr|exact C0].
Qed.
Lemma jd_history c l codes st : jd_run (jdsolver_make c) l = Some (codes, st) ->
  (jd_rep st = HYBRID \/ jd_rep st = BODYFIXED \/ jd_rep st = INERTIAL) /\ ~ In E_JAC_DOT_FAILED codes.
Proof.
  assert (G : forall l s codes st, rep_ok s -> jd_run s l = Some (codes, st) -> rep_ok st /\ ~ In E_JAC_DOT_FAILED codes).
  { clear. induction l as [|o l IH]; intros s codes st Hr; cbn [jd_run].
    - intros E; injection E as <- <-. split; [exact Hr|intros []].
    - destruct (jd_do s o) as [[code s1]|] eqn:E0; [|discriminate]. destruct (jd_run s1 l) as [[cs r]|] eqn:E1; [|discriminate].
      intros E; injection E as <- <-. destruct (jd_do_ok _ _ _ _ Hr E0) as (H1 & C1). destruct (IH _ _ _ H1 E1) as (H2 & C2).
      split; [exact H2|]. intros [Q|Q]; [exact (C1 Q)|exact (C2 Q)]. }
  intros E. apply (G l (jdsolver_make c) codes st); [left; reflexivity|exact E].
Qed.
Lemma jd_rep_set st r : 
  jd_rep (jdsolver_setRepresentation st r) =
    (if (r =? 0)%Z || (r =? 1)%Z || (r =? 2)%Z then r else jd_rep st) /\
  jd_locked (jdsolver_setRepresentation st r) = jd_locked st.
Proof. unfold jdsolver_setRepresentation, HYBRID, BODYFIXED, INERTIAL. destruct (_ || _)%bool; split; reflexivity. Qed.

(** ** Cases that meet the hypotheses *)
Lemma repeated_way_point r F G : 0 < r -> 
  exists p0 p2, rounded_make r 1 = Val p0 /\ adds p0 [F; F] = Some p2 /\ rounded_Add p2 G = (p2, Throw (NotFeasible 2)).
Proof.
  intros Hr. unfold rounded_make. destruct (Rle_dec 1 0) as [Q|_]; [exfalso; lra|]. eexists. eexists. split; [reflexivity|]. split; [reflexivity|].
  apply (rounded_rejects comp_make r 1 0 F F G). rewrite v_sub_diag, v_norm_zero. lra.
Qed.
