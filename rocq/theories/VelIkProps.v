(** Property theorems for the inverse velocity solvers: C53.

    [svd] stands for the singular value routine; [svd_of] and [svd_sorted] say what
    the theorems need of the decomposition it returned for this very matrix. *)
From Coq Require Import Reals String List ZArith Bool Arith.
From Verif Require Import FramesModel FramesSpec Outcome InertiaModel DualModel KinModel KinSpec TreeModel TreeSpec IkModel LinModel LinSpec LmaModel LmaSpec
  VelIkModel VelIkSpec VelIkProofs VelIkProofs2 VelIkProofs3 VelIkProofs4 VelIkWitness.
Import ListNotations.
Local Open Scope list_scope.
Local Open Scope R_scope.

(** ChainIkSolverVel_pinv: every call returns; codes; the shortest least-squares
    joint velocity; the norm bound; what is left of the small singular values. *)
Theorem C53_pinv : forall svd c s q v qdot,
  chain_ok c -> pinv_clean s -> 0 < pv_eps s -> (Z.of_nat (ch_nj c) < 2 ^ 32)%Z ->
  exists code out s', pinv_CartToJnt svd c s q v qdot = Ret (code, out, s') /\
  pv_error s' = code /\ pinv_clean s' /\ pv_nj s' = pv_nj s /\ pv_eps s' = pv_eps s /\ pv_maxiter s' = pv_maxiter s /\
  let fits := pv_nj s = ch_nj c in
  let sized := length q = ch_nj c /\ length qdot = ch_nj c in
  let J := mkM 6 (ch_nj c) (tip_jacobian c q) in
  let d := svd (pv_maxiter s) J in
  (~ fits -> code = E_NOT_UP_TO_DATE /\ out = qdot) /\
  (fits -> ~ sized -> code = E_SIZE_MISMATCH /\ out = qdot) /\
  (fits -> sized -> pv_svd s' = dc_rc d /\
    (dc_rc d <> 0%Z -> code = E_SVD_FAILED /\ out = repeat 0 (ch_nj c) /\ pv_zeros s' = 0%nat) /\
    (dc_rc d = 0%Z ->
      (code = E_CONVERGE_PINV_SINGULAR \/ code = E_NOERROR) /\
      (code = E_CONVERGE_PINV_SINGULAR <-> (6 <= ch_nj c)%nat /\ (length (large_values (ch_nj c) (pv_eps s) d) < 6)%nat) /\
      (pv_zeros s' + length (large_values (ch_nj c) (pv_eps s) d) = ch_nj c)%nat /\
      (svd_of 6 (ch_nj c) (tip_jacobian c q) d ->
        shortest_least_squares 6 (ch_nj c) (truncated (ch_nj c) (pv_eps s) d) (t_at v) out /\
        (no_small (ch_nj c) (pv_eps s) d -> shortest_least_squares 6 (ch_nj c) (tip_jacobian c q) (t_at v) out) /\
        pv_eps s * pv_eps s * norm2 (ch_nj c) out <= sumn 6 (fun r => t_at v r * t_at v r)))).
Proof. exact (@pinv_call). Qed.
Print Assumptions C53_pinv.

Theorem C53_pinv_constructed : forall c eps k,
  pinv_clean (pinv_make c eps k) /\ pv_nj (pinv_make c eps k) = ch_nj c /\
  pv_eps (pinv_make c eps k) = eps /\ pv_maxiter (pinv_make c eps k) = k /\ pv_zeros (pinv_make c eps k) = 0%nat /\
  pv_svd (pinv_make c eps k) = 0%Z /\ pv_error (pinv_make c eps k) = E_NOERROR.
Proof. exact (@pinv_make_clean). Qed.
Print Assumptions C53_pinv_constructed.

Theorem C53_pinv_updated : forall c s,
  pinv_clean s -> pinv_clean (pinv_update c s) /\ pv_nj (pinv_update c s) = ch_nj c /\
  pv_eps (pinv_update c s) = pv_eps s /\ pv_maxiter (pinv_update c s) = pv_maxiter s /\ pv_zeros (pinv_update c s) = pv_zeros s /\
  pv_svd (pinv_update c s) = pv_svd s /\ pv_error (pinv_update c s) = pv_error s.
Proof. exact (@pinv_update_clean). Qed.
Print Assumptions C53_pinv_updated.

(** ChainIkSolverVel_pinv_nso: same twist, best posture rate among those joint velocities. *)
Theorem C53_nso : forall svd c s q v qdot,
  chain_ok c -> nso_clean s -> 0 < ns_eps s -> (6 <= ch_nj c)%nat ->
  exists code out s', nso_CartToJnt svd c s q v qdot = Ret (code, out, s') /\
  ns_error s' = code /\ nso_clean s' /\ ns_nj s' = ns_nj s /\ ns_eps s' = ns_eps s /\ ns_maxiter s' = ns_maxiter s /\
  ns_alpha s' = ns_alpha s /\ ns_weights s' = ns_weights s /\ ns_opt s' = ns_opt s /\
  let n := ch_nj c in
  let fits := ns_nj s = n in
  let sized := length q = n /\ length qdot = n /\ length (ns_opt s) = n /\ length (ns_weights s) = n in
  let J := mkM 6 n (tip_jacobian c q) in
  let d := svd (ns_maxiter s) J in
  (~ fits -> code = E_NOT_UP_TO_DATE /\ out = qdot) /\
  (fits -> ~ sized -> code = E_SIZE_MISMATCH /\ out = qdot) /\
  (fits -> sized -> ns_svd s' = dc_rc d /\
    (dc_rc d <> 0%Z -> code = E_SVD_FAILED /\ out = repeat 0 n) /\
    (dc_rc d = 0%Z -> code = E_NOERROR /\
      (svd_of 6 n (tip_jacobian c q) d -> exists plain,
        shortest_least_squares 6 n (truncated n (ns_eps s) d) (t_at v) plain /\
        least_squares 6 n (truncated n (ns_eps s) d) (t_at v) out /\
        (no_small n (ns_eps s) d -> least_squares 6 n (tip_jacobian c q) (t_at v) out) /\
        (0 <= ns_alpha s -> (forall i, (i < n)%nat -> 0 <= nth i (ns_weights s) 0) ->
         posture_rate n (ns_weights s) (ns_opt s) q out <= posture_rate n (ns_weights s) (ns_opt s) q plain) /\
        (sumn n (fun i => (nth i (ns_weights s) 0 * (nth i q 0 - nth i (ns_opt s) 0)) ^ 2) <= 1 / 1000000000 -> out = plain)))).
Proof. exact (@nso_call). Qed.
Print Assumptions C53_nso.

Theorem C53_nso_constructed : forall c o w eps k a,
  let s := nso_make c o w eps k a in nso_clean s /\ ns_nj s = ch_nj c /\ ns_eps s = eps /\
  ns_maxiter s = k /\ ns_alpha s = a /\ ns_weights s = w /\ ns_opt s = o /\ ns_svd s = 0%Z /\ ns_error s = E_NOERROR.
Proof. exact (@nso_make_clean). Qed.
Print Assumptions C53_nso_constructed.

Theorem C53_nso_updated : forall c s,
  nso_clean s -> let s' := nso_update c s in nso_clean s' /\ ns_nj s' = ch_nj c /\ ns_eps s' = ns_eps s /\
  ns_maxiter s' = ns_maxiter s /\ ns_alpha s' = ns_alpha s /\ length (ns_weights s') = ch_nj c /\ length (ns_opt s') = ch_nj c /\
  (forall i, (i < ch_nj c)%nat -> nth i (ns_weights s') 1 = nth i (ns_weights s) 1 /\ nth i (ns_opt s') 0 = nth i (ns_opt s) 0).
Proof. exact (@nso_update_clean). Qed.
Print Assumptions C53_nso_updated.

Theorem C53_nso_setters : forall s w o a,
  nso_clean s ->
  (length w = ns_nj s -> exists s', nso_setWeights s w = (E_NOERROR, s') /\ nso_clean s' /\ ns_weights s' = w /\
     ns_nj s' = ns_nj s /\ ns_opt s' = ns_opt s /\ ns_alpha s' = ns_alpha s /\ ns_eps s' = ns_eps s /\ ns_maxiter s' = ns_maxiter s) /\
  (length w <> ns_nj s -> exists s', nso_setWeights s w = (E_SIZE_MISMATCH, s') /\ nso_clean s' /\ ns_weights s' = ns_weights s /\
     ns_nj s' = ns_nj s /\ ns_opt s' = ns_opt s /\ ns_alpha s' = ns_alpha s /\ ns_eps s' = ns_eps s /\ ns_maxiter s' = ns_maxiter s) /\
  (length o = ns_nj s -> exists s', nso_setOptPos s o = (E_NOERROR, s') /\ nso_clean s' /\ ns_opt s' = o /\
     ns_nj s' = ns_nj s /\ ns_weights s' = ns_weights s /\ ns_alpha s' = ns_alpha s /\ ns_eps s' = ns_eps s /\ ns_maxiter s' = ns_maxiter s) /\
  (length o <> ns_nj s -> exists s', nso_setOptPos s o = (E_SIZE_MISMATCH, s') /\ nso_clean s' /\ ns_opt s' = ns_opt s /\
     ns_nj s' = ns_nj s /\ ns_weights s' = ns_weights s /\ ns_alpha s' = ns_alpha s /\ ns_eps s' = ns_eps s /\ ns_maxiter s' = ns_maxiter s) /\
  (exists s', nso_setAlpha s a = (0%Z, s') /\ nso_clean s' /\ ns_alpha s' = a /\
     ns_nj s' = ns_nj s /\ ns_weights s' = ns_weights s /\ ns_opt s' = ns_opt s /\ ns_eps s' = ns_eps s /\ ns_maxiter s' = ns_maxiter s).
Proof. exact (@nso_setters). Qed.
Print Assumptions C53_nso_setters.

Theorem C53_nso_posture_rate : forall n w o q x,
  derivable_pt_lim (fun t => posture_cost n w o (shifted n q x t)) 0 (posture_rate n w o q x).
Proof. exact (@posture_derivative). Qed.
Print Assumptions C53_nso_posture_rate.

Theorem C53_nso_few_joints_refuted : forall svd c s q v qdot,
  chain_ok c -> nso_clean s -> ns_nj s = ch_nj c -> (ch_nj c < 6)%nat ->
  length q = ch_nj c -> length qdot = ch_nj c -> length (ns_opt s) = ch_nj c -> length (ns_weights s) = ch_nj c ->
  dc_rc (svd (ns_maxiter s) (mkM 6 (ch_nj c) (tip_jacobian c q))) = 0%Z ->
  nso_CartToJnt svd c s q v qdot = Undef.
Proof. exact (@nso_few_joints). Qed.
Print Assumptions C53_nso_few_joints_refuted.

(** ChainIkSolverVel_wdls: the damped, weighted least-squares joint velocity. *)
Theorem C53_wdls_codes : forall svd c s q v qdot,
  chain_ok c -> wdls_clean s -> wdls_shapes s ->
  let n := ch_nj c in
  let fits := wd_nj s = n in
  let sized := length q = n /\ length qdot = n in
  let d := svd (wd_maxiter s) (weighted_jac c q s) in
  (~ fits -> exists s', wdls_CartToJnt svd c s q v qdot = Ret (E_NOT_UP_TO_DATE, qdot, s') /\ wd_error s' = E_NOT_UP_TO_DATE) /\
  (fits -> ~ sized -> exists s', wdls_CartToJnt svd c s q v qdot = Ret (E_SIZE_MISMATCH, qdot, s') /\ wd_error s' = E_SIZE_MISMATCH) /\
  (fits -> sized -> dc_rc d <> 0%Z -> exists s', wdls_CartToJnt svd c s q v qdot = Ret (E_SVD_FAILED, repeat 0 n, s') /\
     wd_error s' = E_SVD_FAILED /\ wd_svd s' = dc_rc d /\ wd_zeros s' = 0%nat /\ wd_smin s' = 0 /\ wd_scaled s' = 0) /\
  (fits -> sized -> dc_rc d = 0%Z -> (n < 6)%nat -> wdls_CartToJnt svd c s q v qdot = Undef) /\
  (fits -> sized -> dc_rc d = 0%Z -> (6 <= n)%nat -> 0 < wd_eps s -> wd_lambda s = 0 ->
     (exists i, (i < 6)%nat /\ dc_S d i = 0) -> wdls_CartToJnt svd c s q v qdot = Undef).
Proof. exact (@wdls_codes). Qed.
Print Assumptions C53_wdls_codes.

Theorem C53_wdls : forall svd c s q v qdot,
  chain_ok c -> wdls_clean s -> wdls_shapes s -> wd_nj s = ch_nj c ->
  length q = ch_nj c -> length qdot = ch_nj c -> 0 < wd_eps s -> (6 <= ch_nj c)%nat -> (Z.of_nat (ch_nj c) < 2 ^ 32)%Z ->
  let n := ch_nj c in
  let B := weighted_jac c q s in
  let b := weighted_twist s v in
  let d := svd (wd_maxiter s) B in
  let lam := damping (dc_S d 5) (wd_eps s) (wd_lambda s) in
  dc_rc d = 0%Z -> svd_of 6 n (mentry B) d -> svd_sorted 6 n d -> (wd_lambda s <> 0 \/ 0 < dc_S d 5) ->
  exists code out s' x, wdls_CartToJnt svd c s q v qdot = Ret (code, out, s') /\
    wd_error s' = code /\ wdls_clean s' /\ wdls_shapes s' /\ wd_nj s' = wd_nj s /\ wd_eps s' = wd_eps s /\ wd_maxiter s' = wd_maxiter s /\
    wd_lambda s' = wd_lambda s /\ wd_ts s' = wd_ts s /\ wd_js s' = wd_js s /\
    wd_smin s' = dc_S d 5 /\ wd_scaled s' = lam /\ wd_S s' = map (dc_S d) (seq 0 n) /\ wd_svd s' = 0%Z /\
    (code = E_CONVERGE_PINV_SINGULAR \/ code = E_NOERROR) /\
    (code = E_CONVERGE_PINV_SINGULAR <-> dc_S d 5 < wd_eps s) /\
    (wd_zeros s' + length (large_values n (wd_eps s) d) = n)%nat /\
    length x = n /\ out = weighted n (mentry (wd_js s)) x /\
    (forall y, length y = n -> selectively_damped 6 n (mentry B) b d (wd_eps s) lam x <= selectively_damped 6 n (mentry B) b d (wd_eps s) lam y) /\
    (wd_eps s <= dc_S d 5 \/ (wd_lambda s = 0 /\ 0 < dc_S d 5) -> shortest_least_squares 6 n (mentry B) b x).
Proof. exact (@wdls_solution). Qed.
Print Assumptions C53_wdls.

Theorem C53_wdls_constructed : forall c eps k,
  let s := wdls_make c eps k in wdls_clean s /\ wdls_shapes s /\ wd_nj s = ch_nj c /\ wd_eps s = eps /\
  wd_maxiter s = k /\ wd_lambda s = 0 /\ wd_ts s = m_identity 6 /\ wd_js s = m_identity (ch_nj c) /\ wd_scaled s = 0 /\
  wd_zeros s = 0%nat /\ wd_svd s = 0%Z /\ wd_smin s = 0 /\ wd_error s = E_NOERROR.
Proof. exact (@wdls_make_clean). Qed.
Print Assumptions C53_wdls_constructed.

Theorem C53_wdls_updated : forall c s,
  wdls_clean s -> wdls_shapes s -> let s' := wdls_update c s in wdls_clean s' /\ wdls_shapes s' /\
  wd_nj s' = ch_nj c /\ wd_eps s' = wd_eps s /\ wd_maxiter s' = wd_maxiter s /\ wd_lambda s' = wd_lambda s /\ wd_ts s' = wd_ts s /\
  (forall i j, (i < ch_nj c)%nat -> (j < ch_nj c)%nat ->
     mentry (wd_js s') i j = if Nat.ltb i (wd_nj s) && Nat.ltb j (wd_nj s) then mentry (wd_js s) i j else delta i j).
Proof. exact (@wdls_update_clean). Qed.
Print Assumptions C53_wdls_updated.

Theorem C53_wdls_setters : forall c s MJ MT x e k,
  wdls_clean s -> wdls_shapes s -> wd_nj s = ch_nj c ->
  let keeps (s' : wdls) := wdls_clean s' /\ wd_nj s' = wd_nj s in
  (mrows MJ = wd_nj s -> mcols MJ = wd_nj s -> exists s', wdls_setWeightJS c s MJ = (E_NOERROR, s') /\ keeps s' /\ wdls_shapes s' /\
     wd_js s' = MJ /\ wd_ts s' = wd_ts s /\ wd_lambda s' = wd_lambda s /\ wd_eps s' = wd_eps s /\ wd_maxiter s' = wd_maxiter s) /\
  (mrows MT = 6%nat -> mcols MT = 6%nat -> exists s', wdls_setWeightTS s MT = (E_NOERROR, s') /\ keeps s' /\ wdls_shapes s' /\
     wd_ts s' = MT /\ wd_js s' = wd_js s /\ wd_lambda s' = wd_lambda s /\ wd_eps s' = wd_eps s /\ wd_maxiter s' = wd_maxiter s) /\
  ((mrows MJ * mcols MJ <> wd_nj s * wd_nj s)%nat -> exists s', wdls_setWeightJS c s MJ = (E_SIZE_MISMATCH, s') /\ keeps s' /\ wdls_shapes s' /\
     wd_js s' = wd_js s /\ wd_ts s' = wd_ts s /\ wd_lambda s' = wd_lambda s /\ wd_eps s' = wd_eps s /\ wd_maxiter s' = wd_maxiter s) /\
  ((mrows MT * mcols MT <> 36)%nat -> exists s', wdls_setWeightTS s MT = (E_SIZE_MISMATCH, s') /\ keeps s' /\ wdls_shapes s' /\
     wd_js s' = wd_js s /\ wd_ts s' = wd_ts s /\ wd_lambda s' = wd_lambda s /\ wd_eps s' = wd_eps s /\ wd_maxiter s' = wd_maxiter s) /\
  (keeps (wdls_setLambda s x) /\ wdls_shapes (wdls_setLambda s x) /\ wd_lambda (wdls_setLambda s x) = x /\
     wd_eps (wdls_setLambda s x) = wd_eps s /\ wd_maxiter (wdls_setLambda s x) = wd_maxiter s /\
     wd_ts (wdls_setLambda s x) = wd_ts s /\ wd_js (wdls_setLambda s x) = wd_js s) /\
  (keeps (wdls_setEps s e) /\ wdls_shapes (wdls_setEps s e) /\ wd_eps (wdls_setEps s e) = e /\
     wd_lambda (wdls_setEps s e) = wd_lambda s /\ wd_maxiter (wdls_setEps s e) = wd_maxiter s /\
     wd_ts (wdls_setEps s e) = wd_ts s /\ wd_js (wdls_setEps s e) = wd_js s) /\
  (keeps (wdls_setMaxIter s k) /\ wdls_shapes (wdls_setMaxIter s k) /\ wd_maxiter (wdls_setMaxIter s k) = k /\
     wd_lambda (wdls_setMaxIter s k) = wd_lambda s /\ wd_eps (wdls_setMaxIter s k) = wd_eps s /\
     wd_ts (wdls_setMaxIter s k) = wd_ts s /\ wd_js (wdls_setMaxIter s k) = wd_js s).
Proof. exact (@wdls_setters). Qed.
Print Assumptions C53_wdls_setters.

Theorem C53_wdls_setWeightJS_stale : forall c s M,
  wd_nj s <> ch_nj c -> exists s', wdls_setWeightJS c s M = (E_NOT_UP_TO_DATE, s') /\ wd_js s' = wd_js s.
Proof. exact (@wdls_setWeightJS_stale). Qed.
Print Assumptions C53_wdls_setWeightJS_stale.

Theorem C53_wdls_getSigma : forall s Sout,
  wdls_clean s ->
  (length Sout = wd_nj s -> exists s', wdls_getSigma s Sout = (E_NOERROR, wd_S s, s') /\ wd_S s' = wd_S s) /\
  (length Sout <> wd_nj s -> exists s', wdls_getSigma s Sout = (E_SIZE_MISMATCH, Sout, s') /\ wd_S s' = wd_S s).
Proof. exact (@wdls_getSigma_spec). Qed.
Print Assumptions C53_wdls_getSigma.

(** getError() answers what the last setter of weights, posture or output array returned. *)
Theorem C53_setter_errors : forall c s w o a t MJ MT x e k Sout,
  ns_error (snd (nso_setWeights s w)) = fst (nso_setWeights s w) /\ ns_error (snd (nso_setOptPos s o)) = fst (nso_setOptPos s o) /\
  ns_error (snd (nso_setAlpha s a)) = ns_error s /\
  wd_error (snd (wdls_setWeightJS c t MJ)) = fst (wdls_setWeightJS c t MJ) /\ wd_error (snd (wdls_setWeightTS t MT)) = fst (wdls_setWeightTS t MT) /\
  wd_error (wdls_setLambda t x) = wd_error t /\ wd_error (wdls_setEps t e) = wd_error t /\ wd_error (wdls_setMaxIter t k) = wd_error t /\
  wd_error (snd (wdls_getSigma t Sout)) = fst (fst (wdls_getSigma t Sout)).
Proof. exact (@setter_errors). Qed.
Print Assumptions C53_setter_errors.

Theorem C53_wdls_weighted_twist : forall s v r,
  symmetric 6 (mentry (wd_ts s)) -> (r < 6)%nat ->
  weighted_twist s v r = sumn 6 (fun k => mentry (wd_ts s) r k * t_at v k).
Proof. exact (@weighted_twist_symmetric). Qed.
Print Assumptions C53_wdls_weighted_twist.

(** With identity weights and no active damping it is the pseudo-inverse solution. *)
Theorem C53_wdls_identity : forall svd c s q v qdot,
  chain_ok c -> wdls_clean s -> wd_ts s = m_identity 6 -> wd_js s = m_identity (ch_nj c) ->
  wd_nj s = ch_nj c -> length q = ch_nj c -> length qdot = ch_nj c -> 0 < wd_eps s -> (6 <= ch_nj c)%nat -> (Z.of_nat (ch_nj c) < 2 ^ 32)%Z ->
  let n := ch_nj c in
  let d := svd (wd_maxiter s) (weighted_jac c q s) in
  dc_rc d = 0%Z -> svd_of 6 n (tip_jacobian c q) d -> svd_sorted 6 n d ->
  wd_eps s <= dc_S d 5 \/ (wd_lambda s = 0 /\ 0 < dc_S d 5) ->
  exists code out s', wdls_CartToJnt svd c s q v qdot = Ret (code, out, s') /\
    shortest_least_squares 6 n (tip_jacobian c q) (t_at v) out.
Proof. exact (@wdls_identity). Qed.
Print Assumptions C53_wdls_identity.

Theorem C53_wdls_is_pinv : forall svd1 svd2 c s1 s2 q v qdot,
  chain_ok c -> pinv_clean s1 -> wdls_clean s2 ->
  wd_ts s2 = m_identity 6 -> wd_js s2 = m_identity (ch_nj c) -> pv_nj s1 = ch_nj c -> wd_nj s2 = ch_nj c ->
  length q = ch_nj c -> length qdot = ch_nj c -> 0 < pv_eps s1 -> 0 < wd_eps s2 -> (6 <= ch_nj c)%nat -> (Z.of_nat (ch_nj c) < 2 ^ 32)%Z ->
  let n := ch_nj c in
  let d1 := svd1 (pv_maxiter s1) (mkM 6 n (tip_jacobian c q)) in
  let d2 := svd2 (wd_maxiter s2) (weighted_jac c q s2) in
  dc_rc d1 = 0%Z -> svd_of 6 n (tip_jacobian c q) d1 -> no_small n (pv_eps s1) d1 ->
  dc_rc d2 = 0%Z -> svd_of 6 n (tip_jacobian c q) d2 -> svd_sorted 6 n d2 ->
  wd_eps s2 <= dc_S d2 5 \/ (wd_lambda s2 = 0 /\ 0 < dc_S d2 5) ->
  exists code1 code2 out s1' s2', pinv_CartToJnt svd1 c s1 q v qdot = Ret (code1, out, s1') /\
    wdls_CartToJnt svd2 c s2 q v qdot = Ret (code2, out, s2').
Proof. exact (@wdls_is_pinv). Qed.
Print Assumptions C53_wdls_is_pinv.

(** TreeIkSolverVel_wdls. *)
Theorem C53_tree_constructed : forall t endpoints,
  reachable t -> exists s, twdls_make t endpoints = Ret s /\ twdls_for t endpoints s /\ twdls_shapes t endpoints s /\
  tw_lambda s = 0 /\ tw_Wy s = m_identity (6 * length endpoints) /\ tw_Wq s = m_identity (tr_nj t).
Proof. exact (@twdls_make_ok). Qed.
Print Assumptions C53_tree_constructed.

Theorem C53_tree_setters : forall t endpoints s M x,
  twdls_for t endpoints s ->
  twdls_for t endpoints (twdls_setWeightJS s M) /\ twdls_for t endpoints (twdls_setWeightTS s M) /\ twdls_for t endpoints (twdls_setLambda s x) /\
  tw_Wq (twdls_setWeightJS s M) = M /\ tw_Wy (twdls_setWeightJS s M) = tw_Wy s /\ tw_lambda (twdls_setWeightJS s M) = tw_lambda s /\
  tw_Wy (twdls_setWeightTS s M) = M /\ tw_Wq (twdls_setWeightTS s M) = tw_Wq s /\ tw_lambda (twdls_setWeightTS s M) = tw_lambda s /\
  tw_lambda (twdls_setLambda s x) = x /\ tw_Wq (twdls_setLambda s x) = tw_Wq s /\ tw_Wy (twdls_setLambda s x) = tw_Wy s.
Proof. exact (@twdls_setters). Qed.
Print Assumptions C53_tree_setters.

Theorem C53_tree_codes : forall svd t endpoints s q v_in qdot,
  reachable t -> tree_ok t -> twdls_for t endpoints s ->
  let known := forall k tw, In (k, tw) v_in -> In k endpoints in
  (~ known -> twdls_CartToJnt svd s q v_in qdot = Ret (-2, qdot)) /\
  (known -> length q <> tr_nj t -> twdls_CartToJnt svd s q v_in qdot = Ret (-1, qdot)) /\
  (known -> length q = tr_nj t -> (0 < tr_nj t)%nat -> (forall k, In k endpoints -> dict_find v_in k <> None) ->
     (exists k, In k endpoints /\ tfind t k = None) -> twdls_CartToJnt svd s q v_in qdot = Ret (-2, qdot)) /\
  (known -> length q = tr_nj t -> (0 < tr_nj t)%nat -> (forall k, In k endpoints -> tfind t k <> None) ->
     (exists k, In k endpoints /\ dict_find v_in k = None) -> twdls_CartToJnt svd s q v_in qdot = Undef).
Proof. exact (@twdls_codes). Qed.
Print Assumptions C53_tree_codes.

Theorem C53_tree : forall svd t endpoints s q v_in qdot,
  reachable t -> tree_ok t -> twdls_for t endpoints s -> twdls_shapes t endpoints s ->
  (forall k tw, In (k, tw) v_in -> In k endpoints) -> (forall k, In k endpoints -> tfind t k <> None /\ dict_find v_in k <> None) ->
  length q = tr_nj t -> (0 < tr_nj t)%nat ->
  exists l, gathered t s q v_in l /\
  let m := (6 * length endpoints)%nat in let n := tr_nj t in
  let B := times m (mentry (tw_Wy s)) (times n (stacked_jac l) (mentry (tw_Wq s))) in
  let b := fun r => sumn m (fun k => mentry (tw_Wy s) r k * stacked_tw l k) in
  let d := svd 150%Z (mkM m n B) in
  let lam := tw_lambda s in
  ((dc_rc d < 0)%Z -> twdls_CartToJnt svd s q v_in qdot = Ret (IZR E_SVD_FAILED, qdot)) /\
  ((0 <= dc_rc d)%Z -> svd_of m n B d -> svd_sorted m n d -> (lam <> 0 \/ forall i, (i < n)%nat -> dc_S d i <> 0) ->
     exists out x, twdls_CartToJnt svd s q v_in qdot = Ret (sqrt (sumn m (fun r => b r * b r)), out) /\
       length x = n /\ out = weighted n (mentry (tw_Wq s)) x /\ damped_least_squares m n B b lam x /\
       (lam = 0 -> shortest_least_squares m n B b x)) /\
  ((0 <= dc_rc d)%Z -> lam = 0 -> (exists i, (i < n)%nat /\ dc_S d i = 0) -> twdls_CartToJnt svd s q v_in qdot = Undef).
Proof. exact (@twdls_solution). Qed.
Print Assumptions C53_tree.

(** The hypotheses are met. *)
Theorem C53_chain_example : exists c svd s1 s2 s3 q v (qdot : list R),
  chain_ok c /\ (6 <= ch_nj c)%nat /\ (Z.of_nat (ch_nj c) < 2 ^ 32)%Z /\ length q = ch_nj c /\ length qdot = ch_nj c /\
  pinv_clean s1 /\ pv_nj s1 = ch_nj c /\ 0 < pv_eps s1 /\
  wdls_clean s2 /\ wdls_shapes s2 /\ wd_nj s2 = ch_nj c /\ 0 < wd_eps s2 /\ wd_ts s2 = m_identity 6 /\ wd_js s2 = m_identity (ch_nj c) /\
  symmetric 6 (mentry (wd_ts s2)) /\
  nso_clean s3 /\ ns_nj s3 = ch_nj c /\ 0 < ns_eps s3 /\ length (ns_opt s3) = ch_nj c /\ length (ns_weights s3) = ch_nj c /\
  0 <= ns_alpha s3 /\ (forall i, (i < ch_nj c)%nat -> 0 <= nth i (ns_weights s3) 0) /\
  (let d := svd (pv_maxiter s1) (mkM 6 (ch_nj c) (tip_jacobian c q)) in
   dc_rc d = 0%Z /\ svd_of 6 (ch_nj c) (tip_jacobian c q) d /\ no_small (ch_nj c) (pv_eps s1) d) /\
  (let d := svd (wd_maxiter s2) (weighted_jac c q s2) in
   dc_rc d = 0%Z /\ svd_of 6 (ch_nj c) (mentry (weighted_jac c q s2)) d /\ svd_of 6 (ch_nj c) (tip_jacobian c q) d /\ svd_sorted 6 (ch_nj c) d /\
   wd_eps s2 <= dc_S d 5) /\
  (exists i, t_at v i <> 0).
Proof. exact (@velik_nonvacuous). Qed.
Print Assumptions C53_chain_example.

Theorem C53_tree_example : exists t endpoints s svd q v_in, reachable t /\ tree_ok t /\ twdls_for t endpoints s /\ twdls_shapes t endpoints s /\
  (forall k tw, In (k, tw) v_in -> In k endpoints) /\ (forall k, In k endpoints -> tfind t k <> None /\ dict_find v_in k <> None) /\
  length q = tr_nj t /\ (0 < tr_nj t)%nat /\ tw_lambda s = 1 /\
  forall l, gathered t s q v_in l ->
  let m := (6 * length endpoints)%nat in let n := tr_nj t in
  let B := times m (mentry (tw_Wy s)) (times n (stacked_jac l) (mentry (tw_Wq s))) in
  let d := svd 150%Z (mkM m n B) in dc_rc d = 0%Z /\ svd_of m n B d /\ svd_sorted m n d.
Proof. exact (@twdls_nonvacuous). Qed.
Print Assumptions C53_tree_example.

(** A chain of fewer than six joints at a singular position is not reported. *)
Theorem C53_pinv_singular_refuted : exists c svd q, chain_ok c /\ length q = ch_nj c /\ forall eps it v qdot, 0 < eps -> length qdot = ch_nj c ->
  let s := pinv_make c eps it in
  let d := svd it (mkM 6 (ch_nj c) (tip_jacobian c q)) in
  dc_rc d = 0%Z /\ svd_of 6 (ch_nj c) (tip_jacobian c q) d /\ dc_S d 1 = 0 /\
  exists out s', pinv_CartToJnt svd c s q v qdot = Ret (E_NOERROR, out, s').
Proof. exact (@pinv_few_joints). Qed.
Print Assumptions C53_pinv_singular_refuted.

(** A freshly constructed solver divides by zero at a singular position. *)
Theorem C53_wdls_default_refuted : exists c svd q, chain_ok c /\ (6 <= ch_nj c)%nat /\ length q = ch_nj c /\
  forall it v qdot, length qdot = ch_nj c ->
  let s := wdls_make c (1 / 1000) it in
  let d := svd it (weighted_jac c q s) in
  dc_rc d = 0%Z /\ svd_of 6 (ch_nj c) (mentry (weighted_jac c q s)) d /\ svd_sorted 6 (ch_nj c) d /\ wdls_CartToJnt svd c s q v qdot = Undef.
Proof. exact (@wdls_default_singular). Qed.
Print Assumptions C53_wdls_default_refuted.

Theorem C53_tree_default_refuted : exists t endpoints s svd q v_in, reachable t /\ tree_ok t /\ twdls_make t endpoints = Ret s /\ length q = tr_nj t /\
  (forall k, In k endpoints <-> exists tw, In (k, tw) v_in) /\ (forall k, In k endpoints -> tfind t k <> None) /\
  (exists l, gathered t s q v_in l /\
  let m := (6 * length endpoints)%nat in let n := tr_nj t in
  let B := times m (mentry (tw_Wy s)) (times n (stacked_jac l) (mentry (tw_Wq s))) in
  let d := svd 150%Z (mkM m n B) in dc_rc d = 0%Z /\ svd_of m n B d /\ svd_sorted m n d) /\
  forall qdot, twdls_CartToJnt svd s q v_in qdot = Undef.
Proof. exact (@twdls_default_singular). Qed.
Print Assumptions C53_tree_default_refuted.

(** The weight setter accepts a matrix of another shape. *)
Theorem C53_wdls_weight_shape_refuted : exists c s M, chain_ok c /\ wdls_clean s /\ wdls_shapes s /\ wd_nj s = ch_nj c /\ mrows M <> ch_nj c /\
  exists s', wdls_setWeightJS c s M = (E_NOERROR, s') /\
  forall svd q v qdot, length q = ch_nj c -> length qdot = ch_nj c -> wdls_CartToJnt svd c s' q v qdot = Undef.
Proof. exact (@wdls_weight_shape). Qed.
Print Assumptions C53_wdls_weight_shape_refuted.

