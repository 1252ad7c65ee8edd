(** Theorems about the inverse velocity solver with plane rotations (C67). *)
From Coq Require Import Reals String List ZArith Bool.
From Verif Require Import FramesModel FramesSpec Outcome InertiaModel DualModel KinModel KinSpec LinModel LinSpec LmaSpec
  SvdModel VelIkModel VelIkSpec VelIkWitness GivensModel GivensSpec GivensLin GivensLoop GivensFactor GivensThms GivensThms2 GivensWitness.
Import ListNotations.
Local Open Scope list_scope.
Local Open Scope R_scope.

(** ** C67: with a regular Jacobian and an update to make, the sweeps end and the
    returned velocity is the least squares solution up to 1e-13 *)
Theorem C67_column_call_least_squares : forall c s q v qdot low,
  chain_ok c -> (ch_nj c <= 6)%nat -> givens_used c s -> column_call s ->
  length q = ch_nj c -> length qdot = ch_nj c -> 0 < low -> stretches 6 (ch_nj c) low (tip_jacobian c q) -> skewed 6 (ch_nj c) (column_start c s q) ->
  exists out s', finishes c s q v qdot out s' /\ length out = ch_nj c /\ row_call s' /\
  (forall y, length y = ch_nj c -> misfit 6 (ch_nj c) (tip_jacobian c q) (t_at v) out <= misfit 6 (ch_nj c) (tip_jacobian c q) (t_at v) y + 1 / 10 ^ 13 * sq 6 (t_at v)) /\
  (ch_nj c = 6%nat -> misfit 6 (ch_nj c) (tip_jacobian c q) (t_at v) out <= 1 / 10 ^ 13 * sq 6 (t_at v)).
Proof. exact (@column_call_least_squares). Qed.
Print Assumptions C67_column_call_least_squares.

Theorem C67_row_call_six_joints : forall c s q v qdot low high,
  chain_ok c -> ch_nj c = 6%nat -> givens_used c s -> row_call s ->
  length q = 6%nat -> length qdot = 6%nat -> 0 < low -> stretches 6 6 low (transposed (tip_jacobian c q)) -> stretched_at_most 6 6 high (transposed (tip_jacobian c q)) ->
  skewed 6 6 (row_start c s q) ->
  exists out s', finishes c s q v qdot out s' /\ length out = 6%nat /\ column_call s' /\
  low * misfit 6 6 (tip_jacobian c q) (t_at v) out <= 1 / 10 ^ 13 * (high * sq 6 (t_at v)).
Proof. exact (@row_call_square). Qed.
Print Assumptions C67_row_call_six_joints.

Theorem C67_column_call_redundant : forall c s q v qdot low high,
  chain_ok c -> (6 < ch_nj c)%nat -> givens_used c s -> column_call s ->
  length q = ch_nj c -> length qdot = ch_nj c -> 0 < low ->
  stretches (ch_nj c) 6 low (transposed (tip_jacobian c q)) -> stretched_at_most (ch_nj c) 6 high (transposed (tip_jacobian c q)) ->
  skewed (ch_nj c) 6 (column_start c s q) ->
  exists out s', finishes c s q v qdot out s' /\ length out = ch_nj c /\
  low * misfit 6 (ch_nj c) (tip_jacobian c q) (t_at v) out <= 1 / 10 ^ 13 * (high * sq 6 (t_at v)) /\
  exists z, forall j, (j < ch_nj c)%nat -> nth j out 0 = sumn 6 (fun r => tip_jacobian c q r j * z r).
Proof. exact (@column_call_redundant). Qed.
Print Assumptions C67_column_call_redundant.


(** The first call solves the leading square block of the Jacobian and nothing else. *)
Theorem C67_first_call : forall c q v qdot low high,
  chain_ok c -> length q = ch_nj c -> length qdot = ch_nj c -> 0 < low ->
  stretches (Nat.min 6 (ch_nj c)) (Nat.min 6 (ch_nj c)) low (tip_jacobian c q) -> stretched_at_most (Nat.min 6 (ch_nj c)) (Nat.min 6 (ch_nj c)) high (tip_jacobian c q) ->
  skewed (Nat.min 6 (ch_nj c)) (Nat.min 6 (ch_nj c)) (row_start c (givens_make c) q) ->
  exists out s', finishes c (givens_make c) q v qdot out s' /\ length out = ch_nj c /\ column_call s' /\
  low * sq (Nat.min 6 (ch_nj c)) (fun a => sumn (Nat.min 6 (ch_nj c)) (fun j => tip_jacobian c q a j * nth j out 0) - t_at v a) <=
    1 / 10 ^ 13 * (high * sq (Nat.min 6 (ch_nj c)) (t_at v)) /\
  forall j, (6 <= j < ch_nj c)%nat -> nth j out 0 = 0.
Proof. exact (@first_call). Qed.
Print Assumptions C67_first_call.

Theorem C67_first_call_least_squares_refuted : exists c q v qdot out s' y, chain_ok c /\ ch_nj c = 2%nat /\ length q = 2%nat /\ length qdot = 2%nat /\ length y = 2%nat /\
  stretches 6 2 (1/5) (tip_jacobian c q) /\ finishes c (givens_make c) q v qdot out s' /\
  misfit 6 2 (tip_jacobian c q) (t_at v) out = 1 /\ misfit 6 2 (tip_jacobian c q) (t_at v) y = 9/25.
Proof. exact (@first_answer). Qed.
Print Assumptions C67_first_call_least_squares_refuted.


(** Singular configurations: the sweeps never end. *)
Theorem C67_dependent_columns_never_return : forall c s q v qdot x j,
  chain_ok c -> (2 <= ch_nj c)%nat -> givens_used c s -> column_call s ->
  length q = ch_nj c -> length qdot = ch_nj c ->
  (forall a, (a < Nat.max 6 (ch_nj c))%nat -> sumn (Nat.min 6 (ch_nj c)) (fun k => tall_jacobian c q a k * x k) = 0) ->
  (j < Nat.min 6 (ch_nj c))%nat -> x j <> 0 ->
  never_finishes c s q v qdot.
Proof. exact (@dependent_columns). Qed.
Print Assumptions C67_dependent_columns_never_return.

Theorem C67_singular_never_returns : forall c s q v qdot x j,
  chain_ok c -> ch_nj c = 6%nat -> givens_used c s -> length q = 6%nat -> length qdot = 6%nat ->
  (forall a, (a < 6)%nat -> sumn 6 (fun k => tip_jacobian c q a k * x k) = 0) -> (j < 6)%nat -> x j <> 0 ->
  never_finishes c s q v qdot.
Proof. exact (@singular_square). Qed.
Print Assumptions C67_singular_never_returns.

Theorem C67_first_call_singular : forall c q v qdot x j,
  chain_ok c -> (2 <= ch_nj c)%nat -> length q = ch_nj c -> length qdot = ch_nj c ->
  (forall r, (r < Nat.min 6 (ch_nj c))%nat -> sumn (Nat.min 6 (ch_nj c)) (fun k => tip_jacobian c q r k * x k) = 0) ->
  (j < Nat.min 6 (ch_nj c))%nat -> x j <> 0 ->
  never_finishes c (givens_make c) q v qdot.
Proof. exact (@first_call_singular). Qed.
Print Assumptions C67_first_call_singular.

Theorem C67_first_call_zero_row : forall c q v qdot r,
  chain_ok c -> (2 <= ch_nj c <= 6)%nat -> length q = ch_nj c -> length qdot = ch_nj c ->
  (r < ch_nj c)%nat -> (forall k, (k < ch_nj c)%nat -> tip_jacobian c q r k = 0) ->
  never_finishes c (givens_make c) q v qdot.
Proof. exact (@first_call_zero_row). Qed.
Print Assumptions C67_first_call_zero_row.

Theorem C67_planar_arm_never_returns : forall ls q v qdot,
  (3 <= length ls <= 6)%nat -> length q = length ls -> length qdot = length ls ->
  never_finishes (arm ls) (givens_make (arm ls)) q v qdot.
Proof. exact (@planar_arm_never). Qed.
Print Assumptions C67_planar_arm_never_returns.


(** Nothing to rotate: the factors of the previous configuration are used again. *)
Theorem C67_blind_calls : forall c s q1 q2 v qdot,
  chain_ok c -> givens_used c s -> length q1 = ch_nj c -> length q2 = ch_nj c -> length qdot = ch_nj c ->
  start_is_orthogonal c s q1 -> start_is_orthogonal c s q2 -> (forall i, (i < Nat.min 6 (ch_nj c))%nat -> exists x, gv_S s i = Some x /\ 0 < x) ->
  exists out s1 s2, finishes c s q1 v qdot out s1 /\ finishes c s q2 v qdot out s2.
Proof. exact (@blind_calls). Qed.
Print Assumptions C67_blind_calls.

Theorem C67_fresh_answer_refuted : exists c s q v qdot out s', chain_ok c /\ ch_nj c = 6%nat /\ givens_used c s /\ column_call s /\ length q = 6%nat /\ length qdot = 6%nat /\
  stretches 6 6 1 (tip_jacobian c q) /\ sq 6 (t_at v) = 1 /\ finishes c s q v qdot out s' /\
  forall r, (r < 6)%nat -> sumn 6 (fun j => tip_jacobian c q r j * nth j out 0) = - t_at v r.
Proof. exact (@stale_answer). Qed.
Print Assumptions C67_fresh_answer_refuted.

Theorem C67_orthogonal_start_undefined : forall c q v qdot fuel,
  chain_ok c -> (0 < ch_nj c)%nat -> length q = ch_nj c -> length qdot = ch_nj c ->
  ~ skewed (Nat.min 6 (ch_nj c)) (Nat.min 6 (ch_nj c)) (row_start c (givens_make c) q) ->
  givens_CartToJnt (S fuel) c (givens_make c) q v qdot = Undef.
Proof. exact (@orthogonal_start_undefined). Qed.
Print Assumptions C67_orthogonal_start_undefined.

Theorem C67_one_joint_undefined : forall c q v qdot fuel,
  chain_ok c -> ch_nj c = 1%nat -> length q = 1%nat -> length qdot = 1%nat ->
  givens_CartToJnt (S fuel) c (givens_make c) q v qdot = Undef.
Proof. exact (@one_joint_undefined). Qed.
Print Assumptions C67_one_joint_undefined.

Theorem C67_gantry_undefined : forall v qdot fuel,
  length qdot = 6%nat -> givens_CartToJnt (S fuel) (gantry 1) (givens_make (gantry 1)) home v qdot = Undef.
Proof. exact (@gantry_undefined). Qed.
Print Assumptions C67_gantry_undefined.


(** After segments have been added to the chain, the stored V still has nearly orthonormal columns. *)
Theorem C67_longer_chain : forall c c' s, chain_ok c -> givens_used c s -> (ch_nj c <= ch_nj c')%nat ->
  stretches (Nat.min 6 (ch_nj c')) (Nat.min 6 (ch_nj c')) (1 - 1 / 10 ^ 6) (gv_V (givens_update c' s)) /\
  stretched_at_most (Nat.min 6 (ch_nj c')) (Nat.min 6 (ch_nj c')) (1 + 1 / 10 ^ 6) (gv_V (givens_update c' s)).
Proof. exact (@longer_chain). Qed.
Print Assumptions C67_longer_chain.

(** No stored singular value is zero, so the case alpha = 0 of the solver never occurs. *)
Theorem C67_positive_singular_values : forall c s, givens_used c s -> forall i x, gv_S s i = Some x -> 0 < x.
Proof. exact (@used_positive). Qed.
Print Assumptions C67_positive_singular_values.

(** Return codes. *)
Theorem C67_codes : forall fuel c s q v qdot,
  gv_nj s <> ch_nj c \/ length q <> ch_nj c \/ length qdot <> ch_nj c ->
  exists s', givens_CartToJnt fuel c s q v qdot =
    Ret (Some (if Nat.eqb (gv_nj s) (ch_nj c) then E_SIZE_MISMATCH else E_NOT_UP_TO_DATE, qdot, s')) /\
  gv_error s' = (if Nat.eqb (gv_nj s) (ch_nj c) then E_SIZE_MISMATCH else E_NOT_UP_TO_DATE) /\
  gv_toggle s' = gv_toggle s /\ gv_U s' = gv_U s /\ gv_S s' = gv_S s /\ gv_V s' = gv_V s /\ gv_jac s' = gv_jac s /\ gv_nj s' = gv_nj s.
Proof. exact (@codes). Qed.
Print Assumptions C67_codes.


(** Concrete chains meet the hypotheses. *)
Theorem C67_nonvacuous : (exists c s q (qdot : list R), chain_ok c /\ ch_nj c = 6%nat /\ givens_used c s /\ column_call s /\ length q = 6%nat /\ length qdot = 6%nat /\
    stretches 6 6 (1/16) (tip_jacobian c q) /\ skewed 6 6 (column_start c s q)) /\
  (exists c s q (qdot : list R), chain_ok c /\ ch_nj c = 6%nat /\ givens_used c s /\ row_call s /\ length q = 6%nat /\ length qdot = 6%nat /\
    stretches 6 6 1 (transposed (tip_jacobian c q)) /\ stretched_at_most 6 6 100 (transposed (tip_jacobian c q)) /\ skewed 6 6 (row_start c s q)) /\
  (exists c s q (qdot : list R), chain_ok c /\ ch_nj c = 7%nat /\ givens_used c s /\ column_call s /\ length q = 7%nat /\ length qdot = 7%nat /\
    stretches 7 6 1 (transposed (tip_jacobian c q)) /\ stretched_at_most 7 6 102 (transposed (tip_jacobian c q)) /\ skewed 7 6 (column_start c s q)) /\
  (exists c q (qdot : list R), chain_ok c /\ ch_nj c = 7%nat /\ length q = 7%nat /\ length qdot = 7%nat /\
    stretches 6 6 1 (tip_jacobian c q) /\ stretched_at_most 6 6 100 (tip_jacobian c q) /\ skewed 6 6 (row_start c (givens_make c) q)) /\
  (exists c s q (qdot : list R) x, chain_ok c /\ ch_nj c = 6%nat /\ givens_used c s /\ column_call s /\ length q = 6%nat /\ length qdot = 6%nat /\
    (forall r, (r < 6)%nat -> sumn 6 (fun k => tip_jacobian c q r k * x k) = 0) /\ x 0%nat <> 0).
Proof. exact (@givens_nonvacuous). Qed.
Print Assumptions C67_nonvacuous.

