(** Specification vocabulary for position solvers assembled from the library's own parts (C84). *)
From Coq Require Import Reals String List ZArith.
From Verif Require Import FramesModel FramesSpec Outcome InertiaModel DualModel KinModel KinSpec TreeModel TreeSpec LinModel LinSpec IkModel IkSpec VelIkModel VelIkSpec NewtonSpec.
Import ListNotations.
Local Open Scope list_scope.
Local Open Scope R_scope.

(** One object asked again and again: the answers in order, and the object at the end. *)
Fixpoint session {T A B : Type} (call : T -> A -> outcome (B * T)) (st : T) (requests : list A) : outcome (list B * T) :=
  match requests with
  | [] => Ret ([], st)
  | a :: rest => let! (b, st1) := call st a in let! (bs, st2) := session call st1 rest in Ret (b :: bs, st2)
  end.

(** A request to a chain solver: start, goal, contents of the output array.  An answer: code and output array. *)
Definition request := (list R * Frame * list R)%type.
Definition nrjl_ask {W : Type} (c : Chain) (ikv : W -> list R -> Twist -> list R -> outcome (Z * list R * W))
    (st : nrjl * W) (a : request) : outcome ((Z * list R) * (nrjl * W)) :=
  let '(q0, p, qo) := a in
  let! (code, q, s', w') := nrjl_CartToJnt (own_fk c) ikv c (fst st) (snd st) q0 p qo in Ret ((code, q), (s', w')).
Definition nr_ask {W : Type} (c : Chain) (ikv : W -> list R -> Twist -> list R -> outcome (Z * list R * W))
    (st : nrs * W) (a : request) : outcome ((Z * list R) * (nrs * W)) :=
  let '(q0, p, qo) := a in
  let! (code, q, s', w') := nr_CartToJnt (own_fk c) ikv c (fst st) (snd st) q0 p qo in Ret ((code, q), (s', w')).

(** Solver objects made for the chain. *)
Definition nrjl_ready (c : Chain) (s : nrjl) : Prop :=
  nj_nj s = ch_nj c /\ length (nj_min s) = ch_nj c /\ length (nj_max s) = ch_nj c /\ length (nj_delta s) = ch_nj c.
Definition nr_ready (c : Chain) (s : nrs) : Prop := nr_nj s = ch_nj c /\ length (nr_delta s) = ch_nj c.
Definition pinv_ready (c : Chain) (w : pinv) : Prop := pinv_clean w /\ pv_nj w = ch_nj c /\ 0 < pv_eps w.
Definition nso_ready (c : Chain) (w : nso) : Prop :=
  nso_clean w /\ ns_nj w = ch_nj c /\ 0 < ns_eps w /\ length (ns_opt w) = ch_nj c /\ length (ns_weights w) = ch_nj c.
Definition wdls_ready (c : Chain) (w : wdls) : Prop :=
  wdls_clean w /\ wdls_shapes w /\ wd_nj w = ch_nj c /\ 0 < wd_eps w /\ wd_lambda w <> 0.

(** The decomposition reports a failure at the joint position [q]. *)
Definition pinv_fails (svd : Z -> Mat -> Decomp) (c : Chain) (k : Z) (q : list R) : Prop := dc_rc (svd k (mkM 6 (ch_nj c) (tip_jacobian c q))) <> 0%Z.
Definition wdls_fails (svd : Z -> Mat -> Decomp) (c : Chain) (w : wdls) (q : list R) : Prop := dc_rc (svd (wd_maxiter w) (weighted_jac c q w)) <> 0%Z.
(** When it reports success, what it returns is a sorted decomposition of the weighted Jacobian. *)
Definition wdls_honest (svd : Z -> Mat -> Decomp) (c : Chain) (w : wdls) : Prop :=
  forall q, length q = ch_nj c -> let d := svd (wd_maxiter w) (weighted_jac c q w) in
    dc_rc d = 0%Z -> svd_of 6 (ch_nj c) (mentry (weighted_jac c q w)) d /\ svd_sorted 6 (ch_nj c) d.

(** What an answer says.  [fails q]: the decomposition fails at the joint position [q]. *)
Definition sized (c : Chain) (a : request) : Prop := length (fst (fst a)) = ch_nj c /\ length (snd a) = ch_nj c.
Definition nrjl_answer (c : Chain) (lo hi : list R) (eps : R) (fails : list R -> Prop) (a : request) (b : Z * list R) : Prop :=
  let '(q0, p, qo) := a in let '(code, q) := b in
  (~ sized c a -> code = E_SIZE_MISMATCH /\ q = qo) /\
  (sized c a -> length q = ch_nj c /\ (q = q0 \/ within lo hi q) /\
     (code = E_NOERROR /\ (rigid p -> eps <= / 2 -> pose_within eps (tip c q) p) \/
      code = E_MAX_ITERATIONS_EXCEEDED \/ code = E_IKSOLVERVEL_FAILED /\ fails q)).
Definition nr_answer (c : Chain) (eps : R) (fails : list R -> Prop) (a : request) (b : Z * list R) : Prop :=
  let '(q0, p, qo) := a in let '(code, q) := b in
  (~ sized c a -> code = E_SIZE_MISMATCH /\ q = qo) /\
  (sized c a -> length q = ch_nj c /\
     ((code = E_NOERROR \/ code = E_DEGRADED) /\
        (rigid p -> eps <= / 2 -> exists q1 dq, array_sum q1 dq q /\ pose_within eps (tip c q1) p) \/
      code = E_MAX_ITERATIONS_EXCEEDED \/ code = E_IKSOLVER_FAILED /\ fails q)).

(** The tree solvers, with TreeFkSolverPos_recursive (its copy of the tree is [st]) and TreeIkSolverVel_wdls. *)
Definition own_tfk {W : Type} (st : Tree) : W -> list R -> string -> Frame -> outcome (Frame * W) :=
  fun w q k f => let! (_, f') := treefk_JntToCart st q f k in Ret (f', w).
Definition own_tikv (svd : Z -> Mat -> Decomp) (w : twdls) (q : list R) (v : dict Twist) (d : list R) : outcome (R * list R * twdls) :=
  let! (r, dq) := twdls_CartToJnt svd w q v d in Ret (r, dq, w).
Definition trequest := (list R * dict Frame)%type.
Definition tnrjl_ask (svd : Z -> Mat -> Decomp) (st : Tree) (o : tnrjl * twdls) (a : trequest) : outcome ((R * list R) * (tnrjl * twdls)) :=
  let! (code, q, s', w') := tnrjl_CartToJnt (own_tfk st) (own_tikv svd) (fst o) (snd o) (fst a) (snd a) in Ret ((code, q), (s', w')).
Definition online_ask (svd : Z -> Mat -> Decomp) (st : Tree) (o : online * twdls) (a : trequest) : outcome ((R * list R) * (online * twdls)) :=
  let! (code, q, s', w') := online_CartToJnt (own_tfk st) (own_tikv svd) (fst o) (snd o) (fst a) (snd a) in Ret ((code, q), (s', w')).
Definition keys_are {A : Type} (endpoints : list string) (m : dict A) : Prop :=
  (forall k, dict_find m k = None <-> ~ In k endpoints) /\ (forall k a, In (k, a) m -> In k endpoints).
Definition tnrjl_ready (t : Tree) (endpoints : list string) (s : tnrjl) : Prop :=
  keys_are endpoints (tn_frames s) /\ keys_are endpoints (tn_twists s) /\
  length (tn_min s) = tr_nj t /\ length (tn_max s) = tr_nj t /\ length (tn_delta s) = tr_nj t.
Definition online_ready (t : Tree) (endpoints : list string) (s : online) : Prop :=
  keys_are endpoints (on_frames s) /\ keys_are endpoints (on_twists s) /\ length (on_qdot s) = tr_nj t /\
  length (on_min s) = tr_nj t /\ length (on_max s) = tr_nj t /\ length (on_dmax s) = tr_nj t /\ (forall d, In d (on_dmax s) -> 0 < d).
Definition twdls_ready (t : Tree) (endpoints : list string) (w : twdls) : Prop :=
  twdls_for t endpoints w /\ twdls_shapes t endpoints w /\ tw_lambda w <> 0.
Definition known_goals (endpoints : list string) (a : trequest) : Prop := forall k, In k (map fst (snd a)) -> In k endpoints.
Definition tnrjl_answer (t : Tree) (endpoints : list string) (lo hi : list R) (eps : R) (a : trequest) (b : R * list R) : Prop :=
  let '(code, q) := b in
  (~ known_goals endpoints a -> code = -2 /\ q = fst a) /\
  (known_goals endpoints a ->
     (q = fst a \/ in_box lo hi q) /\ (code = -3 \/ code < eps) /\
     (length (fst a) <> tr_nj t -> q = fst a) /\ (length (fst a) = tr_nj t -> length q = tr_nj t)).
Definition online_answer (t : Tree) (endpoints : list string) (lo hi dmax : list R) (a : trequest) (b : R * list R) : Prop :=
  let '(code, q) := b in
  (~ known_goals endpoints a -> code = -2 /\ q = fst a) /\
  (known_goals endpoints a -> length (fst a) <> tr_nj t -> code = -1 /\ q = fst a) /\
  (known_goals endpoints a -> length (fst a) = tr_nj t ->
     (code < 0 -> q = fst a /\ code = IZR E_SVD_FAILED) /\
     (0 <= code -> in_box lo hi q) /\
     forall i, (i < tr_nj t)%nat -> nth i lo 0 <= nth i (fst a) 0 <= nth i hi 0 ->
       Rabs (nth i q 0 - nth i (fst a) 0) <= nth i dmax 0).
