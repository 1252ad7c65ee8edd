(** Constructed solvers are ready, and a concrete stack. *)
From Coq Require Import Reals String List ZArith Bool Arith Lia Lra.
From Verif Require Import FramesModel FramesSpec Outcome InertiaModel DualModel KinModel KinSpec JntModel TreeModel TreeSpec TreeProofs TreeCopyProofs TreeSolverProofs TreeFinal
  LinModel LinSpec SumProofs IkModel IkSpec IkTreeProofs IkTreeProofs2 LmaModel LmaSpec LmaProofs VelIkModel VelIkSpec VelIkProofs VelIkProofs2 VelIkProofs3 VelIkProofs4 VelIkWitness
  NewtonSpec IkOwnSpec IkOwn IkOwnSame IkOwnTree.
Import ListNotations.
Local Open Scope list_scope.
Local Open Scope R_scope.

Lemma insert_keys {A} (m : dict A) k a k' a' : In (k', a') (dict_insert m k a) -> k' = k \/ In (k', a') m.
Proof.
  induction m as [|[k1 b] m IH]; cbn [dict_insert]; [intros [E|[]]; injection E as <- <-; auto|].
  destruct (String.eqb k1 k); [auto|]. destruct (String.ltb k k1).
  - intros [E|I]; [injection E as <- <-; auto|auto].
  - intros [E|I]; [right; left; exact E|]. destruct (IH I); [auto|right; right; assumption].
Qed.
Lemma dict_of_keys {A} l (a : A) : keys_are l (dict_of l a).
Proof.
  split; [intros k; apply find_dict_of|]. unfold dict_of.
  assert (G : forall l m k x, In (k, x) (fold_left (fun m k => dict_insert m k a) l m) -> In k l \/ In (k, x) m).
  { clear. induction l as [|k0 l IH]; intros m k x H; cbn [fold_left] in H; [auto|].
    destruct (IH _ _ _ H) as [I|I]; [left; right; exact I|]. apply insert_keys in I. destruct I as [->|I]; [left; left; reflexivity|auto]. }
  intros k x H. destruct (G _ _ _ _ H) as [I|[]]. exact I.
Qed.

Lemma ready_chain c : chain_ok c ->
  (forall lo hi n eps, length lo = ch_nj c -> length hi = ch_nj c -> nrjl_ready c (nrjl_make c lo hi n eps)) /\
  (forall n eps, nrjl_ready c (nrjl_make_nolimits c n eps)) /\
  (forall n eps, nr_ready c (nr_make c n eps)) /\
  (forall eps k, 0 < eps -> pinv_ready c (pinv_make c eps k)) /\
  (forall o wt eps k al, 0 < eps -> length o = ch_nj c -> length wt = ch_nj c -> nso_ready c (nso_make c o wt eps k al)) /\
  (forall eps k lam, 0 < eps -> lam <> 0 -> wdls_ready c (wdls_setLambda (wdls_make c eps k) lam)).
Proof.
  intros _. split; [intros; repeat split; cbn; auto; apply repeat_length|]. split; [intros; repeat split; cbn; apply repeat_length|].
  split; [intros; repeat split; cbn; apply repeat_length|].
  split; [intros eps k He; destruct (pinv_make_clean c eps k) as (A & B & _); split; [exact A|]; split; [exact B|exact He]|].
  split; [intros o wt eps k al He Lo Lw; destruct (nso_make_clean c o wt eps k al) as (A & B & _); split; [exact A|]; split; [exact B|]; split; [exact He|]; auto|].
  intros eps k lam He Hl. destruct (wdls_make_clean c eps k) as (A & B & C & _). split; [exact A|]. split; [exact B|]. split; [exact C|]. split; [exact He|exact Hl].
Qed.
Lemma ready_tree t ends : reachable t ->
  (exists st, treefk_make t = Ret st) /\
  (forall lo hi n eps, length lo = tr_nj t -> length hi = tr_nj t -> tnrjl_ready t ends (tnrjl_make (tr_nj t) ends lo hi n eps)) /\
  (forall lo hi dm tm rm, length lo = tr_nj t -> length hi = tr_nj t -> length dm = tr_nj t -> (forall d, In d dm -> 0 < d) -> online_ready t ends (online_make (tr_nj t) ends lo hi dm tm rm)) /\
  (exists w, twdls_make t ends = Ret w /\ forall lam, lam <> 0 -> twdls_ready t ends (twdls_setLambda w lam)).
Proof.
  intros H. split; [exact (copy_total _ (reachable_inv _ H))|].
  split; [intros; split; [apply dict_of_keys|split; [apply dict_of_keys|repeat split; auto; apply repeat_length]]|].
  split; [intros; split; [apply dict_of_keys|split; [apply dict_of_keys|split; [apply repeat_length|auto]]]|].
  destruct (twdls_make_ok t ends H) as (w & E & A & B & _). exists w. split; [exact E|]. intros lam Hl. split; [exact A|split; [exact B|exact Hl]].
Qed.

(** A decomposition routine that only knows the identity. *)
Definition is_unit (M : Mat) : bool :=
  forallb (fun i => forallb (fun j => if Req_EM_T (mentry M i j) (delta i j) then true else false) (seq 0 6)) (seq 0 6).
Definition unit_svd (k : Z) (M : Mat) : Decomp := if is_unit M then gantry_svd 1 0 else gantry_svd 1 1.
Lemma is_unit_spec M : is_unit M = true <-> forall i j, (i < 6)%nat -> (j < 6)%nat -> mentry M i j = delta i j.
Proof.
  unfold is_unit. rewrite forallb_forall. split.
  - intros H i j Hi Hj. specialize (H i ltac:(apply in_seq; lia)). rewrite forallb_forall in H. specialize (H j ltac:(apply in_seq; lia)). destruct (Req_EM_T _ _); [assumption|discriminate].
  - intros H i Hi. apply in_seq in Hi. rewrite forallb_forall. intros j Hj. apply in_seq in Hj. rewrite (H i j) by lia. destruct (Req_EM_T _ _); [reflexivity|contradiction].
Qed.
Lemma stack_example : exists c svd w, chain_ok c /\ (6 <= ch_nj c)%nat /\ wdls_ready c w /\ wdls_honest svd c w /\
  ~ wdls_fails svd c w home /\ length home = ch_nj c /\ ~ pinv_fails svd c 150 home /\ tip c home = f_id.
Proof.
  pose (w := wdls_setLambda (wdls_make (gantry 1) (1/1000) 150) (1/2)).
  assert (U : forall i j, (i < 6)%nat -> (j < 6)%nat -> tip_jacobian (gantry 1) home i j = delta i j).
  { intros i j Hi Hj. rewrite gantry_jac_entry by assumption. destruct (Nat.eqb j 5); ring. }
  exists (gantry 1), unit_svd, w. split; [apply gantry_ok|]. split; [cbn; lia|].
  split; [apply (proj2 (proj2 (proj2 (proj2 (proj2 (ready_chain (gantry 1) (gantry_ok 1))))))); lra|].
  split.
  { intros q _. cbv zeta. unfold unit_svd. destruct (is_unit _) eqn:E; [|cbn; discriminate]. intros _. split; [|apply gantry_sorted; lra].
    pose proof (proj1 (is_unit_spec _) E) as HU. change (ch_nj (gantry 1)) with 6%nat. destruct (gantry_svd_of 1 0) as (A & B & D). split; [|split; assumption].
    intros r j Hr Hj. rewrite HU by assumption. rewrite <- A by assumption. symmetry. apply U; assumption. }
  split.
  { unfold wdls_fails, unit_svd. rewrite (proj2 (is_unit_spec _)); [cbn; intros N; apply N; reflexivity|].
    intros i j Hi Hj. rewrite <- (U i j Hi Hj). unfold w. apply (gantry_wjac 1 (1/1000) 150 i j Hi Hj). }
  split; [reflexivity|]. split.
  { unfold pinv_fails, unit_svd. rewrite (proj2 (is_unit_spec _)); [cbn; intros N; apply N; reflexivity|]. intros i j Hi Hj. apply (U i j Hi Hj). }
  unfold tip, tip_frame. cbn. rewrite ?ax_pose by discriminate. rewrite !FrameOpsProofs.f_mul_id_l. reflexivity.
Qed.
Lemma tree_example : reachable rail_tree /\ tree_ok rail_tree /\ tr_nj rail_tree = 2%nat /\ forall k, In k ["b"%string] -> tfind rail_tree k <> None.
Proof.
  split; [exact rail_tree_reachable|]. split; [exact rail_tree_ok|]. split; [reflexivity|]. intros k [<-|[]]. cbn. discriminate.
Qed.
