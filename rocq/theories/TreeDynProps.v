(** Theorems about the tree inverse dynamics solver (C38). *)
From Coq Require Import Reals String List ZArith Bool.
From Verif Require Import FramesModel FramesSpec Outcome InertiaModel DualModel KinModel KinSpec TreeModel TreeSpec IkModel DynModel DynSpec
  TreeDynModel TreeDynSpec TreeDynFinal TreeDynWitness.
Import ListNotations.
Local Open Scope string_scope.
Local Open Scope list_scope.
Local Open Scope R_scope.

(** ** C38: one branch: the same torques as the chain solver on the extracted chain,
    whatever happened to either solver object before *)
Theorem C38_one_branch_equals_chain : forall g seen t s rs leaf q qd qdd fext tau tau',
  tree_ok t -> trne_reach g seen t s ->
  same_size seen t -> all_seen seen t -> right_sizes t q qd qdd tau -> one_branch t leaf ->
  exists c, tree_getChain t (tr_root t) leaf = Ret (true, c) /\ ch_nj c = tr_nj t /\ ch_ns c = tr_ns t /\
    (rne_reach g c rs -> rne_current c rs -> length tau' = ch_nj c ->
     exists T s', trne_CartToJnt t s q qd qdd fext tau = Ret (E_NOERROR, T, s') /\
       rne_CartToJnt c rs q qd qdd (map (fun x => wrench_on fext (sname x)) (ch_segs c)) tau' = Ret (E_NOERROR, T)).
Proof. exact (@f_tree_id_one_branch). Qed.
Print Assumptions C38_one_branch_equals_chain.


(** Only the wrenches on existing segments matter, a missing one counts as zero,
    and neither the solver's past nor the old torques do. *)
Theorem C38_missing_wrench_is_zero : forall g seen1 seen2 t s1 s2 q qd qdd f1 f2 tau1 tau2,
  trne_reach g seen1 t s1 -> same_size seen1 t -> all_seen seen1 t -> right_sizes t q qd qdd tau1 ->
  trne_reach g seen2 t s2 -> same_size seen2 t -> all_seen seen2 t -> right_sizes t q qd qdd tau2 ->
  (forall n, tfind t n <> None -> wrench_on f1 n = wrench_on f2 n) ->
  exists T s1' s2', trne_CartToJnt t s1 q qd qdd f1 tau1 = Ret (E_NOERROR, T, s1') /\
                    trne_CartToJnt t s2 q qd qdd f2 tau2 = Ret (E_NOERROR, T, s2').
Proof. exact (@f_tree_id_wrenches). Qed.
Print Assumptions C38_missing_wrench_is_zero.


(** Any tree: the torques are those of the Newton-Euler equations. *)
Theorem C38_newton_euler : forall g seen t s q qd qdd fext tau,
  trne_reach g seen t s ->
  same_size seen t -> all_seen seen t -> right_sizes t q qd qdd tau ->
  exists T s' V A F, trne_CartToJnt t s q qd qdd fext tau = Ret (E_NOERROR, T, s') /\ length T = tr_nj t /\
    newton_euler t g q qd qdd fext V A F /\
    forall n e, tfind t n = Some e -> moving (te_seg e) = true ->
      nth (te_qnr e) T 0 = tw_dot (elt_axis q e) (F n) + jinertia (sjoint (te_seg e)) * nth (te_qnr e) qdd 0.
Proof. exact (@f_tree_id_newton_euler). Qed.
Print Assumptions C38_newton_euler.


(** Any tree: the torque of a joint is its rotor term plus, for every link it
    carries, what the chain solver says about the chain that ends at this link and
    has no other mass. *)
Theorem C38_sum_of_chains : forall g seen t s q qd qdd fext tau,
  tree_ok t -> trne_reach g seen t s ->
  same_size seen t -> all_seen seen t -> right_sizes t q qd qdd tau ->
  exists T s', trne_CartToJnt t s q qd qdd fext tau = Ret (E_NOERROR, T, s') /\
    forall n e l, tfind t n = Some e -> moving (te_seg e) = true -> preorder t [n] l ->
      exists xs, Forall2 (link_share t g q qd qdd fext n) l xs /\
        nth (te_qnr e) T 0 = jinertia (sjoint (te_seg e)) * nth (te_qnr e) qdd 0 + lsum xs.
Proof. exact (@f_tree_id_links). Qed.
Print Assumptions C38_sum_of_chains.


(** The return codes, for every history. *)
Theorem C38_codes : forall g seen t s q qd qdd fext tau,
  trne_reach g seen t s ->
  (~ same_size seen t -> trne_CartToJnt t s q qd qdd fext tau = Ret (E_NOT_UP_TO_DATE, tau, s)) /\
  (same_size seen t -> ~ right_sizes t q qd qdd tau -> trne_CartToJnt t s q qd qdd fext tau = Ret (E_SIZE_MISMATCH, tau, s)) /\
  (same_size seen t -> right_sizes t q qd qdd tau -> ~ all_seen seen t ->
     exists T s', trne_CartToJnt t s q qd qdd fext tau = Ret (E_NOT_UP_TO_DATE, T, s')) /\
  (same_size seen t -> right_sizes t q qd qdd tau -> all_seen seen t ->
     exists T s', trne_CartToJnt t s q qd qdd fext tau = Ret (E_NOERROR, T, s') /\ length T = tr_nj t).
Proof. exact (@f_tree_id_codes). Qed.
Print Assumptions C38_codes.

Theorem C38_update_restores : forall g seen t s q qd qdd fext tau,
  trne_reach g seen t s -> right_sizes t q qd qdd tau ->
  exists T s', trne_CartToJnt t (trne_update t s) q qd qdd fext tau = Ret (E_NOERROR, T, s') /\ length T = tr_nj t.
Proof. exact (@f_tree_id_update). Qed.
Print Assumptions C38_update_restores.


(** A call that fails because a segment is new may have overwritten torques. *)
Theorem C38_failed_call_overwrites_refuted : exists g seen t s q qd qdd tau T s',
  trne_reach g seen t s /\ same_size seen t /\ right_sizes t q qd qdd tau /\
  trne_CartToJnt t s q qd qdd [] tau = Ret (E_NOT_UP_TO_DATE, T, s') /\ T <> tau.
Proof. exact (@failed_call_overwrites). Qed.
Print Assumptions C38_failed_call_overwrites_refuted.


Theorem C38_witness : (reachable dw_fork /\ tree_ok dw_fork /\ tr_nj dw_fork = 3%nat /\ tr_ns dw_fork = 4%nat /\
   (exists e, tfind dw_fork "a" = Some e /\ te_children e = ["k"; "c"] /\ moving (te_seg e) = true /\ te_qnr e = 0%nat) /\
   preorder dw_fork ["a"] ["a"; "k"; "b"; "c"] /\
   exists s, trne_reach dw_g [dw_fork] dw_fork s /\ same_size [dw_fork] dw_fork /\ all_seen [dw_fork] dw_fork /\
             right_sizes dw_fork [1; 2; 3] [1; 1; 1] [0; 0; 1] [0; 0; 0]) /\
  (reachable dw_serial /\ tree_ok dw_serial /\ one_branch dw_serial "b" /\ tr_nj dw_serial = 2%nat /\ tr_ns dw_serial = 3%nat /\
   exists s, trne_reach dw_g [dw_serial; dw_fork] dw_serial s /\ same_size [dw_serial; dw_fork] dw_serial /\ all_seen [dw_serial; dw_fork] dw_serial /\
             right_sizes dw_serial [1; 2] [1; 1] [0; 1] [0; 0]).
Proof. exact (@tree_id_nonvacuous). Qed.
Print Assumptions C38_witness.

