(** Theorems about tree forward kinematics in rounded arithmetic (C85). *)
From Coq Require Import Reals String List ZArith Bool.
From Flocq Require Import Core.
From Verif Require Import FramesModel FramesSpec Outcome InertiaModel DualModel KinModel KinSpec TreeModel TreeSpec SvdRound FlModel FlSpec FlWitness
  FlTreeModel FlTreeSpec FlTreeProofs FlTreeSame.
Import ListNotations.
Local Open Scope list_scope.
Local Open Scope R_scope.

(** The computed pose of a segment against its exact pose in the ideal tree, when every operation rounds with error eps, sin and cos are computed
    up to eps and the solver's tree holds its data up to eps; [l] is the path from the segment to the root. *)
Theorem C85_tree_error : forall eps A D rnd fsin fcos t st st' q p0 name l,
  1 <= A -> 1 <= D -> 0 <= eps -> rounds eps rnd -> computes eps fsin sin -> computes eps fcos cos ->
  reachable t -> tree_ok t -> treefk_make t = Ret st -> tree_stored eps st' st -> length q = tr_nj t -> (0 < tr_nj t)%nat -> tfind t name <> None ->
  walk_up st name (tr_root st) l -> Forall (fun e => moves_within A D (te_seg e, joint_value q e)) l ->
  let n := S (length l) in 2500 * INR n * (eps * A) <= 1 ->
  exists p F, fl_treefk_JntToCart rnd fsin fcos st' q p0 name = Ret (0%Z, p) /\ tree_at st q name F /\
    r_near (220 * INR n * (eps * A)) (fM p) (fM F) /\ v_near (1850 * INR n * INR n * (eps * A * D)) (fp p) (fp F).
Proof. exact (@fl_tree_user). Qed.
Print Assumptions C85_tree_error.

(** Every segment has such a path. *)
Theorem C85_path : forall t st name, reachable t -> treefk_make t = Ret st -> tfind t name <> None -> exists l, walk_up st name (tr_root st) l.
Proof. exact (@fl_tree_path). Qed.
Print Assumptions C85_path.

(** IEEE doubles, fewer than 20 segments above the root, angles up to 10 rad, lengths up to 2 m: orientation to 1e-11, position to 1e-8. *)
Theorem C85_tree_double : forall fsin fcos t st st' q p0 name l,
  computes ulp1 fsin sin -> computes ulp1 fcos cos ->
  reachable t -> tree_ok t -> treefk_make t = Ret st -> tree_stored ulp1 st' st -> length q = tr_nj t -> (0 < tr_nj t)%nat -> tfind t name <> None ->
  walk_up st name (tr_root st) l -> (length l < 20)%nat -> Forall (fun e => moves_within 10 2 (te_seg e, joint_value q e)) l ->
  exists p F, fl_treefk_JntToCart double fsin fcos st' q p0 name = Ret (0%Z, p) /\ tree_at st q name F /\
    r_near (1 / 10 ^ 11) (fM p) (fM F) /\ v_near (1 / 10 ^ 8) (fp p) (fp F).
Proof. exact (@fl_tree_double). Qed.
Print Assumptions C85_tree_double.

(** Rounding changes neither the return code nor whether the call is defined. *)
Theorem C85_tree_code : forall rnd fsin fcos t q p0 name,
  (exists code p p', fl_treefk_JntToCart rnd fsin fcos t q p0 name = Ret (code, p') /\ treefk_JntToCart t q p0 name = Ret (code, p)) \/
  (fl_treefk_JntToCart rnd fsin fcos t q p0 name = Undef /\ treefk_JntToCart t q p0 name = Undef).
Proof. exact (@fl_tree_code). Qed.
Print Assumptions C85_tree_code.

(** The tree solver and the chain solver on the chain that the tree gives out agree to the last bit, in any arithmetic that keeps 0 and 1. *)
Theorem C85_same_as_chain : forall rnd fsin fcos t st q p0 name, rnd 0 = 0 -> rnd 1 = 1 -> reachable t -> tree_ok t -> treefk_make t = Ret st ->
  length q = tr_nj t -> (0 < tr_nj t)%nat -> tfind t name <> None ->
  exists c l p, tree_getChain t (tr_root t) name = Ret (true, c) /\ walk_up st name (tr_root t) l /\
    fl_treefk_JntToCart rnd fsin fcos st q p0 name = Ret (0%Z, p) /\ fl_fk_JntToCart rnd fsin fcos c (path_values q (rev l)) (-1) = Ret (E_NOERROR, p).
Proof. exact (@fl_tree_chain). Qed.
Print Assumptions C85_same_as_chain.

(** Doubles are such an arithmetic. *)
Theorem C85_double_zero : double 0 = 0.
Proof. exact double_zero. Qed.
Print Assumptions C85_double_zero.

Theorem C85_double_one : double 1 = 1.
Proof. exact double_one. Qed.
Print Assumptions C85_double_one.

(** A tree with two branches whose data are rounded to doubles. *)
Theorem C85_example : forall a b c, Rabs a <= 9 -> Rabs b <= 9 -> Rabs c <= 9 -> exists st' st,
  treefk_make (bush double) = Ret st' /\ treefk_make (bush (fun x => x)) = Ret st /\
  exists p F, fl_treefk_JntToCart double (fun x => double (sin x)) (fun x => double (cos x)) st' [a; b; c] f_id "c" = Ret (0%Z, p) /\
    tree_at st [a; b; c] "c" F /\ r_near (1 / 10 ^ 11) (fM p) (fM F) /\ v_near (1 / 10 ^ 8) (fp p) (fp F).
Proof. exact (@bush_example). Qed.
Print Assumptions C85_example.
