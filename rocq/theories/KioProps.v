(** Theorems about the text of kinematic structures (C75). *)
From Coq Require Import Reals ZArith Ascii String List Bool Permutation.
From Verif Require Import FramesModel Outcome InertiaModel DualModel KinModel KinSpec PathModel IoModel IoSpec TreeModel TreeSpec TreeWitness
  MiscModel KioModel KioSpec KioTree KioText KioWitness.
Import ListNotations.
Local Open Scope char_scope.
Local Open Scope list_scope.
Local Open Scope Z_scope.

(** ** The listing of a tree names every segment once, below its parent and indented by its depth *)
Theorem C75_tree2str_lines : forall t sep pre,
  reachable t -> exists l ls,
  listed t 0 [tr_root t] l /\ Forall2 (line_of sep pre) l ls /\ tree2str t sep pre = Ret (concat ls) /\
  Permutation (map en_name l) (names t) /\
  forall x, In x l -> exists e up, tfind t (en_name x) = Some e /\ te_qnr e = en_qnr x /\
    walk_up t (en_name x) (tr_root t) up /\ length up = en_level x.
Proof. exact (@tree2str_all). Qed.
Print Assumptions C75_tree2str_lines.

(** The listing determines the tree when no name contains an opening parenthesis or starts with the separator *)
Theorem C75_tree2str_determines : forall a b sep pre s,
  reachable a -> reachable b ->
  names_without "(" a -> names_without "(" b -> ~ In "(" sep ->
  (forall n, In n (names a) \/ In n (names b) -> ~ starts_with sep (lit n)) ->
  tree2str a sep pre = Ret s -> tree2str b sep pre = Ret s -> same_shape a b.
Proof. exact (@tree2str_inj). Qed.
Print Assumptions C75_tree2str_determines.

Theorem C75_tree2str_determines_refuted : ~ forall a b s, reachable a -> reachable b -> tree2str a (lit "  ") [] = Ret s -> tree2str b (lit "  ") [] = Ret s -> same_shape a b.
Proof. exact (@listing_refuted). Qed.
Print Assumptions C75_tree2str_determines_refuted.

Theorem C75_tree_case : reachable w_tree /\ names_without "(" w_tree /\ names_without nl w_tree /\
  (forall n, In n (names w_tree) -> ~ starts_with (lit "  ") (lit n)) /\
  tree2str w_tree (lit "  ") [] = Ret listing.
Proof. exact (@tree_case). Qed.
Print Assumptions C75_tree_case.

(** ** operator<< for trees *)
Theorem C75_Tree_layout : forall t,
  reachable t -> exists e k a, tfind t (tr_root t) = Some e /\ decimal (te_qnr e) k /\ nested t (te_children e) a /\
  write_Tree t = Ret (lit (tr_root t) ++ lit "(q_nr: " ++ k ++ lit ")" ++ [nl] ++ lit " " ++ [tab] ++ a ++ [nl]).
Proof. exact (@tree_nested). Qed.
Print Assumptions C75_Tree_layout.

Theorem C75_Tree_determines : forall a b s,
  reachable a -> reachable b ->
  names_without "(" a -> names_without "(" b -> names_without nl a -> names_without nl b ->
  write_Tree a = Ret s -> write_Tree b = Ret s -> same_shape a b.
Proof. exact (@write_Tree_inj). Qed.
Print Assumptions C75_Tree_determines.


(** ** Joints, segments and chains: names, types and geometry to the precision of the stream *)
Theorem C75_Joint_determines : forall p a b,
  1 <= p -> ~ In ":" (lit (jname a)) -> ~ In ":" (lit (jname b)) -> write_Joint p a = write_Joint p b -> agree_joint p a b.
Proof. exact (@joint_text). Qed.
Print Assumptions C75_Joint_determines.

Theorem C75_Segment_determines : forall p a b,
  1 <= p -> no_colon a -> no_colon b -> write_Segment p a = write_Segment p b -> agree_segment p a b.
Proof. exact (@segment_text). Qed.
Print Assumptions C75_Segment_determines.

Theorem C75_Chain_text : forall p c,
  chain_wf c -> write_Chain p c = Ret (lit "[" ++ flat_map (fun s => write_Segment p s ++ [nl]) (ch_segs c) ++ lit "]").
Proof. exact (@write_Chain_list). Qed.
Print Assumptions C75_Chain_text.

Theorem C75_Chain_determines : forall p a b s,
  1 <= p -> chain_wf a -> chain_wf b -> (forall s, In s (ch_segs a) \/ In s (ch_segs b) -> no_colon s) ->
  write_Chain p a = Ret s -> write_Chain p b = Ret s -> Forall2 (agree_segment p) (ch_segs a) (ch_segs b).
Proof. exact (@chain_inj). Qed.
Print Assumptions C75_Chain_determines.

Theorem C75_agree_exact : forall p x y,
  17 <= p -> is_double x -> is_double y -> agree p x y -> x = y.
Proof. exact (@agree_exact). Qed.
Print Assumptions C75_agree_exact.

Theorem C75_Joint_complete_refuted : exists a b, joint_constructed a /\ joint_constructed b /\ (forall p, write_Joint p a = write_Joint p b) /\
  joint_pose a 1 <> joint_pose b 1.
Proof. exact (@joint_refuted). Qed.
Print Assumptions C75_Joint_complete_refuted.

Theorem C75_Joint_case : ~ In ":"%char (lit (jname (w_slide "j" 1))) /\ ~ In ":"%char (lit (sname (w_seg "a" "ja"))).
Proof. exact (@joint_case). Qed.
Print Assumptions C75_Joint_case.


(** ** Arrays: one cell of twelve characters per number *)
Theorem C75_JntArray_cells : forall p q,
  1 <= p <= 6 -> (forall x, In x q -> ordinary x) ->
  length (write_JntArray p q) = (2 + 12 * length q)%nat /\
  forall i, (i < length q)%nat -> cell p (nth i q 0%R) (window (1 + 12 * i) 12 (write_JntArray p q)).
Proof. exact (@array_cells). Qed.
Print Assumptions C75_JntArray_cells.

Theorem C75_JntArray_determines : forall p q1 q2,
  1 <= p <= 6 -> (forall x, In x (q1 ++ q2) -> ordinary x) -> write_JntArray p q1 = write_JntArray p q2 ->
  Forall2 (agree p) q1 q2.
Proof. exact (@array_inj). Qed.
Print Assumptions C75_JntArray_determines.

Theorem C75_Jacobian_cells : forall p J,
  1 <= p <= 6 -> (forall i j, (i < 6)%nat -> (j < length J)%nat -> ordinary (jacobian_row i (nth j J t_zero))) ->
  length (write_Jacobian p J) = (2 + 6 * (12 * length J + 1))%nat /\
  forall i j, (i < 6)%nat -> (j < length J)%nat ->
    cell p (jacobian_row i (nth j J t_zero)) (window (1 + i * (12 * length J + 1) + 12 * j) 12 (write_Jacobian p J)).
Proof. exact (@jacobian_cells). Qed.
Print Assumptions C75_Jacobian_cells.

Theorem C75_JntSpaceInertiaMatrix_cells : forall p m,
  1 <= p <= 6 -> length (jm_d m) = (jm_n m * jm_n m)%nat -> (forall x, In x (jm_d m) -> ordinary x) ->
  length (write_JntSpaceInertiaMatrix p m) = (2 + jm_n m * (12 * jm_n m + 1))%nat /\
  forall i j x, jm_get m i j = Ret x ->
    cell p x (window (1 + i * (12 * jm_n m + 1) + 12 * j) 12 (write_JntSpaceInertiaMatrix p m)).
Proof. exact (@inertia_cells). Qed.
Print Assumptions C75_JntSpaceInertiaMatrix_cells.

Theorem C75_JntArray_case : forall x, In x [(1 / 2)%R; 0%R; (-1000)%R] -> ordinary x.
Proof. exact (@array_case). Qed.
Print Assumptions C75_JntArray_case.

(** With 13 digits and more the numbers run together *)
Theorem C75_JntArray_determines_refuted : ~ forall p q1 q2, 1 <= p -> (forall x, In x (q1 ++ q2) -> is_double x) -> write_JntArray p q1 = write_JntArray p q2 ->
  Forall2 (agree p) q1 q2.
Proof. exact (@array_refuted). Qed.
Print Assumptions C75_JntArray_determines_refuted.


(** ** Input operators *)
Theorem C75_read_unchanged : forall (s : istr),
  (forall x, read_Joint s x = OGot x s) /\ (forall x, read_Segment s x = OGot x s) /\
  (forall x, read_Chain s x = OGot x s) /\ (forall x, read_Tree s x = OGot x s) /\ (forall x, read_JntArray s x = OGot x s) /\
  (forall x, read_Jacobian s x = OGot x s) /\ (forall x, read_JntSpaceInertiaMatrix s x = OGot x s).
Proof. exact (@read_unchanged). Qed.
Print Assumptions C75_read_unchanged.

Theorem C75_read_back_refuted : exists q, (forall x, In x q -> is_double x) /\ forall p, ~ reads read_JntArray (write_JntArray p q) q.
Proof. exact (@read_back_refuted). Qed.
Print Assumptions C75_read_back_refuted.

