(** C81: how long the objects live that solvers and attributes refer to. *)
From Coq Require Import Reals List Arith Bool.
From Verif Require Import LifeModel LifeSpec LifeProofs LifeProofs2.
Import ListNotations.

(** A call of a solver uses a dead object exactly when something it uses, itself or through a solver it was given, has no name left. *)
Theorem C81_undefined_exactly_when : forall p s x a cl refs own,
  run false p start = Some s -> assoc x (names s) = Some a -> cell (heap s) a = Some (Sol cl refs own) ->
  (step false s (Call x) = Bad <-> exists b, used (heap s) a b /\ ~ named s b).
Proof. exact undefined_exactly. Qed.
Print Assumptions C81_undefined_exactly_when.
(** Nothing else can: attributes keep their object alive, whatever is deleted. *)
Theorem C81_only_calls : forall p s o, run false p start = Some s -> step false s o = Bad -> exists x, o = Call x.
Proof. exact (only_calls false). Qed.
Print Assumptions C81_only_calls.
(** Programs that give each name once and delete none are safe. *)
Theorem C81_names_kept : forall p, keeps_names p -> run false p start <> None.
Proof. exact names_kept. Qed.
Print Assumptions C81_names_kept.
Theorem C81_names_kept_example : exists p, keeps_names p /\ p =
  [NewKin 0 false; AddSeg 0 7; NewSol 1 FkPos [0]; NewSol 2 VelPinv [0]; NewSol 3 PosNR [0; 1; 2]; Call 3; AddSeg 0 8; Call 3].
Proof. eexists. split; [|reflexivity]. split; [cbn; repeat constructor; cbn; intuition discriminate|]. intros x H. cbn in H. intuition discriminate. Qed.
Print Assumptions C81_names_kept_example.
(** If the constructors kept what they refer to alive, every program would be safe. *)
Theorem C81_keep_alive_would_suffice : forall p, run true p start <> None.
Proof. exact keep_alive_suffices. Qed.
Print Assumptions C81_keep_alive_would_suffice.
(** They do not: each solver of a chain is broken by deleting the last name of the chain, or giving it to another object; a second name prevents it. *)
Theorem C81_lifetime_refuted : forall cl, parameters cl = [(AChain, ByReference)] ->
  run false [NewKin 0 false; AddSeg 0 7; NewSol 1 cl [0]; Call 1; Del 0; Call 1] start = None /\
  run false [NewKin 0 false; AddSeg 0 7; NewSol 1 cl [0]; Call 1; NewKin 0 false; Call 1] start = None /\
  run false [NewKin 0 false; AddSeg 0 7; NewSol 1 cl [0]; Call 1; Alias 2 0; Del 0; Call 1] start <> None.
Proof. exact dangling. Qed.
Print Assumptions C81_lifetime_refuted.
(** Which these are, and the solvers broken by deleting a solver they were given: Newton-Raphson on chains and trees. *)
Theorem C81_lifetime_refuted_solvers :
  (forall cl, In cl [FkPos; FkVel; Jac; JacDot; VelPinv; VelNso; VelWdls; VelGivens; PosLMA; IdRNE; FdRNE; HdVereshchagin; DynParam; Estimator] -> parameters cl = [(AChain, ByReference)]) /\
  (forall cl d, In cl [PosNR; PosNRJL] -> In d [0; 1; 2] ->
     run false [NewKin 0 false; AddSeg 0 7; NewSol 1 FkPos [0]; NewSol 2 VelPinv [0]; NewSol 3 cl [0; 1; 2]; Call 3; Del d; Call 3] start = None) /\
  (forall d, In d [1; 2] ->
     run false [NewKin 0 true; AddSeg 0 7; NewSol 1 TFkPos [0]; NewSol 2 TVelWdls [0]; NewSol 3 TPosNRJL [0; 1; 2]; Call 3; Del d; Call 3] start = None /\
     run false [NewKin 0 true; AddSeg 0 7; NewSol 1 TFkPos [0]; NewSol 2 TVelWdls [0]; NewSol 3 TPosOnline [1; 2]; Call 3; Del d; Call 3] start = None) /\
  run false [NewKin 0 true; AddSeg 0 7; NewSol 1 TFkPos [0]; NewSol 2 TVelWdls [0]; NewSol 3 TPosNRJL [0; 1; 2]; Call 3; Del 0; Call 3] start <> None /\
  run false [NewKin 0 true; AddSeg 0 7; NewSol 1 TIdRNE [0]; Call 1; Del 0; Call 1] start = None.
Proof. exact dangling_solvers. Qed.
Print Assumptions C81_lifetime_refuted_solvers.
(** A tree solver that takes the tree by value answers for the tree as it was when it was made, whatever happens to that tree. *)
Theorem C81_tree_solvers_own_a_copy : forall cl p s x y s1 v q s2, In cl [TFkPos; TJac; TVelWdls] ->
  run false p start = Some s -> step false s (NewSol x cl [y]) = Done s1 v -> untouched x q -> run false q s1 = Some s2 ->
  exists b l, assoc y (names s) = Some b /\ cell (heap s) b = Some (Kin true l) /\ step false s2 (Call x) = Done s2 (Structures [l]).
Proof. exact own_copies. Qed.
Print Assumptions C81_tree_solvers_own_a_copy.
(** The others answer for what they refer to as it is now, as long as it keeps its name. *)
Theorem C81_chain_solvers_see_changes : forall cl r p s x y s1 v q s2, parameters cl = [(r, ByReference)] -> x <> y ->
  run false p start = Some s -> step false s (NewSol x cl [y]) = Done s1 v -> untouched x q -> untouched y q -> run false q s1 = Some s2 ->
  exists b t old added, assoc y (names s) = Some b /\ cell (heap s) b = Some (Kin t old) /\ assoc y (names s2) = Some b /\ cell (heap s2) b = Some (Kin t (old ++ added)) /\
    step false s2 (Call x) = Done s2 (Structures [old ++ added]).
Proof. exact by_reference. Qed.
Print Assumptions C81_chain_solvers_see_changes.
Theorem C81_copies_example :
  (exists s, run false [NewKin 0 true; AddSeg 0 7; NewSol 1 TFkPos [0]; AddSeg 0 8; Del 0] start = Some s /\ step false s (Call 1) = Done s (Structures [[7]])) /\
  (exists s, run false [NewKin 0 false; AddSeg 0 7; NewSol 1 FkPos [0]; AddSeg 0 8] start = Some s /\ step false s (Call 1) = Done s (Structures [[7; 8]])).
Proof. exact copies_example. Qed.
Print Assumptions C81_copies_example.

(** Attributes are parts of their object: x = y.p makes x the same numbers, at the same place, as that part of y. *)
Theorem C81_attribute_is_a_part : forall p s x y sec c r off c' k, run false p start = Some s -> at_place s y c r off -> attribute c sec = Some (c', k) ->
  exists s', step false s (GetAttr x y sec) = Done s' Nothing /\ at_place s' x c' r (off + k) /\ (forall z cz rz oz, z <> x -> at_place s z cz rz oz -> at_place s' z cz rz oz).
Proof. exact reach_get. Qed.
Print Assumptions C81_attribute_is_a_part.
(** It stays that part while x keeps its name, whatever happens to y. *)
Theorem C81_attribute_stays : forall p s q s' x c r off, run false p start = Some s -> at_place s x c r off -> untouched x q -> run false q s = Some s' -> at_place s' x c r off.
Proof. exact reach_stays. Qed.
Print Assumptions C81_attribute_stays.
(** Writing a number through any name changes that number under every name whose part it is in, and no other number of any object. *)
Theorem C81_write : forall p s x i v c r off, run false p start = Some s -> at_place s x c r off -> i < width c ->
  exists s', step false s (SetItem x i v) = Done s' Nothing /\ names s' = names s /\
    (forall z cz rz oz, at_place s z cz rz oz -> at_place s' z cz rz oz /\
       forall j, j < width cz -> item s' z j = if Nat.eqb rz r && Nat.eqb (oz + j) (off + i) then Some v else item s z j).
Proof. exact reach_item. Qed.
Print Assumptions C81_write.
(** Assigning an attribute copies the numbers: y.p = z changes that part of y, and later changes of z do not reach it. *)
Theorem C81_assign : forall p s y sec z c r off c' k r1 o1, run false p start = Some s -> at_place s y c r off -> attribute c sec = Some (c', k) -> at_place s z c' r1 o1 ->
  exists s', step false s (SetAttr y sec z) = Done s' Nothing /\ names s' = names s /\
    (forall w cw rw ow, at_place s w cw rw ow -> at_place s' w cw rw ow /\
       forall j, j < width cw -> item s' w j =
         if Nat.eqb rw r && (Nat.leb (off + k) (ow + j) && Nat.ltb (ow + j) (off + k + width c')) then item s z (ow + j - (off + k)) else item s w j).
Proof. exact reach_assign. Qed.
Print Assumptions C81_assign.
(** A copy has the same numbers and shares none of them with any other name. *)
Theorem C81_copy : forall p s x y c r off, run false p start = Some s -> at_place s y c r off ->
  exists s', step false s (CopyVal x y) = Done s' Nothing /\
    (exists r', at_place s' x c r' 0 /\ forall z cz rz oz, z <> x -> at_place s z cz rz oz -> at_place s' z cz rz oz /\ rz <> r') /\
    forall j, item s' x j = item s y j.
Proof. exact reach_copy. Qed.
Print Assumptions C81_copy.
(** a = FrameVel().p.v; the FrameVel has no name, and writing into a works; f.p[0] = 5 changes f *)
Theorem C81_attributes_example :
  (exists s, run false [NewVal 0 CFrameVel (repeat 1%R 18); GetAttr 1 0 true; GetAttr 2 1 true; Del 0; Del 1; SetItem 2 0 5%R] start = Some s /\
     step false s (Read 2) = Done s (Numbers [5%R; 1%R; 1%R])) /\
  (exists s, run false [NewVal 0 CFrame (repeat 1%R 12); GetAttr 1 0 true; SetItem 1 0 5%R] start = Some s /\
     step false s (Read 0) = Done s (Numbers (5%R :: repeat 1%R 11))).
Proof. exact attributes_example. Qed.
Print Assumptions C81_attributes_example.
(** An object is its two attributes side by side: in a Frame p comes first, elsewhere the first attribute. *)
Theorem C81_layout : forall c c1 k1 c2 k2, attribute c false = Some (c1, k1) -> attribute c true = Some (c2, k2) ->
  width c = width c1 + width c2 /\ (match c with CFrame => k2 = 0 /\ k1 = width c2 | _ => k1 = 0 /\ k2 = width c1 end).
Proof. exact layout. Qed.
Print Assumptions C81_layout.
Theorem C81_attribute_classes :
  (forall c, attribute c false = None <-> In c [CVector; CRotation]) /\ (forall c, attribute c true = None <-> In c [CVector; CRotation]) /\
  map (fun c => (option_map fst (attribute c false), option_map fst (attribute c true))) [CFrame; CTwist; CWrench; CVectorVel; CRotationVel; CFrameVel; CTwistVel] =
  [(Some CRotation, Some CVector); (Some CVector, Some CVector); (Some CVector, Some CVector); (Some CVector, Some CVector); (Some CRotation, Some CVector);
   (Some CRotationVel, Some CVectorVel); (Some CVectorVel, Some CVectorVel)].
Proof. exact classes. Qed.
Print Assumptions C81_attribute_classes.
(** Assigning an object of another class, an index past the end and an attribute that does not exist raise an exception. *)
Theorem C81_type_errors : forall p s, run false p start = Some s ->
  (forall y sec z c r off c' k cz rz oz, at_place s y c r off -> attribute c sec = Some (c', k) -> at_place s z cz rz oz -> cz <> c' -> step false s (SetAttr y sec z) = Raises) /\
  (forall x i v c r off, at_place s x c r off -> width c <= i -> step false s (SetItem x i v) = Raises) /\
  (forall x y c r off sec, at_place s y c r off -> attribute c sec = None -> step false s (GetAttr x y sec) = Raises).
Proof. exact type_errors. Qed.
Print Assumptions C81_type_errors.
(** A copy of a chain or tree has its segments; adding to one leaves the other alone. *)
Theorem C81_chain_copy : forall p s x y t l, run false p start = Some s -> holds_segs s y t l ->
  exists s', step false s (CopyKin x y) = Done s' Nothing /\ holds_segs s' x t l /\
    (forall z, z <> x -> forall n s2 v tz lz, holds_segs s' z tz lz -> step false s' (AddSeg z n) = Done s2 v -> holds_segs s2 z tz (lz ++ [n]) /\ holds_segs s2 x t l) /\
    (forall n s2 v, step false s' (AddSeg x n) = Done s2 v -> holds_segs s2 x t (l ++ [n]) /\ forall z tz lz, z <> x -> holds_segs s' z tz lz -> holds_segs s2 z tz lz).
Proof. exact chain_copy. Qed.
Print Assumptions C81_chain_copy.
