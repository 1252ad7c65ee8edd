(** Model of TreeIdSolver_RNE.

    Sources (in /repo/orocos_kdl/src): treeidsolver_recursive_newton_euler.{hpp,cpp}.

    The solver keeps a reference to the tree: it is a separate argument.  The five
    maps X, S, v, a, f always have the same keys (initAuxVariables is the only
    place that adds any), so they are one map to records.  std::map::at on a
    missing key throws std::out_of_range: a separate way to end.  The torques are
    a different object from the other joint arrays. *)
From Coq Require Import Reals String List ZArith Bool.
From Verif Require Import FramesModel Outcome InertiaModel DualModel KinModel TreeModel IkModel.
Import ListNotations.
Local Open Scope list_scope.
Local Open Scope R_scope.

(** treeidsolver_recursive_newton_euler.hpp:75-79: one entry of X, S, v, a, f *)
Record Aux := mkAux { au_X : Frame; au_S : Twist; au_v : Twist; au_a : Twist; au_f : Wrench }.
Definition aux0 : Aux := mkAux f_id t_zero t_zero t_zero w_zero.
(** treeidsolver_recursive_newton_euler.hpp:72-80: nj, ns, ag and the maps *)
Record trne := mkTR { ti_nj : nat; ti_ns : nat; ti_ag : Twist; ti_aux : dict Aux }.

(** [m[k] = a] *)
Fixpoint dict_assign {A : Type} (m : dict A) (k : string) (a : A) : dict A :=
  match m with
  | [] => [(k, a)]
  | (k', b) :: m' => if String.eqb k' k then (k', a) :: m' else (k', b) :: dict_assign m' k a
  end.
(** treeidsolver_recursive_newton_euler.cpp:41-50 *)
Definition trne_init (t : Tree) (aux : dict Aux) : dict Aux :=
  fold_left (fun m e => dict_assign m (fst e) aux0) (tr_segs t) aux.
(** treeidsolver_recursive_newton_euler.cpp:28-33 *)
Definition trne_make (t : Tree) (grav : Vector) : trne :=
  mkTR (tr_nj t) (tr_ns t) (t_neg (mkT grav v_zero)) (trne_init t []).
(** treeidsolver_recursive_newton_euler.cpp:35-39 *)
Definition trne_update (t : Tree) (s : trne) : trne :=
  mkTR (tr_nj t) (tr_ns t) (ti_ag s) (trne_init t (ti_aux s)).

(** How rne_step ends: normally, by std::out_of_range (what has been written so
    far stays), or with undefined behaviour. *)
Inductive ending := Done (aux : dict Aux) (tau : list R) | Threw (aux : dict Aux) (tau : list R) | Stuck.
(** read [x] from an array; out of range is undefined *)
Definition reading {A : Type} (o : outcome A) (k : A -> ending) : ending :=
  match o with Ret a => k a | Undef => Stuck end.

(** treeidsolver_recursive_newton_euler.cpp:78-138.  Binding [parname] through the
    root's default-constructed parent iterator (line 81) is taken to be harmless:
    it is not read for the root.  All entries of one key are written together. *)
Fixpoint rne_step (fuel : nat) (t : Tree) (ag : Twist) (q qd qdd : list R) (fext : dict Wrench)
    (n : string) (aux : dict Aux) (tau : list R) : ending :=
  match fuel with
  | O => Stuck
  | S f =>
      match tfind t n with
      | None => Stuck
      | Some e =>
          let s := te_seg e in
          let j := te_qnr e in
          let isroot := String.eqb n (tr_root t) in
          (* lines 84-92 *)
          reading (if moving s then
                     let! x := aget q j in let! xd := aget qd j in let! xdd := aget qdd j in Ret (x, xd, xdd)
                   else Ret (0, 0, 0)) (fun r =>
          let '(x, xd, xdd) := r in
          (* lines 97-101 *)
          match dict_find aux n with
          | None => Threw aux tau
          | Some old =>
              let X := segment_pose s x in
              let vj := r_invapp_t (fM X) (segment_twist s x xd) in
              let Si := r_invapp_t (fM X) (segment_twist s x 1) in
              (* lines 104-111 *)
              let go (vp ap : Twist) :=
                let v := if isroot then vj else t_add (f_invapp_t X vp) vj in
                let a := t_add (t_add (f_invapp_t X (if isroot then ag else ap)) (t_scale Si xdd)) (t_cross v vj) in
                (* lines 115-118 *)
                let I := sI s in
                let f0 := w_add (rb_app I a) (tw_cross v (rb_app I v)) in
                let f1 := match dict_find fext n with Some w => w_sub f0 w | None => f0 end in
                let aux := dict_put aux n (mkAux X Si v a f1) in
                (* lines 121-125 *)
                match (fix loop (cs : list string) (aux : dict Aux) (tau : list R) : ending :=
                         match cs with
                         | [] => Done aux tau
                         | c :: cs' =>
                             match rne_step f t ag q qd qdd fext c aux tau with
                             | Done aux tau => loop cs' aux tau
                             | other => other
                             end
                         end) (te_children e) aux tau with
                | Done aux tau =>
                    match dict_find aux n with
                    | None => Threw aux tau
                    | Some me =>
                        (* lines 130-133 *)
                        reading (if moving s then
                                   let! tau := aset tau j (tw_dot (au_S me) (au_f me)) in
                                   let! y := aget tau j in
                                   let! z := aget qdd j in
                                   aset tau j (y + jinertia (sjoint s) * z)
                                 else Ret tau) (fun tau =>
                        (* lines 136-137 *)
                        if isroot then Done aux tau
                        else match te_parent e with
                             | None => Stuck
                             | Some p =>
                                 match dict_find aux p with
                                 | None => Threw aux tau
                                 | Some pa =>
                                     Done (dict_put aux p (mkAux (au_X pa) (au_S pa) (au_v pa) (au_a pa)
                                             (w_add (au_f pa) (f_app_w (au_X me) (au_f me))))) tau
                                 end
                             end)
                    end
                | other => other
                end in
              if isroot then go t_zero t_zero
              else match te_parent e with
                   | None => Stuck
                   | Some p =>
                       match dict_find aux p with
                       | None => Threw aux tau
                       | Some pa => go (au_v pa) (au_a pa)
                       end
                   end
          end)
      end
  end.

(** treeidsolver_recursive_newton_euler.cpp:52-75: (code, torques, solver) *)
Definition trne_CartToJnt (t : Tree) (s : trne) (q qd qdd : list R) (fext : dict Wrench) (tau : list R)
  : outcome (Z * list R * trne) :=
  if negb (Nat.eqb (ti_nj s) (tr_nj t)) || negb (Nat.eqb (ti_ns s) (tr_ns t))
  then Ret (E_NOT_UP_TO_DATE, tau, s)
  else if negb (Nat.eqb (length q) (ti_nj s)) || negb (Nat.eqb (length qd) (ti_nj s)) ||
          negb (Nat.eqb (length qdd) (ti_nj s)) || negb (Nat.eqb (length tau) (ti_nj s))
  then Ret (E_SIZE_MISMATCH, tau, s)
  else match rne_step (length (tr_segs t)) t (ti_ag s) q qd qdd fext (tr_root t) (ti_aux s) tau with
       | Done aux tau' => Ret (E_NOERROR, tau', mkTR (ti_nj s) (ti_ns s) (ti_ag s) aux)
       | Threw aux tau' => Ret (E_NOT_UP_TO_DATE, tau', mkTR (ti_nj s) (ti_ns s) (ti_ag s) aux)
       | Stuck => Undef
       end.
