(** Tree forward kinematics in rounded arithmetic; conventions as in [FlModel]. *)
From Coq Require Import Reals String List ZArith Bool.
From Verif Require Import FramesModel Outcome InertiaModel DualModel KinModel TreeModel FlModel.
Import ListNotations.
Local Open Scope list_scope.
Local Open Scope R_scope.

Section Rounded.
Variable rnd : R -> R.
Variables fsin fcos : R -> R.

(** treefksolverpos_recursive.cpp:48-62 *)
Fixpoint fl_treefk_rec (fuel : nat) (t : Tree) (q : list R) (n : string) : outcome Frame :=
  match fuel with
  | O => Undef
  | S f =>
      match tfind t n with
      | None => Undef
      | Some e =>
          let! x := aget q (te_qnr e) in
          let cur := fl_segment_pose rnd fsin fcos (te_seg e) x in
          if String.eqb n (tr_root t) then Ret cur
          else match te_parent e with
               | None => Undef
               | Some p => let! F := fl_treefk_rec f t q p in Ret (fl_f_mul rnd F cur)
               end
      end
  end.
(** treefksolverpos_recursive.cpp:33-46: (return code, p_out) *)
Definition fl_treefk_JntToCart (t : Tree) (q : list R) (p_out : Frame) (name : string) : outcome (Z * Frame) :=
  if negb (Nat.eqb (length q) (tr_nj t)) then Ret ((-1)%Z, p_out)
  else match tfind t name with
       | None => Ret ((-2)%Z, p_out)
       | Some _ => let! F := fl_treefk_rec (length (tr_segs t)) t q name in Ret (0%Z, F)
       end.
End Rounded.
