(** Specification vocabulary for mass matrices and forward dynamics in rounded arithmetic (C90). *)
From Coq Require Import Reals List ZArith.
From Verif Require Import FramesModel Outcome KinModel LinModel DynModel.
Local Open Scope R_scope.

(** Same sizes, and entry by entry within [d]. *)
Definition mat_within (d : R) (m' m : Mat) : Prop :=
  mrows m' = mrows m /\ mcols m' = mcols m /\
  forall i j, (i < mrows m)%nat -> (j < mcols m)%nat -> Rabs (mentry m' i j - mentry m i j) <= d.
(** The two calls do the same, up to [d] in the numbers. *)
Definition same_mass (d : R) (r' r : outcome (Z * Mat)) : Prop :=
  match r', r with
  | Ret (code', M'), Ret (code, M) => code' = code /\ mat_within d M' M
  | Undef, Undef => True
  | _, _ => False
  end.
(** A forward dynamics object made for the chain [c0], whatever earlier calls left in its buffers. *)
Definition fd_made (g : Vector) (c0 : Chain) (st : fdsolver) : Prop :=
  fd_dyn st = dyn_make c0 g /\ fd_id st = rne_make c0 g /\
  mrows (fd_H st) = ch_nj c0 /\ mcols (fd_H st) = ch_nj c0 /\ length (fd_T st) = ch_nj c0 /\
  mrows (fd_Heig st) = ch_nj c0 /\ mcols (fd_Heig st) = ch_nj c0 /\ length (fd_Teig st) = ch_nj c0 /\
  mrows (fd_L st) = ch_nj c0 /\ mcols (fd_L st) = ch_nj c0 /\ length (fd_D st) = ch_nj c0 /\
  length (fd_r st) = ch_nj c0 /\ length (fd_acc st) = ch_nj c0.
