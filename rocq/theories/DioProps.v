(** C82: the text of velocity and acceleration objects. *)
From Coq Require Import Reals ZArith Ascii String List Bool.
From Verif Require Import FramesModel DualModel IoModel IoSpec KioSpec DioModel DioSpec DioProofs.
Import ListNotations.
Local Open Scope char_scope.
Local Open Scope list_scope.
Local Open Scope Z_scope.

(** The members, in order, in braces; every number rounded correctly to the precision of the stream. *)
Theorem C82_layout : forall p, 1 <= p ->
  (forall r, prints_VectorVel (fun x => round10 p x) (write_VectorVel p r) r) /\
  (forall r, prints_RotationVel (fun x => round10 p x) (write_RotationVel p r) r) /\
  (forall r, prints_FrameVel (fun x => round10 p x) (write_FrameVel p r) r) /\
  (forall r, prints_TwistVel (fun x => round10 p x) (write_TwistVel p r) r) /\
  (forall r, prints_VectorAcc (fun x => round10 p x) (write_VectorAcc p r) r) /\
  (forall r, prints_RotationAcc (fun x => round10 p x) (write_RotationAcc p r) r) /\
  (forall r, prints_FrameAcc (fun x => round10 p x) (write_FrameAcc p r) r) /\
  (forall r, prints_TwistAcc (fun x => round10 p x) (write_TwistAcc p r) r).
Proof. exact layouts. Qed.
Print Assumptions C82_layout.
(** The numbers of automatic differentiation; [d] is the compiler's name of double. *)
Theorem C82_layout_numbers : forall d p (a : dVel) (b : dAcc), 1 <= p ->
  (exists t g, write_Rall1d d p a = lit "Rall1d<" ++ d ++ lit ", " ++ d ++ lit ", " ++ d ++ lit ">(" ++ t ++ [","] ++ g ++ [")"] /\
     numeral t (round10 p (d1t a)) /\ numeral g (round10 p (d1g a))) /\
  (exists t g h, write_Rall2d d p b = lit "Rall2d<" ++ d ++ lit ", " ++ d ++ lit ", " ++ d ++ lit ">(" ++ t ++ [","] ++ g ++ [","] ++ h ++ [")"] /\
     numeral t (round10 p (d2t b)) /\ numeral g (round10 p (d2d b)) /\ numeral h (round10 p (d2dd b))).
Proof. exact rall_text. Qed.
Print Assumptions C82_layout_numbers.
(** Equal texts are texts of objects that agree to p digits; the end of an object's text can be found whatever follows it. *)
Theorem C82_determines : forall p, 1 <= p ->
  tells (write_VectorVel p) numbers_VectorVel (agree p) /\
  tells (write_RotationVel p) numbers_RotationVel (agree p) /\
  tells (write_FrameVel p) numbers_FrameVel (agree p) /\
  tells (write_TwistVel p) numbers_TwistVel (agree p) /\
  tells (write_VectorAcc p) numbers_VectorAcc (agree p) /\
  tells (write_RotationAcc p) numbers_RotationAcc (agree p) /\
  tells (write_FrameAcc p) numbers_FrameAcc (agree p) /\
  tells (write_TwistAcc p) numbers_TwistAcc (agree p) /\
  (forall d, tells (write_Rall1d d p) numbers_dVel (agree p)) /\
  (forall d, tells (write_Rall2d d p) numbers_dAcc (agree p)).
Proof. exact all_tell. Qed.
Print Assumptions C82_determines.
(** With 17 digits equal texts are texts of the same doubles. *)
Theorem C82_exact : forall p, 17 <= p ->
  (forall a b, (forall x, In x (numbers_FrameVel a ++ numbers_FrameVel b) -> is_double x) -> write_FrameVel p a = write_FrameVel p b -> a = b) /\
  (forall a b, (forall x, In x (numbers_TwistVel a ++ numbers_TwistVel b) -> is_double x) -> write_TwistVel p a = write_TwistVel p b -> a = b) /\
  (forall a b, (forall x, In x (numbers_FrameAcc a ++ numbers_FrameAcc b) -> is_double x) -> write_FrameAcc p a = write_FrameAcc p b -> a = b) /\
  (forall a b, (forall x, In x (numbers_TwistAcc a ++ numbers_TwistAcc b) -> is_double x) -> write_TwistAcc p a = write_TwistAcc p b -> a = b) /\
  (forall d a b, (forall x, In x (numbers_dVel a ++ numbers_dVel b) -> is_double x) -> write_Rall1d d p a = write_Rall1d d p b -> a = b) /\
  (forall d a b, (forall x, In x (numbers_dAcc a ++ numbers_dAcc b) -> is_double x) -> write_Rall2d d p a = write_Rall2d d p b -> a = b).
Proof. exact exact_texts. Qed.
Print Assumptions C82_exact.
Theorem C82_example : let r := mkVV (mkV 1 0 0) (mkV 0 (-1) 0) in
  (forall x, In x (numbers_VectorVel r) -> is_double x) /\ write_VectorVel 6 r = lit "{[           1,           0,           0],[           0,          -1,           0]}" ++ [nl].
Proof. exact dio_example. Qed.
Print Assumptions C82_example.
