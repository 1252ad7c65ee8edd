(** Model of the text output of velocity and acceleration objects: /repo/orocos_kdl/src/{framevel_io,frameacc_io}.hpp and
    utilities/{rall1d_io,rall2d_io}.h.  Python's repr of these classes is this text (framevel.cpp:51, 94, 185, 266, 351).
    There are no input operators.  [p] is the precision of the stream, as in IoModel; std::endl writes a newline. *)
From Coq Require Import Reals ZArith Ascii String List Bool.
From Verif Require Import FramesModel DualModel IoModel.
Import ListNotations.
Local Open Scope char_scope.
Local Open Scope list_scope.
Local Open Scope Z_scope.

(** framevel_io.hpp:29-32 *)
Definition write_VectorVel (p : Z) (r : VectorVel) : text :=
  lit "{" ++ write_Vector p (vvp r) ++ lit "," ++ write_Vector p (vvv r) ++ lit "}" ++ [nl].
(** framevel_io.hpp:34-37 *)
Definition write_RotationVel (p : Z) (r : RotationVel) : text :=
  lit "{" ++ [nl] ++ write_Rotation p (rvR r) ++ lit "," ++ [nl] ++ write_Vector p (rvw r) ++ [nl] ++ lit "}" ++ [nl].
(** framevel_io.hpp:40-43 *)
Definition write_FrameVel (p : Z) (r : FrameVel) : text :=
  lit "{" ++ [nl] ++ write_RotationVel p (fvM r) ++ lit "," ++ [nl] ++ write_VectorVel p (fvp r) ++ [nl] ++ lit "}" ++ [nl].
(** framevel_io.hpp:45-48 *)
Definition write_TwistVel (p : Z) (r : TwistVel) : text :=
  lit "{" ++ [nl] ++ write_VectorVel p (tvvel r) ++ lit "," ++ [nl] ++ write_VectorVel p (tvrot r) ++ [nl] ++ lit "}" ++ [nl].

(** frameacc_io.hpp:32-35 *)
Definition write_VectorAcc (p : Z) (r : VectorAcc) : text :=
  lit "{" ++ write_Vector p (vap r) ++ lit "," ++ write_Vector p (vav r) ++ lit "," ++ write_Vector p (vadv r) ++ lit "}" ++ [nl].
(** frameacc_io.hpp:37-41 *)
Definition write_RotationAcc (p : Z) (r : RotationAcc) : text :=
  lit "{" ++ [nl] ++ write_Rotation p (raR r) ++ lit "," ++ [nl] ++ write_Vector p (raw r)
  ++ lit "," ++ [nl] ++ write_Vector p (radw r) ++ [nl] ++ lit "}" ++ [nl].
(** frameacc_io.hpp:44-47 *)
Definition write_FrameAcc (p : Z) (r : FrameAcc) : text :=
  lit "{" ++ [nl] ++ write_RotationAcc p (faM r) ++ lit "," ++ [nl] ++ write_VectorAcc p (fap r) ++ lit "}" ++ [nl].
(** frameacc_io.hpp:48-51 *)
Definition write_TwistAcc (p : Z) (r : TwistAcc) : text :=
  lit "{" ++ [nl] ++ write_VectorAcc p (tavel r) ++ lit "," ++ [nl] ++ write_VectorAcc p (tarot r) ++ [nl] ++ lit "}" ++ [nl].

(** rall1d_io.h:27-32, for Rall1d<double,double,double>; [d] is typeid(double).name() ("d" with gcc) *)
Definition write_Rall1d (d : text) (p : Z) (r : dVel) : text :=
  lit "Rall1d<" ++ d ++ lit ", " ++ d ++ lit ", " ++ d ++ lit ">(" ++ fmt_double p (d1t r) ++ lit "," ++ fmt_double p (d1g r) ++ lit ")".
(** rall2d_io.h:28-33 *)
Definition write_Rall2d (d : text) (p : Z) (r : dAcc) : text :=
  lit "Rall2d<" ++ d ++ lit ", " ++ d ++ lit ", " ++ d ++ lit ">(" ++ fmt_double p (d2t r) ++ lit "," ++ fmt_double p (d2d r) ++ lit "," ++ fmt_double p (d2dd r) ++ lit ")".
