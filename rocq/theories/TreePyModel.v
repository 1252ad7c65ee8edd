(** Model of Tree.getChain as Python sees it.

    Source: /repo/python_orocos_kdl/PyKDL/kinfam.cpp:196-201. *)
From Coq Require Import String List ZArith.
From Verif Require Import Outcome KinModel TreeModel PyModel.

(** kinfam.cpp:196-201: the bool is dropped and the chain is returned *)
Definition py_getChain (t : Tree) (chain_root chain_tip : string) : pyres Chain :=
  match tree_getChain t chain_root chain_tip with
  | Ret (_, c) => PyOk c
  | Undef => PyUndef
  end.
