(** What Eat(is,descript) accepts (C55). *)
From Coq Require Import ZArith Ascii String List Bool.
From Verif Require Import IoModel IoSpec.
Import ListNotations.
Local Open Scope char_scope.
Local Open Scope list_scope.

Definition small_letters : text := lit "abcdefghijklmnopqrstuvwxyz".
Definition capital_letters : text := lit "ABCDEFGHIJKLMNOPQRSTUVWXYZ".
(** the same character, or the same letter in the other case *)
Definition same_letter (c d : ascii) : Prop :=
  c = d \/ In (c, d) (combine small_letters capital_letters) \/ In (d, c) (combine small_letters capital_letters).
(** neither space nor the start of a comment *)
Definition visible (c : ascii) : Prop := ~ In c [" "; "009"; "010"; "#"; "/"].
Definition starts_visible (t : text) : Prop := exists c u, t = c :: u /\ visible c.
(** text t has the form described: one space of the description stands for one or more spaces, tabs and newlines *)
Inductive described : text -> text -> Prop :=
| ds_end : described [] []
| ds_char d p c t : d <> " " -> same_letter d c -> described p t -> described (d :: p) (c :: t)
| ds_space p b t : plain b -> b <> [] -> starts_visible t -> described p t -> described (" " :: p) (b ++ t).
