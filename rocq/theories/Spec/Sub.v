(** Subsequences: what remains of a list when some elements are left out. *)
From Coq Require Import List.
Import ListNotations.

Inductive sub {A : Type} : list A -> list A -> Prop :=
| sub_nil : sub [] []
| sub_skip : forall x l m, sub l m -> sub l (x :: m)
| sub_keep : forall x l m, sub l m -> sub (x :: l) (x :: m).
