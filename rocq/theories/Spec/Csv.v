(** Comma separated lines. *)
From Coq Require Import Reals List String Ascii Bool.
From Verif Require Import Base.Res.
Import ListNotations.
Open Scope string_scope.

(** The columns of a line: split at every comma. *)
Fixpoint columns (s : string) : list string :=
  match s with
  | EmptyString => [""]
  | String c t =>
      if Ascii.eqb c "," then "" :: columns t
      else match columns t with h :: r => String c h :: r | [] => [String c ""] end
  end.

Fixpoint no_comma (s : string) : Prop :=
  match s with EmptyString => True | String c t => c <> ","%char /\ no_comma t end.

(** A way of printing numbers that never prints a comma. *)
Definition plain_show (show : R -> string) : Prop := forall x, no_comma (show x).

(** A row can be built and has as many columns as its header. *)
Definition fits (row : res string) (header : string) : Prop :=
  exists r, row = OK r /\ List.length (columns r) = List.length (columns header).
