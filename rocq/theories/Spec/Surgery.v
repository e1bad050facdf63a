(** Entries of a matrix with a block inserted or removed. *)
From Coq Require Import Arith.
From Verif Require Import Base.Mat.

(** Where row [i] of the result of an insertion at [pos] of [len] rows comes
    from: [None] for a new row. *)
Definition unshift (pos len i : nat) : option nat :=
  if i <? pos then Some i else if i <? pos + len then None else Some (i - len).

(** Entry of the matrix with [sub] inserted at ([row], [col]). *)
Definition insert_entry {T} (z : T) (sub m : mat T) (row col i j : nat) : T :=
  match unshift row (nr sub) i, unshift col (nc sub) j with
  | Some a, Some b => ent m a b
  | None, None => ent sub (i - row) (j - col)
  | _, _ => z
  end.

(** Where row [i] of the result of a removal comes from. *)
Definition skip (pos len i : nat) : nat := if i <? pos then i else i + len.
