(** C37: Minimum variance bounding. *)
From Coq Require Import Reals List Lra.
From Verif Require Import Base.RDec Model.MathHelper Proofs.Bounds.
Import ListNotations.
Open Scope R_scope.

Theorem C37_bounded : forall v b, length (MinBoundVector v b) = length v /\
  forall i x, nth_error v i = Some x -> nth_error (MinBoundVector v b) i = Some (Rmax x b).
Proof. exact min_bound_entries. Qed.
Print Assumptions C37_bounded.

Theorem C37_at_least : forall v b x, In x (MinBoundVector v b) -> b <= x.
Proof. exact min_bound_at_least. Qed.
Print Assumptions C37_at_least.

Theorem C37_unchanged : forall v b, (forall x, In x v -> b <= x) -> MinBoundVector v b = v.
Proof. exact min_bound_unchanged. Qed.
Print Assumptions C37_unchanged.

Theorem C37_idempotent : forall v b, MinBoundVector (MinBoundVector v b) b = MinBoundVector v b.
Proof. exact min_bound_idem. Qed.
Print Assumptions C37_idempotent.

Example C37_changes_one : MinBoundVector [1; 3] 2 = [2; 3].
Proof. unfold MinBoundVector. cbn [map]. rewrite (Rltb_true 1 2), (Rltb_ff 3 2) by lra. reflexivity. Qed.
