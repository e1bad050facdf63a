(** C34: Grid thinning keeps one feature per cell. *)
From Coq Require Import Reals List Arith ZArith Lia Lra.
From Verif Require Import Model.MsckfUpdater Model.Trackers Spec.Sub Spec.Matches Proofs.Matches.
Import ListNotations.
Open Scope R_scope.

Theorem C34_subsequence : forall rows cols l, sub (GridFeatures rows cols l) l.
Proof. exact grid_subsequence. Qed.
Print Assumptions C34_subsequence.

(** No two kept points lie in the same square of ten by ten pixels. *)
Theorem C34_one_per_square : forall rows cols l,
  ForallOrdPairs (fun p q => ~ together p q) (GridFeatures rows cols l).
Proof. exact grid_one_per_square. Qed.
Print Assumptions C34_one_per_square.

Theorem C34_inside : forall rows cols l p, In p (GridFeatures rows cols l) ->
  (0 <= kp_x p -> 0 <= kp_y p -> in_image rows cols p) /\ -1 < kp_x p /\ -1 < kp_y p.
Proof. exact grid_inside. Qed.
Print Assumptions C34_inside.

(** Every detection in a square that fits into the image is represented by a
    kept point of its square, which was detected no later. *)
Theorem C34_represented : forall rows cols l i p, Forall (fun q => 0 <= kp_x q /\ 0 <= kp_y q) l ->
  nth_error l i = Some p -> in_full_square rows cols p ->
  exists j q, (j <= i)%nat /\ nth_error l j = Some q /\ In q (GridFeatures rows cols l) /\ together p q.
Proof. exact grid_representative. Qed.
Print Assumptions C34_represented.

(** A detection in the incomplete squares at the right or lower edge is lost. *)
Theorem C34_edge_refuted : exists rows cols p, in_image rows cols p /\ GridFeatures rows cols [p] = [].
Proof. exact grid_edge. Qed.
Print Assumptions C34_edge_refuted.

Example C34_case : let l := [mkKP 1 1 (-1); mkKP 2 2 (-1); mkKP 15 3 (-1)] in
  Forall (fun q => 0 <= kp_x q /\ 0 <= kp_y q) l /\ nth_error l 2 = Some (mkKP 15 3 (-1)) /\
  in_full_square 20 20 (mkKP 15 3 (-1)) /\ together (mkKP 1 1 (-1)) (mkKP 2 2 (-1)).
Proof.
  cbn. repeat split; [repeat constructor; simpl; lra| |].
  - exists 1%Z, 0%Z. unfold in_square. simpl. repeat split; try lra; lia.
  - exists 0%Z, 0%Z. unfold in_square. simpl. repeat split; lra.
Qed.
