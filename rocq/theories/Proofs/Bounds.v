(** [MinBoundVector]. *)
From Coq Require Import Reals List Lra.
From Verif Require Import Base.RDec Model.MathHelper.
Import ListNotations.
Open Scope R_scope.

Lemma min_bound_max : forall x b, (if Rltb x b then b else x) = Rmax x b.
Proof. intros. unfold Rmax. rcases; destruct (Rle_dec x b); lra. Qed.
Lemma min_bound_entries : forall v b, length (MinBoundVector v b) = length v /\
  forall i x, nth_error v i = Some x -> nth_error (MinBoundVector v b) i = Some (Rmax x b).
Proof.
  intros v b. unfold MinBoundVector. split; [apply map_length|]. intros i x H.
  rewrite (map_nth_error _ i v H). f_equal. apply min_bound_max.
Qed.
Lemma min_bound_at_least : forall v b x, In x (MinBoundVector v b) -> b <= x.
Proof.
  intros v b x H. unfold MinBoundVector in H. apply in_map_iff in H. destruct H as [y [<- _]].
  rewrite min_bound_max. apply Rmax_r.
Qed.
Lemma min_bound_unchanged : forall v b, (forall x, In x v -> b <= x) -> MinBoundVector v b = v.
Proof.
  intros v b H. unfold MinBoundVector. rewrite <- (map_id v) at 2. apply map_ext_in. intros x Hx.
  rewrite (Rltb_ff x b) by (apply H; exact Hx). reflexivity.
Qed.
Lemma min_bound_idem : forall v b, MinBoundVector (MinBoundVector v b) b = MinBoundVector v b.
Proof. intros. apply min_bound_unchanged. apply min_bound_at_least. Qed.
