(** Elementwise characterisation of [AugmentCovariance]. *)
From Coq Require Import Reals List Arith Bool Lia Lra.
From Verif Require Import Base.Res Base.Mat Base.RDec Base.RSum Base.LinAlg Base.Geom Base.AMap Base.RMat
  Model.TypeHelper Model.Types Model.MathHelperMat Model.QR Model.Ekf Spec.Layout Spec.History
  Proofs.MatSurgery.
Import ListNotations.
Open Scope nat_scope.

(** Row [i] of the augmented covariance is a copy of row [clone_src index i]. *)
Definition clone_src (index i : nat) : nat :=
  if i <? index then i
  else if i <? index + 3 then i - index
  else if i <? index + 6 then i - index + 6
  else i - 6.

Lemma clone_src_lo : forall x i, i < x -> clone_src x i = i.
Proof. intros. unfold clone_src. rewrite (proj2 (Nat.ltb_lt _ _)) by lia. reflexivity. Qed.
Lemma clone_src_pos : forall x i, x <= i < x + 3 -> clone_src x i = i - x.
Proof.
  intros. unfold clone_src. rewrite (proj2 (Nat.ltb_ge _ _)) by lia.
  rewrite (proj2 (Nat.ltb_lt _ _)) by lia. reflexivity.
Qed.
Lemma clone_src_ang : forall x i, x + 3 <= i < x + 6 -> clone_src x i = i - x + 6.
Proof.
  intros. unfold clone_src. rewrite (proj2 (Nat.ltb_ge _ _)) by lia.
  rewrite (proj2 (Nat.ltb_ge _ _)) by lia. rewrite (proj2 (Nat.ltb_lt _ _)) by lia. reflexivity.
Qed.
Lemma clone_src_hi : forall x i, x + 6 <= i -> clone_src x i = i - 6.
Proof.
  intros. unfold clone_src. rewrite !(proj2 (Nat.ltb_ge _ _)) by lia. reflexivity.
Qed.

Lemma zone4 : forall x i, i < x \/ x <= i < x + 3 \/ x + 3 <= i < x + 6 \/ x + 6 <= i.
Proof. intros. lia. Qed.

Lemma Augment_std_spec : forall (m : mat R) index, nr m = nc m -> 12 <= index <= nr m ->
  exists out, AugmentCovariance false m index = OK out /\
    nr out = nr m + 6 /\ nc out = nr m + 6 /\
    forall i j, i < nr out -> j < nc out ->
      ent out i j = ent m (clone_src index i) (clone_src index j).
Proof.
  intros m x Hs Hx. unfold AugmentCovariance. change g_aug_state_size with 6. unfold mzero, mconst.
  mrun.
  eexists. split; [reflexivity|]. cbn [nr nc]. split; [lia|]. split; [lia|].
  intros i j Hi Hj. cbn [ent nr nc].
  destruct (zone4 x i) as [Zi|[Zi|[Zi|Zi]]]; destruct (zone4 x j) as [Zj|[Zj|[Zj|Zj]]];
    rewrite ?(clone_src_lo x i), ?(clone_src_pos x i), ?(clone_src_ang x i), ?(clone_src_hi x i),
      ?(clone_src_lo x j), ?(clone_src_pos x j), ?(clone_src_ang x j), ?(clone_src_hi x j) by lia;
    dranges; f_equal; lia.
Qed.

Lemma Augment_root_spec : forall (m : mat R) index, nr m = nc m -> 12 <= index <= nr m ->
  (forall i j, j < i < nr m -> ent m i j = 0%R) ->
  exists out, AugmentCovariance true m index = OK out /\
    nr out = nr m + 6 /\ nc out = nr m + 6 /\
    forall i j, i < nr out -> j < nc out ->
      ent out i j = if i <? nr m then ent m i (clone_src index j) else 0%R.
Proof.
  intros m x Hs Hx Hut. unfold AugmentCovariance. change g_aug_state_size with 6. unfold mzero, mconst.
  mrun.
  eexists. split; [reflexivity|]. cbn [nr nc]. split; [lia|]. split; [lia|].
  intros i j Hi Hj. cbn [ent nr nc].
  destruct (i <? nr m) eqn:E; [apply Nat.ltb_lt in E|apply Nat.ltb_ge in E];
  destruct (zone4 x j) as [Zj|[Zj|[Zj|Zj]]];
    rewrite ?(clone_src_lo x j), ?(clone_src_pos x j), ?(clone_src_ang x j), ?(clone_src_hi x j) by lia;
    dranges; rewrite ?in_range_spec in *; try reflexivity; try (f_equal; lia);
    try (symmetry; apply Hut);
    repeat match goal with H : in_range ?a ?b ?c = false |- _ =>
       let K := fresh in assert (K : a < b \/ b + c <= a) by
         (destruct (Nat.lt_ge_cases a b); [auto|]; destruct (Nat.lt_ge_cases a (b + c)); [|auto];
          rewrite in_range_true in H by lia; discriminate); clear H end; try lia.
Qed.

Lemma Augment_root_dims : forall (m : mat R) index, nr m = nc m -> 12 <= index <= nr m ->
  exists out, AugmentCovariance true m index = OK out /\ nr out = nr m + 6 /\ nc out = nr m + 6.
Proof.
  intros m x Hs Hx. unfold AugmentCovariance. change g_aug_state_size with 6. unfold mzero, mconst.
  mrun. eexists. split; [reflexivity|]. cbn [nr nc]. lia.
Qed.

Lemma Augment_dims : forall root (m : mat R) index, nr m = nc m -> 12 <= index <= nr m ->
  exists out, AugmentCovariance root m index = OK out /\ nr out = nr m + 6 /\ nc out = nr m + 6.
Proof.
  intros [|] m x Hs Hx.
  - apply Augment_root_dims; auto.
  - destruct (Augment_std_spec m x Hs Hx) as [out [E [H1 [H2 _]]]]. eauto.
Qed.

