(** What the matrix surgery preserves: positive semi-definiteness of a
    covariance, triangularity of a root. *)
From Coq Require Import Reals List Arith Bool Lia Lra.
From Verif Require Import Base.Res Base.Mat Base.RDec Base.RSum Base.LinAlg Base.Geom Base.AMap Base.RMat
  Model.TypeHelper Model.Types Model.MathHelperMat Model.QR Model.Ekf
  Proofs.MatSurgery Proofs.Register Proofs.AugCov.
Import ListNotations.
Open Scope nat_scope.

Definition upper (n : nat) (A : fmat) : Prop := forall i j, j < i < n -> A i j = 0%R.
Definition good (root : bool) (n : nat) (A : fmat) : Prop := if root then upper n A else psd n A.

Lemma skip_bound : forall pos len n i, i < n - len -> pos + len <= n -> skip pos len i < n.
Proof. intros. unfold skip. destruct (i <? pos); lia. Qed.

Lemma remove_good : forall root (m out : mat R) x k, nr m = nc m -> x + k <= nr m ->
  RemoveFromMatrix 0%R m x x k = OK out -> good root (nr m) (ent m) ->
  nr out = nr m - k /\ nc out = nr m - k /\ good root (nr out) (ent out).
Proof.
  intros root m out x k Hs Hx E G.
  destruct (Remove_spec R 0%R m x x k) as [o [E' [R1 [R2 R3]]]]; try lia.
  rewrite E in E'. injection E' as <-. split; [lia|]. split; [lia|].
  destruct root; cbn [good] in *.
  - intros i j Hij. rewrite R3 by lia. apply G. pose proof (skip_bound x k (nr m) i).
    unfold skip in *. destruct (Nat.ltb_spec i x), (Nat.ltb_spec j x); lia.
  - eapply psd_ext; [|apply (psd_sel (nr out) (nr m) (fun i => Some (skip x k i)) (ent m)); [|exact G]].
    + intros i j Hi Hj. unfold sel. rewrite R3 by lia. reflexivity.
    + intros i a Hi X. injection X as <-. apply skip_bound; lia.
Qed.

Lemma clone_src_bound : forall x n i, 12 <= x <= n -> i < n + 6 -> clone_src x i < n.
Proof.
  intros x n i Hx Hi. destruct (zone4 x i) as [Z|[Z|[Z|Z]]];
    [rewrite clone_src_lo|rewrite clone_src_pos|rewrite clone_src_ang|rewrite clone_src_hi]; lia.
Qed.

Lemma augment_good : forall root (m out : mat R) x, nr m = nc m -> 12 <= x <= nr m ->
  AugmentCovariance root m x = OK out -> good root (nr m) (ent m) ->
  nr out = nr m + 6 /\ nc out = nr m + 6 /\ good root (nr out) (ent out).
Proof.
  intros root m out x Hs Hx E G. destruct root; cbn [good] in *.
  - destruct (Augment_root_spec m x Hs Hx G) as [o [E' [R1 [R2 R3]]]].
    rewrite E in E'. injection E' as <-. split; [lia|]. split; [lia|].
    intros i j Hij. rewrite R3 by lia. destruct (Nat.ltb_spec i (nr m)); [|reflexivity].
    apply G. destruct (zone4 x j) as [Z|[Z|[Z|Z]]];
      [rewrite clone_src_lo|rewrite clone_src_pos|rewrite clone_src_ang|rewrite clone_src_hi]; lia.
  - destruct (Augment_std_spec m x Hs Hx) as [o [E' [R1 [R2 R3]]]].
    rewrite E in E'. injection E' as <-. split; [lia|]. split; [lia|].
    eapply psd_ext; [|apply (psd_sel (nr out) (nr m) (fun i => Some (clone_src x i)) (ent m)); [|exact G]].
    + intros i j Hi Hj. unfold sel. rewrite R3 by lia. reflexivity.
    + intros i a Hi X. injection X as <-. apply clone_src_bound; lia.
Qed.

Lemma insert_good : forall root (m sub out : mat R) pos,
  is_insert m sub out pos -> pos <= nr m -> nr m = nc m -> nr sub = nc sub ->
  good root (nr m) (ent m) -> good root (nr sub) (ent sub) -> good root (nr out) (ent out).
Proof.
  intros [|] m sub out pos HI Hp Hs1 Hs2 G1 G2; cbn [good] in *; [|eapply insert_psd; eauto].
  destruct HI as [I1 [I2 I3]]. intros i j Hij. rewrite I3 by lia.
  unfold insert_entry, unshift. rewrite <- Hs2.
  destruct (Nat.ltb_spec i pos), (Nat.ltb_spec j pos); try lia; try (apply G1; lia);
    destruct (Nat.ltb_spec i (pos + nr sub)); try destruct (Nat.ltb_spec j (pos + nr sub)); try lia;
    try reflexivity; try (apply G1; lia); apply G2; lia.
Qed.
