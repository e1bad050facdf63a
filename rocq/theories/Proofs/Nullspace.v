(** [ApplyLeftNullspace]. *)
From Coq Require Import Reals List Arith Bool Lia Lra.
From Verif Require Import Base.Res Base.Mat Base.RSum Base.LinAlg Base.RDec Base.RMat
  Model.QR Model.MathHelper Proofs.QRProofs.
Import ListNotations.
Open Scope R_scope.

Lemma nullspace_ok : forall Hf Hx r, (nc Hf <= nr Hf)%nat -> nr Hx = nr Hf -> nr r = nr Hf ->
  exists A b, ApplyLeftNullspace Hf Hx r = OK (A, b) /\
  nr A = (nr Hf - nc Hf)%nat /\ nc A = nc Hx /\ nr b = (nr Hf - nc Hf)%nat /\ nc b = nc r /\
  (forall i j, ent A i j = rsum (nr Hf) (fun k => hqt (nr Hf) (nc Hf) (ent Hf) k (nc Hf + i)%nat * ent Hx k j)) /\
  (forall i j, ent b i j = rsum (nr Hf) (fun k => hqt (nr Hf) (nc Hf) (ent Hf) k (nc Hf + i)%nat * ent r k j)).
Proof.
  intros Hf Hx r H1 H2 H3. unfold ApplyLeftNullspace. rewrite usub_ok by exact H1. cbn [bind].
  unfold block. cbn [nr nc].
  assert (B : ((Nat.leb (nc Hf + (nr Hf - nc Hf)) (nr Hf)) && Nat.leb (0 + nr Hf) (nr Hf))%bool = true).
  { apply andb_true_iff. split; apply Nat.leb_le; lia. }
  rewrite B. cbn [bind]. rewrite !mulc_ok by (cbn [nc]; auto). cbn [bind nr nc].
  eexists _, _. split; [reflexivity|]. cbn [nr nc ent]. rewrite (Nat.min_r _ _ H1).
  repeat split; auto.
Qed.

(** With more columns than rows the size of the nullspace is negative. *)
Lemma nullspace_short : forall Hf Hx r, (nr Hf < nc Hf)%nat -> ApplyLeftNullspace Hf Hx r = UB.
Proof.
  intros Hf Hx r H. unfold ApplyLeftNullspace, usub. rewrite (proj2 (Nat.leb_gt _ _)) by exact H. reflexivity.
Qed.

(** The columns of Q do annihilate the feature Jacobian. *)
Lemma columns_annihilate : forall m n A i j, (n <= m)%nat -> (n <= i < m)%nat -> (j < n)%nat ->
  mm m (hqt m n A) A i j = 0.
Proof.
  intros m n A i j H1 Hi Hj. rewrite <- hqr_hqt by lia. apply (hqr_elim n m A H1); lia.
Qed.


Lemma single_column : forall Hf r, nc Hf = 1%nat -> (1 <= nr Hf)%nat -> nr r = nr Hf ->
  exists A b, ApplyLeftNullspace Hf Hf r = OK (A, b) /\ eqm (nr Hf - 1) 1 (ent A) zm.
Proof.
  intros Hf r H1 H2 H3. destruct (nullspace_ok Hf Hf r) as [A [b [E [_ [_ [_ [_ [EA _]]]]]]]]; [lia|auto|auto|].
  exists A, b. split; [exact E|]. intros i j Hi Hj. rewrite EA. rewrite H1. unfold zm.
  rewrite <- (columns_annihilate (nr Hf) 1 (ent Hf) (1 + i) j) by lia.
  unfold mm. apply rsum_ext. intros k Hk. f_equal.
  cbn [hqt hqr]. unfold refl. set (v := hvec _ _ _). set (t := htau _ _ _).
  assert (D : forall a, (a < nr Hf)%nat -> rsum (nr Hf) (fun l => v l * idm l a) = v a).
  { intros a Ha. rewrite (rsum_single (nr Hf) a); [unfold idm; rewrite Nat.eqb_refl; ring|auto|].
    intros l Hl N. unfold idm. rewrite (proj2 (Nat.eqb_neq l a)) by auto. ring. }
  rewrite !D by lia. unfold idm. rewrite (Nat.eqb_sym k). ring.
Qed.

(** *** A feature seen in two frames: four rows, three columns *)
Definition shift43 : mat R := mkmat 4 3 (fun i j => if Nat.eqb i (S j) then 1 else 0).

Lemma shift43_rank : forall x, (exists j, (j < 3)%nat /\ x j <> 0) ->
  exists i, (i < 4)%nat /\ rsum 3 (fun j => ent shift43 i j * x j) <> 0.
Proof.
  intros x [j [Hj Hx]]. exists (S j). split; [lia|]. rewrite (rsum_single 3 j).
  - unfold shift43. cbn [ent]. rewrite Nat.eqb_refl. lra.
  - exact Hj.
  - intros k Hk N. unfold shift43. cbn [ent]. rewrite (proj2 (Nat.eqb_neq (S j) (S k))) by lia. ring.
Qed.

Definition two (k i : nat) : R := if (Nat.eqb i k || Nat.eqb i (S k))%bool then 1 else 0.

Lemma unit_house : forall m k A, (S k < m)%nat -> A k k = 0 -> A (S k) k = 1 ->
  (forall i, (S k < i < m)%nat -> A i k = 0) ->
  htau m k A = 1 /\ hbeta m k A = -1 /\ forall i, (i < m)%nat -> hvec m k A i = two k i.
Proof.
  intros m k A Hk H0 H1 H2.
  assert (T : tail2 m k A = 1).
  { unfold tail2. rewrite (rsum_single m (S k)); [|exact Hk|].
    - rewrite (proj2 (Nat.ltb_lt k (S k))) by lia. rewrite H1. ring.
    - intros i Hi N. destruct (Nat.ltb_spec k i); [rewrite H2 by lia; ring|reflexivity]. }
  assert (B : hbeta m k A = -1).
  { unfold hbeta. rewrite T, H0. rewrite (proj2 (Reqb_false 1 0)) by lra.
    rewrite (proj2 (Rleb_spec 0 0)) by lra. replace (0 * 0 + 1) with 1 by ring. rewrite sqrt_1. ring. }
  split; [|split; [exact B|]].
  - unfold htau. rewrite T, B, H0. rewrite (proj2 (Reqb_false 1 0)) by lra. field.
  - intros i Hi. unfold hvec, two. rewrite T, B, H0. rewrite (proj2 (Reqb_false 1 0)) by lra.
    destruct (Nat.ltb_spec i k).
    + rewrite !(proj2 (Nat.eqb_neq _ _)) by lia. reflexivity.
    + destruct (Nat.eqb_spec i k); [reflexivity|]. cbn [orb]. destruct (Nat.eqb_spec i (S k)).
      * subst i. rewrite H1. field.
      * rewrite H2 by lia. field.
Qed.

Lemma rsum_two_l : forall m k f, (S k < m)%nat -> rsum m (fun l => two k l * f l) = f k + f (S k).
Proof.
  intros m k f Hk.
  rewrite (rsum_ext m _ (fun l => (if Nat.eqb l k then 1 else 0) * f l + (if Nat.eqb l (S k) then 1 else 0) * f l)).
  - rewrite rsum_plus. rewrite (rsum_single m k), (rsum_single m (S k)); try lia.
    + rewrite !Nat.eqb_refl. ring.
    + intros i Hi N. rewrite (proj2 (Nat.eqb_neq i (S k))) by auto. ring.
    + intros i Hi N. rewrite (proj2 (Nat.eqb_neq i k)) by auto. ring.
  - intros l _. unfold two. destruct (Nat.eqb_spec l k), (Nat.eqb_spec l (S k)); cbn; try ring. lia.
Qed.

Lemma shift43_house : forall k, (k < 3)%nat ->
  (forall i j, (i < 4)%nat -> (k <= j < 3)%nat -> hqr 4 k (ent shift43) i j = if Nat.eqb i (S j) then 1 else 0) ->
  htau 4 k (hqr 4 k (ent shift43)) = 1 /\
  (forall i, (i < 4)%nat -> hvec 4 k (hqr 4 k (ent shift43)) i = two k i).
Proof.
  intros k Hk H. destruct (unit_house 4 k (hqr 4 k (ent shift43))) as [A [_ B]]; [lia| | | |auto].
  - rewrite H by lia. rewrite (proj2 (Nat.eqb_neq k (S k))) by lia. reflexivity.
  - rewrite H by lia. rewrite Nat.eqb_refl. reflexivity.
  - intros i Hi. rewrite H by lia. rewrite (proj2 (Nat.eqb_neq i (S k))) by lia. reflexivity.
Qed.

Lemma shift43_hqr : forall k, (k <= 3)%nat -> forall i j, (i < 4)%nat -> (k <= j < 3)%nat ->
  hqr 4 k (ent shift43) i j = if Nat.eqb i (S j) then 1 else 0.
Proof.
  induction k; intros Hk i j Hi Hj; [reflexivity|].
  cbn [hqr]. specialize (IHk ltac:(lia)). destruct (shift43_house k ltac:(lia) IHk) as [T V].
  unfold hstep. destruct (Nat.ltb_spec j k); [lia|]. destruct (Nat.eqb_spec j k); [lia|].
  unfold refl. rewrite T, V by lia. set (B := hqr 4 k (ent shift43)) in *.
  rewrite (rsum_ext 4 _ (fun l => two k l * B l j)) by (intros l Hl; rewrite V by lia; reflexivity).
  rewrite (rsum_two_l 4 k (fun l => B l j)) by lia. rewrite !IHk by lia.
  rewrite (proj2 (Nat.eqb_neq k (S j))), (proj2 (Nat.eqb_neq (S k) (S j))) by lia. ring.
Qed.

Lemma shift43_step : forall k B i j, (k < 3)%nat -> (i < 4)%nat ->
  refl 4 (htau 4 k (hqr 4 k (ent shift43))) (hvec 4 k (hqr 4 k (ent shift43))) B i j = B i j - two k i * (B k j + B (S k) j).
Proof.
  intros k B i j Hk Hi. destruct (shift43_house k Hk (shift43_hqr k ltac:(lia))) as [T V].
  unfold refl. rewrite T, V by lia.
  rewrite (rsum_ext 4 _ (fun l => two k l * B l j)) by (intros l Hl; rewrite V by lia; reflexivity).
  rewrite (rsum_two_l 4 k (fun l => B l j)) by lia. ring.
Qed.

Lemma shift43_q : forall i, (i < 4)%nat -> hqt 4 3 (ent shift43) i 3%nat = if Nat.eqb i 2 then -1 else 0.
Proof.
  assert (Q1 : forall i, (i < 4)%nat -> hqt 4 1 (ent shift43) i 3%nat = idm i 3%nat).
  { intros i Hi. cbn [hqt]. rewrite shift43_step by lia. unfold idm. cbn. ring. }
  assert (Q2 : forall i, (i < 4)%nat -> hqt 4 2 (ent shift43) i 3%nat = idm i 3%nat).
  { intros i Hi. change (hqt 4 2 (ent shift43)) with
      (refl 4 (htau 4 1 (hqr 4 1 (ent shift43))) (hvec 4 1 (hqr 4 1 (ent shift43))) (hqt 4 1 (ent shift43))).
    rewrite shift43_step by lia. rewrite !Q1 by lia. unfold idm. cbn. ring. }
  intros i Hi. change (hqt 4 3 (ent shift43)) with
      (refl 4 (htau 4 2 (hqr 4 2 (ent shift43))) (hvec 4 2 (hqr 4 2 (ent shift43))) (hqt 4 2 (ent shift43))).
  rewrite shift43_step by lia. rewrite !Q2 by lia. unfold idm, two.
  destruct i as [|[|[|[|i]]]]; [..|lia]; cbn; ring.
Qed.

Lemma nullspace_refuted : forall r, nr r = 4%nat -> exists A b,
  ApplyLeftNullspace shift43 shift43 r = OK (A, b) /\ nr A = 1%nat /\ nc A = 3%nat /\ ent A 0%nat 1%nat = -1.
Proof.
  intros r Hr. destruct (nullspace_ok shift43 shift43 r) as [A [b [E [E1 [E2 [_ [_ [EA _]]]]]]]]; [cbn; lia|reflexivity|exact Hr|].
  exists A, b. split; [exact E|]. split; [exact E1|]. split; [exact E2|].
  rewrite EA. cbn [nr nc shift43]. change (3 + 0)%nat with 3%nat.
  change (mkmat 4 3 (fun i j : nat => if Nat.eqb i (S j) then 1 else 0)) with shift43.
  change (fun i j : nat => if Nat.eqb i (S j) then 1 else 0) with (ent shift43).
  rewrite (rsum_ext 4 _ (fun k => (if Nat.eqb k 2 then -1 else 0) * ent shift43 k 1%nat)).
  - unfold rsum. cbn. ring.
  - intros k Hk. rewrite shift43_q by exact Hk. reflexivity.
Qed.
