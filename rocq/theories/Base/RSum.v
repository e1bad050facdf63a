(** Finite sums of reals. *)
From Coq Require Import Reals Arith Lia Lra.
Open Scope R_scope.

Fixpoint rsum (n : nat) (f : nat -> R) : R :=
  match n with O => 0 | S k => rsum k f + f k end.

Lemma rsum_ext : forall n f g, (forall i, (i < n)%nat -> f i = g i) -> rsum n f = rsum n g.
Proof.
  induction n; intros f g H; simpl; [reflexivity|].
  rewrite (IHn f g) by (intros; apply H; lia). rewrite H by lia. reflexivity.
Qed.

Lemma rsum_0 : forall n f, (forall i, (i < n)%nat -> f i = 0) -> rsum n f = 0.
Proof.
  induction n; intros f H; simpl; [reflexivity|].
  rewrite IHn by (intros; apply H; lia). rewrite H by lia. lra.
Qed.

Lemma rsum_plus : forall n f g, rsum n (fun i => f i + g i) = rsum n f + rsum n g.
Proof. induction n; intros; simpl; [lra|]. rewrite IHn. lra. Qed.

Lemma rsum_minus : forall n f g, rsum n (fun i => f i - g i) = rsum n f - rsum n g.
Proof. induction n; intros; simpl; [lra|]. rewrite IHn. lra. Qed.

Lemma rsum_opp : forall n f, rsum n (fun i => - f i) = - rsum n f.
Proof. induction n; intros; simpl; [lra|]. rewrite IHn. lra. Qed.

Lemma rsum_scal_l : forall n c f, rsum n (fun i => c * f i) = c * rsum n f.
Proof. induction n; intros; simpl; [lra|]. rewrite IHn. lra. Qed.

Lemma rsum_scal_r : forall n c f, rsum n (fun i => f i * c) = rsum n f * c.
Proof. induction n; intros; simpl; [lra|]. rewrite IHn. lra. Qed.

Lemma rsum_swap : forall n m f,
  rsum n (fun i => rsum m (fun j => f i j)) = rsum m (fun j => rsum n (fun i => f i j)).
Proof.
  induction n; intros m f; simpl.
  - symmetry. apply rsum_0. auto.
  - rewrite IHn, <- rsum_plus. reflexivity.
Qed.

Lemma rsum_nonneg : forall n f, (forall i, (i < n)%nat -> 0 <= f i) -> 0 <= rsum n f.
Proof.
  induction n; intros f H; simpl; [lra|].
  assert (0 <= rsum n f) by (apply IHn; intros; apply H; lia).
  assert (0 <= f n) by (apply H; lia). lra.
Qed.

Lemma rsum_le : forall n f g, (forall i, (i < n)%nat -> f i <= g i) -> rsum n f <= rsum n g.
Proof.
  induction n; intros f g H; simpl; [lra|].
  assert (rsum n f <= rsum n g) by (apply IHn; intros; apply H; lia).
  assert (f n <= g n) by (apply H; lia). lra.
Qed.

Lemma rsum_split : forall n m f, rsum (n + m) f = rsum n f + rsum m (fun i => f (n + i)%nat).
Proof.
  intros n m f. induction m.
  - rewrite Nat.add_0_r. simpl. lra.
  - rewrite Nat.add_succ_r. simpl. rewrite IHm. lra.
Qed.

(** A sum with a single non-zero term. *)
Lemma rsum_single : forall n k f,
  (k < n)%nat -> (forall i, (i < n)%nat -> i <> k -> f i = 0) -> rsum n f = f k.
Proof.
  induction n; intros k f Hk H; [lia|]. simpl.
  destruct (Nat.eq_dec k n) as [->|Hne].
  - rewrite rsum_0; [lra|]. intros i Hi. apply H; lia.
  - rewrite (IHn k f) by (try lia; intros; apply H; lia).
    rewrite (H n) by lia. lra.
Qed.

Lemma rsum_delta_l : forall n k f, (k < n)%nat ->
  rsum n (fun i => (if Nat.eqb k i then 1 else 0) * f i) = f k.
Proof.
  intros n k f Hk. rewrite (rsum_single n k); auto.
  - rewrite Nat.eqb_refl. lra.
  - intros i Hi Hne. destruct (Nat.eqb k i) eqn:E; [apply Nat.eqb_eq in E; lia|lra].
Qed.

Lemma rsum_delta_r : forall n k f, (k < n)%nat ->
  rsum n (fun i => f i * (if Nat.eqb i k then 1 else 0)) = f k.
Proof.
  intros n k f Hk. rewrite (rsum_single n k); auto.
  - rewrite Nat.eqb_refl. lra.
  - intros i Hi Hne. destruct (Nat.eqb i k) eqn:E; [apply Nat.eqb_eq in E; lia|lra].
Qed.

Lemma rsum_pos_ex : forall n f, (forall i, (i < n)%nat -> 0 <= f i) ->
  (exists i, (i < n)%nat /\ 0 < f i) -> 0 < rsum n f.
Proof.
  induction n; intros f H [k [Hk Hp]]; [lia|]. simpl.
  destruct (Nat.eq_dec k n) as [->|Hne].
  - assert (0 <= rsum n f) by (apply rsum_nonneg; intros; apply H; lia). lra.
  - assert (0 < rsum n f).
    { apply IHn; [intros; apply H; lia|]. exists k. split; [lia|auto]. }
    assert (0 <= f n) by (apply H; lia). lra.
Qed.

Lemma rsum_const : forall n c, rsum n (fun _ => c) = INR n * c.
Proof. induction n; intros; [simpl; lra|]. rewrite S_INR. simpl. rewrite IHn. lra. Qed.
