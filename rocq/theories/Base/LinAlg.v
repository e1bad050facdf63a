(** Linear algebra over R on entry functions with explicit dimensions.

    [eqm r c A B]: equality on the first [r] rows and [c] columns.
    All matrix laws are stated up to [eqm]. *)
From Coq Require Import Reals Arith Lia Lra Setoid Morphisms.
From Verif Require Import Base.RSum.
Open Scope R_scope.

Definition fmat := nat -> nat -> R.

Definition eqm (r c : nat) (A B : fmat) : Prop :=
  forall i j, (i < r)%nat -> (j < c)%nat -> A i j = B i j.

Definition mm (n : nat) (A B : fmat) : fmat := fun i j => rsum n (fun k => A i k * B k j).
Definition madd (A B : fmat) : fmat := fun i j => A i j + B i j.
Definition msub (A B : fmat) : fmat := fun i j => A i j - B i j.
Definition mopp (A : fmat) : fmat := fun i j => - A i j.
Definition mscal (c : R) (A : fmat) : fmat := fun i j => c * A i j.
Definition tr (A : fmat) : fmat := fun i j => A j i.
Definition idm : fmat := fun i j => if Nat.eqb i j then 1 else 0.
Definition zm : fmat := fun _ _ => 0.
Definition diagm (d : nat -> R) : fmat := fun i j => if Nat.eqb i j then d i else 0.

#[export] Instance eqm_equiv : forall r c, Equivalence (eqm r c).
Proof.
  intros r c. split.
  - intros A i j _ _. reflexivity.
  - intros A B H i j Hi Hj. symmetry. auto.
  - intros A B C H K i j Hi Hj. rewrite H by auto. auto.
Qed.

#[export] Instance mm_proper : forall r n c,
  Proper (eqm r n ==> eqm n c ==> eqm r c) (mm n).
Proof.
  intros r n c A A' HA B B' HB i j Hi Hj. unfold mm.
  apply rsum_ext. intros k Hk. rewrite HA, HB by auto. reflexivity.
Qed.

#[export] Instance madd_proper : forall r c, Proper (eqm r c ==> eqm r c ==> eqm r c) madd.
Proof. intros r c A A' HA B B' HB i j Hi Hj. unfold madd. rewrite HA, HB by auto. reflexivity. Qed.

#[export] Instance msub_proper : forall r c, Proper (eqm r c ==> eqm r c ==> eqm r c) msub.
Proof. intros r c A A' HA B B' HB i j Hi Hj. unfold msub. rewrite HA, HB by auto. reflexivity. Qed.

#[export] Instance mopp_proper : forall r c, Proper (eqm r c ==> eqm r c) mopp.
Proof. intros r c A A' HA i j Hi Hj. unfold mopp. rewrite HA by auto. reflexivity. Qed.

#[export] Instance mscal_proper : forall r c k, Proper (eqm r c ==> eqm r c) (mscal k).
Proof. intros r c k A A' HA i j Hi Hj. unfold mscal. rewrite HA by auto. reflexivity. Qed.

#[export] Instance tr_proper : forall r c, Proper (eqm r c ==> eqm c r) tr.
Proof. intros r c A A' HA i j Hi Hj. unfold tr. apply HA; auto. Qed.

(** *** Laws *)

Lemma mm_assoc : forall r n m c A B C, eqm r c (mm m (mm n A B) C) (mm n A (mm m B C)).
Proof.
  intros r n m c A B C i j _ _. unfold mm.
  rewrite (rsum_ext m _ (fun k => rsum n (fun l => A i l * B l k * C k j)))
    by (intros; symmetry; apply rsum_scal_r).
  rewrite rsum_swap. apply rsum_ext. intros l _.
  rewrite <- rsum_scal_l. apply rsum_ext. intros; ring.
Qed.

Lemma tr_mm : forall r n c A B, eqm r c (tr (mm n A B)) (mm n (tr B) (tr A)).
Proof. intros r n c A B i j _ _. unfold tr, mm. apply rsum_ext. intros; ring. Qed.

Lemma tr_tr : forall r c A, eqm r c (tr (tr A)) A.
Proof. intros r c A i j _ _. reflexivity. Qed.

Lemma tr_madd : forall r c A B, eqm r c (tr (madd A B)) (madd (tr A) (tr B)).
Proof. intros r c A B i j _ _. reflexivity. Qed.

Lemma tr_msub : forall r c A B, eqm r c (tr (msub A B)) (msub (tr A) (tr B)).
Proof. intros r c A B i j _ _. reflexivity. Qed.

Lemma tr_idm : forall r c, eqm r c (tr idm) idm.
Proof. intros r c i j _ _. unfold tr, idm. rewrite Nat.eqb_sym. reflexivity. Qed.

Lemma mm_id_l : forall n c A, eqm n c (mm n idm A) A.
Proof. intros n c A i j Hi Hj. unfold mm, idm. rewrite (rsum_delta_l n i (fun k => A k j)) by auto. reflexivity. Qed.

Lemma mm_id_r : forall r n A, eqm r n (mm n A idm) A.
Proof.
  intros r n A i j Hi Hj. unfold mm, idm.
  rewrite (rsum_single n j); auto; [rewrite Nat.eqb_refl; ring|].
  intros k Hk Hne. destruct (Nat.eqb k j) eqn:E; [apply Nat.eqb_eq in E; lia|ring].
Qed.

Lemma mm_madd_l : forall r n c A B C, eqm r c (mm n (madd A B) C) (madd (mm n A C) (mm n B C)).
Proof. intros r n c A B C i j _ _. unfold mm, madd. rewrite <- rsum_plus. apply rsum_ext. intros; ring. Qed.

Lemma mm_madd_r : forall r n c A B C, eqm r c (mm n A (madd B C)) (madd (mm n A B) (mm n A C)).
Proof. intros r n c A B C i j _ _. unfold mm, madd. rewrite <- rsum_plus. apply rsum_ext. intros; ring. Qed.

Lemma mm_msub_l : forall r n c A B C, eqm r c (mm n (msub A B) C) (msub (mm n A C) (mm n B C)).
Proof. intros r n c A B C i j _ _. unfold mm, msub. rewrite <- rsum_minus. apply rsum_ext. intros; ring. Qed.

Lemma mm_msub_r : forall r n c A B C, eqm r c (mm n A (msub B C)) (msub (mm n A B) (mm n A C)).
Proof. intros r n c A B C i j _ _. unfold mm, msub. rewrite <- rsum_minus. apply rsum_ext. intros; ring. Qed.

Lemma mm_zm_r : forall r n c A, eqm r c (mm n A zm) zm.
Proof. intros r n c A i j _ _. unfold mm, zm. apply rsum_0. intros; ring. Qed.

Lemma mm_zm_l : forall r n c A, eqm r c (mm n zm A) zm.
Proof. intros r n c A i j _ _. unfold mm, zm. apply rsum_0. intros; ring. Qed.

Lemma mm_mscal_l : forall r n c k A B, eqm r c (mm n (mscal k A) B) (mscal k (mm n A B)).
Proof. intros r n c k A B i j _ _. unfold mm, mscal. rewrite <- rsum_scal_l. apply rsum_ext. intros; ring. Qed.

Lemma mm_mscal_r : forall r n c k A B, eqm r c (mm n A (mscal k B)) (mscal k (mm n A B)).
Proof. intros r n c k A B i j _ _. unfold mm, mscal. rewrite <- rsum_scal_l. apply rsum_ext. intros; ring. Qed.

Lemma madd_assoc : forall r c A B C, eqm r c (madd (madd A B) C) (madd A (madd B C)).
Proof. intros r c A B C i j _ _. unfold madd. ring. Qed.

Lemma madd_comm : forall r c A B, eqm r c (madd A B) (madd B A).
Proof. intros r c A B i j _ _. unfold madd. ring. Qed.

Lemma eqm_weaken : forall r c r' c' A B, (r' <= r)%nat -> (c' <= c)%nat ->
  eqm r c A B -> eqm r' c' A B.
Proof. intros r c r' c' A B Hr Hc H i j Hi Hj. apply H; lia. Qed.

(** *** Quadratic forms *)

Definition dot (n : nat) (x y : nat -> R) : R := rsum n (fun i => x i * y i).
Definition mv (n : nat) (A : fmat) (x : nat -> R) : nat -> R := fun i => rsum n (fun j => A i j * x j).
Definition qf (n : nat) (P : fmat) (x : nat -> R) : R := dot n x (mv n P x).

Definition symm (n : nat) (P : fmat) : Prop := forall i j, (i < n)%nat -> (j < n)%nat -> P i j = P j i.
Definition psd (n : nat) (P : fmat) : Prop := symm n P /\ forall x, 0 <= qf n P x.
Definition nonzero (n : nat) (x : nat -> R) : Prop := exists i, (i < n)%nat /\ x i <> 0.
Definition spd (n : nat) (P : fmat) : Prop := symm n P /\ forall x, nonzero n x -> 0 < qf n P x.

Lemma qf_expand : forall n P x, qf n P x = rsum n (fun i => rsum n (fun j => x i * P i j * x j)).
Proof.
  intros. unfold qf, dot, mv. apply rsum_ext. intros i _. rewrite <- rsum_scal_l.
  apply rsum_ext. intros; ring.
Qed.

Lemma dot_ext : forall n x y x' y', (forall i, (i < n)%nat -> x i = x' i) ->
  (forall i, (i < n)%nat -> y i = y' i) -> dot n x y = dot n x' y'.
Proof. intros. unfold dot. apply rsum_ext. intros i Hi. rewrite H, H0 by auto. reflexivity. Qed.

Lemma qf_ext : forall n P Q x y, eqm n n P Q -> (forall i, (i < n)%nat -> x i = y i) ->
  qf n P x = qf n Q y.
Proof.
  intros n P Q x y H Hx. rewrite !qf_expand. apply rsum_ext. intros i Hi.
  apply rsum_ext. intros j Hj. rewrite H, !Hx by auto. reflexivity.
Qed.

Lemma symm_ext : forall n P Q, eqm n n P Q -> symm n P -> symm n Q.
Proof. intros n P Q H HP i j Hi Hj. rewrite <- !H by auto. apply HP; auto. Qed.

Lemma psd_ext : forall n P Q, eqm n n P Q -> psd n P -> psd n Q.
Proof.
  intros n P Q H [H1 H2]. split; [eapply symm_ext; eauto|].
  intros x. rewrite <- (qf_ext n P Q x x) by auto. apply H2.
Qed.

Lemma spd_ext : forall n P Q, eqm n n P Q -> spd n P -> spd n Q.
Proof.
  intros n P Q H [H1 H2]. split; [eapply symm_ext; eauto|].
  intros x Hx. rewrite <- (qf_ext n P Q x x) by auto. apply H2; auto.
Qed.

Lemma spd_psd : forall n P, spd n P -> psd n P.
Proof.
  intros n P [H1 H2]. split; auto. intros x.
  assert (D : nonzero n x \/ forall i, (i < n)%nat -> x i = 0).
  { clear. induction n.
    - right. intros; lia.
    - destruct IHn as [[i [Hi Hx]]|H].
      + left. exists i. split; [lia|auto].
      + destruct (Req_dec (x n) 0) as [E|E].
        * right. intros i Hi. destruct (Nat.eq_dec i n) as [->|]; [auto|apply H; lia].
        * left. exists n. split; [lia|auto]. }
  destruct D as [D|D]; [left; apply H2; auto|].
  right. symmetry. rewrite qf_expand. apply rsum_0. intros i Hi. apply rsum_0. intros j Hj.
  rewrite D by auto. ring.
Qed.

Lemma qf_madd : forall n P Q x, qf n (madd P Q) x = qf n P x + qf n Q x.
Proof.
  intros. rewrite !qf_expand, <- rsum_plus. apply rsum_ext. intros i _.
  rewrite <- rsum_plus. apply rsum_ext. intros j _. unfold madd. ring.
Qed.

Lemma psd_madd : forall n P Q, psd n P -> psd n Q -> psd n (madd P Q).
Proof.
  intros n P Q [H1 H2] [K1 K2]. split.
  - intros i j Hi Hj. unfold madd. rewrite H1, K1 by auto. reflexivity.
  - intros x. rewrite qf_madd. specialize (H2 x). specialize (K2 x). lra.
Qed.

Lemma spd_madd_l : forall n P Q, psd n P -> spd n Q -> spd n (madd P Q).
Proof.
  intros n P Q [H1 H2] [K1 K2]. split.
  - intros i j Hi Hj. unfold madd. rewrite H1, K1 by auto. reflexivity.
  - intros x Hx. rewrite qf_madd. specialize (H2 x). specialize (K2 x Hx). lra.
Qed.

(** x^T (A P A^T) x = (A^T x)^T P (A^T x). *)
Lemma qf_congr : forall r n A P x,
  qf r (mm n (mm n A P) (tr A)) x = qf n P (fun k => rsum r (fun i => A i k * x i)).
Proof.
  intros r n A P x. rewrite !qf_expand. unfold mm, tr.
  set (y := fun k => rsum r (fun i => A i k * x i)).
  transitivity (rsum r (fun i => rsum r (fun j => rsum n (fun k => rsum n (fun l =>
     x i * A i l * P l k * A j k * x j))))).
  { apply rsum_ext; intros i _. apply rsum_ext; intros j _.
    rewrite <- rsum_scal_l, <- rsum_scal_r. apply rsum_ext; intros k _.
    rewrite <- rsum_scal_r, <- rsum_scal_l, <- rsum_scal_r. apply rsum_ext; intros l _. ring. }
  transitivity (rsum n (fun l => rsum n (fun k => rsum r (fun i => rsum r (fun j =>
     x i * A i l * P l k * A j k * x j))))).
  { rewrite (rsum_ext r _ (fun i => rsum n (fun k => rsum r (fun j => rsum n (fun l =>
      x i * A i l * P l k * A j k * x j))))) by (intros; apply rsum_swap).
    rewrite rsum_swap.
    rewrite (rsum_ext n _ (fun k => rsum r (fun i => rsum n (fun l => rsum r (fun j =>
      x i * A i l * P l k * A j k * x j))))) by (intros; apply rsum_ext; intros; apply rsum_swap).
    rewrite (rsum_ext n _ (fun k => rsum n (fun l => rsum r (fun i => rsum r (fun j =>
      x i * A i l * P l k * A j k * x j))))) by (intros; apply rsum_swap).
    apply rsum_swap. }
  apply rsum_ext; intros l _. apply rsum_ext; intros k _. unfold y.
  rewrite <- rsum_scal_r, <- rsum_scal_r. apply rsum_ext; intros i _.
  rewrite <- rsum_scal_l. apply rsum_ext; intros j _. ring.
Qed.

Lemma symm_congr : forall r n A P, symm n P -> symm r (mm n (mm n A P) (tr A)).
Proof.
  intros r n A P H i j Hi Hj. unfold mm, tr.
  transitivity (rsum n (fun k => rsum n (fun l => A i l * P l k * A j k))).
  { apply rsum_ext. intros k _. rewrite <- rsum_scal_r. reflexivity. }
  rewrite rsum_swap. apply rsum_ext. intros l Hl. rewrite <- rsum_scal_r.
  apply rsum_ext. intros k Hk. rewrite (H l k) by auto. ring.
Qed.

Lemma psd_congr : forall r n A P, psd n P -> psd r (mm n (mm n A P) (tr A)).
Proof.
  intros r n A P [H1 H2]. split; [apply symm_congr; auto|].
  intros x. rewrite qf_congr. apply H2.
Qed.

(** Gram matrices S^T S. *)
Definition gram (n : nat) (S : fmat) : fmat := mm n (tr S) S.

Lemma psd_idm : forall n, psd n idm.
Proof.
  intros n. split.
  - intros i j _ _. unfold idm. rewrite Nat.eqb_sym. reflexivity.
  - intros x. rewrite qf_expand. apply rsum_nonneg. intros i Hi.
    rewrite (rsum_single n i); auto.
    + unfold idm. rewrite Nat.eqb_refl. nra.
    + intros j Hj Hne. unfold idm. destruct (Nat.eqb i j) eqn:E; [apply Nat.eqb_eq in E; lia|ring].
Qed.

Lemma spd_idm : forall n, spd n idm.
Proof.
  intros n. split; [apply psd_idm|].
  intros x [k [Hk Hx]]. rewrite qf_expand.
  assert (E : forall i, (i < n)%nat -> rsum n (fun j => x i * idm i j * x j) = x i * x i).
  { intros i Hi. rewrite (rsum_single n i); auto.
    - unfold idm. rewrite Nat.eqb_refl. ring.
    - intros j Hj Hne. unfold idm. destruct (Nat.eqb i j) eqn:E; [apply Nat.eqb_eq in E; lia|ring]. }
  apply rsum_pos_ex.
  - intros i Hi. rewrite E by auto. nra.
  - exists k. split; auto. rewrite E by auto. nra.
Qed.

Lemma psd_gram : forall n m S, psd n (gram m S).
Proof.
  intros n m S. unfold gram.
  apply (psd_ext n (mm m (mm m (tr S) idm) (tr (tr S)))).
  - rewrite mm_id_r. reflexivity.
  - apply psd_congr. apply psd_idm.
Qed.

Lemma psd_diag : forall n d, (forall i, (i < n)%nat -> 0 <= d i) -> psd n (diagm d).
Proof.
  intros n d H. split.
  - intros i j _ _. unfold diagm. destruct (Nat.eqb i j) eqn:E.
    + apply Nat.eqb_eq in E. subst. now rewrite Nat.eqb_refl.
    + rewrite Nat.eqb_sym, E. reflexivity.
  - intros x. rewrite qf_expand. apply rsum_nonneg. intros i Hi.
    rewrite (rsum_single n i); auto.
    + unfold diagm. rewrite Nat.eqb_refl. specialize (H i Hi).
      replace (x i * d i * x i) with (d i * (x i * x i)) by ring.
      apply Rmult_le_pos; [auto|nra].
    + intros j Hj Hne. unfold diagm. destruct (Nat.eqb i j) eqn:E; [apply Nat.eqb_eq in E; lia|ring].
Qed.

Lemma spd_diag : forall n d, (forall i, (i < n)%nat -> 0 < d i) -> spd n (diagm d).
Proof.
  intros n d H. split.
  - apply psd_diag. intros i Hi. left. auto.
  - intros x [k [Hk Hx]]. rewrite qf_expand.
    assert (E : forall i, (i < n)%nat -> rsum n (fun j => x i * diagm d i j * x j) = d i * (x i * x i)).
    { intros i Hi. rewrite (rsum_single n i); auto.
      - unfold diagm. rewrite Nat.eqb_refl. ring.
      - intros j Hj Hne. unfold diagm. destruct (Nat.eqb i j) eqn:E; [apply Nat.eqb_eq in E; lia|ring]. }
    apply rsum_pos_ex.
    + intros i Hi. rewrite E by auto. specialize (H i Hi). apply Rmult_le_pos; [lra|nra].
    + exists k. split; auto. rewrite E by auto. specialize (H k Hk). apply Rmult_lt_0_compat; [lra|nra].
Qed.

Lemma psd_mscal : forall n c P, 0 <= c -> psd n P -> psd n (mscal c P).
Proof.
  intros n c P Hc [H1 H2]. split.
  - intros i j Hi Hj. unfold mscal. rewrite H1 by auto. reflexivity.
  - intros x. replace (qf n (mscal c P) x) with (c * qf n P x).
    + apply Rmult_le_pos; auto.
    + rewrite !qf_expand, <- rsum_scal_l. apply rsum_ext. intros i _.
      rewrite <- rsum_scal_l. apply rsum_ext. intros j _. unfold mscal. ring.
Qed.

Lemma psd_zm : forall n, psd n zm.
Proof.
  intros n. split; [intros i j _ _; reflexivity|].
  intros x. rewrite qf_expand. right. symmetry. apply rsum_0. intros i _. apply rsum_0. intros j _.
  unfold zm. ring.
Qed.

(** Selection: the entry (i,j) of the result is the entry (s i, s j) of P, or
    0 if s is undefined.  Covers inserting zero rows, removing and copying
    rows/columns. *)
Definition sel (s : nat -> option nat) (P : fmat) : fmat := fun i j =>
  match s i, s j with Some a, Some b => P a b | _, _ => 0 end.

Definition selm (s : nat -> option nat) : fmat := fun i a =>
  match s i with Some b => if Nat.eqb b a then 1 else 0 | None => 0 end.

Lemma sel_congr : forall r n s P,
  (forall i a, (i < r)%nat -> s i = Some a -> (a < n)%nat) ->
  eqm r r (sel s P) (mm n (mm n (selm s) P) (tr (selm s))).
Proof.
  intros r n s P H i j Hi Hj. unfold sel, mm, selm, tr.
  destruct (s i) as [a|] eqn:Ea; destruct (s j) as [b|] eqn:Eb.
  - assert (Ha : (a < n)%nat) by eauto. assert (Hb : (b < n)%nat) by eauto.
    rewrite (rsum_single n b); auto.
    + rewrite Nat.eqb_refl, rsum_delta_l by auto. ring.
    + intros k Hk Hne. destruct (Nat.eqb b k) eqn:E; [apply Nat.eqb_eq in E; lia|ring].
  - symmetry. apply rsum_0. intros; ring.
  - symmetry. apply rsum_0. intros k Hk.
    rewrite rsum_0; [ring|]. intros; ring.
  - symmetry. apply rsum_0. intros; ring.
Qed.

Lemma psd_sel : forall r n s P,
  (forall i a, (i < r)%nat -> s i = Some a -> (a < n)%nat) ->
  psd n P -> psd r (sel s P).
Proof.
  intros r n s P H HP. eapply psd_ext; [symmetry; apply sel_congr; eauto|].
  apply psd_congr; auto.
Qed.
