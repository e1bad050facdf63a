(** Matrix inverse by elimination (no pivoting).  Eigen's [.inverse()]
    (partial-pivoting LU) computes the inverse whenever it exists; this
    function computes the same inverse whenever all pivots are non-zero, in
    particular on every symmetric positive definite matrix ([inv_spd]);
    inverses are unique ([inv_unique]). *)
From Coq Require Import Reals Arith Lia Lra Setoid Morphisms.
From Verif Require Import Base.RSum Base.LinAlg.
Open Scope R_scope.

Definition is_inv (n : nat) (A B : fmat) : Prop :=
  eqm n n (mm n A B) idm /\ eqm n n (mm n B A) idm.

(** Schur complement of the last entry. *)
Definition schur (n : nat) (A : fmat) : fmat := fun i j => A i j - A i n * A n j / A n n.

Fixpoint inv_pivots (n : nat) (A : fmat) : Prop :=
  match n with
  | O => True
  | S k => A k k <> 0 /\ inv_pivots k (schur k A)
  end.

Fixpoint finv (n : nat) (A : fmat) : fmat :=
  match n with
  | O => A
  | S k =>
      let T := finv k (schur k A) in
      let a := A k k in
      fun i j =>
        if Nat.ltb i k then
          if Nat.ltb j k then T i j
          else - rsum k (fun l => T i l * A l k) / a
        else
          if Nat.ltb j k then - rsum k (fun l => A k l * T l j) / a
          else / a + rsum k (fun l => rsum k (fun p => A k l * T l p * A p k)) / (a * a)
  end.

Lemma inv_unique : forall n A B C, is_inv n A B -> is_inv n A C -> eqm n n B C.
Proof.
  intros n A B C [_ H2] [K1 _].
  rewrite <- (mm_id_r n n B). rewrite <- K1. rewrite <- mm_assoc. rewrite H2. apply mm_id_l.
Qed.

Lemma is_inv_ext : forall n A A' B, eqm n n A A' -> is_inv n A B -> is_inv n A' B.
Proof. intros n A A' B H [H1 H2]. split; rewrite <- H; auto. Qed.

Lemma finv_correct : forall n A, inv_pivots n A -> is_inv n A (finv n A).
Proof.
  induction n as [|k IH]; intros A Hp.
  - split; intros i j Hi Hj; lia.
  - destruct Hp as [Ha Hp]. specialize (IH _ Hp).
    set (T := finv k (schur k A)) in *. set (a := A k k) in *.
    destruct IH as [IH1 IH2].
    assert (E1 : forall i j, (i < k)%nat -> (j < k)%nat ->
      rsum k (fun l => A i l * T l j) =
      idm i j + A i k / a * rsum k (fun l => A k l * T l j)).
    { intros i j Hi Hj. specialize (IH1 i j Hi Hj). unfold mm, schur in IH1.
      rewrite (rsum_ext k _ (fun l => A i l * T l j - (A i k / a) * (A k l * T l j))) in IH1
        by (intros; unfold a; field; exact Ha).
      rewrite rsum_minus, rsum_scal_l in IH1. lra. }
    assert (E2 : forall i j, (i < k)%nat -> (j < k)%nat ->
      rsum k (fun l => T i l * A l j) =
      idm i j + rsum k (fun l => T i l * A l k) * (A k j / a)).
    { intros i j Hi Hj. specialize (IH2 i j Hi Hj). unfold mm, schur in IH2.
      rewrite (rsum_ext k _ (fun l => T i l * A l j - (T i l * A l k) * (A k j / a))) in IH2
        by (intros; unfold a; field; exact Ha).
      rewrite rsum_minus, rsum_scal_r in IH2. lra. }
    assert (Blt : forall x, (x < k)%nat -> Nat.ltb x k = true) by (intros; apply Nat.ltb_lt; auto).
    assert (Bk : Nat.ltb k k = false) by apply Nat.ltb_irrefl.
    assert (Idk : forall x, (x < k)%nat -> idm x k = 0 /\ idm k x = 0).
    { intros x Hx. unfold idm. split.
      - destruct (Nat.eqb x k) eqn:E; [apply Nat.eqb_eq in E; lia|auto].
      - destruct (Nat.eqb k x) eqn:E; [apply Nat.eqb_eq in E; lia|auto]. }
    assert (Idkk : idm k k = 1) by (unfold idm; rewrite Nat.eqb_refl; auto).
    assert (Q : rsum k (fun l => rsum k (fun p => A k l * T l p * A p k)) =
                rsum k (fun l => A k l * rsum k (fun p => T l p * A p k))).
    { apply rsum_ext. intros l _. rewrite <- rsum_scal_l. apply rsum_ext. intros; ring. }
    assert (Q' : rsum k (fun l => rsum k (fun p => A k l * T l p * A p k)) =
                rsum k (fun p => rsum k (fun l => A k l * T l p) * A p k)).
    { rewrite rsum_swap. apply rsum_ext. intros p _. rewrite <- rsum_scal_r. apply rsum_ext. intros; ring. }
    split; intros i j Hi Hj; unfold mm; simpl; fold T; fold a.
    + (* A * inv *)
      destruct (Nat.eq_dec j k) as [->|Hjk].
      * (* column k *)
        rewrite Bk.
        rewrite (rsum_ext k _ (fun l => - / a * (A i l * rsum k (fun p => T l p * A p k)))).
        2:{ intros l Hl. rewrite (Blt l Hl). field. exact Ha. }
        rewrite rsum_scal_l.
        destruct (Nat.eq_dec i k) as [->|Hik].
        -- rewrite Idkk. rewrite Q. fold a. field. exact Ha.
        -- assert (Hi' : (i < k)%nat) by lia. destruct (Idk i Hi') as [-> _].
           assert (X : rsum k (fun l => A i l * rsum k (fun p => T l p * A p k)) =
                       A i k + A i k / a * rsum k (fun p => rsum k (fun l => A k l * T l p) * A p k)).
           { transitivity (rsum k (fun p => rsum k (fun l => A i l * T l p) * A p k)).
             - rewrite (rsum_ext k _ (fun l => rsum k (fun p => A i l * T l p * A p k)))
                 by (intros; rewrite <- rsum_scal_l; apply rsum_ext; intros; ring).
               rewrite rsum_swap. apply rsum_ext. intros p _. rewrite <- rsum_scal_r. reflexivity.
             - rewrite (rsum_ext k _ (fun p => idm i p * A p k + A i k / a * (rsum k (fun l => A k l * T l p) * A p k))).
               + rewrite rsum_plus, rsum_scal_l. f_equal. unfold idm. apply (rsum_delta_l k i (fun p => A p k)). auto.
               + intros p Hpp. rewrite (E1 i p Hi' Hpp). ring. }
           rewrite X, Q'. field. exact Ha.
      * assert (Hj' : (j < k)%nat) by lia. rewrite Bk, (Blt j Hj').
        rewrite (rsum_ext k _ (fun l => A i l * T l j)).
        2:{ intros l Hl. rewrite (Blt l Hl). reflexivity. }
        destruct (Nat.eq_dec i k) as [->|Hik].
        -- destruct (Idk j Hj') as [_ ->]. fold a. field. exact Ha.
        -- rewrite (E1 i j) by lia. field. exact Ha.
    + (* inv * A *)
      destruct (Nat.eq_dec i k) as [->|Hik].
      * rewrite Bk.
        rewrite (rsum_ext k _ (fun l => - / a * (rsum k (fun p => A k p * T p l) * A l j))).
        2:{ intros l Hl. rewrite (Blt l Hl). field. exact Ha. }
        rewrite rsum_scal_l.
        destruct (Nat.eq_dec j k) as [->|Hjk].
        -- rewrite Idkk. rewrite Q'. fold a. field. exact Ha.
        -- assert (Hj' : (j < k)%nat) by lia. destruct (Idk j Hj') as [_ ->].
           assert (X : rsum k (fun l => rsum k (fun p => A k p * T p l) * A l j) =
                       A k j + rsum k (fun p => A k p * rsum k (fun l => T p l * A l k)) * (A k j / a)).
           { transitivity (rsum k (fun p => A k p * rsum k (fun l => T p l * A l j))).
             - rewrite (rsum_ext k _ (fun l => rsum k (fun p => A k p * T p l * A l j)))
                 by (intros; rewrite <- rsum_scal_r; reflexivity).
               rewrite rsum_swap. apply rsum_ext. intros p _. rewrite <- rsum_scal_l.
               apply rsum_ext. intros; ring.
             - rewrite (rsum_ext k _ (fun p => A k p * idm p j + (A k p * rsum k (fun l => T p l * A l k)) * (A k j / a))).
               + rewrite rsum_plus, rsum_scal_r. f_equal. unfold idm. apply (rsum_delta_r k j (fun p => A k p)). auto.
               + intros p Hpp. rewrite (E2 p j Hpp Hj'). ring. }
           rewrite X, Q. field. exact Ha.
      * assert (Hi' : (i < k)%nat) by lia. rewrite Bk, (Blt i Hi').
        rewrite (rsum_ext k _ (fun l => T i l * A l j)).
        2:{ intros l Hl. rewrite (Blt l Hl). reflexivity. }
        destruct (Nat.eq_dec j k) as [->|Hjk].
        -- destruct (Idk i Hi') as [-> _]. fold a. field. exact Ha.
        -- rewrite (E2 i j) by lia. field. exact Ha.
Qed.

(** The Schur complement of an SPD matrix is SPD. *)
Lemma spd_last_pos : forall n A, spd (S n) A -> 0 < A n n.
Proof.
  intros n A [_ H].
  specialize (H (fun i => if Nat.eqb i n then 1 else 0)).
  assert (Hnz : nonzero (S n) (fun i => if Nat.eqb i n then 1 else 0)).
  { exists n. split; [lia|]. rewrite Nat.eqb_refl. lra. }
  specialize (H Hnz). rewrite qf_expand in H.
  rewrite (rsum_single (S n) n) in H; [|lia|].
  - rewrite (rsum_single (S n) n) in H; [|lia|].
    + rewrite Nat.eqb_refl in H. lra.
    + intros j _ Hne. destruct (Nat.eqb j n) eqn:E; [apply Nat.eqb_eq in E; lia|ring].
  - intros i _ Hne. apply rsum_0. intros j _.
    destruct (Nat.eqb i n) eqn:E; [apply Nat.eqb_eq in E; lia|ring].
Qed.

Lemma spd_schur : forall n A, spd (S n) A -> spd n (schur n A).
Proof.
  intros n A H. pose proof (spd_last_pos n A H) as Ha. destruct H as [Hs Hq].
  split.
  - intros i j Hi Hj. unfold schur. rewrite (Hs i j), (Hs i n), (Hs n j) by lia. field. lra.
  - intros x [k [Hk Hx]].
    set (b := rsum n (fun j => A n j * x j)).
    set (y := fun i => if Nat.ltb i n then x i else - b / A n n).
    assert (Hy : nonzero (S n) y).
    { exists k. split; [lia|]. unfold y. rewrite (proj2 (Nat.ltb_lt k n)) by auto. auto. }
    specialize (Hq y Hy). rewrite qf_expand in Hq. rewrite qf_expand.
    assert (Hyn : y n = - b / A n n) by (unfold y; rewrite Nat.ltb_irrefl; auto).
    assert (Hyi : forall i, (i < n)%nat -> y i = x i)
      by (intros i Hi; unfold y; rewrite (proj2 (Nat.ltb_lt i n)) by auto; auto).
    simpl in Hq. rewrite Hyn in Hq.
    rewrite (rsum_ext n _ (fun i => rsum n (fun j => x i * A i j * x j) + x i * A i n * (- b / A n n))) in Hq.
    2:{ intros i Hi. rewrite (Hyi i Hi). f_equal. apply rsum_ext. intros j Hj. rewrite (Hyi j Hj). reflexivity. }
    rewrite rsum_plus, rsum_scal_r in Hq.
    rewrite (rsum_ext n (fun j => - b / A n n * A n j * y j) (fun j => (- b / A n n) * (A n j * x j))) in Hq.
    2:{ intros j Hj. rewrite (Hyi j Hj). ring. }
    rewrite rsum_scal_l in Hq. fold b in Hq.
    assert (Hb : rsum n (fun i => x i * A i n) = b).
    { unfold b. apply rsum_ext. intros i Hi. rewrite (Hs i n) by lia. ring. }
    rewrite Hb in Hq.
    assert (G : rsum n (fun i => rsum n (fun j => x i * schur n A i j * x j)) =
                rsum n (fun i => rsum n (fun j => x i * A i j * x j)) - b * b / A n n).
    { transitivity (rsum n (fun i => rsum n (fun j => x i * A i j * x j) - x i * A i n * (b / A n n))).
      - apply rsum_ext. intros i Hi. unfold b.
        replace (x i * A i n * (rsum n (fun j => A n j * x j) / A n n))
          with (rsum n (fun j => x i * A i n * (A n j * x j) / A n n)).
        + rewrite <- rsum_minus. apply rsum_ext. intros j Hj. unfold schur. field. lra.
        + rewrite (rsum_ext n _ (fun j => (x i * A i n / A n n) * (A n j * x j)))
            by (intros; field; lra).
          rewrite rsum_scal_l. field. lra.
      - rewrite rsum_minus, rsum_scal_r. rewrite Hb. field. lra. }
    rewrite G. clear G.
    replace (- b / A n n * b + - b / A n n * A n n * (- b / A n n)) with 0 in Hq by (field; lra).
    assert (b * (- b / A n n) = - (b * b / A n n)) by (field; lra).
    lra.
Qed.

Lemma spd_pivots : forall n A, spd n A -> inv_pivots n A.
Proof.
  induction n; intros A H; simpl; [exact I|]. split.
  - pose proof (spd_last_pos n A H). lra.
  - apply IHn. apply spd_schur. exact H.
Qed.

Lemma inv_spd : forall n A, spd n A -> is_inv n A (finv n A).
Proof. intros. apply finv_correct. apply spd_pivots. auto. Qed.

Lemma inv_symm : forall n A B, symm n A -> is_inv n A B -> symm n B.
Proof.
  intros n A B Hs HI.
  assert (E : eqm n n A (tr A)) by (intros i j Hi Hj; apply Hs; auto).
  assert (HI' : is_inv n A (tr B)).
  { destruct HI as [H1 H2]. split.
    - rewrite E at 1. rewrite <- tr_mm. rewrite H2. apply tr_idm.
    - rewrite E at 1. rewrite <- tr_mm. rewrite H1. apply tr_idm. }
  pose proof (inv_unique n A _ _ HI HI') as U.
  intros i j Hi Hj. apply (U i j Hi Hj).
Qed.

(** Decidable pivot test (used by the model to report singular matrices). *)
Fixpoint pivots_ok (n : nat) (A : fmat) : bool :=
  match n with
  | O => true
  | S k => if Req_EM_T (A k k) 0 then false else pivots_ok k (schur k A)
  end.

Lemma pivots_ok_spec : forall n A, pivots_ok n A = true <-> inv_pivots n A.
Proof.
  induction n; intros A; simpl.
  - tauto.
  - destruct (Req_EM_T (A n n) 0) as [E|E].
    + split; [discriminate|tauto].
    + rewrite IHn. tauto.
Qed.
