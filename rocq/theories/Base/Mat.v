(** Dense matrices with run-time dimensions, modelled after
    [Eigen::MatrixXd]: number of rows, number of columns and an entry
    function.  Entries outside the dimensions are meaningless; equality is
    [meq], extensional inside the dimensions. *)
From Coq Require Import List Arith Lia Bool.
From Verif Require Import Base.Res.
Import ListNotations.

Record mat (T : Type) : Type := mkmat { nr : nat; nc : nat; ent : nat -> nat -> T }.
Arguments mkmat {T} _ _ _.
Arguments nr {T} _.
Arguments nc {T} _.
Arguments ent {T} _ _ _.

Definition meq {T} (A B : mat T) : Prop :=
  nr A = nr B /\ nc A = nc B /\ forall i j, i < nr A -> j < nc A -> ent A i j = ent B i j.

(** [Eigen::MatrixXd::Zero(r, c)] (for an arbitrary "zero"). *)
Definition mconst {T} (z : T) (r c : nat) : mat T := mkmat r c (fun _ _ => z).

(** [m.block(i, j, p, q)] read access; Eigen requires the block to lie in
    the matrix. *)
Definition block {T} (m : mat T) (i j p q : nat) : res (mat T) :=
  if (i + p <=? nr m) && (j + q <=? nc m)
  then OK (mkmat p q (fun a b => ent m (i + a) (j + b)))
  else UB.

Definition in_range (x lo len : nat) : bool := (lo <=? x) && (x <? lo + len).

(** [m.block(i, j, b.rows(), b.cols()) = b]; the caller states the block size
    [p] x [q] it writes, which must be the shape of [b]. *)
Definition set_block {T} (m : mat T) (i j p q : nat) (b : mat T) : res (mat T) :=
  if (i + p <=? nr m) && (j + q <=? nc m) && (nr b =? p) && (nc b =? q)
  then OK (mkmat (nr m) (nc m)
             (fun x y => if in_range x i p && in_range y j q
                         then ent b (x - i) (y - j) else ent m x y))
  else UB.

Definition mmap {T U} (f : T -> U) (m : mat T) : mat U :=
  mkmat (nr m) (nc m) (fun i j => f (ent m i j)).

Definition mtrans {T} (m : mat T) : mat T := mkmat (nc m) (nr m) (fun i j => ent m j i).

(** Listing of a matrix, for executable examples. *)
Definition mlist {T} (m : mat T) : list (list T) :=
  map (fun i => map (fun j => ent m i j) (seq 0 (nc m))) (seq 0 (nr m)).

Definition of_list {T} (z : T) (r c : nat) (l : list (list T)) : mat T :=
  mkmat r c (fun i j => nth j (nth i l []) z).

(** *** Basic facts *)

Lemma meq_refl : forall T (A : mat T), meq A A.
Proof. intros; repeat split; auto. Qed.

Lemma meq_sym : forall T (A B : mat T), meq A B -> meq B A.
Proof. intros T A B [H1 [H2 H3]]. repeat split; auto. intros i j Hi Hj. symmetry. apply H3; lia. Qed.

Lemma meq_trans : forall T (A B C : mat T), meq A B -> meq B C -> meq A C.
Proof.
  intros T A B C [H1 [H2 H3]] [K1 [K2 K3]]. repeat split; try congruence.
  intros i j Hi Hj. rewrite H3 by auto. apply K3; lia.
Qed.

Lemma block_ok : forall T (m : mat T) i j p q,
  i + p <= nr m -> j + q <= nc m ->
  block m i j p q = OK (mkmat p q (fun a b => ent m (i + a) (j + b))).
Proof.
  intros. unfold block.
  assert (E1 : (i + p <=? nr m) = true) by (apply Nat.leb_le; auto).
  assert (E2 : (j + q <=? nc m) = true) by (apply Nat.leb_le; auto).
  now rewrite E1, E2.
Qed.

Lemma block_inv : forall T (m : mat T) i j p q b,
  block m i j p q = OK b ->
  i + p <= nr m /\ j + q <= nc m /\ b = mkmat p q (fun a c => ent m (i + a) (j + c)).
Proof.
  intros T m i j p q b H. unfold block in H.
  destruct (i + p <=? nr m) eqn:E1; [|discriminate].
  destruct (j + q <=? nc m) eqn:E2; [|discriminate].
  apply Nat.leb_le in E1. apply Nat.leb_le in E2. simpl in H. injection H as <-. auto.
Qed.

Lemma set_block_ok : forall T (m : mat T) i j p q b,
  i + p <= nr m -> j + q <= nc m -> nr b = p -> nc b = q ->
  set_block m i j p q b = OK (mkmat (nr m) (nc m)
             (fun x y => if in_range x i p && in_range y j q
                         then ent b (x - i) (y - j) else ent m x y)).
Proof.
  intros. unfold set_block.
  assert (E1 : (i + p <=? nr m) = true) by (apply Nat.leb_le; auto).
  assert (E2 : (j + q <=? nc m) = true) by (apply Nat.leb_le; auto).
  assert (E3 : (nr b =? p) = true) by (apply Nat.eqb_eq; auto).
  assert (E4 : (nc b =? q) = true) by (apply Nat.eqb_eq; auto).
  now rewrite E1, E2, E3, E4.
Qed.

Lemma set_block_inv : forall T (m : mat T) i j p q b m',
  set_block m i j p q b = OK m' ->
  i + p <= nr m /\ j + q <= nc m /\ nr b = p /\ nc b = q /\
  m' = mkmat (nr m) (nc m)
         (fun x y => if in_range x i p && in_range y j q
                     then ent b (x - i) (y - j) else ent m x y).
Proof.
  intros T m i j p q b m' H. unfold set_block in H.
  destruct (i + p <=? nr m) eqn:E1; [|discriminate].
  destruct (j + q <=? nc m) eqn:E2; [|discriminate].
  destruct (nr b =? p) eqn:E3; [|discriminate].
  destruct (nc b =? q) eqn:E4; [|discriminate].
  apply Nat.leb_le in E1. apply Nat.leb_le in E2.
  apply Nat.eqb_eq in E3. apply Nat.eqb_eq in E4.
  simpl in H. injection H as <-. auto 6.
Qed.

Lemma in_range_spec : forall x lo len, in_range x lo len = true <-> lo <= x < lo + len.
Proof.
  intros. unfold in_range. rewrite andb_true_iff, Nat.leb_le, Nat.ltb_lt. lia.
Qed.

Lemma in_range_true : forall x lo len, lo <= x -> x < lo + len -> in_range x lo len = true.
Proof. intros. apply in_range_spec. lia. Qed.

Lemma in_range_false : forall x lo len, x < lo \/ lo + len <= x -> in_range x lo len = false.
Proof.
  intros x lo len H. destruct (in_range x lo len) eqn:E; auto.
  apply in_range_spec in E. lia.
Qed.

(** Decide every [in_range] test in the goal. *)
Ltac dranges :=
  repeat match goal with
  | |- context [in_range ?x ?lo ?len] =>
      first
        [ rewrite (in_range_true x lo len) by lia
        | rewrite (in_range_false x lo len) by lia
        | let E := fresh "E" in destruct (in_range x lo len) eqn:E;
          [apply in_range_spec in E | ] ]
  end; cbn [andb].
