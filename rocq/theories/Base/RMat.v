(** Checked matrix arithmetic on [mat R]: an Eigen expression whose shapes do
    not match is [UB]. *)
From Coq Require Import Reals Lra List Arith Lia Bool.
From Verif Require Import Base.Res Base.Mat Base.RSum Base.LinAlg Base.Inverse Base.RDec.
Import ListNotations.
Open Scope R_scope.

(** [a * b] *)
Definition mulc (a b : mat R) : res (mat R) :=
  if Nat.eqb (nc a) (nr b) then OK (mkmat (nr a) (nc b) (mm (nc a) (ent a) (ent b))) else UB.

Definition same_shape (a b : mat R) : bool := Nat.eqb (nr a) (nr b) && Nat.eqb (nc a) (nc b).

(** [a + b] *)
Definition addc (a b : mat R) : res (mat R) :=
  if same_shape a b then OK (mkmat (nr a) (nc a) (madd (ent a) (ent b))) else UB.

(** [a - b] *)
Definition subc (a b : mat R) : res (mat R) :=
  if same_shape a b then OK (mkmat (nr a) (nc a) (msub (ent a) (ent b))) else UB.

Definition mneg (a : mat R) : mat R := mkmat (nr a) (nc a) (mopp (ent a)).
Definition mscale (k : R) (a : mat R) : mat R := mkmat (nr a) (nc a) (mscal k (ent a)).
(** [MatrixXd::Identity(r, c)] *)
Definition midm (r c : nat) : mat R := mkmat r c idm.
(** [MatrixXd::Zero(r, c)] *)
Definition mzero (r c : nat) : mat R := mconst 0 r c.
(** [v.asDiagonal()] of an n x 1 vector *)
Definition mdiag (v : mat R) : mat R := mkmat (nr v) (nr v) (diagm (fun i => ent v i 0%nat)).

(** [a.inverse()]: the matrix must be square and invertible. *)
Definition invc (a : mat R) : res (mat R) :=
  if Nat.eqb (nr a) (nc a) && pivots_ok (nr a) (ent a)
  then OK (mkmat (nr a) (nc a) (finv (nr a) (ent a))) else UB.

(** All entries satisfy a test. *)
Definition mforall (p : R -> bool) (a : mat R) : bool :=
  forallb (fun i => forallb (fun j => p (ent a i j)) (seq 0 (nc a))) (seq 0 (nr a)).

(** [a.cwiseSqrt()]: a negative entry gives NaN. *)
Definition msqrt (a : mat R) : res (mat R) :=
  if mforall (Rleb 0) a then OK (mmap sqrt a) else UB.

(** Scalar division producing inf/NaN on a zero denominator. *)
Definition rdiv (a b : R) : res R := if Reqb b 0 then UB else OK (a / b).

(** [vert_cat << left, right] *)
Definition vcat (a b : mat R) : res (mat R) :=
  if Nat.eqb (nc a) (nc b)
  then OK (mkmat (nr a + nr b) (nc a)
             (fun i j => if Nat.ltb i (nr a) then ent a i j else ent b (i - nr a)%nat j))
  else UB.

Lemma mulc_ok : forall a b, nc a = nr b ->
  mulc a b = OK (mkmat (nr a) (nc b) (mm (nc a) (ent a) (ent b))).
Proof. intros. unfold mulc. rewrite (proj2 (Nat.eqb_eq _ _) H). reflexivity. Qed.

Lemma mulc_inv : forall a b c, mulc a b = OK c ->
  nc a = nr b /\ c = mkmat (nr a) (nc b) (mm (nc a) (ent a) (ent b)).
Proof.
  intros a b c H. unfold mulc in H. destruct (Nat.eqb (nc a) (nr b)) eqn:E; [|discriminate].
  apply Nat.eqb_eq in E. injection H as <-. auto.
Qed.

Lemma same_shape_ok : forall a b, nr a = nr b -> nc a = nc b -> same_shape a b = true.
Proof. intros. unfold same_shape. rewrite H, H0, !Nat.eqb_refl. reflexivity. Qed.

Lemma same_shape_inv : forall a b, same_shape a b = true -> nr a = nr b /\ nc a = nc b.
Proof. intros a b H. unfold same_shape in H. apply andb_true_iff in H. now rewrite !Nat.eqb_eq in H. Qed.

Lemma addc_ok : forall a b, nr a = nr b -> nc a = nc b ->
  addc a b = OK (mkmat (nr a) (nc a) (madd (ent a) (ent b))).
Proof. intros. unfold addc. now rewrite same_shape_ok. Qed.

Lemma addc_inv : forall a b c, addc a b = OK c ->
  nr a = nr b /\ nc a = nc b /\ c = mkmat (nr a) (nc a) (madd (ent a) (ent b)).
Proof.
  intros a b c H. unfold addc in H. destruct (same_shape a b) eqn:E; [|discriminate].
  apply same_shape_inv in E. injection H as <-. tauto.
Qed.

Lemma subc_ok : forall a b, nr a = nr b -> nc a = nc b ->
  subc a b = OK (mkmat (nr a) (nc a) (msub (ent a) (ent b))).
Proof. intros. unfold subc. now rewrite same_shape_ok. Qed.

Lemma subc_inv : forall a b c, subc a b = OK c ->
  nr a = nr b /\ nc a = nc b /\ c = mkmat (nr a) (nc a) (msub (ent a) (ent b)).
Proof.
  intros a b c H. unfold subc in H. destruct (same_shape a b) eqn:E; [|discriminate].
  apply same_shape_inv in E. injection H as <-. tauto.
Qed.

Lemma invc_ok : forall a, nr a = nc a -> inv_pivots (nr a) (ent a) ->
  invc a = OK (mkmat (nr a) (nc a) (finv (nr a) (ent a))).
Proof.
  intros a H Hp. unfold invc. rewrite (proj2 (Nat.eqb_eq _ _) H).
  rewrite (proj2 (pivots_ok_spec _ _) Hp). reflexivity.
Qed.

Lemma invc_inv : forall a c, invc a = OK c ->
  nr a = nc a /\ inv_pivots (nr a) (ent a) /\ c = mkmat (nr a) (nc a) (finv (nr a) (ent a)).
Proof.
  intros a c H. unfold invc in H. destruct (Nat.eqb (nr a) (nc a)) eqn:E; [|discriminate].
  destruct (pivots_ok (nr a) (ent a)) eqn:E2; [|discriminate].
  apply Nat.eqb_eq in E. apply pivots_ok_spec in E2. simpl in H. injection H as <-. tauto.
Qed.

Lemma vcat_ok : forall a b, nc a = nc b -> vcat a b =
  OK (mkmat (nr a + nr b) (nc a)
        (fun i j => if Nat.ltb i (nr a) then ent a i j else ent b (i - nr a)%nat j)).
Proof. intros. unfold vcat. rewrite (proj2 (Nat.eqb_eq _ _) H). reflexivity. Qed.

Lemma rdiv_ok : forall a b, b <> 0 -> rdiv a b = OK (a / b).
Proof. intros. unfold rdiv. rewrite (proj2 (Reqb_false _ _) H). reflexivity. Qed.

Lemma mforall_spec : forall p a, mforall p a = true <->
  forall i j, (i < nr a)%nat -> (j < nc a)%nat -> p (ent a i j) = true.
Proof.
  intros p a. unfold mforall. rewrite forallb_forall. split.
  - intros H i j Hi Hj. specialize (H i). rewrite in_seq in H. specialize (H ltac:(lia)).
    rewrite forallb_forall in H. apply H. rewrite in_seq. lia.
  - intros H i Hi. rewrite in_seq in Hi. rewrite forallb_forall. intros j Hj.
    rewrite in_seq in Hj. apply H; lia.
Qed.

Lemma msqrt_ok : forall a,
  (forall i j, (i < nr a)%nat -> (j < nc a)%nat -> 0 <= ent a i j) ->
  msqrt a = OK (mmap sqrt a).
Proof.
  intros a H. unfold msqrt.
  assert (E : mforall (Rleb 0) a = true) by (apply mforall_spec; intros; apply Rleb_spec; auto).
  now rewrite E.
Qed.

Lemma msqrt_inv : forall a b, msqrt a = OK b ->
  b = mmap sqrt a /\ forall i j, (i < nr a)%nat -> (j < nc a)%nat -> 0 <= ent a i j.
Proof.
  intros a b H. unfold msqrt in H. destruct (mforall (Rleb 0) a) eqn:E; [|discriminate].
  injection H as <-. split; auto. intros. apply Rleb_spec. apply mforall_spec with (i := i) (j := j) in E; auto.
Qed.
