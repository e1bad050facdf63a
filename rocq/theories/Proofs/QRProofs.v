(** Householder QR: the R factor has the Gram matrix of the input. *)
From Coq Require Import Reals List Arith Bool Lia Lra.
From Verif Require Import Base.Res Base.Mat Base.RSum Base.LinAlg Base.RDec Base.RMat Model.QR.
Open Scope R_scope.

Lemma tail2_nonneg : forall m k A, 0 <= tail2 m k A.
Proof. intros. apply rsum_nonneg. intros i _. destruct (Nat.ltb k i); nra. Qed.

Lemma tail2_zero : forall m k A i, tail2 m k A = 0 -> (k < i < m)%nat -> A i k = 0.
Proof.
  intros m k A i H Hi.
  destruct (Req_dec (A i k) 0) as [|N]; auto. exfalso.
  assert (0 < tail2 m k A); [|lra].
  apply rsum_pos_ex.
  - intros j _. destruct (Nat.ltb k j); nra.
  - exists i. split; [lia|]. rewrite (proj2 (Nat.ltb_lt k i)) by lia. nra.
Qed.

Lemma hbeta_sq : forall m k A, tail2 m k A <> 0 ->
  hbeta m k A * hbeta m k A = A k k * A k k + tail2 m k A /\ hbeta m k A <> 0 /\
  A k k - hbeta m k A <> 0.
Proof.
  intros m k A H. pose proof (tail2_nonneg m k A).
  assert (P : 0 < A k k * A k k + tail2 m k A) by nra.
  unfold hbeta. rewrite (proj2 (Reqb_false _ _) H).
  pose proof (sqrt_lt_R0 _ P) as S. pose proof (sqrt_sqrt _ (Rlt_le _ _ P)) as E.
  destruct (Rleb 0 (A k k)) eqn:Q; [apply Rleb_spec in Q|apply Rleb_false in Q].
  - split; [rewrite <- E at 3; ring|]. split; lra.
  - split; [exact E|]. split; lra.
Qed.

(** Squared norm of the reflection vector. *)
Lemma hvec_norm : forall m k A, (k < m)%nat -> tail2 m k A <> 0 ->
  htau m k A * rsum m (fun l => hvec m k A l * hvec m k A l) = 2.
Proof.
  intros m k A Hk H. destruct (hbeta_sq m k A H) as [E1 [E2 E3]].
  set (b := hbeta m k A) in *. set (t := tail2 m k A) in *.
  assert (E : rsum m (fun l => hvec m k A l * hvec m k A l) = 1 + t / ((A k k - b) * (A k k - b))).
  { rewrite (rsum_ext m _ (fun l => (if Nat.eqb k l then 1 else 0) * 1 +
       (if Nat.ltb k l then A l k * A l k else 0) * / ((A k k - b) * (A k k - b)))).
    - rewrite rsum_plus. rewrite (rsum_delta_l m k (fun _ => 1)) by auto. rewrite rsum_scal_r.
      unfold Rdiv. reflexivity.
    - intros l Hl. unfold hvec. fold t b. rewrite (proj2 (Reqb_false t 0) H).
      destruct (Nat.lt_trichotomy l k) as [L|[L|L]].
      + rewrite (proj2 (Nat.ltb_lt l k)) by lia. rewrite (proj2 (Nat.eqb_neq k l)) by lia.
        rewrite (proj2 (Nat.ltb_ge k l)) by lia. ring.
      + subst l. rewrite Nat.ltb_irrefl, Nat.eqb_refl. ring.
      + rewrite (proj2 (Nat.ltb_ge l k)) by lia. rewrite (proj2 (Nat.eqb_neq l k)) by lia.
        rewrite (proj2 (Nat.eqb_neq k l)) by lia. rewrite (proj2 (Nat.ltb_lt k l)) by lia.
        field. exact E3. }
  rewrite E. unfold htau. fold t b. rewrite (proj2 (Reqb_false t 0) H).
  replace t with (b * b - A k k * A k k) by lra. field. auto.
Qed.

Lemma htau_hvec : forall m k A, (k < m)%nat ->
  htau m k A * htau m k A * rsum m (fun l => hvec m k A l * hvec m k A l) = 2 * htau m k A.
Proof.
  intros m k A Hk. destruct (Req_dec (tail2 m k A) 0) as [E|E].
  - unfold htau. rewrite (proj2 (Reqb_spec _ _) E). ring.
  - pose proof (hvec_norm m k A Hk E). rewrite Rmult_assoc, H. ring.
Qed.

(** Gram matrix over the first [m] rows. *)
Definition grm (m : nat) (A : fmat) (a b : nat) : R := rsum m (fun i => A i a * A i b).

Lemma refl_gram2 : forall m tau v B C a b,
  tau * tau * rsum m (fun l => v l * v l) = 2 * tau ->
  rsum m (fun i => refl m tau v B i a * refl m tau v C i b) = rsum m (fun i => B i a * C i b).
Proof.
  intros m tau v B C a b H. unfold refl.
  set (p := rsum m (fun l => v l * B l a)). set (q := rsum m (fun l => v l * C l b)).
  rewrite (rsum_ext m _ (fun i => B i a * C i b + ((- tau * q) * (v i * B i a) +
     ((- tau * p) * (v i * C i b) + (tau * tau * p * q) * (v i * v i))))) by (intros; ring).
  rewrite !rsum_plus, !rsum_scal_l. fold p q.
  replace (tau * tau * p * q * rsum m (fun i => v i * v i))
    with (p * q * (tau * tau * rsum m (fun i => v i * v i))) by ring.
  rewrite H. ring.
Qed.

(** The reflection maps column [k] to beta e_k. *)
Lemma refl_col : forall m k A i, (k < m)%nat -> (i < m)%nat ->
  refl m (htau m k A) (hvec m k A) A i k =
  if Nat.ltb i k then A i k else if Nat.eqb i k then hbeta m k A else 0.
Proof.
  intros m k A i Hk Hi. unfold refl. destruct (Req_dec (tail2 m k A) 0) as [E|E].
  - unfold htau, hbeta. rewrite (proj2 (Reqb_spec _ _) E).
    destruct (Nat.lt_trichotomy i k) as [L|[L|L]].
    + rewrite (proj2 (Nat.ltb_lt i k)) by lia. ring.
    + subst i. rewrite Nat.ltb_irrefl, Nat.eqb_refl. ring.
    + rewrite (proj2 (Nat.ltb_ge i k)) by lia. rewrite (proj2 (Nat.eqb_neq i k)) by lia.
      rewrite (tail2_zero m k A i E) by lia. ring.
  - destruct (hbeta_sq m k A E) as [E1 [E2 E3]].
    set (b := hbeta m k A) in *. set (t := tail2 m k A) in *.
    assert (P : rsum m (fun l => hvec m k A l * A l k) = A k k + t / (A k k - b)).
    { rewrite (rsum_ext m _ (fun l => (if Nat.eqb k l then 1 else 0) * A l k +
         (if Nat.ltb k l then A l k * A l k else 0) * / (A k k - b))).
      - rewrite rsum_plus. rewrite (rsum_delta_l m k (fun l => A l k)) by auto. rewrite rsum_scal_r.
        unfold Rdiv. reflexivity.
      - intros l Hl. unfold hvec. fold t b. rewrite (proj2 (Reqb_false t 0) E).
        destruct (Nat.lt_trichotomy l k) as [L|[L|L]].
        + rewrite (proj2 (Nat.ltb_lt l k)) by lia. rewrite (proj2 (Nat.eqb_neq k l)) by lia.
          rewrite (proj2 (Nat.ltb_ge k l)) by lia. ring.
        + subst l. rewrite Nat.ltb_irrefl, Nat.eqb_refl. ring.
        + rewrite (proj2 (Nat.ltb_ge l k)) by lia. rewrite (proj2 (Nat.eqb_neq l k)) by lia.
          rewrite (proj2 (Nat.eqb_neq k l)) by lia. rewrite (proj2 (Nat.ltb_lt k l)) by lia.
          field. exact E3. }
    rewrite P.
    assert (T : htau m k A * (A k k + t / (A k k - b)) = A k k - b).
    { unfold htau. fold t b. rewrite (proj2 (Reqb_false t 0) E).
      replace t with (b * b - A k k * A k k) by lra. field. auto. }
    replace (htau m k A * hvec m k A i * (A k k + t / (A k k - b)))
      with (hvec m k A i * (htau m k A * (A k k + t / (A k k - b)))) by ring.
    rewrite T. unfold hvec. fold t b. rewrite (proj2 (Reqb_false t 0) E).
    destruct (Nat.lt_trichotomy i k) as [L|[L|L]].
    + rewrite (proj2 (Nat.ltb_lt i k)) by lia. ring.
    + subst i. rewrite Nat.ltb_irrefl, Nat.eqb_refl. ring.
    + rewrite (proj2 (Nat.ltb_ge i k)) by lia. rewrite (proj2 (Nat.eqb_neq i k)) by lia.
      field. exact E3.
Qed.

(** Lower part already eliminated in the first [k] columns. *)
Definition elim (m k : nat) (A : fmat) : Prop :=
  forall i j, (j < k)%nat -> (j < i < m)%nat -> A i j = 0.

Lemma hstep_refl : forall m k A i j, (k < m)%nat -> (i < m)%nat -> elim m k A ->
  hstep m k A i j = refl m (htau m k A) (hvec m k A) A i j.
Proof.
  intros m k A i j Hk Hi HE. unfold hstep.
  destruct (Nat.ltb j k) eqn:E1.
  - apply Nat.ltb_lt in E1. unfold refl. rewrite rsum_0; [ring|].
    intros l Hl. destruct (Nat.lt_ge_cases l k) as [L|L].
    + unfold hvec. rewrite (proj2 (Nat.ltb_lt l k)) by lia. ring.
    + rewrite (HE l j) by lia. ring.
  - destruct (Nat.eqb j k) eqn:E2.
    + apply Nat.eqb_eq in E2. subst j. symmetry. apply refl_col; auto.
    + reflexivity.
Qed.

Lemma hstep_elim : forall m k A, (k < m)%nat -> elim m k A -> elim m (S k) (hstep m k A).
Proof.
  intros m k A Hk HE i j Hj Hi. unfold hstep.
  destruct (Nat.ltb j k) eqn:E1.
  - apply Nat.ltb_lt in E1. apply HE; lia.
  - apply Nat.ltb_ge in E1. assert (j = k) by lia. subst j. rewrite Nat.eqb_refl.
    rewrite (proj2 (Nat.ltb_ge i k)) by lia. rewrite (proj2 (Nat.eqb_neq i k)) by lia. reflexivity.
Qed.

Lemma hqr_elim : forall k m A, (k <= m)%nat -> elim m k (hqr m k A).
Proof.
  induction k; intros m A Hk; simpl.
  - intros i j Hj; lia.
  - apply hstep_elim; [lia|]. apply IHk. lia.
Qed.

(** The R factor has the same Gram matrix as the input. *)
Lemma hqr_gram : forall k m A a b, (k <= m)%nat -> grm m (hqr m k A) a b = grm m A a b.
Proof.
  induction k; intros m A a b Hk; simpl; [reflexivity|].
  transitivity (grm m (hqr m k A) a b); [|apply IHk; lia].
  unfold grm.
  rewrite (rsum_ext m _ (fun i => refl m (htau m k (hqr m k A)) (hvec m k (hqr m k A)) (hqr m k A) i a *
     refl m (htau m k (hqr m k A)) (hvec m k (hqr m k A)) (hqr m k A) i b)).
  - apply refl_gram2. apply htau_hvec. lia.
  - intros i Hi. rewrite !hstep_refl by (try lia; apply hqr_elim; lia). reflexivity.
Qed.

(** Q^T A = R and Q^T is orthogonal. *)
Lemma refl_mm : forall m tau v Q A i j,
  refl m tau v (mm m Q A) i j = mm m (refl m tau v Q) A i j.
Proof.
  intros. unfold refl, mm.
  rewrite (rsum_ext m (fun k => (Q i k - tau * v i * rsum m (fun l => v l * Q l k)) * A k j)
    (fun k => Q i k * A k j - tau * v i * (rsum m (fun l => v l * Q l k) * A k j))) by (intros; ring).
  rewrite rsum_minus, rsum_scal_l. f_equal. f_equal.
  transitivity (rsum m (fun l => rsum m (fun k => v l * Q l k * A k j))).
  - apply rsum_ext. intros l _. rewrite <- rsum_scal_l. apply rsum_ext. intros; ring.
  - rewrite rsum_swap. apply rsum_ext. intros k _. rewrite <- rsum_scal_r. reflexivity.
Qed.

Lemma refl_ext : forall m tau v A B i j, (i < m)%nat -> (forall l, (l < m)%nat -> A l j = B l j) ->
  refl m tau v A i j = refl m tau v B i j.
Proof.
  intros. unfold refl. rewrite (H0 i) by auto. f_equal. f_equal. apply rsum_ext.
  intros l Hl. rewrite H0 by auto. reflexivity.
Qed.

Lemma hqr_hqt : forall k m A i j, (k <= m)%nat -> (i < m)%nat ->
  hqr m k A i j = mm m (hqt m k A) A i j.
Proof.
  induction k; intros m A i j Hk Hi; simpl.
  - symmetry. apply (mm_id_l m (S j)); auto.
  - rewrite hstep_refl by (try lia; apply hqr_elim; lia).
    rewrite <- refl_mm. apply refl_ext; auto. intros l Hl. apply IHk; lia.
Qed.

(** QR_r on the level of Gram matrices. *)
Lemma QR_r_spec : forall left right, nc left = nc right -> (nc left <= nr left + nr right)%nat ->
  exists out, QR_r left right = OK out /\ nr out = nc left /\ nc out = nc left /\
    (forall i j, (j < i < nr out)%nat -> ent out i j = 0) /\
    eqm (nc left) (nc left) (gram (nc left) (ent out))
      (madd (gram (nr left) (ent left)) (gram (nr right) (ent right))).
Proof.
  intros left right Hc Hr. unfold QR_r. rewrite vcat_ok by auto. cbn [bind nr nc ent].
  set (m := (nr left + nr right)%nat). set (n := nc left).
  rewrite Nat.min_r by (unfold m, n; lia).
  set (V := fun i j => if Nat.ltb i (nr left) then ent left i j else ent right (i - nr left)%nat j).
  rewrite block_ok by (cbn [nr nc]; unfold m, n; lia).
  cbn [bind]. eexists. split; [reflexivity|]. cbn [nr nc ent]. repeat split.
  - intros i j Hij. rewrite (proj2 (Nat.leb_gt i j)) by lia. reflexivity.
  - intros a b Ha Hb. unfold gram, mm, tr, madd.
    transitivity (grm m (hqr m n V) a b).
    + unfold grm. replace m with (n + (m - n))%nat by (unfold m, n in *; lia).
      rewrite (rsum_split n). rewrite (rsum_0 (m - n)).
      * replace (n + (m - n))%nat with m by (unfold m, n in *; lia). rewrite Rplus_0_r.
        apply rsum_ext. intros i Hi. f_equal.
        -- destruct (Nat.leb i a) eqn:E; auto. apply Nat.leb_gt in E.
           symmetry. apply (hqr_elim n m V); unfold m, n in *; lia.
        -- destruct (Nat.leb i b) eqn:E; auto. apply Nat.leb_gt in E.
           symmetry. apply (hqr_elim n m V); unfold m, n in *; lia.
      * intros i Hi. replace (n + (m - n))%nat with m by (unfold m, n in *; lia).
        rewrite (hqr_elim n m V) by (unfold m, n in *; lia). ring.
    + rewrite hqr_gram by (unfold m, n; lia). unfold grm, m. rewrite rsum_split. f_equal.
      * apply rsum_ext. intros i Hi. unfold V. rewrite (proj2 (Nat.ltb_lt i (nr left))) by auto. reflexivity.
      * apply rsum_ext. intros i Hi. unfold V.
        rewrite (proj2 (Nat.ltb_ge (nr left + i) (nr left))) by lia.
        replace (nr left + i - nr left)%nat with i by lia. reflexivity.
Qed.
