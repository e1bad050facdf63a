(** The correction of a Kalman gain is the least-squares answer. *)
From Coq Require Import Reals Arith Lia Lra.
From Verif Require Import Base.RSum Base.LinAlg Base.Inverse Spec.KF Proofs.Kalman.
Open Scope R_scope.

Lemma dot_sym : forall n x y, dot n x y = dot n y x.
Proof. intros. unfold dot. apply rsum_ext. intros; ring. Qed.
Lemma dot_plus_r : forall n x y z, dot n x (fun i => y i + z i) = dot n x y + dot n x z.
Proof. intros. unfold dot. rewrite <- rsum_plus. apply rsum_ext. intros; ring. Qed.
Lemma dot_scal_r : forall n x c y, dot n x (fun i => c * y i) = c * dot n x y.
Proof. intros. unfold dot. rewrite <- rsum_scal_l. apply rsum_ext. intros; ring. Qed.
Lemma dot_minus_r : forall n x y z, dot n x (fun i => y i - z i) = dot n x y - dot n x z.
Proof.
  intros. replace (dot n x y - dot n x z) with (dot n x y + -1 * dot n x z) by ring.
  rewrite <- dot_scal_r, <- dot_plus_r. apply dot_ext; intros; ring.
Qed.
Lemma dot_mv : forall r c A x y, dot r x (mv c A y) = dot c (mv r (tr A) x) y.
Proof.
  intros r c A x y. unfold dot, mv, tr.
  rewrite (rsum_ext r _ (fun i => rsum c (fun j => x i * A i j * y j)))
    by (intros; rewrite <- rsum_scal_l; apply rsum_ext; intros; ring).
  rewrite rsum_swap. apply rsum_ext. intros j _. rewrite <- rsum_scal_r. apply rsum_ext. intros; ring.
Qed.
Lemma mv_mm : forall n c A B x i, mv c (mm n A B) x i = mv n A (mv c B x) i.
Proof.
  intros n c A B x i. unfold mv, mm.
  rewrite (rsum_ext c _ (fun j => rsum n (fun k => A i k * B k j * x j)))
    by (intros; rewrite <- rsum_scal_r; apply rsum_ext; intros; ring).
  rewrite rsum_swap. apply rsum_ext. intros k _. rewrite <- rsum_scal_l. apply rsum_ext. intros; ring.
Qed.
Lemma mv_ext : forall n A B x y i, (forall j, (j < n)%nat -> A i j = B i j) -> (forall j, (j < n)%nat -> x j = y j) ->
  mv n A x i = mv n B y i.
Proof. intros. unfold mv. apply rsum_ext. intros j Hj. rewrite H, H0 by auto. reflexivity. Qed.
Lemma mv_plus : forall n A x y i, mv n A (fun j => x j + y j) i = mv n A x i + mv n A y i.
Proof. intros. unfold mv. rewrite <- rsum_plus. apply rsum_ext. intros; ring. Qed.
Lemma mv_minus : forall n A x y i, mv n A (fun j => x j - y j) i = mv n A x i - mv n A y i.
Proof.
  intros. unfold mv. replace (rsum n (fun j => A i j * x j) - rsum n (fun j => A i j * y j))
    with (rsum n (fun j => A i j * x j) + -1 * rsum n (fun j => A i j * y j)) by ring.
  rewrite <- rsum_scal_l, <- rsum_plus. apply rsum_ext. intros; ring.
Qed.
Lemma mv_scal : forall n A c x i, mv n A (fun j => c * x j) i = c * mv n A x i.
Proof. intros. unfold mv. rewrite <- rsum_scal_l. apply rsum_ext. intros; ring. Qed.
Lemma mv_madd : forall n A B x i, mv n (madd A B) x i = mv n A x i + mv n B x i.
Proof. intros. unfold mv, madd. rewrite <- rsum_plus. apply rsum_ext. intros; ring. Qed.
Lemma mv_idm : forall n x i, (i < n)%nat -> mv n idm x i = x i.
Proof.
  intros n x i Hi. pose proof (mm_id_l n 1 (fun k _ => x k) i 0%nat Hi Nat.lt_0_1) as E. exact E.
Qed.

Lemma dot_symm : forall n P x y, symm n P -> dot n x (mv n P y) = dot n y (mv n P x).
Proof.
  intros n P x y S. rewrite dot_mv, dot_sym. apply dot_ext; [reflexivity|].
  intros i Hi. apply mv_ext; [|reflexivity]. intros j Hj. unfold tr. apply S; auto.
Qed.
Lemma qf_plus : forall n P x y, symm n P ->
  qf n P (fun i => x i + y i) = qf n P x + 2 * dot n x (mv n P y) + qf n P y.
Proof.
  intros n P x y S. unfold qf.
  rewrite (dot_ext n (fun i => x i + y i) _ (fun i => x i + y i) (fun i => mv n P x i + mv n P y i))
    by (intros; auto using mv_plus).
  rewrite dot_plus_r, !(dot_sym n (fun i => x i + y i)), !dot_plus_r.
  rewrite (dot_sym n (mv n P x) x), (dot_sym n (mv n P x) y), (dot_sym n (mv n P y) x), (dot_sym n (mv n P y) y).
  rewrite (dot_symm n P y x S). ring.
Qed.
Lemma qf_scal : forall n P c x, qf n P (fun i => c * x i) = c * c * qf n P x.
Proof.
  intros. unfold qf. rewrite (dot_ext n (fun i => c * x i) _ (fun i => c * x i) (fun i => c * mv n P x i)) by (intros; auto using mv_scal).
  rewrite dot_scal_r, dot_sym, dot_scal_r, dot_sym. ring.
Qed.
Lemma dot_self : forall n x, dot n x x = 0 -> forall i, (i < n)%nat -> x i = 0.
Proof.
  intros n x. induction n as [|n IH]; intros E i Hi; [lia|]. unfold dot in E. cbn [rsum] in E.
  assert (0 <= rsum n (fun i => x i * x i)) by (apply rsum_nonneg; intros; nra).
  assert (x n * x n = 0 /\ rsum n (fun i => x i * x i) = 0) as [A B] by (split; nra).
  destruct (Nat.eq_dec i n) as [->|]; [nra|]. apply IH; [exact B|lia].
Qed.
Lemma psd_kernel : forall n P x, psd n P -> qf n P x = 0 -> forall i, (i < n)%nat -> mv n P x i = 0.
Proof.
  intros n P x [S H] E. apply dot_self. set (y := mv n P x).
  assert (Q : forall t, 0 <= 2 * t * dot n y y + t * t * qf n P y).
  { intros t. pose proof (H (fun i => x i + t * y i)) as A. rewrite (qf_plus n P x (fun i => t * y i) S), qf_scal, E in A.
    rewrite (dot_ext n x _ x (fun i => t * mv n P y i)) in A by (intros; auto using mv_scal).
    rewrite dot_scal_r, (dot_symm n P x y S) in A. fold y in A. lra. }
  assert (0 <= dot n y y) by (unfold dot; apply rsum_nonneg; intros; nra).
  pose proof (H y) as C. set (a := dot n y y) in *. set (c := qf n P y) in *.
  destruct (Req_dec c 0) as [Z|Z].
  - pose proof (Q (-1)). rewrite Z in *. lra.
  - pose proof (Q (- a / c)) as D. assert (0 < c) by lra.
    replace (2 * (- a / c) * a + - a / c * (- a / c) * c) with (- (a * a) / c) in D by (field; lra).
    assert (a * a <= 0). { apply Rmult_le_reg_r with (/ c); [apply Rinv_0_lt_compat; lra|]. unfold Rdiv in D. lra. }
    nra.
Qed.

(** The weights [w = S^-1 y]. *)
Section Weigh.
Variables (n m : nat) (P H N K : fmat) (y : nat -> R).
Hypothesis HP : psd n P.
Hypothesis HN : spd m N.
Hypothesis HK : is_gain n m P H N K.

Lemma weights : exists w,
  (forall i, (i < m)%nat -> mv m (innov n P H N) w i = y i) /\
  (forall i, (i < n)%nat -> mv m K y i = mv n P (mv m (tr H) w) i).
Proof.
  assert (S : spd m (innov n P H N)) by (apply innov_spd; [exact HP|exact HN]).
  pose proof (inv_spd m _ S) as [I1 I2]. exists (mv m (finv m (innov n P H N)) y).
  assert (A : forall i, (i < m)%nat -> mv m (innov n P H N) (mv m (finv m (innov n P H N)) y) i = y i).
  { intros i Hi. rewrite <- mv_mm. transitivity (mv m idm y i); [|apply mv_idm; exact Hi]. apply mv_ext; [|reflexivity]. intros j Hj. apply I1; auto. }
  split; [exact A|]. intros i Hi. rewrite <- (mv_mm n m P (tr H)).
  rewrite <- (mv_ext m (mm m K (innov n P H N)) (mm n P (tr H)) _ _ i (fun j Hj => HK i j Hi Hj) (fun _ _ => eq_refl)).
  rewrite mv_mm. apply mv_ext; [reflexivity|]. intros j Hj. symmetry. apply A; exact Hj.
Qed.

(** How far the estimates are moved, and what remains of the residual. *)
Lemma remains : forall w, (forall i, (i < m)%nat -> mv m (innov n P H N) w i = y i) ->
  forall i, (i < m)%nat -> y i - mv n H (mv n P (mv m (tr H) w)) i = mv m N w i.
Proof.
  intros w W i Hi. rewrite <- W by exact Hi. unfold innov. rewrite mv_madd.
  rewrite (mv_mm n m (mm n H P) (tr H)), (mv_mm n n H P). ring.
Qed.

Lemma inv_mv : forall A B x i, is_inv m A B -> (i < m)%nat -> mv m B (mv m A x) i = x i.
Proof.
  intros A B x i [_ I] Hi. rewrite <- mv_mm. transitivity (mv m idm x i); [|apply mv_idm; exact Hi]. apply mv_ext; [|reflexivity].
  intros j Hj. apply I; auto.
Qed.

Lemma least_squares : forall M, is_inv m N M -> exists z,
  (forall i, (i < n)%nat -> mv m K y i = mv n P z i) /\
  forall z', qf m M (fun i => y i - mv n H (mv n P z) i) + qf n P z +
             (qf m M (fun i => mv n H (mv n P (fun k => z' k - z k)) i) + qf n P (fun k => z' k - z k)) =
             qf m M (fun i => y i - mv n H (mv n P z') i) + qf n P z'.
Proof.
  intros M I. destruct weights as [w [W1 W2]]. exists (mv m (tr H) w). split; [exact W2|]. intros z'.
  set (z := mv m (tr H) w). set (v := fun k => z' k - z k). set (g := mv n H (mv n P v)).
  assert (SM : symm m M) by (apply (inv_symm m N); [apply HN|exact I]).
  assert (SP : symm n P) by apply HP.
  assert (R1 : forall i, (i < m)%nat -> y i - mv n H (mv n P z) i = mv m N w i) by (apply remains; exact W1).
  assert (R2 : forall i, (i < m)%nat -> y i - mv n H (mv n P z') i = mv m N w i + -1 * g i).
  { intros i Hi. rewrite <- R1 by exact Hi. unfold g, v.
    rewrite (mv_ext n H H (mv n P (fun k => z' k - z k)) (fun j => mv n P z' j - mv n P z j) i)
      by (auto; intros; apply mv_minus). rewrite mv_minus. ring. }
  rewrite (qf_ext m M M _ (mv m N w) (fun i j _ _ => eq_refl) R1).
  rewrite (qf_ext m M M (fun i => y i - mv n H (mv n P z') i) (fun i => mv m N w i + -1 * g i) (fun i j _ _ => eq_refl) R2).
  rewrite (qf_plus m M (mv m N w) (fun i => -1 * g i) SM), qf_scal.
  rewrite (dot_ext m (mv m N w) _ (mv m N w) (fun i => -1 * mv m M g i)) by (auto; intros; apply mv_scal).
  rewrite dot_scal_r, (dot_symm m M (mv m N w) g SM).
  rewrite (dot_ext m g (mv m M (mv m N w)) g w) by (intros; first [reflexivity|apply inv_mv with (A := N); [exact I|assumption]]).
  assert (E : dot m g w = dot n z (mv n P v)).
  { unfold g. rewrite dot_sym, dot_mv. fold z. reflexivity. }
  rewrite E. rewrite (qf_ext n P P z' (fun k => z k + v k) (fun i j _ _ => eq_refl)) by (intros; unfold v; ring).
  rewrite (qf_plus n P z v SP). fold v. change (fun i : nat => mv n H (mv n P v) i) with g. ring.
Qed.
End Weigh.

(** With equal independent noise the answer depends on [H^T H] and [H^T y] only. *)
Lemma normal_equation : forall n m P H N K y s, psd n P -> spd m N -> eqm m m N (mscal s idm) -> is_gain n m P H N K ->
  forall i, (i < n)%nat ->
  s * mv m K y i + mv n P (mv n (gram m H) (mv m K y)) i = mv n P (mv m (tr H) y) i.
Proof.
  intros n m P H N K y s HP HN EN HK i Hi. destruct (weights n m P H N K y HP HN HK) as [w [W1 W2]].
  rewrite (W2 i Hi). rewrite <- mv_scal, <- mv_plus. apply mv_ext; [reflexivity|]. intros j Hj.
  unfold gram. rewrite mv_mm, <- mv_scal, <- mv_plus. apply mv_ext; [reflexivity|]. intros k Hk.
  rewrite <- (W1 k Hk). unfold innov. rewrite mv_madd.
  rewrite (mv_mm n m (mm n H P) (tr H)), (mv_mm n n H P).
  rewrite (mv_ext n H H (mv m K y) (mv n P (mv m (tr H) w)) k) by (auto; exact W2).
  rewrite (mv_ext m N (mscal s idm) w w k) by (auto; intros; apply EN; auto).
  replace (mv m (mscal s idm) w k) with (s * w k); [ring|].
  transitivity (mv m idm (fun a => s * w a) k); [rewrite mv_idm by exact Hk; reflexivity|].
  unfold mv, mscal. apply rsum_ext. intros; ring.
Qed.

Lemma normal_unique : forall n P A s x, psd n P -> psd n A -> 0 < s ->
  (forall i, (i < n)%nat -> s * x i + mv n P (mv n A x) i = 0) -> forall i, (i < n)%nat -> x i = 0.
Proof.
  intros n P A s x HP HA Hs E. set (a := mv n A x).
  assert (Q : s * qf n A x + qf n P a = 0).
  { unfold qf. fold a. rewrite (dot_sym n x a), <- dot_scal_r, <- dot_plus_r.
    unfold dot. apply rsum_0. intros i Hi. pose proof (E i Hi) as F. fold a in F. rewrite F. ring. }
  pose proof (proj2 HA x). pose proof (proj2 HP a).
  assert (Z : qf n A x = 0) by nra.
  intros i Hi. pose proof (E i Hi) as F.
  assert (Y : mv n P (mv n A x) i = 0).
  { unfold mv at 1. apply rsum_0. intros j Hj. rewrite (psd_kernel n A x HA Z j Hj). ring. }
  rewrite Y in F. nra.
Qed.

Lemma same_information : forall n m m' P H H' N N' K K' y y' s, psd n P -> 0 < s ->
  spd m N -> eqm m m N (mscal s idm) -> spd m' N' -> eqm m' m' N' (mscal s idm) ->
  is_gain n m P H N K -> is_gain n m' P H' N' K' ->
  eqm n n (gram m H) (gram m' H') -> (forall j, (j < n)%nat -> mv m (tr H) y j = mv m' (tr H') y' j) ->
  forall i, (i < n)%nat -> mv m K y i = mv m' K' y' i.
Proof.
  intros n m m' P H H' N N' K K' y y' s HP Hs N1 N2 N3 N4 G G' EA EB.
  assert (D : forall i, (i < n)%nat -> mv m K y i - mv m' K' y' i = 0).
  { apply (normal_unique n P (gram m H) s); [exact HP|apply psd_gram|exact Hs|]. intros i Hi.
    pose proof (normal_equation n m P H N K y s HP N1 N2 G i Hi) as A.
    pose proof (normal_equation n m' P H' N' K' y' s HP N3 N4 G' i Hi) as B.
    rewrite (mv_ext n P P (mv n (gram m H) _) (fun j => mv n (gram m H) (mv m K y) j - mv n (gram m H) (mv m' K' y') j) i)
      by (auto; intros; apply mv_minus).
    rewrite mv_minus.
    rewrite (mv_ext n P P (mv n (gram m H) (mv m' K' y')) (mv n (gram m' H') (mv m' K' y')) i)
      by (auto; intros; apply mv_ext; auto; intros; apply EA; auto).
    rewrite (mv_ext n P P (mv m (tr H) y) (mv m' (tr H') y') i) in A by auto. lra. }
  intros i Hi. pose proof (D i Hi). lra.
Qed.
