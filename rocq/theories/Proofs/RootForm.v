(** What the square-root form gets right and wrong. *)
From Coq Require Import Reals List Arith Bool Lia Lra.
From Verif Require Import Base.Res Base.Mat Base.RDec Base.RSum Base.LinAlg Base.Geom Base.AMap Base.RMat
  Model.TypeHelper Model.Types Model.MathHelperMat Model.QR Model.Ekf Model.Updater Model.Ops
  Spec.Layout Spec.History Spec.Contract Spec.Correct Spec.Named Spec.Same Spec.KF
  Proofs.MatSurgery Proofs.QRProofs Proofs.Refresh Proofs.Wf Proofs.Register Proofs.AugCov Proofs.Augment Proofs.Predict Proofs.Kalman Proofs.CovGood
  Proofs.Invariant Proofs.Named Proofs.Clones Proofs.Same Proofs.Update
  Proofs.Sizes Proofs.Scalars Proofs.Clock Proofs.CloneFacts Proofs.Demo Proofs.RegRefute Proofs.Finals.
Import ListNotations.
Open Scope nat_scope.

(** *** The initial covariance is the same in both forms. *)
Lemma demo0_cov : forall a root, eqm 18 18 (covariance (demo0 a root)) (mscal (1/100) idm).
Proof.
  intros a []; unfold covariance; cbn [demo0 EKF_init e_par demo_par p_root e_size e_cov stands_for].
  - apply (gram_sqrt_diag 18 (mscal (1/100) idm)).
    + intros i j _ _ H. unfold mscal, idm. apply Nat.eqb_neq in H. rewrite H. ring.
    + intros i _. unfold mscal, idm. rewrite Nat.eqb_refl. lra.
  - intros i j Hi Hj. reflexivity.
Qed.

Lemma spd2 : forall A : fmat, A 0 1 = A 1 0 -> (0 < A 0%nat 0%nat)%R ->
  (0 < A 0%nat 0%nat * A 1%nat 1%nat - A 0%nat 1%nat * A 0%nat 1%nat)%R -> spd 2 A.
Proof.
  intros A HS Ha Hd. split.
  - intros i j Hi Hj. unfold tr.
    assert (i = 0 \/ i = 1) as [->| ->] by lia; assert (j = 0 \/ j = 1) as [->| ->] by lia; auto.
  - intros x [k [Hk Hx]]. rewrite qf_expand. cbn [rsum]. rewrite <- HS.
    set (a := A 0 0) in *. set (b := A 0 1) in *. set (c := A 1 1) in *. set (u := x 0) in *. set (v := x 1) in *.
    assert (K : (0 < a * (u * a * u + u * b * v + (v * b * u + v * c * v)))%R).
    { replace (a * (u * a * u + u * b * v + (v * b * u + v * c * v)))%R
        with ((a * u + b * v) * (a * u + b * v) + (a * c - b * b) * (v * v))%R by ring.
      destruct (Req_dec v 0) as [V|V].
      - rewrite V. assert (U : u <> 0%R).
        { assert (k = 0 \/ k = 1) as [-> | ->] by lia; [exact Hx|contradiction]. }
        replace ((a * u + b * 0) * (a * u + b * 0) + (a * c - b * b) * (0 * 0))%R with ((a * u) * (a * u))%R by ring.
        assert (N : (a * u)%R <> 0%R) by (apply Rmult_integral_contrapositive_currified; lra).
        apply Rsqr_pos_lt in N. exact N.
      - pose proof (Rle_0_sqr (a * u + b * v)) as P. unfold Rsqr in P.
        assert (0 < (a * c - b * b) * (v * v))%R by (apply Rmult_lt_0_compat; [exact Hd|apply Rsqr_pos_lt in V; exact V]). lra. }
    assert (Z : forall y, (0 < a * y)%R -> (0 < y)%R).
    { intros y Hy. apply (Rmult_lt_reg_l a); [exact Ha|]. lra. }
    replace (0 + (0 + u * a * u + u * b * v) + (0 + v * b * u + v * c * v))%R
      with (u * a * u + u * b * v + (v * b * u + v * c * v))%R by ring.
    apply Z. exact K.
Qed.

(** *** Correlated noise *)
Definition jac2 : mat R := mkmat 2 18 (fun i j => if Nat.eqb i j then 1%R else 0%R).
Definition res2 : mat R := mkmat 2 1 (fun _ _ => 1%R).
Definition noise2 : mat R := mkmat 2 2 (fun i j => if Nat.eqb i j then 2%R else 1%R).

Lemma sqrt2_sq : (sqrt 2 * sqrt 2 = 2)%R.
Proof. apply sqrt_sqrt. lra. Qed.

Lemma noise2_gram : forall i j, i < 2 -> j < 2 ->
  gram 2 (fun i j => sqrt (ent noise2 i j)) i j = (if Nat.eqb i j then 3 else 2 * sqrt 2)%R.
Proof.
  intros i j Hi Hj. unfold gram, mm, tr. cbn [rsum].
  pose proof sqrt2_sq as Q.
  assert (i = 0 \/ i = 1) as [->| ->] by lia; assert (j = 0 \/ j = 1) as [->| ->] by lia; cbn; rewrite ?sqrt_1; lra.
Qed.

Lemma noise2_contract : forall e, p_root (e_par e) = true -> dim (e_state e) = 18 -> contract e (OKalman jac2 res2 noise2).
Proof.
  intros e RT D. cbn [contract]. unfold meas_arg. rewrite RT, D. cbn [nr nc jac2 res2 noise2].
  do 5 (split; [reflexivity|]). split.
  - intros i j _ _. unfold noise2. cbn [ent]. destruct (Nat.eqb i j); lra.
  - change (mkmat 2 2 (fun i j => if Nat.eqb i j then 2%R else 1%R)) with noise2. apply spd2.
    + rewrite !noise2_gram by lia. reflexivity.
    + rewrite !noise2_gram by lia. cbn. lra.
    + rewrite !noise2_gram by lia. cbn. pose proof sqrt2_sq. nra.
Qed.

Lemma innov2 : forall P N i j, eqm 18 18 P (mscal (1/100) idm) -> i < 2 -> j < 2 ->
  innov 18 P (ent jac2) N i j = ((if Nat.eqb i j then 1/100 else 0) + N i j)%R.
Proof.
  intros P N i j HP Hi Hj. unfold innov, madd. f_equal. unfold mm, tr. cbn [ent jac2].
  rewrite (rsum_single 18 j) by (lia || (intros k Hk Hne; apply not_eq_sym, Nat.eqb_neq in Hne; rewrite Hne; ring)).
  rewrite (rsum_single 18 i) by (lia || (intros k Hk Hne; apply not_eq_sym, Nat.eqb_neq in Hne; rewrite Hne; ring)).
  rewrite HP by lia. unfold mscal, idm. rewrite !Nat.eqb_refl. destruct (Nat.eqb i j); lra.
Qed.

Lemma khp2 : forall (P K : fmat) j, eqm 18 18 P (mscal (1/100) idm) -> j < 2 ->
  mm 18 (mm 2 K (ent jac2)) P 0 j = (1/100 * K 0%nat j)%R.
Proof.
  intros P K j HP Hj. unfold mm at 1.
  rewrite (rsum_single 18 j); [|lia|].
  - rewrite HP by lia. unfold mscal, idm. rewrite Nat.eqb_refl. unfold mm. cbn [ent jac2].
    rewrite (rsum_single 2 j); [|lia|].
    + rewrite Nat.eqb_refl. lra.
    + intros k Hk Hne. apply Nat.eqb_neq in Hne. rewrite Hne. ring.
  - intros k Hk Hne. rewrite HP by lia. unfold mscal, idm. apply Nat.eqb_neq in Hne. rewrite Hne. ring.
Qed.

Lemma pht2 : forall P i j, eqm 18 18 P (mscal (1/100) idm) -> i < 18 -> j < 2 ->
  mm 18 P (tr (ent jac2)) i j = (if Nat.eqb i j then 1/100 else 0)%R.
Proof.
  intros P i j HP Hi Hj. unfold mm, tr. cbn [ent jac2].
  rewrite (rsum_single 18 j) by (lia || (intros k Hk Hne; apply not_eq_sym, Nat.eqb_neq in Hne; rewrite Hne; ring)).
  rewrite HP by lia. unfold mscal, idm. rewrite Nat.eqb_refl. destruct (Nat.eqb i j); lra.
Qed.

Lemma root_noise_gen : forall e, reachable e -> p_root (e_par e) = true -> dim (e_state e) = 18 -> e_size e = 18 ->
  eqm 18 18 (covariance e) (mscal (1/100) idm) ->
  exists jac y noise e',
  contract e (OKalman jac y noise) /\
  spd (nr jac) (ent noise) /\ KalmanUpdate e jac y noise = OK e' /\
  forall K, is_gain (e_size e) (nr jac) (covariance e) (ent jac) (ent noise) K ->
    ~ eqm (e_size e) (e_size e) (covariance e') (joseph (e_size e) (nr jac) (covariance e) (ent jac) (ent noise) K).
Proof.
  intros e R0 RT D HZ HP. pose proof (noise2_contract e RT D) as C.
  destruct (kalman_full e jac2 res2 noise2 (reachable_inv _ R0) C) as [e' [K [E [_ [_ [P1 [P2 [G [J _]]]]]]]]].
  exists jac2, res2, noise2, e'. split; [exact C|]. split.
  { apply spd2; cbn; lra. }
  split; [exact E|]. intros K' G' J'. rewrite RT in *. rewrite D, HZ in *. cbn [noise_used] in *.
  change (nr jac2) with 2 in *. set (P := covariance e) in *.
  assert (SP : symm 18 P) by apply P1.
  assert (X : forall j, j < 2 -> ent K 0 j = K' 0 j).
  { intros j Hj. pose proof (J 0 j ltac:(lia) ltac:(lia)) as A. pose proof (J' 0 j ltac:(lia) ltac:(lia)) as B.
    rewrite (joseph_gain 18 2 P _ _ _ SP G 0 j) in A by lia. rewrite (joseph_gain 18 2 P _ _ _ SP G' 0 j) in B by lia.
    unfold msub in A, B. rewrite khp2 in A, B by (auto || lia). lra. }
  pose proof (G 0 0 ltac:(lia) ltac:(lia)) as G00. pose proof (G 0 1 ltac:(lia) ltac:(lia)) as G01.
  pose proof (G' 0 0 ltac:(lia) ltac:(lia)) as H00. pose proof (G' 0 1 ltac:(lia) ltac:(lia)) as H01.
  rewrite !(pht2 P) in * by (auto || lia). unfold mm in G00, G01, H00, H01. cbn [rsum] in G00, G01, H00, H01.
  rewrite !(innov2 P) in * by (auto || lia). rewrite !noise2_gram in * by lia.
  rewrite !X in * by lia. cbn in G00, G01, H00, H01.
  set (a := K' 0 0) in *. set (b := K' 0 1) in *. pose proof sqrt2_sq as Q. pose proof (sqrt_lt_R0 2 ltac:(lra)) as Q'.
  assert (L : (a = b * (1 - 2 * sqrt 2))%R) by lra.
  assert (M : (a * (1 - 2 * sqrt 2) = b)%R) by lra.
  assert (b = 0)%R by (rewrite L in M; nra). subst b. nra.
Qed.

Lemma root_noise_refuted : exists e jac y noise e',
  reachable e /\ p_root (e_par e) = true /\ contract e (OKalman jac y noise) /\
  spd (nr jac) (ent noise) /\ KalmanUpdate e jac y noise = OK e' /\
  forall K, is_gain (e_size e) (nr jac) (covariance e) (ent jac) (ent noise) K ->
    ~ eqm (e_size e) (e_size e) (covariance e') (joseph (e_size e) (nr jac) (covariance e) (ent jac) (ent noise) K).
Proof.
  destruct (root_noise_gen (demo0 ANone true) (demo0_reachable ANone true) eq_refl eq_refl eq_refl (demo0_cov ANone true))
    as [jac [y [noise [e' [H1 [H2 [H3 H4]]]]]]].
  exists (demo0 ANone true), jac, y, noise, e'.
  split; [apply demo0_reachable|]. split; [reflexivity|]. auto.
Qed.
