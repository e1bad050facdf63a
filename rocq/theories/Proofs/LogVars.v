(** How the variances printed in the logs relate to the covariance. *)
From Coq Require Import Reals List Arith Bool String Lia Lra.
From Verif Require Import Base.Res Base.Mat Base.LinAlg Base.RSum Base.Geom Base.AMap Base.RMat
  Model.TypeHelper Model.Types Model.MathHelperMat Model.Ekf Model.Ops Model.LogRows
  Spec.Csv Spec.LogFields Spec.Layout Spec.History Spec.Named Spec.Contract
  Proofs.MatSurgery Proofs.Refresh Proofs.Wf Proofs.Register Proofs.Invariant Proofs.LayoutNoDup Proofs.Demo Proofs.Named
  Proofs.Same Proofs.Sizes Proofs.RegRefute Proofs.LogFields.
Import ListNotations.
Open Scope nat_scope.

Lemma rsum_ge_term : forall n f i, (forall k, k < n -> (0 <= f k)%R) -> i < n -> (f i <= rsum n f)%R.
Proof.
  intros n f i H Hi. apply Rle_trans with (rsum n (fun k => if k =? i then f i else 0%R)).
  - rewrite (rsum_single n i _ Hi); [rewrite Nat.eqb_refl; lra|].
    intros k _ Hk. apply Nat.eqb_neq in Hk. now rewrite Hk.
  - apply rsum_le. intros k Hk. destruct (Nat.eqb_spec k i) as [->|]; [lra|apply H, Hk].
Qed.

Lemma logged_standard : forall e i, p_root (e_par e) = false -> logged e i = covariance e i i.
Proof. intros e i H. unfold logged, covariance, is_root. now rewrite H. Qed.

Lemma logged_root : forall e i, p_root (e_par e) = true -> i < e_size e -> (logged e i <= covariance e i i)%R.
Proof.
  intros e i H Hi. unfold logged, covariance, is_root. rewrite H. cbn [stands_for]. unfold gram, mm, tr.
  apply (rsum_ge_term (e_size e) (fun k => (ent (e_cov e) k i * ent (e_cov e) k i)%R) i); [|exact Hi].
  intros k _. apply Rle_0_sqr.
Qed.

(** An upper triangular factor of ones. *)
Definition ones (n : nat) : mat R := mkmat n n (fun i j => if i <=? j then 1%R else 0%R).
Lemma ones_arg : forall n, cov_arg true n (ones n).
Proof.
  intros n. split; [cbn; lia|]. split; [cbn; lia|]. intros i j Hij. cbn.
  destruct (Nat.leb_spec i j); [lia|reflexivity].
Qed.

(** In square-root form the printed variance is the squared diagonal entry of
    the factor: here 1 although the variance is 2. *)
Lemma logged_root_refuted : exists e i, reachable e /\ p_root (e_par e) = true /\ i < e_size e /\ logged e i = 1%R /\ covariance e i i = 2%R.
Proof.
  set (e0 := demo0 ANone true).
  assert (C0 : contract e0 (ORegImu 2 demo_imu (ones 12))).
  { intros _. split; [reflexivity|]. split; [apply ones_arg|]. pose proof e9_pos. cbn. auto. }
  pose proof (demo0_reachable ANone true) as R0.
  destruct (step_inv e0 _ (reachable_inv _ R0) C0) as [e1 [E1 I1]].
  pose proof (reachable_step _ _ _ R0 C0 E1) as R1. cbn [step] in E1.
  destruct (RegisterIMU_ok e0 2 demo_imu (ones 12)) as [e1' [E1' [_ [S1 [N1 [_ [F1 _]]]]]]];
    [apply (reachable_inv _ R0)|reflexivity| |].
  { pose proof e9_pos. repeat split; cbn; auto. }
  rewrite E1 in E1'. injection E1' as <-.
  assert (L1 : layout (e_state e1) = (map LBody (seq 0 18) ++ imu_labels (2, demo_imu))%list) by (rewrite S1; reflexivity).
  assert (P1 : start_gps (e_state e0) = 18) by reflexivity.
  rewrite P1 in N1. destruct N1 as [A1 [A2 A3]].
  assert (Z1 : nr (e_cov e1) = 30) by (rewrite A1; reflexivity).
  assert (Z1' : nc (e_cov e1) = 30) by (rewrite A2; reflexivity).
  assert (Q1 : p_root (e_par e1) = true) by (rewrite (proj1 F1); reflexivity).
  destruct (dims_ok e1 I1) as [D1 _].
  assert (V1 : ent (e_cov e1) 19 19 = 1%R) by (rewrite A3 by lia; reflexivity).
  exists e1, 19. split; [exact R1|]. split; [exact Q1|]. split; [lia|]. split.
  - unfold logged, is_root. rewrite Q1, V1. lra.
  - pose proof (register_imu_named e0 2 demo_imu _ e1 (reachable_inv _ R0) C0) as H.
    destruct H as [_ _ H _]; [intros k []|exact E1|].
    specialize (H 1 1 (LImuExt 2 1) (LImuExt 2 1) eq_refl eq_refl).
    destruct H as [i [j [H1 [H2 H3]]]].
    assert (K : nth_error (layout (e_state e1)) 19 = Some (LImuExt 2 1)) by (rewrite L1; reflexivity).
    rewrite (layout_unique _ _ _ _ I1 H1 K) in H3. rewrite (layout_unique _ _ _ _ I1 H2 K) in H3.
    rewrite H3. change (p_root (e_par e0)) with true. cbn [stands_for]. unfold gram, mm, tr. cbn. lra.
Qed.

(** The stationary IMU row prints the square of the variance: here 1/100
    although the variance is 1/10. *)
Lemma stationary_refuted : exists e id s, reachable e /\ p_root (e_par e) = false /\ mfind id (s_imu (e_state e)) = Some s /\ i_ext s = true /\ i_index_ext s < e_size e /\ logged_sq e (i_index_ext s) = (1/100)%R /\ covariance e (i_index_ext s) (i_index_ext s) = (1/10)%R.
Proof.
  set (e0 := demo0 ANone false).
  assert (C0 : contract e0 (ORegImu 2 demo_imu (scaled (1/10) 12))) by (apply demo_imu_contract; intros; apply scaled_arg; lra).
  pose proof (demo0_reachable ANone false) as R0.
  destruct (step_inv e0 _ (reachable_inv _ R0) C0) as [e1 [E1 I1]].
  pose proof (reachable_step _ _ _ R0 C0 E1) as R1. cbn [step] in E1.
  destruct (RegisterIMU_ok e0 2 demo_imu (scaled (1/10) 12)) as [e1' [E1' [_ [S1 [N1 [_ [F1 _]]]]]]];
    [apply (reachable_inv _ R0)|reflexivity| |].
  { apply demo_imu_reg. }
  rewrite E1 in E1'. injection E1' as <-.
  assert (P1 : start_gps (e_state e0) = 18) by reflexivity.
  rewrite P1 in N1. destruct N1 as [A1 [A2 A3]].
  assert (Z1 : nr (e_cov e1) = 30) by (rewrite A1; reflexivity).
  assert (Z1' : nc (e_cov e1) = 30) by (rewrite A2; reflexivity).
  assert (Q1 : p_root (e_par e1) = false) by (rewrite (proj1 F1); reflexivity).
  destruct (dims_ok e1 I1) as [D1 _].
  assert (V1 : ent (e_cov e1) 18 18 = (1/10)%R).
  { rewrite A3 by lia. cbn. unfold mscal, idm. cbn. lra. }
  assert (M : exists s, mfind 2 (s_imu (e_state e1)) = Some s /\ i_ext s = true /\ i_index_ext s = 18).
  { rewrite S1. eexists. split; [reflexivity|]. split; reflexivity. }
  destruct M as [s [M1 [M2 M3]]].
  exists e1, 2, s. rewrite M3. split; [exact R1|]. split; [exact Q1|]. split; [exact M1|]. split; [exact M2|]. split; [lia|]. split.
  - unfold logged_sq. rewrite V1. lra.
  - unfold covariance. rewrite Q1. exact V1.
Qed.
