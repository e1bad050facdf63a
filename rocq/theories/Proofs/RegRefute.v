(** Registrations that attribute covariances to the wrong quantity. *)
From Coq Require Import Reals List Arith Bool Lia Lra.
From Verif Require Import Base.Res Base.Mat Base.RSum Base.LinAlg Base.Geom Base.AMap Base.RMat
  Model.TypeHelper Model.Types Model.MathHelperMat Model.Ekf Model.Ops
  Spec.Layout Spec.History Spec.Contract Spec.Named
  Proofs.MatSurgery Proofs.Refresh Proofs.Wf Proofs.Register Proofs.Augment Proofs.AugCov Proofs.Invariant
  Proofs.LayoutNoDup Proofs.Demo Proofs.Named Proofs.Clones Proofs.Same.
Import ListNotations.
Open Scope nat_scope.

Lemma demo0_reachable : forall a root, reachable (demo0 a root).
Proof.
  intros a root. exists (demo_par a root), demo_noise, v0, 0%R, [].
  split; [apply demo_noise_arg|]. split; [exact I|reflexivity].
Qed.

Lemma demo_imu_contract : forall e id c, (forall r, cov_arg r 12 c) -> contract e (ORegImu id demo_imu c).
Proof. intros e id c H _. split; [reflexivity|]. split; [apply H|]. pose proof e9_pos. cbn. auto. Qed.
Lemma demo_fid_contract : forall e c, (forall r, cov_arg r 6 c) -> contract e (ORegFid demo_fid c).
Proof. intros e c H _. split; [reflexivity|]. split; [apply H|]. pose proof e9_pos. cbn. auto. Qed.

Definition scaled (k : R) (n : nat) : mat R := mscale k (midm n n).
Lemma scaled_arg : forall k root n, (0 <= k)%R -> cov_arg root n (scaled k n).
Proof.
  intros k root n Hk. split; [cbn; lia|]. split; [cbn; lia|]. destruct root.
  - intros i j Hij. cbn. unfold mscal, idm. destruct (Nat.eqb_spec i j); [lia|ring].
  - cbn [ent scaled mscale midm]. apply psd_mscal; [exact Hk|apply psd_idm].
Qed.

Lemma demo_imu_reg : forall k, imu_reg_ok demo_imu (scaled k 12).
Proof. intros k. pose proof e9_pos. repeat split; cbn; auto. Qed.
Lemma demo_fid_reg : forall k, fid_reg_ok demo_fid (scaled k 6).
Proof. intros k. pose proof e9_pos. repeat split; cbn; auto. Qed.

(** The layout after the two registrations. *)
Lemma cov_is_at : forall e i j a b, nth_error (layout (e_state e)) i = Some a ->
  nth_error (layout (e_state e)) j = Some b -> cov_is e a b (covariance e i j).
Proof. intros e i j a b H1 H2. exists i, j. auto. Qed.

Lemma imu_order_refuted : exists e id st c e',
  reachable e /\ contract e (ORegImu id st c) /\ mfind id (s_imu (e_state e)) = None /\
  p_root (e_par e) = false /\ RegisterIMU e id st c = OK e' /\
  cov_is e (LImuExt 2 0) (LImuExt 2 0) (1/10)%R /\ ent c 0 0 = (1/5)%R /\ id = 1 /\
  cov_is e' (LImuExt 2 0) (LImuExt 2 0) (1/5)%R /\ cov_is e' (LImuExt 1 0) (LImuExt 1 0) (1/10)%R.
Proof.
  set (e0 := demo0 ANone false).
  assert (C0 : contract e0 (ORegImu 2 demo_imu (scaled (1/10) 12))) by (apply demo_imu_contract; intros; apply scaled_arg; lra).
  destruct (step_inv e0 _ (reachable_inv _ (demo0_reachable ANone false)) C0) as [e1 [E1 I1]].
  pose proof (reachable_step _ _ _ (demo0_reachable ANone false) C0 E1) as R1. cbn [step] in E1.
  assert (C1 : contract e1 (ORegImu 1 demo_imu (scaled (1/5) 12))) by (apply demo_imu_contract; intros; apply scaled_arg; lra).
  destruct (step_inv e1 _ I1 C1) as [e2 [E2 I2]]. cbn [step] in E2.
  destruct (RegisterIMU_ok e0 2 demo_imu (scaled (1/10) 12)) as [e1' [E1' [_ [S1 [N1 [_ [F1 _]]]]]]];
    [apply (reachable_inv _ (demo0_reachable ANone false))|reflexivity| |].
  { apply demo_imu_reg. }
  rewrite E1 in E1'. injection E1' as <-.
  assert (M1 : mfind 1 (s_imu (e_state e1)) = None) by (rewrite S1; reflexivity).
  destruct (RegisterIMU_ok e1 1 demo_imu (scaled (1/5) 12)) as [e2' [E2' [_ [S2 [N2 [_ [F2 _]]]]]]];
    [apply I1|exact M1| |].
  { apply demo_imu_reg. }
  rewrite E2 in E2'. injection E2' as <-.
  assert (L1 : layout (e_state e1) = map LBody (seq 0 18) ++ imu_labels (2, demo_imu)) by (rewrite S1; reflexivity).
  assert (L2 : layout (e_state e2) = map LBody (seq 0 18) ++ imu_labels (1, demo_imu) ++ imu_labels (2, demo_imu))
    by (rewrite S2, S1; reflexivity).
  assert (P1 : start_gps (e_state e0) = 18) by reflexivity.
  assert (P2 : start_gps (e_state e1) = 30) by (rewrite S1; reflexivity).
  assert (Q1 : p_root (e_par e1) = false) by (rewrite (proj1 F1); reflexivity).
  assert (Q2 : p_root (e_par e2) = false) by (rewrite (proj1 F2); exact Q1).
  rewrite P1 in N1. rewrite P2 in N2. destruct N1 as [A1 [A2 A3]]. destruct N2 as [B1 [B2 B3]].
  assert (Z1 : nr (e_cov e1) = 30) by (rewrite A1; reflexivity).
  assert (Z1' : nc (e_cov e1) = 30) by (rewrite A2; reflexivity).
  assert (Z2 : nr (e_cov e2) = 42) by (rewrite B1, Z1; reflexivity).
  assert (Z2' : nc (e_cov e2) = 42) by (rewrite B2, Z1'; reflexivity).
  assert (V1 : ent (e_cov e1) 18 18 = (1/10)%R).
  { rewrite A3 by lia. cbn. unfold mscal, idm. cbn. lra. }
  exists e1, 1, demo_imu, (scaled (1/5) 12), e2.
  split; [exact R1|]. split; [exact C1|]. split; [exact M1|]. split; [exact Q1|]. split; [exact E2|].
  split. { exists 18, 18. rewrite L1. split; [reflexivity|]. split; [reflexivity|]. unfold covariance. rewrite Q1. exact V1. }
  split. { cbn. unfold mscal, idm. cbn. lra. }
  split; [reflexivity|].
  split; [exists 30, 30|exists 18, 18]; rewrite L2; (split; [reflexivity|]; split; [reflexivity|]);
    unfold covariance; rewrite Q2; cbn [stands_for]; rewrite B3 by lia; cbn.
  - unfold mscal, idm. cbn. lra.
  - exact V1.
Qed.

(** In square-root form the supplied covariance is inserted as a factor. *)
Lemma root_block_refuted : exists e id st c e',
  reachable e /\ contract e (ORegImu id st c) /\ mfind id (s_imu (e_state e)) = None /\
  p_root (e_par e) = true /\ RegisterIMU e id st c = OK e' /\
  psd 12 (ent c) /\ ent c 0 0 = (1/10)%R /\ cov_is e' (LImuExt id 0) (LImuExt id 0) (1/100)%R.
Proof.
  set (e0 := demo0 ANone true).
  assert (C0 : contract e0 (ORegImu 2 demo_imu (scaled (1/10) 12))) by (apply demo_imu_contract; intros; apply scaled_arg; lra).
  destruct (step_inv e0 _ (reachable_inv _ (demo0_reachable ANone true)) C0) as [e1 [E1 I1]]. cbn [step] in E1.
  exists e0, 2, demo_imu, (scaled (1/10) 12), e1.
  split; [apply demo0_reachable|]. split; [exact C0|]. split; [reflexivity|]. split; [reflexivity|]. split; [exact E1|].
  split. { cbn [ent scaled mscale midm]. apply psd_mscal; [lra|apply psd_idm]. }
  split. { cbn. unfold mscal, idm. cbn. lra. }
  pose proof (register_imu_named e0 2 demo_imu _ e1 (reachable_inv _ (demo0_reachable ANone true)) C0) as H.
  destruct H as [_ _ H _]; [intros k []|exact E1|].
  specialize (H 0 0 (LImuExt 2 0) (LImuExt 2 0) eq_refl eq_refl).
  replace (1/100)%R with (stands_for (p_root (e_par e0)) (length (imu_labels (2, demo_imu))) (scaled (1/10) 12) 0 0); [exact H|].
  cbn. unfold gram, mm, tr. cbn. unfold mscal, idm. cbn. lra.
Qed.

(** Fiducials are inserted after the clones but indexed before them. *)
Lemma fid_after_clone_gen : forall e0, reachable e0 -> e_state e0 = default_state ->
  p_aug (e_par e0) = AAll -> p_root (e_par e0) = false -> e_max_len e0 = 20 -> e_size e0 = 18 ->
  (forall i, i < 18 -> ent (e_cov e0) i i = (1/100)%R) ->
  exists e st c e',
  reachable e /\ contract e (ORegFid st c) /\ mfind (f_id st) (s_fid (e_state e)) = None /\
  p_root (e_par e) = false /\ RegisterFiducial e st c = OK e' /\
  ent c 0 0 = (1/10)%R /\
  cov_is e (LAug 2 0 0) (LAug 2 0 0) (1/100)%R /\ cov_is e (LAug 2 0 0) (LBody 0) (1/100)%R /\
  cov_is e' (LAug 2 0 0) (LAug 2 0 0) (1/10)%R /\ cov_is e' (LAug 2 0 0) (LBody 0) 0%R /\
  cov_is e' (LFid (f_id st) 0) (LFid (f_id st) 0) (1/100)%R /\ cov_is e' (LFid (f_id st) 0) (LBody 0) (1/100)%R.
Proof.
  intros e0 R0 HS0 HA0 HR0 HM0 HZ0 HC0.
  pose proof (reachable_inv _ R0) as I0.
  destruct (step_inv e0 (OFrame 2 7) I0 I) as [e1 [E1 I1]].
  pose proof (reachable_step _ _ _ R0 (I : contract e0 (OFrame 2 7)) E1) as R1. cbn [step] in E1.
  assert (PF : per_frame e0 2 = true) by (unfold per_frame; rewrite HA0; reflexivity).
  assert (HL : length (aug_at e0 2) < e_max_len e0) by (unfold aug_at; rewrite HM0, HS0; cbn; lia).
  destruct (AugmentStateFrame_ok e0 2 7 (proj1 I0)) as [e1' [E1' [_ [F1 [_ [_ H1]]]]]].
  rewrite E1 in E1'. injection E1' as <-. destruct (H1 PF) as [S1 [_ [HN _]]]. destruct (HN HL) as [Z1 [_ EA]]. clear H1 HN.
  assert (L1 : layout (e_state e1) = map LBody (seq 0 18) ++ six (LAug 2 0)) by (rewrite S1; unfold aug_at; rewrite ?HM0, ?HS0; reflexivity).
  assert (Q1 : p_root (e_par e1) = false) by (rewrite (proj1 F1); exact HR0).
  destruct (frame_clone_named e0 2 7 e1 I0 PF HL E1) as [_ HI].
  replace (length (aug_at e0 2)) with 0 in HI by (unfold aug_at; rewrite HS0; reflexivity).
  assert (D0 : forall i, i < 18 -> cov_is e0 (LBody i) (LBody i) (1/100)%R).
  { intros i Hi. exists i, i. assert (X : nth_error (layout (e_state e0)) i = Some (LBody i)).
    { rewrite HS0. change (layout default_state) with (map LBody (seq 0 18) ++ []). rewrite app_nil_r. apply nth_seq_map. exact Hi. }
    split; [exact X|]. split; [exact X|]. unfold covariance. rewrite HR0. cbn [stands_for]. apply HC0. exact Hi. }
  assert (V1 : cov_is e1 (LAug 2 0 0) (LAug 2 0 0) (1/100)%R).
  { apply HI; [rewrite L1; apply in_or_app; right; left; reflexivity..|]. apply (D0 0). lia. }
  assert (V2 : cov_is e1 (LAug 2 0 0) (LBody 0) (1/100)%R).
  { apply HI; [rewrite L1; apply in_or_app; right; left; reflexivity|rewrite L1; apply in_or_app; left; left; reflexivity|]. apply (D0 0). lia. }
  assert (U1 : ent (e_cov e1) 18 18 = (1/100)%R).
  { destruct V1 as [i [j [H1 [H2 H3]]]]. assert (K : nth_error (layout (e_state e1)) 18 = Some (LAug 2 0 0)) by (rewrite L1; reflexivity).
    rewrite (layout_unique _ _ _ _ I1 H1 K) in H3. rewrite (layout_unique _ _ _ _ I1 H2 K) in H3.
    unfold covariance in H3. rewrite Q1 in H3. exact H3. }
  assert (U2 : ent (e_cov e1) 18 0 = (1/100)%R).
  { destruct V2 as [i [j [H1 [H2 H3]]]]. assert (K : nth_error (layout (e_state e1)) 18 = Some (LAug 2 0 0)) by (rewrite L1; reflexivity).
    assert (K' : nth_error (layout (e_state e1)) 0 = Some (LBody 0)) by (rewrite L1; reflexivity).
    rewrite (layout_unique _ _ _ _ I1 H1 K) in H3. rewrite (layout_unique _ _ _ _ I1 H2 K') in H3.
    unfold covariance in H3. rewrite Q1 in H3. exact H3. }
  assert (C1 : contract e1 (ORegFid demo_fid (scaled (1/10) 6))) by (apply demo_fid_contract; intros; apply scaled_arg; lra).
  destruct (step_inv e1 _ I1 C1) as [e2 [E2 I2]]. cbn [step] in E2.
  assert (M1 : mfind (f_id demo_fid) (s_fid (e_state e1)) = None) by (rewrite S1; unfold aug_at; rewrite ?HM0, ?HS0; reflexivity).
  destruct (RegisterFiducial_ok e1 demo_fid (scaled (1/10) 6)) as [e2' [E2' [_ [S2 [N2 [_ [F2 _]]]]]]];
    [apply I1|exact M1| |].
  { apply demo_fid_reg. }
  rewrite E2 in E2'. injection E2' as <-.
  assert (Z1' : e_size e1 = 24) by (rewrite Z1, HZ0; reflexivity).
  rewrite Z1' in N2. destruct N2 as [B1 [B2 B3]].
  pose proof (wf_nr _ (proj1 I1)) as W3. pose proof (wf_nc _ (proj1 I1)) as W4. rewrite Z1' in W3, W4.
  assert (B1' : nr (e_cov e2) = 30) by (rewrite B1, W3; reflexivity).
  assert (B2' : nc (e_cov e2) = 30) by (rewrite B2, W4; reflexivity).
  assert (L2 : layout (e_state e2) = map LBody (seq 0 18) ++ six (LFid 4) ++ six (LAug 2 0)) by (rewrite S2, S1; unfold aug_at; rewrite ?HM0, ?HS0; reflexivity).
  assert (Q2 : p_root (e_par e2) = false) by (rewrite (proj1 F2); exact Q1).
  exists e1, demo_fid, (scaled (1/10) 6), e2.
  split; [exact R1|]. split; [exact C1|]. split; [exact M1|]. split; [exact Q1|]. split; [exact E2|].
  split. { cbn. unfold mscal, idm. cbn. lra. }
  split; [exact V1|]. split; [exact V2|].
  split; [exists 24, 24|split; [exists 24, 0|split; [exists 18, 18|exists 18, 0]]]; rewrite L2;
    (split; [reflexivity|]; split; [reflexivity|]);
    unfold covariance; rewrite Q2; cbn [stands_for]; rewrite B3 by lia; cbn.
  - unfold mscal, idm. cbn. lra.
  - reflexivity.
  - exact U1.
  - exact U2.
Qed.

Lemma fid_after_clone_refuted : exists e st c e',
  reachable e /\ contract e (ORegFid st c) /\ mfind (f_id st) (s_fid (e_state e)) = None /\
  p_root (e_par e) = false /\ RegisterFiducial e st c = OK e' /\
  ent c 0 0 = (1/10)%R /\
  cov_is e (LAug 2 0 0) (LAug 2 0 0) (1/100)%R /\ cov_is e (LAug 2 0 0) (LBody 0) (1/100)%R /\
  cov_is e' (LAug 2 0 0) (LAug 2 0 0) (1/10)%R /\ cov_is e' (LAug 2 0 0) (LBody 0) 0%R /\
  cov_is e' (LFid (f_id st) 0) (LFid (f_id st) 0) (1/100)%R /\ cov_is e' (LFid (f_id st) 0) (LBody 0) (1/100)%R.
Proof.
  apply (fid_after_clone_gen (demo0 AAll false)); try reflexivity; [apply demo0_reachable|].
  intros i Hi. cbn. unfold mscal, idm. rewrite Nat.eqb_refl. lra.
Qed.
