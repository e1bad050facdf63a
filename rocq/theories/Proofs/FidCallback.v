(** The fiducial callback. *)
From Coq Require Import Reals List Arith Bool Lia Lra.
From Verif Require Import Base.Res Base.Mat Base.RDec Base.RSum Base.LinAlg Base.Inverse Base.Geom Base.AMap Base.RMat
  Model.TypeHelper Model.Types Model.MathHelperMat Model.MathHelper Model.Matrix3 Model.Ekf Model.Updater Model.Ops
  Model.ImuUpdater Model.FiducialUpdater
  Spec.Layout Spec.History Spec.Contract Spec.Correct Spec.Named Spec.Same Spec.Callback Spec.KF
  Proofs.Refresh Proofs.Wf Proofs.Register Proofs.Augment Proofs.Invariant Proofs.Named Proofs.Same Proofs.Update
  Proofs.Scalars Proofs.Clock Proofs.Effects Proofs.Columns Proofs.Kalman Proofs.CovGood Proofs.Follows Proofs.BlockDiag
  Proofs.ImuCallback.
Import ListNotations.
Open Scope nat_scope.

Definition fknows (u : fid_updater) (e : ekf) (c : CamState) (f : FidState) : Prop :=
  mfind (fu_cam u) (s_cam (e_state e)) = Some c /\ at_most (fu_cam_ext u) (c_ext c) /\
  mfind (fu_id u) (s_fid (e_state e)) = Some f /\ f_ext f = fu_ext u.
Definition fsame (u u' : fid_updater) : Prop :=
  fu_id u' = fu_id u /\ fu_cam u' = fu_cam u /\ fu_ext u' = fu_ext u /\ fu_cam_ext u' = fu_cam_ext u.
(** Linearisation poses are there when they will be used. *)
Definition fid_ready (u : fid_updater) : Prop := fu_first u = true \/ fu_poses u <> None.

Lemma fsame_trans : forall a b c, fsame a b -> fsame b c -> fsame a c.
Proof. unfold fsame. intros a b c H1 H2. decompose [and] H1. decompose [and] H2. repeat split; congruence. Qed.
Lemma fsame_knows : forall u u' e c f, fsame u u' -> fknows u e c f -> fknows u' e c f.
Proof. unfold fsame, fknows. intros u u' e c f [A [B [C D]]] H. rewrite A, B, C, D. exact H. Qed.
Lemma fknows_keeps : forall u e e' c f, fknows u e c f -> keeps (e_state e) (e_state e') -> exists c' f', fknows u e' c' f'.
Proof.
  intros u e e' c f [H [H1 [H2 H3]]] [_ [_ [K1 [K2 _]]]]. destruct (K1 _ _ H) as [x [X X1]]. destruct (K2 _ _ H2) as [y [Y Y1]].
  exists x, y. split; [exact X|]. split; [intros Z; rewrite X1; auto|]. split; congruence.
Qed.

Lemma fid_refresh_ok : forall u e c f, fknows u e c f -> fid_ready u ->
  exists p u', fid_RefreshStates u e = OK (p, u', e) /\ fsame u u' /\ fid_ready u'.
Proof.
  intros u e c f [H [H1 [H2 H3]]] HR. unfold fid_RefreshStates. destruct (negb _ || fu_first u) eqn:X.
  - rewrite (get_cam_same _ _ _ H). unfold fid_at. rewrite H2. cbn [bind]. do 2 eexists. split; [reflexivity|].
    split; [repeat split|]. right. discriminate.
  - apply orb_false_iff in X. destruct X as [_ X]. destruct HR as [HR|HR]; [congruence|].
    destruct (fu_poses u) as [p|] eqn:E; [|congruence]. exists p, u. split; [reflexivity|]. split; [repeat split|].
    right. congruence.
Qed.

Ltac nextb X1 X2 :=
  match goal with |- context [bind (set_block ?m ?i ?j 3 3 ?b) _] =>
    let m' := fresh "m" in let E := fresh "E" in let N1 := fresh "N" in let N2 := fresh "N" in
    destruct (sb m i j 3 3 b) as [m' [E [N1 N2]]]; [rewrite ?X1; lia|rewrite ?X2; lia|reflexivity|reflexivity|];
    rewrite E; cbn [bind]; clear E; rewrite X1 in N1; rewrite X2 in N2; clear X1 X2 m; rename N1 into X1; rename N2 into X2 end.

Lemma fid_jac_ok : forall u e c f, reachable e -> fknows u e c f -> fid_ready u ->
  exists j u', fid_GetMeasurementJacobian u e = OK (j, u', e) /\ fsame u u' /\ fid_ready u' /\ nr j = 6 /\ nc j = e_size e.
Proof.
  intros u e c f Hr HK HR. unfold fid_GetMeasurementJacobian.
  destruct (fid_refresh_ok u e c f HK HR) as [[[[pc ac] pf] af] [u' [E' [S' R']]]]. rewrite E'. cbn [bind].
  pose proof (fsame_knows _ _ _ _ _ S' HK) as [H [H1 [H2 H3]]].
  pose proof (size_ge e (proj1 (reachable_inv e Hr))) as G.
  assert (X0 : nr (mzero g_fid_measurement_size (e_size e)) = 6 /\ nc (mzero g_fid_measurement_size (e_size e)) = e_size e) by (split; reflexivity).
  revert X0. generalize (mzero g_fid_measurement_size (e_size e)). intros m0 [X1 X2].
  nextb X1 X2. nextb X1 X2. nextb X1 X2.
  match goal with |- context [bind ?x _] => match x with context [fu_cam_ext u'] =>
    assert (Y : exists j, x = OK (j, e) /\ nr j = 6 /\ nc j = e_size e) end end.
  { destruct (fu_cam_ext u') eqn:CE; [|eexists; eauto]. pose proof (H1 eq_refl) as H1'.
    rewrite (get_cam_same _ _ _ H). pose proof (cam_bounds e _ c Hr H H1') as B. cbv zeta.
    nextb X1 X2. nextb X1 X2. nextb X1 X2. eexists. eauto. }
  clear X1 X2. destruct Y as [j [E2 [X1 X2]]]. rewrite E2. cbn [bind]. clear E2.
  destruct (fu_ext u').
  - unfold fid_at. rewrite H2. cbn [bind]. pose proof (fid_bounds e _ f Hr H2 H3) as B.
    nextb X1 X2. match goal with |- context [set_block ?m ?i ?j 3 3 ?b] =>
      destruct (sb m i j 3 3 b) as [m' [E [N1 N2]]]; [lia|lia|reflexivity|reflexivity|] end.
    rewrite E. cbn [bind]. exists m', u'. split; [reflexivity|]. split; [exact S'|]. split; [exact R'|]. split; congruence.
  - cbn [bind]. exists j, u'. auto.
Qed.

Lemma board_noise_ok : forall root b, errors_positive b -> exists N, board_noise b = OK N /\ noise_ok root 6 N.
Proof.
  intros root b H. unfold board_noise.
  rewrite set_block_ok by (cbn; unfold g_fid_measurement_size; auto; lia). cbn [bind].
  rewrite set_block_ok by (cbn; unfold g_fid_measurement_size; auto; lia).
  eexists. split; [reflexivity|].
  apply (diag_noise_ok root 6 _ (fun i => if Nat.ltb i 3 then vget (bd_pos_error b) i else vget (bd_ang_error b) (i - 3)));
    [reflexivity|reflexivity| |].
  - intros i Hi. destruct b as [p a pe ae]. cbn [bd_pos_error bd_ang_error]. unfold errors_positive in H. cbn in H.
    do 6 (destruct i as [|i]; [cbn; tauto|]). lia.
  - intros i j Hi Hj. do 6 (destruct i as [|i]; [do 6 (destruct j as [|j]; [reflexivity|]); lia|]). lia.
Qed.

Record fid_done (u : fid_updater) (e : ekf) (t : R) (u' : fid_updater) (e' : ekf) : Prop := mkFidDone {
  fd_went : went e e';
  fd_brought : brought e t e';
  fd_u : fsame u u';
  fd_ready : fid_ready u';
  fd_grav : e_gravity e' = e_gravity e;
  fd_lla : e_lla_init e' = e_lla_init e }.

Lemma fid_callback : forall mat_quat u e t b ext, reachable e -> has_cam e (fu_cam u) ext -> at_most (fu_cam_ext u) ext ->
  has_fid e (fu_id u) (fu_ext u) -> fid_ready u -> errors_positive b ->
  exists u' e', fid_UpdateEKF mat_quat u e t b = OK (u', e') /\ fid_done u e t u' e'.
Proof.
  intros mq u e t b ext Hr [c [H1 H2]] HX [f [H3 H4]] HR HB.
  assert (HK : fknows u e c f) by (subst ext; repeat split; auto).
  unfold fid_UpdateEKF. rewrite local_of_split.
  destruct (local_went e t Hr) as [W0 [L0 [T0 [I0 [F0 [S0 [LL0 GG0]]]]]]].
  set (e0 := snd (CalculateLocalTime e t)) in *. rewrite L0. clearbody e0.
  destruct (predict_went e0 (local_of e t) (w_reach _ _ W0)) as [e1 [E1 [W1 [T1 [T2 [T3 F1]]]]]].
  rewrite E1. cbn [bind]. unfold frame' in F1. cbn in F1. decompose [and] F1. clear F1.
  assert (W : went e e1) by (eapply went_trans; eauto).
  destruct (fknows_keeps u e e1 c f HK (w_keeps _ _ W)) as [c1 [f1 HK1]]. pose proof (w_reach _ _ W) as Hr1.
  unfold fid_PredictMeasurement. destruct (fid_refresh_ok u e1 c1 f1 HK1 HR) as [[[[pc ac] pf] af] [u1 [E2 [S1 R1]]]].
  rewrite E2. cbn [bind].
  pose proof (fsame_knows _ _ _ _ _ S1 HK1) as HK2.
  destruct (fid_jac_ok u1 e1 c1 f1 Hr1 HK2 R1) as [j [u2 [E3 [S2 [R2 [J1 J2]]]]]]. rewrite E3. cbn [bind].
  destruct (board_noise_ok (p_root (e_par e1)) b HB) as [N [EN NN]]. rewrite EN. cbn [bind].
  match goal with |- context [KalmanUpdate _ _ ?r _] => destruct (kalman_went e1 j r N Hr1) as [e2 [E4 [W2 [S F]]]] end.
  { apply (noise_meas _ 6); auto. }
  rewrite E4. cbn [bind]. exists u2, e2. split; [reflexivity|].
  unfold frame' in F. decompose [and] F. destruct S as [Sa [Sb Sc]].
  constructor.
  - eapply went_trans; eauto.
  - apply (clock_brought e t e0); auto; congruence.
  - eapply fsame_trans; eauto.
  - exact R2.
  - congruence.
  - congruence.
Qed.
