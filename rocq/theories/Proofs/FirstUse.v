(** Updaters keep the sensor poses they were first used with. *)
From Coq Require Import Reals ZArith List Arith Bool Lia Lra.
From Verif Require Import Base.Res Base.Mat Base.RDec Base.RSum Base.LinAlg Base.Inverse Base.Geom Base.AMap Base.RMat
  Model.TypeHelper Model.Types Model.MathHelperMat Model.MathHelper Model.Matrix3 Model.QR Model.Ekf Model.Updater Model.Ops
  Model.GpsHelper Model.ImuUpdater Model.GpsUpdater Model.FiducialUpdater Model.MsckfUpdater Model.Sensors
  Spec.Layout Spec.History Spec.Contract Spec.Correct Spec.Named Spec.Same Spec.Callback Spec.KF Spec.Unused Spec.Towards
  Spec.World Spec.FirstUse
  Proofs.Invariant Proofs.ZeroStep Proofs.SteadyFrames Proofs.Ids Proofs.World Proofs.StationaryFinals.
Import ListNotations.
Open Scope nat_scope.

Lemma par_of : forall e e', steady 0 e e' -> e_par e' = e_par e.
Proof. intros e e' H. apply H. Qed.

(** *** Each updater *)
Lemma gps_refresh_frozen : forall u e, p_fej (e_par e) = true -> gu_first u = false -> gps_refresh u e = (u, e).
Proof. intros u e H F. unfold gps_refresh. rewrite H, F. reflexivity. Qed.

Lemma gps_jac_frozen : forall u e j u' e', p_fej (e_par e) = true -> gu_first u = false ->
  gps_GetMeasurementJacobian u e = OK (j, u', e') -> u' = u.
Proof.
  intros u e j u' e' H F E. unfold gps_GetMeasurementJacobian in E. rewrite (gps_refresh_frozen u e H F) in E. cbv zeta in E.
  opn E. opn E. destruct (gu_ext u).
  - destruct (GetGpsState e (gu_id u)) as [s e1]. opn E. injection E as _ <- _. reflexivity.
  - injection E as _ <- _. reflexivity.
Qed.

Lemma multi_frozen : forall ecef xyz u e ref h i jac resid j r u' e', p_fej (e_par e) = true -> gu_first u = false ->
  multi_rows u e ref h ecef xyz i jac resid = OK (j, r, u', e') -> u' = u.
Proof.
  induction ecef as [|p ecef IH]; intros xyz u e ref h i jac resid j r u' e' H F E; cbn [multi_rows] in E.
  - injection E as _ _ <- _. reflexivity.
  - destruct xyz as [|x xyz]; [discriminate|]. opn E. opn E. destruct x1 as [[j1 u1] e1]. opn E. opn E.
    pose proof (gps_jac_frozen _ _ _ _ _ H F B0) as ->. eapply IH; [|exact F|exact E].
    rewrite (par_of _ _ (steady_gps_jac 0 _ _ _ _ _ B0)). exact H.
Qed.

Lemma gps_frozen : forall svd hull ecef_to_lla u e t lla N u' e', p_fej (e_par e) = true -> gu_first u = false ->
  gps_UpdateEKF svd hull ecef_to_lla u e t lla N = OK (u', e') -> u' = u.
Proof.
  intros svd hull ecef u e t lla N u' e' HJ F H. unfold gps_UpdateEKF in H.
  destruct (CalculateLocalTime e t) as [lt e0] eqn:EL. opn H. rename x into e1.
  pose proof (par_of _ _ (steady_trans _ _ _ _ (steady_local 0 _ _ _ _ EL) (steady_predict 0 _ _ _ B))) as S. cbv zeta in H.
  assert (HJ1 : p_fej (e_par e1) = true) by (rewrite S; exact HJ).
  destruct (negb (e_lla_init e1)).
  - opn H. rename x into e2.
    assert (S2 : e_par e2 = e_par e1).
    { unfold AttemptGps in B0. opn B0. opn B0. injection B0 as <-. unfold AttemptGpsInitialization.
      cbv zeta. destruct (Nat.leb _ _); [destruct x0 as [[p a]|]|]; reflexivity. }
    destruct (e_lla_init e2); [|injection H as <- _; reflexivity].
    unfold MultiUpdateEKF in H. opn H. destruct x as [[[j r] u1] e3].
    assert (HJ2 : p_fej (e_par e2) = true) by (rewrite S2; exact HJ1).
    pose proof (multi_frozen _ _ _ _ _ _ _ _ _ _ _ _ _ HJ2 F B1) as ->.
    opn H. destruct x as [j2 r2]. destruct (Nat.leb _ _); [injection H as <- _; reflexivity|]. opn H. injection H as <- _. reflexivity.
  - opn H. unfold gps_PredictMeasurement in H. rewrite (gps_refresh_frozen u e1 HJ1 F) in H. cbv zeta in H.
    opn H. destruct x0 as [[j u2] e3]. pose proof (gps_jac_frozen _ _ _ _ _ HJ1 F B1) as ->. opn H. injection H as <- _. reflexivity.
Qed.

Lemma fid_refresh_frozen : forall u e x u' e', p_fej (e_par e) = true -> fu_first u = false ->
  fid_RefreshStates u e = OK (x, u', e') -> u' = u /\ e' = e.
Proof.
  intros u e x u' e' H F E. unfold fid_RefreshStates in E. rewrite H, F in E. cbn [negb orb] in E.
  destruct (fu_poses u); [|discriminate]. injection E as _ <- <-. auto.
Qed.

Lemma fid_frozen : forall mat_quat u e t b u' e', p_fej (e_par e) = true -> fu_first u = false ->
  fid_UpdateEKF mat_quat u e t b = OK (u', e') -> u' = u.
Proof.
  intros mq u e t b u' e' HJ F H. unfold fid_UpdateEKF in H.
  destruct (CalculateLocalTime e t) as [lt e0] eqn:EL. opn H. rename x into e1.
  pose proof (par_of _ _ (steady_trans _ _ _ _ (steady_local 0 _ _ _ _ EL) (steady_predict 0 _ _ _ B))) as S.
  assert (HJ1 : p_fej (e_par e1) = true) by (rewrite S; exact HJ).
  opn H. destruct x as [[[pp ap] u1] e2]. opn H. destruct x as [[j u2] e3]. opn H. opn H. injection H as <- _.
  unfold fid_PredictMeasurement in B0. opn B0. destruct x1 as [[[[[a b0] c] d] u3] e4].
  destruct (fid_refresh_frozen _ _ _ _ _ HJ1 F B4) as [-> ->]. injection B0 as _ _ <- <-.
  unfold fid_GetMeasurementJacobian in B1. opn B1. destruct x1 as [[[[[a1 b1] c1] d1] u4] e5].
  destruct (fid_refresh_frozen _ _ _ _ _ HJ1 F B0) as [-> ->].
  opn B1. opn B1. opn B1. opn B1. destruct x4 as [j4 e6]. opn B1. injection B1 as _ <- _. reflexivity.
Qed.

Lemma msckf_frozen : forall solve u e t tracks px u' e', p_fej (e_par e) = true -> mu_first u = false ->
  msckf_UpdateEKF solve u e t tracks px = OK (u', e') -> u' = u.
Proof.
  intros solve u e t tracks px u' e' HJ F H. unfold msckf_UpdateEKF in H.
  destruct (CalculateLocalTime e t) as [lt e0] eqn:EL. opn H. rename x into e1.
  pose proof (par_of _ _ (steady_trans _ _ _ _ (steady_local 0 _ _ _ _ EL) (steady_predict 0 _ _ _ B))) as S.
  assert (HJ1 : p_fej (e_par e1) = true) by (rewrite S; exact HJ).
  destruct tracks as [|tr tracks]; [injection H as <- _; reflexivity|].
  rewrite HJ1, F in H. cbn [negb orb] in H.
  destruct (mu_poses u) as [[[ci pc] ac]|]; [|discriminate]. cbv zeta in H.
  destruct (GetCamState e1 (mu_id u)) as [c e3]. opn H. destruct x as [[[hx rx] ct] e4].
  destruct (Nat.eqb ct 0); [injection H as <- _; reflexivity|]. opn H. destruct x as [hx2 rx2].
  destruct (Nat.leb _ 1); [injection H as <- _; reflexivity|]. opn H. injection H as <- _. reflexivity.
Qed.

(** *** The trackers of a camera *)
Definition tr_frozen (trs trs' : amap tracker) : Prop :=
  forall k tr, mfind k trs = Some tr -> mu_first (tk_upd tr) = false -> mfind k trs' = Some tr.
Definition fid_frozen_all (fids fids' : amap fid_updater) : Prop :=
  forall k f, mfind k fids = Some f -> fu_first f = false -> mfind k fids' = Some f.

Lemma track_frozen : forall solve t l trs e trs' e', p_fej (e_par e) = true ->
  track_all solve trs e t l = OK (trs', e') -> tr_frozen trs trs'.
Proof.
  intros solve t. induction l as [|[j ts] l IH]; intros trs e trs' e' HJ H; cbn [track_all] in H.
  - injection H as <- _. intros k tr X _. exact X.
  - destruct ts as [|tr ts]; [eapply IH; eauto|]. destruct (mfind j trs) as [tk|] eqn:Ej; [|discriminate].
    opn H. destruct x as [u1 e1]. intros k x Hk Hf. eapply IH; [|exact H| |exact Hf].
    + rewrite (par_of _ _ (steady_msckf solve 0 _ _ _ _ _ _ _ B)). exact HJ.
    + destruct (Nat.eq_dec k j) as [->|N]; [|rewrite mfind_mset_neq by exact N; exact Hk].
      rewrite Ej in Hk. injection Hk as ->. rewrite (msckf_frozen _ _ _ _ _ _ _ _ HJ Hf B).
      rewrite mfind_mset_eq. destruct x; reflexivity.
Qed.

Lemma board_frozen : forall mq t l fids e fids' e', p_fej (e_par e) = true ->
  board_all mq fids e t l = OK (fids', e') -> fid_frozen_all fids fids'.
Proof.
  intros mq t. induction l as [|[j b] l IH]; intros fids e fids' e' HJ H; cbn [board_all] in H.
  - injection H as <- _. intros k f X _. exact X.
  - destruct (mfind j fids) as [u|] eqn:Ej; [|discriminate]. destruct b as [d|]; [|eapply IH; eauto].
    opn H. destruct x as [u1 e1]. intros k x Hk Hf. eapply IH; [|exact H| |exact Hf].
    + rewrite (par_of _ _ (steady_fid mq 0 _ _ _ _ _ _ B)). exact HJ.
    + destruct (Nat.eq_dec k j) as [->|N]; [|rewrite mfind_mset_neq by exact N; exact Hk].
      rewrite Ej in Hk. injection Hk as ->. rewrite (fid_frozen _ _ _ _ _ _ _ HJ Hf B). apply mfind_mset_eq.
Qed.

Lemma camera_frozen : forall mq solve trs fids e id t frame tracks boards trs' fids' e', p_fej (e_par e) = true ->
  sim_camera_Callback mq solve trs fids e id t frame tracks boards = OK (trs', fids', e') ->
  frozen (SCam trs fids) (SCam trs' fids').
Proof.
  intros mq solve trs fids e id t frame tracks boards trs' fids' e' HJ H. unfold sim_camera_Callback in H.
  destruct (CalculateLocalTime e t) as [lt e0] eqn:EL. opn H. rename x into e1. opn H. rename x into e2.
  opn H. destruct x as [t3 e3]. opn H. destruct x as [f4 e4]. injection H as <- <- _.
  pose proof (par_of _ _ (steady_trans _ _ _ _ (steady_local 0 _ _ _ _ EL) (steady_predict 0 _ _ _ B))) as S.
  destruct (frame_same _ _ _ _ B0) as [S2 _].
  assert (HJ2 : p_fej (e_par e2) = true) by (rewrite S2, S; exact HJ).
  split; [exact (track_frozen _ _ _ _ _ _ _ HJ2 B1)|].
  refine (board_frozen _ _ _ _ _ _ _ _ B2). rewrite (par_of _ _ (steady_track_all solve 0 _ _ _ _ _ _ B1)). exact HJ2.
Qed.

Lemma image_frozen : forall mq solve c trs fids e id t image seen board trs' fids' c' e', p_fej (e_par e) = true ->
  camera_Callback mq solve c trs fids e id t image seen board = OK (trs', fids', c', e') ->
  frozen (SCam trs fids) (SCam trs' fids').
Proof.
  intros mq solve c trs fids e id t image seen board trs' fids' c' e' HJ H. unfold camera_Callback in H.
  destruct (image && _); [|injection H as <- <- _ _; split; auto].
  destruct (CalculateLocalTime e t) as [lt e0] eqn:EL. opn H. rename x into e1.
  destruct (GenerateFrameID c) as [fr c1]. opn H. rename x into e2.
  opn H. destruct x as [t3 e3]. opn H. destruct x as [f4 e4]. injection H as <- <- _ _.
  pose proof (par_of _ _ (steady_trans _ _ _ _ (steady_local 0 _ _ _ _ EL) (steady_predict 0 _ _ _ B))) as S.
  destruct (frame_same _ _ _ _ B0) as [S2 _].
  assert (HJ2 : p_fej (e_par e2) = true) by (rewrite S2, S; exact HJ).
  split; [exact (track_frozen _ _ _ _ _ _ _ HJ2 B1)|].
  refine (board_frozen _ _ _ _ _ _ _ _ B2). rewrite (par_of _ _ (steady_track_all solve 0 _ _ _ _ _ _ B1)). exact HJ2.
Qed.

(** *** Whole programs *)
Lemma frozen_refl : forall s, frozen s s.
Proof. intros [u|u|trs fids]; cbn; auto. Qed.
Lemma frozen_trans : forall a b c, frozen a b -> frozen b c -> frozen a c.
Proof.
  intros [u|u|t f] [u1|u1|t1 f1] [u2|u2|t2 f2]; cbn; try tauto.
  - intros H1 H2 F. rewrite <- (H1 F). apply H2. rewrite (H1 F). exact F.
  - intros [A1 A2] [B1 B2]. split; intros k x Hk Hf; auto.
Qed.

Section W.
Variable svd : m2 -> m2 * m2.
Variable hull : list (Z * Z) -> list (Z * Z).
Variable ecef_to_lla : V3 -> V3.
Variable mat_quat : mat R -> quat.
Variable solve : mat R -> V3 -> V3.
Notation wstep' := (wstep svd hull ecef_to_lla mat_quat solve).
Notation wrun' := (wrun svd hull ecef_to_lla mat_quat solve).

Lemma put_frozen : forall m (i : nat) s0 s1 id s, mfind i m = Some s0 -> frozen s0 s1 -> mfind id m = Some s ->
  exists s', mfind id (mset i s1 m) = Some s' /\ frozen s s'.
Proof.
  intros m i s0 s1 id s Hi Hs H. destruct (Nat.eq_dec id i) as [->|N].
  - rewrite Hi in H. injection H as ->. exists s1. rewrite mfind_mset_eq. auto.
  - exists s. rewrite mfind_mset_neq by exact N. auto using frozen_refl.
Qed.

Lemma wstep_frozen : forall w v w' id s, p_fej (e_par (w_ekf w)) = true -> wstep' w v = OK w' ->
  id <= n_sensors (w_cnt w) -> mfind id (w_sensors w) = Some s ->
  exists s', mfind id (w_sensors w') = Some s' /\ frozen s s'.
Proof.
  intros w v w' id s HJ E LE F.
  assert (SAME : mfind id (w_sensors w') = Some s -> exists s', mfind id (w_sensors w') = Some s' /\ frozen s s')
    by (intros Q; exists s; auto using frozen_refl).
  destruct v as [p|p|p ts fs|m|i t image seen board|o]; cbn [wstep] in *.
  - apply SAME. unfold imu_new in E. cbn [new_sensor_id] in E. destruct (imu_cov_of p); cbn [bind] in E; [|discriminate].
    destruct (RegisterIMU _ _ _ _); cbn [bind] in E; [|discriminate]. injection E as <-. cbn. rewrite mfind_mset_neq by lia. exact F.
  - apply SAME. unfold gps_new in E. cbn [new_sensor_id] in E.
    destruct (RegisterGPS _ _ _ _); cbn [bind] in E; [|discriminate]. injection E as <-. cbn. rewrite mfind_mset_neq by lia. exact F.
  - apply SAME. destruct (camera_new (w_cnt w) (w_ekf w) p ts fs) as [[[[i s'] c] e']|] eqn:E'; cbn [bind] in E; [|discriminate].
    injection E as <-. apply camera_new_ids in E'. destruct E' as [-> _]. cbn. rewrite mfind_mset_neq by lia. exact F.
  - unfold deliver in E. destruct (mfind (msg_id m) (w_sensors w)) as [s0|] eqn:G; [|injection E as <-; auto].
    destruct m as [i t acc A omg W|i t lla N|i t frame tracks boards|i t]; cbn [msg_id] in G;
      destruct s0 as [u0|u0|trs fids]; try discriminate; try (injection E as <-; auto; fail).
    + destruct (imu_UpdateEKF _ _ _ _ _ _ _) as [[u' e']|]; cbn [bind] in E; [|discriminate]. injection E as <-. cbn.
      eapply put_frozen; [exact G|exact I|exact F].
    + destruct (gps_UpdateEKF _ _ _ _ _ _ _ _) as [[u' e']|] eqn:EU; cbn [bind] in E; [|discriminate]. injection E as <-. cbn.
      eapply put_frozen; [exact G| |exact F]. intros Hf. exact (gps_frozen _ _ _ _ _ _ _ _ _ _ HJ Hf EU).
    + destruct (sim_camera_Callback _ _ _ _ _ _ _ _ _ _) as [[[a b] e']|] eqn:EU; cbn [bind] in E; [|discriminate]. injection E as <-. cbn.
      eapply put_frozen; [exact G| |exact F]. exact (camera_frozen _ _ _ _ _ _ _ _ _ _ _ _ _ HJ EU).
  - destruct (mfind i (w_sensors w)) as [s0|] eqn:G; [|injection E as <-; auto].
    destruct s0 as [u0|u0|trs fids]; try discriminate.
    destruct (camera_Callback _ _ _ _ _ _ _ _ _ _ _) as [[[[a b] c] e']|] eqn:EU; cbn [bind] in E; [|discriminate]. injection E as <-. cbn.
    eapply put_frozen; [exact G| |exact F]. exact (image_frozen _ _ _ _ _ _ _ _ _ _ _ _ _ _ _ HJ EU).
  - apply SAME. destruct (step (w_ekf w) o) as [e'|] eqn:E'; [|discriminate]. injection E as <-. exact F.
Qed.

Lemma wrun_frozen : forall l w w' id s, winv w -> idinv w -> p_fej (e_par (w_ekf w)) = true ->
  events_ok svd hull ecef_to_lla mat_quat solve w l -> wrun' w l = OK w' -> mfind id (w_sensors w) = Some s ->
  exists s', mfind id (w_sensors w') = Some s' /\ frozen s s'.
Proof.
  induction l as [|v l IH]; intros w w' id s HW HI HJ HO E F; cbn [wrun events_ok] in *.
  - injection E as <-. exists s. auto using frozen_refl.
  - destruct HO as [O1 O2]. destruct (wstep' w v) as [w1|] eqn:E1; cbn [bind] in E; [|discriminate].
    pose proof (wstep_sound svd hull ecef_to_lla mat_quat solve w v w1 HW O1 E1) as W1.
    destruct (wstep_ids svd hull ecef_to_lla mat_quat solve w v w1 HI E1) as [I1 _].
    pose proof (wstep_par svd hull ecef_to_lla mat_quat solve w v w1 HW O1 E1) as P1.
    destruct (wstep_frozen w v w1 id s HJ E1 (sensor_le w id s HI F) F) as [s1 [F1 Z1]].
    destruct (IH w1 w' id s1 W1 I1) as [s2 [F2 Z2]]; auto; [rewrite P1; exact HJ|].
    exists s2. split; [exact F2|]. eapply frozen_trans; eauto.
Qed.
End W.

Lemma first_kept : forall svd hull ecef_to_lla mat_quat solve w l w' id s,
  lived svd hull ecef_to_lla mat_quat solve w -> p_fej (e_par (w_ekf w)) = true ->
  events_ok svd hull ecef_to_lla mat_quat solve w l -> wrun svd hull ecef_to_lla mat_quat solve w l = OK w' ->
  mfind id (w_sensors w) = Some s -> exists s', mfind id (w_sensors w') = Some s' /\ frozen s s'.
Proof.
  intros svd hull ecef mq solve w l w' id s HL HJ HO E F. destruct (lived_winv _ _ _ _ _ _ HL) as [WI II].
  eapply wrun_frozen; eauto.
Qed.
