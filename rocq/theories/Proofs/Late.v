(** Late measurements: how late does not matter, and they are applied. *)
From Coq Require Import Reals List Arith Bool Lia Lra ZArith.
From Verif Require Import Base.Res Base.Mat Base.LinAlg Base.Geom Base.AMap Base.RDec
  Model.TypeHelper Model.Types Model.MathHelper Model.GpsHelper Model.Ekf Model.Updater Model.Ops
  Model.ImuUpdater Model.GpsUpdater Model.FiducialUpdater Model.MsckfUpdater Model.Sensors
  Spec.Late Proofs.Follows.
Import ListNotations.
Open Scope R_scope.

Ltac dob H :=
  match type of H with
  | context [bind ?x _] => let E := fresh "B" in let a := fresh "a" in destruct x as [a|] eqn:E; cbn [bind] in H; [|discriminate H]
  end.

Lemma late_clock : forall e e' t, late e t -> same_clock e e' -> late e' t.
Proof. unfold late, same_clock. intros e e' t [A B] [C [D F]]. rewrite C, D, F. auto. Qed.

Lemma late_local : forall e t, late e t -> CalculateLocalTime e t = (t - e_ref_time e, e).
Proof. intros e t [A _]. unfold CalculateLocalTime. now rewrite A. Qed.
Lemma late_predict : forall e t, late e t -> PredictModel e (t - e_ref_time e) = OK e.
Proof.
  intros e t [_ A]. unfold PredictModel. destruct (Rltb (t - e_ref_time e) (e_time e)) eqn:X; [reflexivity|].
  apply Rltb_false in X. lra.
Qed.
(** The same with the reference of an earlier filter on the same clock. *)
Lemma late_predict' : forall e0 e t, late e0 t -> same_clock e0 e -> PredictModel e (t - e_ref_time e0) = OK e.
Proof.
  intros e0 e t L C. destruct C as [C [D F]]. rewrite <- F. apply late_predict. apply (late_clock e0); [exact L|repeat split; auto].
Qed.

Lemma kalman_clock : forall e j r n e', KalmanUpdate e j r n = OK e' -> same_clock e e'.
Proof. intros e j r n e' H. unfold KalmanUpdate in H. dob H. destruct a. dob H. dob H. injection H as <-. repeat split. Qed.

Lemma zjac_clock : forall u e j e', GetZeroAccelerationJacobian u e = OK (j, e') -> same_clock e e'.
Proof.
  intros u e j e' H. unfold GetZeroAccelerationJacobian, GetImuState in H. dob H. dob H. dob H. injection H as <- <-. repeat split.
Qed.
Lemma ijac_clock : forall u e j e', imu_GetMeasurementJacobian u e = OK (j, e') -> same_clock e e'.
Proof.
  intros u e j e' H. unfold imu_GetMeasurementJacobian, GetImuState in H. do 6 dob H. injection H as <- <-. repeat split.
Qed.

Lemma zero_late : forall u e t t' acc A omg W, late e t -> late e t' ->
  ZeroAccelerationUpdate u e (t - e_ref_time e) acc A omg W = ZeroAccelerationUpdate u e (t' - e_ref_time e) acc A omg W /\
  forall b u' e', ZeroAccelerationUpdate u e (t - e_ref_time e) acc A omg W = OK (b, u', e') -> same_clock e e'.
Proof.
  intros u e t t' acc A omg W L L'. unfold ZeroAccelerationUpdate. destruct (iu_moved u).
  { split; [reflexivity|]. intros b u' e' H. injection H as _ _ <-. apply same_clock_refl. }
  set (p := GetImuState e (iu_id u)).
  assert (S1 : same_clock e (snd p)) by (repeat split). destruct p as [s e1]. cbn [snd] in S1.
  destruct (GetZeroAccelerationJacobian u e1) as [[j e2]|] eqn:J; cbn [bind]; [|split; [reflexivity|discriminate]].
  assert (S2 : same_clock e e2) by (eapply same_clock_trans; [exact S1|eapply zjac_clock; exact J]).
  destruct (zero_noise u A W) as [n|]; cbn [bind]; [|split; [reflexivity|discriminate]].
  destruct (zero_score e2 j n (zero_resid u e2 s acc omg)) as [sc|]; cbn [bind]; [|split; [reflexivity|discriminate]].
  destruct (Rltb (p_chi2 (e_par e2)) sc && e_gravity e2).
  { split; [reflexivity|]. intros b u' e' H. injection H as _ _ <-. exact S2. }
  set (e3 := if Rltb sc (p_chi2 (e_par e2)) then InitializeGravity e2 else e2).
  assert (S3 : same_clock e e3) by (unfold e3; destruct (Rltb sc _); exact S2). clearbody e3.
  rewrite (late_predict' e e3 t L S3), (late_predict' e e3 t' L' S3). cbn [bind]. split; [reflexivity|].
  intros b u' e' H. dob H. destruct a as [j2 e4]. dob H. injection H as _ _ <-.
  eapply same_clock_trans; [exact S3|]. eapply same_clock_trans; [eapply zjac_clock; exact B|].
  eapply same_clock_trans; [eapply kalman_clock; exact B0|]. repeat split.
Qed.

Lemma imu_late : forall u e t t' acc A omg W, late e t -> late e t' ->
  imu_UpdateEKF u e t acc A omg W = imu_UpdateEKF u e t' acc A omg W.
Proof.
  intros u e t t' acc A omg W L L'. unfold imu_UpdateEKF. rewrite (late_local e t L), (late_local e t' L').
  destruct (zero_late u e t t' acc A omg W L L') as [Z C]. rewrite <- Z.
  destruct (ZeroAccelerationUpdate u e (t - e_ref_time e) acc A omg W) as [[[b u1] e1]|]; cbn [bind]; [|reflexivity].
  specialize (C b u1 e1 eq_refl). destruct b; [reflexivity|].
  set (ez := SetZeroAcceleration e1 false). set (p := GetImuState ez (iu_id u1)).
  assert (S1 : same_clock e (snd p)) by (eapply same_clock_trans; [exact C|repeat split]). destruct p as [s e2]. cbn [snd] in S1.
  match goal with |- (let* x := ?b in _) = _ => destruct b as [e3|] eqn:E3; cbn [bind]; [|reflexivity] end.
  assert (S3 : same_clock e e3).
  { eapply same_clock_trans; [exact S1|]. destruct (Nat.eqb (length (s_imu (e_state e2))) 1).
    - injection E3 as <-. repeat split.
    - unfold imu_PredictMeasurement in E3. cbn [GetImuState] in E3. unfold GetImuState in E3. dob E3. dob E3. destruct a0 as [j e5]. dob E3.
      eapply same_clock_trans; [|eapply kalman_clock; exact E3].
      eapply same_clock_trans; [|eapply ijac_clock; exact B0]. repeat split. }
  rewrite (late_predict' e e3 t L S3), (late_predict' e e3 t' L' S3). reflexivity.
Qed.

(** *** Boards and tracks *)
Lemma refresh_clock : forall u e p u' e', fid_RefreshStates u e = OK (p, u', e') -> same_clock e e'.
Proof.
  intros u e p u' e' H. unfold fid_RefreshStates, GetCamState in H. destruct (negb _ || _).
  - dob H. injection H as _ _ <-. repeat split.
  - destruct (fu_poses u); [|discriminate H]. injection H as _ _ <-. apply same_clock_refl.
Qed.
Lemma fjac_clock : forall u e j u' e', fid_GetMeasurementJacobian u e = OK (j, u', e') -> same_clock e e'.
Proof.
  intros u e j u' e' H. unfold fid_GetMeasurementJacobian in H. dob H. destruct a as [[q u1] e1].
  pose proof (refresh_clock _ _ _ _ _ B) as S. destruct q as [[[pc ac] pf] af].
  dob H. dob H. dob H. dob H. destruct a2 as [j2 e2].
  assert (S2 : same_clock e1 e2).
  { clear H. destruct (fu_cam_ext u1); [|injection B3 as _ <-; apply same_clock_refl].
    unfold GetCamState in B3. repeat dob B3. injection B3 as _ <-. repeat split. }
  clear B3. eapply same_clock_trans; [exact S|]. eapply same_clock_trans; [exact S2|].
  repeat (dob H). injection H as _ _ <-. apply same_clock_refl.
Qed.
Lemma fid_late : forall mq u e t t' d, late e t -> late e t' ->
  fid_UpdateEKF mq u e t d = fid_UpdateEKF mq u e t' d /\
  forall u' e', fid_UpdateEKF mq u e t d = OK (u', e') -> same_clock e e'.
Proof.
  intros mq u e t t' d L L'. unfold fid_UpdateEKF. rewrite (late_local e t L), (late_local e t' L').
  rewrite (late_predict e t L), (late_predict e t' L'). cbn [bind]. split; [reflexivity|].
  intros u' e' H. dob H. destruct a as [[[p1 p2] u1] e1]. dob H. destruct a as [[j u2] e2]. dob H. dob H. injection H as _ <-.
  assert (S1 : same_clock e e1).
  { unfold fid_PredictMeasurement in B. dob B. destruct a1 as [[q u3] e3]. destruct q as [[[pc ac] pf] af]. injection B as _ _ _ <-. eapply refresh_clock; exact B3. }
  eapply same_clock_trans; [exact S1|]. eapply same_clock_trans; [eapply fjac_clock; exact B0|]. eapply kalman_clock; eauto.
Qed.

Lemma aug_clock : forall e c f t a e', GetAugState e c f t = OK (a, e') -> same_clock e e'.
Proof.
  intros e c f t a e' H. unfold GetAugState in H. destruct (_ || _).
  - injection H as _ <-. repeat split.
  - dob H. dob H. destruct (if Rltb t (a_time a0) then _ else _) as [[al s0] s1]. dob H. injection H as _ <-. repeat split.
Qed.
Lemma tri_clock : forall u k pc ac a0 l e A b A' b' e', tri_rows u k pc ac a0 e l A b = OK (A', b', e') -> same_clock e e'.
Proof.
  intros u k pc ac a0 l. induction l as [|f l IH]; intros e A b A' b' e' H; cbn [tri_rows] in H.
  - injection H as _ _ <-. apply same_clock_refl.
  - dob H. destruct a as [ai e1]. dob H. destruct a as [x y]. dob H.
    eapply same_clock_trans; [eapply aug_clock; exact B|]. eapply IH; exact H.
Qed.
Lemma triangulate_clock : forall solve u k pc ac e t p e', TriangulateFeature solve u k pc ac e t = OK (p, e') -> same_clock e e'.
Proof.
  intros solve u k pc ac e t p e' H. unfold TriangulateFeature in H. dob H. dob H. destruct a0 as [a0 e1]. dob H. destruct a1 as [[A b] e2].
  assert (S : same_clock e e2) by (eapply same_clock_trans; [eapply aug_clock; exact B0|eapply tri_clock; exact B1]).
  destruct (mu_use_true u); [destruct (ft_true t)|destruct (_ || _)]; try discriminate H; injection H as _ <-; exact S.
Qed.
Lemma row_clock : forall u k pc ac n ci pf e i f r hf hc r' hf' hc' e',
  feature_row u k pc ac n ci pf e i f r hf hc = OK (r', hf', hc', e') -> same_clock e e'.
Proof.
  intros u k pc ac n ci pf e i f r hf hc r' hf' hc' e' H. unfold feature_row in H. dob H. destruct a as [ai e1].
  dob H. destruct a as [px py]. dob H. destruct a as [mx my]. do 5 dob H. injection H as _ _ _ <-. eapply aug_clock; exact B.
Qed.
Lemma rows_clock : forall u k pc ac n ci pf l e i r hf hc r' hf' hc' e',
  feature_rows u k pc ac n ci pf e i l r hf hc = OK (r', hf', hc', e') -> same_clock e e'.
Proof.
  intros u k pc ac n ci pf l. induction l as [|f l IH]; intros e i r hf hc r' hf' hc' e' H; cbn [feature_rows] in H.
  - injection H as _ _ _ <-. apply same_clock_refl.
  - dob H. destruct a as [[[r1 hf1] hc1] e1]. eapply same_clock_trans; [eapply row_clock; exact B|eapply IH; exact H].
Qed.
Lemma tracks_clock : forall solve u k pc ac n ci l e ct H r H' r' ct' e',
  track_rows solve u k pc ac n ci e l ct H r = OK (H', r', ct', e') -> same_clock e e'.
Proof.
  intros solve u k pc ac n ci l. induction l as [|f l IH]; intros e ct M r M' r' ct' e' H; cbn [track_rows] in H.
  - injection H as _ _ _ <-. apply same_clock_refl.
  - dob H. destruct a as [p e1]. pose proof (triangulate_clock _ _ _ _ _ _ _ _ _ B) as S1.
    eapply same_clock_trans; [exact S1|]. destruct p as [pf|]; [|eapply IH; exact H].
    dob H. destruct a as [[[r1 hf1] hc1] e2]. dob H. destruct a as [hc2 r2]. dob H. dob H.
    eapply same_clock_trans; [eapply rows_clock; exact B0|eapply IH; exact H].
Qed.
Lemma msckf_late : forall solve u e t t' tr px, late e t -> late e t' ->
  msckf_UpdateEKF solve u e t tr px = msckf_UpdateEKF solve u e t' tr px /\
  forall u' e', msckf_UpdateEKF solve u e t tr px = OK (u', e') -> same_clock e e'.
Proof.
  intros solve u e t t' tr px L L'. unfold msckf_UpdateEKF. rewrite (late_local e t L), (late_local e t' L').
  rewrite (late_predict e t L), (late_predict e t' L'). cbn [bind]. split; [reflexivity|].
  intros u' e' H. destruct tr as [|x tr]; [injection H as _ <-; apply same_clock_refl|].
  destruct (if negb (p_fej (e_par e)) || mu_first u then _ else _) as [u1 e1] eqn:Q.
  assert (S1 : same_clock e e1).
  { unfold GetCamState in Q. destruct (negb _ || _); injection Q as _ <-; repeat split. }
  eapply same_clock_trans; [exact S1|]. clear S1 Q.
  destruct (mu_poses u1) as [[[k pc] ac]|]; [|discriminate H]. unfold GetCamState in H. dob H. destruct a as [[[H1 r1] ct] e2].
  assert (S2 : same_clock e1 e2) by (eapply same_clock_trans; [|eapply tracks_clock; exact B]; repeat split).
  eapply same_clock_trans; [exact S2|]. destruct (Nat.eqb ct 0); [injection H as _ <-; apply same_clock_refl|].
  dob H. destruct a as [H2 r2]. destruct (Nat.leb (nr r2) 1); [injection H as _ <-; apply same_clock_refl|].
  dob H. injection H as _ <-. eapply kalman_clock; eauto.
Qed.

Lemma track_all_late : forall solve t t' l trs e, late e t -> late e t' ->
  track_all solve trs e t l = track_all solve trs e t' l /\
  forall trs' e', track_all solve trs e t l = OK (trs', e') -> same_clock e e'.
Proof.
  intros solve t t' l. induction l as [|[k tr] l IH]; intros trs e L L'; cbn [track_all].
  - split; [reflexivity|]. intros trs' e' H. injection H as _ <-. apply same_clock_refl.
  - destruct tr as [|x tr]; [apply IH; auto|]. destruct (mfind k trs) as [u|]; [|split; [reflexivity|discriminate]].
    destruct (msckf_late solve (tk_upd u) e t t' (x :: tr) (tk_px u) L L') as [E C]. rewrite <- E.
    destruct (msckf_UpdateEKF solve (tk_upd u) e t (x :: tr) (tk_px u)) as [[u1 e1]|]; cbn [bind]; [|split; [reflexivity|discriminate]].
    specialize (C u1 e1 eq_refl). destruct (IH (mset k (mkTrk u1 (tk_px u)) trs) e1 (late_clock _ _ _ L C) (late_clock _ _ _ L' C)) as [E1 C1].
    split; [exact E1|]. intros trs' e' H. eapply same_clock_trans; [exact C|eapply C1; exact H].
Qed.
Lemma board_all_late : forall mq t t' l fids e, late e t -> late e t' ->
  board_all mq fids e t l = board_all mq fids e t' l /\
  forall fids' e', board_all mq fids e t l = OK (fids', e') -> same_clock e e'.
Proof.
  intros mq t t' l. induction l as [|[k b] l IH]; intros fids e L L'; cbn [board_all].
  - split; [reflexivity|]. intros fids' e' H. injection H as _ <-. apply same_clock_refl.
  - destruct (mfind k fids) as [u|]; [|split; [reflexivity|discriminate]]. destruct b as [d|]; [|apply IH; auto].
    destruct (fid_late mq u e t t' d L L') as [E C]. rewrite <- E.
    destruct (fid_UpdateEKF mq u e t d) as [[u1 e1]|]; cbn [bind]; [|split; [reflexivity|discriminate]].
    specialize (C u1 e1 eq_refl). destruct (IH (mset k u1 fids) e1 (late_clock _ _ _ L C) (late_clock _ _ _ L' C)) as [E1 C1].
    split; [exact E1|]. intros fids' e' H. eapply same_clock_trans; [exact C|eapply C1; exact H].
Qed.

Lemma refresh_ix_clock : forall e e', RefreshIndices e = OK e' -> same_clock e e'.
Proof.
  intros e e' H. unfold RefreshIndices in H.
  dob H. dob H. destruct a0 as [[im c1] Q1]. dob H. destruct a0 as [[gm c2] Q2]. dob H. destruct a0 as [[cm c3] Q3].
  dob H. destruct a0 as [[fm c4] Q4]. destruct (refresh_augs (s_aug (e_state e)) c4) as [am c5]. dob H.
  injection H as <-. repeat split.
Qed.
Lemma frame_clock : forall e cam f e', AugmentStateFrame e cam f = OK e' -> same_clock e e'.
Proof.
  intros e cam f e' H. unfold AugmentStateFrame in H. destruct (_ || _); [|injection H as <-; repeat split].
  dob H. assert (S1 : same_clock e a).
  { destruct (Nat.leb _ _); [injection B as <-; repeat split|]. repeat dob B. injection B as <-. repeat split. }
  dob H. pose proof (refresh_ix_clock _ _ B0) as S2.
  dob H. dob H. injection H as <-. eapply same_clock_trans; [exact S1|]. eapply same_clock_trans; [exact S2|]. repeat split.
Qed.

Lemma gps_late : forall svd hull g u e t t' lla N, late e t -> late e t' -> e_lla_init e = true ->
  gps_UpdateEKF svd hull g u e t lla N = gps_UpdateEKF svd hull g u e t' lla N.
Proof.
  intros svd hull g u e t t' lla N L L' I. unfold gps_UpdateEKF. rewrite (late_local e t L), (late_local e t' L').
  rewrite (late_predict e t L), (late_predict e t' L'). cbn [bind]. rewrite I. reflexivity.
Qed.

(** *** Whole callbacks *)
Lemma late_message : forall svd hull ecef_to_lla mat_quat solve w m t t',
  late (w_ekf w) t -> late (w_ekf w) t' -> ~ collected (w_ekf w) m ->
  wstep svd hull ecef_to_lla mat_quat solve w (EMsg (stamped m t)) = wstep svd hull ecef_to_lla mat_quat solve w (EMsg (stamped m t')).
Proof.
  intros svd hull g mq solve w m t t' L L' N. cbn [wstep]. unfold deliver.
  replace (msg_id (stamped m t)) with (msg_id m) by (destruct m; reflexivity).
  replace (msg_id (stamped m t')) with (msg_id m) by (destruct m; reflexivity).
  destruct (mfind (msg_id m) (w_sensors w)) as [s|]; [|reflexivity].
  destruct m as [id t0 acc A omg W|id t0 lla C|id t0 frame tracks boards|id t0]; cbn [stamped]; destruct s as [u|u|trs fids]; try reflexivity.
  - rewrite (imu_late u (w_ekf w) t t' acc A omg W L L'). reflexivity.
  - cbn [collected] in N. rewrite (gps_late svd hull g u (w_ekf w) t t' lla C L L'); [reflexivity|].
    destruct (e_lla_init (w_ekf w)); [reflexivity|]. elim N; reflexivity.
  - unfold sim_camera_Callback. rewrite (late_local _ t L), (late_local _ t' L').
    rewrite (late_predict _ t L), (late_predict _ t' L'). cbn [bind].
    destruct (AugmentStateFrame (w_ekf w) id frame) as [e1|] eqn:F; cbn [bind]; [|reflexivity].
    pose proof (frame_clock _ _ _ _ F) as S1.
    destruct (track_all_late solve t t' tracks trs e1 (late_clock _ _ _ L S1) (late_clock _ _ _ L' S1)) as [E C]. rewrite <- E.
    destruct (track_all solve trs e1 t tracks) as [[trs2 e2]|]; cbn [bind]; [|reflexivity]. specialize (C trs2 e2 eq_refl).
    pose proof (same_clock_trans _ _ _ S1 C) as S2.
    destruct (board_all_late mq t t' boards fids e2 (late_clock _ _ _ L S2) (late_clock _ _ _ L' S2)) as [E2 _]. rewrite <- E2. reflexivity.
Qed.

Lemma late_image : forall svd hull ecef_to_lla mat_quat solve w id t t' image seen board,
  late (w_ekf w) t -> late (w_ekf w) t' ->
  wstep svd hull ecef_to_lla mat_quat solve w (EImage id t image seen board) =
  wstep svd hull ecef_to_lla mat_quat solve w (EImage id t' image seen board).
Proof.
  intros svd hull g mq solve w id t t' image seen board L L'. cbn [wstep].
  destruct (mfind id (w_sensors w)) as [[u|u|trs fids]|]; try reflexivity. unfold camera_Callback.
  destruct (image && _); [|reflexivity]. rewrite (late_local _ t L), (late_local _ t' L').
  rewrite (late_predict _ t L), (late_predict _ t' L'). cbn [bind]. destruct (GenerateFrameID (w_cnt w)) as [fr c].
  destruct (AugmentStateFrame (w_ekf w) id fr) as [e1|] eqn:F; cbn [bind]; [|reflexivity].
  pose proof (frame_clock _ _ _ _ F) as S1.
  match goal with |- context [track_all solve trs e1 t ?l] =>
    destruct (track_all_late solve t t' l trs e1 (late_clock _ _ _ L S1) (late_clock _ _ _ L' S1)) as [E C] end.
  rewrite <- E. destruct (track_all solve trs e1 t _) as [[trs2 e2]|]; cbn [bind]; [|reflexivity]. specialize (C trs2 e2 eq_refl).
  pose proof (same_clock_trans _ _ _ S1 C) as S2.
  match goal with |- context [board_all mq fids e2 t ?l] =>
    destruct (board_all_late mq t t' l fids e2 (late_clock _ _ _ L S2) (late_clock _ _ _ L' S2)) as [E2 _] end.
  rewrite <- E2. reflexivity.
Qed.

(** *** The only IMU of a moving body *)
Lemma late_overwrites : forall u e s t acc A omg W, late e t -> iu_moved u = true -> length (s_imu (e_state e)) = 1%nat ->
  mfind (iu_id u) (s_imu (e_state e)) = Some s ->
  exists e', imu_UpdateEKF u e t acc A omg W = OK (u, e') /\ e_time e' = e_time e /\ e_cov e' = e_cov e /\
    let turn := qrot (qmul (b_ang (s_body (e_state e))) (i_ang s)) in
    b_acc (s_body (e_state e')) = turn (vsub acc (i_acc_bias s)) /\
    b_ang_vel (s_body (e_state e')) = turn (vsub omg (i_omg_bias s)) /\ b_ang_acc (s_body (e_state e')) = v0.
Proof.
  intros u e s t acc A omg W L M N K. unfold imu_UpdateEKF. rewrite (late_local e t L). unfold ZeroAccelerationUpdate. rewrite M. cbn [bind].
  rewrite (get_imu_same (SetZeroAcceleration e false) (iu_id u) s K).
  replace (length (s_imu (e_state (SetZeroAcceleration e false)))) with 1%nat by (symmetry; exact N). cbn [Nat.eqb bind].
  erewrite (late_predict' e) by (exact L || (repeat split)). cbn [bind].
  eexists. split; [reflexivity|]. repeat split.
Qed.
