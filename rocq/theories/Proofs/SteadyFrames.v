(** The window of a camera changes only when one of its frames arrives. *)
From Coq Require Import Reals ZArith List Arith Bool Lia Lra.
From Verif Require Import Base.Res Base.Mat Base.RDec Base.LinAlg Base.Geom Base.AMap Base.RMat
  Model.TypeHelper Model.Types Model.MathHelperMat Model.MathHelper Model.QR Model.Ekf Model.Updater
  Model.GpsHelper Model.ImuUpdater Model.GpsUpdater Model.FiducialUpdater Model.MsckfUpdater Model.Sensors
  Spec.History Spec.Same Spec.Lookup Spec.AtRest Spec.Surgery
  Proofs.Same Proofs.Lookup Proofs.Follows Proofs.ZeroStep Proofs.RestLookup Proofs.Windows.
Import ListNotations.
Open Scope nat_scope.

Definition untimed (e : ekf) (k : nat) : Prop := per_frame e k = true \/ p_aug (e_par e) = ANone.
Definition steady (k : nat) (e e' : ekf) : Prop :=
  e_par e' = e_par e /\ e_primary e' = e_primary e /\ e_max_len e' = e_max_len e /\
  (untimed e k -> frames_at e' k = frames_at e k).
Lemma steady_refl : forall k e, steady k e e. Proof. repeat split. Qed.
Lemma steady_per : forall k e e', steady k e e' -> per_frame e' k = per_frame e k.
Proof. intros k e e' [A [B _]]. unfold per_frame. rewrite A, B. reflexivity. Qed.
Lemma steady_untimed : forall k e e', steady k e e' -> untimed e k -> untimed e' k.
Proof. intros k e e' [A [B _]] U. unfold untimed, per_frame in *. rewrite A, B. exact U. Qed.
Lemma steady_trans : forall k a b c, steady k a b -> steady k b c -> steady k a c.
Proof.
  intros k a b c HA HB. pose proof (steady_untimed _ _ _ HA) as P. destruct HA as [A1 [A2 [A3 A4]]]. destruct HB as [B1 [B2 [B3 B4]]].
  split; [congruence|]. split; [congruence|]. split; [congruence|]. intros X. rewrite B4 by (apply P; exact X). auto.
Qed.
Lemma steady_same : forall k e e', s_aug (e_state e') = s_aug (e_state e) -> e_par e' = e_par e -> e_primary e' = e_primary e ->
  e_max_len e' = e_max_len e -> steady k e e'.
Proof. intros k e e' H A B C. repeat split; auto. intros _. unfold frames_at, aug_at. rewrite H. reflexivity. Qed.
Ltac stay := apply steady_same; reflexivity.

Lemma steady_touch : forall k e j, steady k e (touch_aug e j).
Proof.
  intros k e j. repeat split. intros _. unfold frames_at, aug_at, touch_aug, mtouch, mget. cbn [with_state e_state state_with_aug s_aug].
  destruct (mfind j (s_aug (e_state e))) eqn:E; [reflexivity|]. destruct (Nat.eq_dec k j) as [->|N].
  - rewrite mfind_mset_eq, E. reflexivity.
  - rewrite mfind_mset_neq by exact N. reflexivity.
Qed.
Lemma steady_local : forall k e t lt e', CalculateLocalTime e t = (lt, e') -> steady k e e'.
Proof. intros k e t lt e' H. unfold CalculateLocalTime in H. destruct (e_time_init e); injection H as _ <-; [apply steady_refl|stay]. Qed.
Lemma refresh_scalars : forall e e', RefreshIndices e = OK e' -> e_par e' = e_par e /\ e_primary e' = e_primary e /\ e_max_len e' = e_max_len e.
Proof. intros e e' H. apply refresh_bare in H. destruct H as [_ [Q [s [a [b [c [d [f E]]]]]]]]. rewrite E. auto. Qed.
Lemma steady_refresh : forall k e e', RefreshIndices e = OK e' -> steady k e e'.
Proof.
  intros k e e' H. destruct (refresh_scalars _ _ H) as [A [B C]]. split; [exact A|]. split; [exact B|]. split; [exact C|].
  intros _. apply frames_refresh. exact H.
Qed.
Lemma prune_scalars : forall i e e', prune i e = OK e' -> e_par e' = e_par e /\ e_primary e' = e_primary e /\ e_max_len e' = e_max_len e.
Proof.
  induction i as [|i IH]; intros e e' H; cbn [prune] in H; [injection H as <-; auto|].
  opn H. destruct (_ && _); [|apply IH; exact H]. opn H. opn H. opn H. opn H. opn H.
  destruct (IH _ _ H) as [A [B' C]]. destruct (refresh_scalars _ _ B4) as [A1 [A2 A3]]. cbn in A1, A2, A3. repeat split; congruence.
Qed.
Lemma augment_scalars : forall e e', AugmentStateIfNeeded e = OK e' -> e_par e' = e_par e /\ e_primary e' = e_primary e /\ e_max_len e' = e_max_len e.
Proof.
  intros e e' H. unfold AugmentStateIfNeeded in H. cbv zeta in H.
  destruct (p_aug (e_par e)); try (injection H as <-; auto).
  all: opn H; opn H; destruct (prune_scalars _ _ _ B0) as [P1 [P2 P3]]; cbn in P1, P2, P3.
  all: destruct (_ && _); [|injection H as <-; auto].
  all: opn H; opn H; opn H; injection H as <-; destruct (refresh_scalars _ _ B1) as [Q1 [Q2 Q3]]; cbn in *; repeat split; congruence.
Qed.
Lemma steady_predict : forall k e t e', PredictModel e t = OK e' -> steady k e e'.
Proof.
  intros k e t e' H. assert (S : e_par e' = e_par e /\ e_primary e' = e_primary e /\ e_max_len e' = e_max_len e).
  { pose proof H as H'. unfold PredictModel in H'. destruct (Rltb _ _); [injection H' as <-; auto|]. opn H'.
    destruct (augment_scalars _ _ H') as [A [B' C]]. cbn in A, B', C.
    assert (X : e_par x = e_par e /\ e_primary x = e_primary e /\ e_max_len x = e_max_len e).
    { destruct (e_gravity e); [opn B|]; injection B as <-; auto. }
    destruct X as [X1 [X2 X3]]. repeat split; congruence. }
  destruct S as [S1 [S2 S3]]. repeat split; auto. intros [P|P].
  - unfold frames_at. rewrite (proj1 (predict_window _ _ _ _ P H)). reflexivity.
  - unfold PredictModel in H. destruct (Rltb _ _); [injection H as <-; reflexivity|]. opn H.
    assert (X : p_aug (e_par x) = ANone /\ s_aug (e_state x) = s_aug (e_state e)).
    { destruct (e_gravity e); [opn B|]; injection B as <-; auto. }
    destruct X as [X1 X2]. unfold AugmentStateIfNeeded in H.
    match type of H with context [p_aug ?q] => replace (p_aug q) with ANone in H by (symmetry; exact X1) end.
    injection H as <-. unfold frames_at, aug_at. rewrite <- X2. reflexivity.
Qed.

(** *** Corrections *)
Lemma augv_frames : forall l r i l' j, augv_plus_vec l r i = OK (l', j) -> map a_frame l' = map a_frame l.
Proof.
  induction l as [|a l IH]; intros r i l' j H; cbn [augv_plus_vec] in H; [injection H as <- _; reflexivity|].
  opn H. opn H. opn H. destruct x1 as [t' j']. injection H as <- _. cbn [map aug_with_pose a_frame]. f_equal. eapply IH; eauto.
Qed.
Lemma augs_frames : forall m r i m' j k, augs_plus_vec m r i = OK (m', j) ->
  map a_frame (mget [] k m') = map a_frame (mget [] k m).
Proof.
  induction m as [|[k0 l] m IH]; intros r i m' j k H; cbn [augs_plus_vec] in H; [injection H as <- _; reflexivity|].
  opn H. destruct x as [l' i1]. opn H. destruct x as [t' i2]. injection H as <- _. unfold mget. cbn [mfind].
  destruct (Nat.eqb k k0); [eapply augv_frames; eauto|]. apply (IH _ _ _ _ k B0).
Qed.
Lemma steady_kalman : forall k e jac y noise e', KalmanUpdate e jac y noise = OK e' -> steady k e e'.
Proof.
  intros k e jac y noise e' H. unfold KalmanUpdate in H. opn H. destruct x as [g c]. opn H. opn H. injection H as <-.
  repeat split. intros _. unfold frames_at, aug_at. cbn [with_cov with_state e_state].
  unfold state_plus_vec in B1. opn B1. opn B1. do 5 (opn B1; match goal with y : (_ * nat)%type |- _ => destruct y end).
  injection B1 as <-. cbn [s_aug]. eapply augs_frames; eauto.
Qed.

(** *** Reading *)
Lemma steady_imu_get : forall k e id, steady k e (snd (GetImuState e id)). Proof. intros. stay. Qed.
Lemma steady_gps_get : forall k e id, steady k e (snd (GetGpsState e id)). Proof. intros. stay. Qed.
Lemma steady_cam_get : forall k e id, steady k e (snd (GetCamState e id)). Proof. intros. stay. Qed.
Lemma steady_aug_get : forall k e c f t x e', GetAugState e c f t = OK (x, e') -> steady k e e'.
Proof.
  intros k e c f t x e' H. unfold GetAugState in H. cbv zeta in H. destruct (_ || _).
  - injection H as _ <-. apply steady_touch.
  - opn H. opn H. match type of H with (let '(_, _) := ?p in _) = _ => destruct p as [[al s0] s1] end. opn H. injection H as _ <-. apply steady_touch.
Qed.

(** *** Callbacks *)
Lemma steady_zero_jac : forall k u e j e', GetZeroAccelerationJacobian u e = OK (j, e') -> steady k e e'.
Proof.
  intros k u e j e' H. unfold GetZeroAccelerationJacobian in H. destruct (GetImuState e (iu_id u)) as [s e0] eqn:E.
  opn H. opn H. opn H. injection H as _ <-. change e0 with (snd (s, e0)). rewrite <- E. apply steady_imu_get.
Qed.
Lemma steady_imu : forall k u e time acc A omg W u' e', imu_UpdateEKF u e time acc A omg W = OK (u', e') -> steady k e e'.
Proof.
  intros k u e time acc A omg W u' e' H. unfold imu_UpdateEKF in H.
  destruct (CalculateLocalTime e time) as [lt e0] eqn:EL. pose proof (steady_local k _ _ _ _ EL) as S0.
  opn H. destruct x as [[ap u1] e1].
  assert (S1 : steady k e0 e1).
  { unfold ZeroAccelerationUpdate in B. destruct (iu_moved u); [injection B as _ _ <-; apply steady_refl|].
    destruct (GetImuState e0 (iu_id u)) as [s ea] eqn:E. assert (Sa : steady k e0 ea) by (change ea with (snd (s, ea)); rewrite <- E; apply steady_imu_get).
    opn B. destruct x as [j eb]. pose proof (steady_zero_jac k _ _ _ _ B0) as Sb. opn B. opn B.
    pose proof (steady_trans _ _ _ _ Sa Sb) as Sab. destruct (_ && _); [injection B as _ _ <-; exact Sab|].
    match type of B with context [PredictModel ?g _] => set (ec := g) in *; assert (Sc : steady k eb ec) by (unfold ec; destruct (Rltb _ _); [stay|apply steady_refl]) end.
    opn B. opn B. destruct x2 as [j2 ed]. opn B. injection B as _ _ <-.
    eapply steady_trans; [exact Sab|]. eapply steady_trans; [exact Sc|]. eapply steady_trans; [eapply steady_predict; eauto|].
    eapply steady_trans; [eapply steady_zero_jac; eauto|]. eapply steady_trans; [eapply steady_kalman; eauto|]. stay. }
  pose proof (steady_trans _ _ _ _ S0 S1) as S. destruct ap.
  - injection H as _ <-. eapply steady_trans; [exact S|stay].
  - destruct (GetImuState (SetZeroAcceleration e1 false) (iu_id u1)) as [s e2] eqn:E.
    assert (S2 : steady k e1 e2).
    { apply (steady_trans k e1 (SetZeroAcceleration e1 false)); [stay|]. change e2 with (snd (s, e2)). rewrite <- E. apply steady_imu_get. }
    opn H. opn H. injection H as _ <-.
    assert (S3 : steady k e2 x).
    { destruct (Nat.eqb _ 1); [injection B0 as <-; stay|]. destruct (imu_PredictMeasurement u1 e2) as [pr e3] eqn:EP.
      assert (Sp : steady k e2 e3).
      { unfold imu_PredictMeasurement in EP. destruct (GetImuState e2 (iu_id u1)) as [s' e3'] eqn:E'. injection EP as _ <-.
        change e3' with (snd (s', e3')). rewrite <- E'. apply steady_imu_get. }
      opn B0. opn B0. destruct x2 as [j e4]. opn B0. eapply steady_trans; [exact Sp|].
      apply (steady_trans k e3 e4).
      - unfold imu_GetMeasurementJacobian in B3. destruct (GetImuState e3 (iu_id u1)) as [s' e3'] eqn:E'.
        do 6 opn B3. injection B3 as _ B3. rewrite <- B3.
        replace e3' with (snd (GetImuState e3 (iu_id u1))) by (rewrite E'; reflexivity). apply steady_imu_get.
      - eapply steady_kalman; eauto. }
    eapply steady_trans; [exact S|]. eapply steady_trans; [exact S2|]. eapply steady_trans; [exact S3|]. eapply steady_predict; eauto.
Qed.

Lemma steady_gps_refresh : forall k u e u' e', gps_refresh u e = (u', e') -> steady k e e'.
Proof. intros k u e u' e' H. unfold gps_refresh in H. destruct (_ || _); [destruct (GetGpsState e (gu_id u)) as [s e0] eqn:E|]; injection H as _ <-;
  [change e0 with (snd (s, e0)); rewrite <- E; apply steady_gps_get|apply steady_refl]. Qed.
Lemma steady_gps_jac : forall k u e j u' e', gps_GetMeasurementJacobian u e = OK (j, u', e') -> steady k e e'.
Proof.
  intros k u e j u' e' H. unfold gps_GetMeasurementJacobian in H. destruct (gps_refresh u e) as [u0 e0] eqn:E.
  pose proof (steady_gps_refresh k _ _ _ _ E) as S. opn H. opn H. destruct (gu_ext u0).
  - destruct (GetGpsState e0 (gu_id u0)) as [s e1] eqn:E1. opn H. injection H as _ _ <-. eapply steady_trans; [exact S|].
    change e1 with (snd (s, e1)). rewrite <- E1. apply steady_gps_get.
  - injection H as _ _ <-. exact S.
Qed.
Lemma steady_multi_rows : forall k ecef xyz u e ref h i jac resid j r u' e',
  multi_rows u e ref h ecef xyz i jac resid = OK (j, r, u', e') -> steady k e e'.
Proof.
  intros k. induction ecef as [|p ecef IH]; intros xyz u e ref h i jac resid j r u' e' H; cbn [multi_rows] in H.
  - injection H as _ _ _ <-. apply steady_refl.
  - destruct xyz as [|x xyz]; [discriminate|]. opn H. opn H. destruct x1 as [[j1 u1] e1]. opn H. opn H.
    eapply steady_trans; [eapply steady_gps_jac; eauto|]. eapply IH; eauto.
Qed.
Lemma steady_gps : forall svd hull ecef_to_lla k u e time lla N u' e',
  gps_UpdateEKF svd hull ecef_to_lla u e time lla N = OK (u', e') -> steady k e e'.
Proof.
  intros svd hull ecef_to_lla k u e time lla N u' e' H. unfold gps_UpdateEKF in H.
  destruct (CalculateLocalTime e time) as [lt e0] eqn:EL. opn H. rename x into e1.
  pose proof (steady_trans _ _ _ _ (steady_local k _ _ _ _ EL) (steady_predict k _ _ _ B)) as S. cbv zeta in H.
  destruct (negb (e_lla_init e1)).
  - opn H. rename x into e2.
    assert (S2 : steady k e1 e2).
    { unfold AttemptGps in B0. opn B0. opn B0. injection B0 as <-. unfold AttemptGpsInitialization.
      cbv zeta. destruct (Nat.leb _ _); [destruct x0 as [[p a]|]|]; stay. }
    pose proof (steady_trans _ _ _ _ S S2) as S12. destruct (e_lla_init e2); [|injection H as _ <-; exact S12].
    unfold MultiUpdateEKF in H. opn H. destruct x as [[[j r] u1] e3]. pose proof (steady_multi_rows k _ _ _ _ _ _ _ _ _ _ _ _ _ B1) as S3.
    opn H. destruct x as [j2 r2]. destruct (Nat.leb _ _).
    + injection H as _ <-. eapply steady_trans; eauto.
    + opn H. injection H as _ <-. eapply steady_trans; [exact S12|]. eapply steady_trans; [exact S3|]. eapply steady_kalman; eauto.
  - opn H. destruct (gps_PredictMeasurement u e1) as [[h u1] e2] eqn:EP.
    assert (S2 : steady k e1 e2).
    { unfold gps_PredictMeasurement in EP. destruct (gps_refresh u e1) as [u0 e2'] eqn:E. injection EP as _ _ <-. eapply steady_gps_refresh; eauto. }
    opn H. destruct x0 as [[j u2] e3]. opn H. injection H as _ <-. eapply steady_trans; [exact S|]. eapply steady_trans; [exact S2|].
    eapply steady_trans; [eapply steady_gps_jac; eauto|]. eapply steady_kalman; eauto.
Qed.

Lemma steady_fid_refresh : forall k u e x u' e', fid_RefreshStates u e = OK (x, u', e') -> steady k e e'.
Proof.
  intros k u e x u' e' H. unfold fid_RefreshStates in H. destruct (_ || _).
  - destruct (GetCamState e (fu_cam u)) as [c e0] eqn:E. opn H. injection H as _ _ <-. change e0 with (snd (c, e0)). rewrite <- E. apply steady_cam_get.
  - destruct (fu_poses u); [|discriminate]. injection H as _ _ <-. apply steady_refl.
Qed.
Lemma steady_fid : forall mat_quat k u e time b u' e', fid_UpdateEKF mat_quat u e time b = OK (u', e') -> steady k e e'.
Proof.
  intros mat_quat k u e time b u' e' H. unfold fid_UpdateEKF in H.
  destruct (CalculateLocalTime e time) as [lt e0] eqn:EL. opn H. rename x into e1.
  pose proof (steady_trans _ _ _ _ (steady_local k _ _ _ _ EL) (steady_predict k _ _ _ B)) as S.
  opn H. destruct x as [[[pp ap] u1] e2]. opn H. destruct x as [[j u2] e3]. opn H. opn H. injection H as _ <-.
  assert (S2 : steady k e1 e2).
  { unfold fid_PredictMeasurement in B0. opn B0. destruct x1 as [[[[[a b0] c] d] u3] e4]. injection B0 as _ _ _ <-. eapply steady_fid_refresh; eauto. }
  assert (S3 : steady k e2 e3).
  { unfold fid_GetMeasurementJacobian in B1. opn B1. destruct x1 as [[[[[a b0] c] d] u3] e4]. pose proof (steady_fid_refresh k _ _ _ _ _ B4) as S4.
    opn B1. opn B1. opn B1. opn B1. destruct x4 as [j4 e5]. opn B1. injection B1 as _ _ <-. eapply steady_trans; [exact S4|].
    destruct (fu_cam_ext u3).
    - destruct (GetCamState e4 (fu_cam u3)) as [c' e6] eqn:E. opn B8. opn B8. opn B8. injection B8 as _ <-. change e6 with (snd (c', e6)). rewrite <- E. apply steady_cam_get.
    - injection B8 as _ <-. apply steady_refl. }
  eapply steady_trans; [exact S|]. eapply steady_trans; [exact S2|]. eapply steady_trans; [exact S3|]. eapply steady_kalman; eauto.
Qed.

Section Msckf.
Variable solve : mat R -> V3 -> V3.
Lemma steady_tri_rows : forall k u ci pc ac a0 l e A b A' b' e', tri_rows u ci pc ac a0 e l A b = OK (A', b', e') -> steady k e e'.
Proof.
  intros k u ci pc ac a0. induction l as [|f l IH]; intros e A b A' b' e' H; cbn [tri_rows] in H.
  - injection H as _ _ <-. apply steady_refl.
  - opn H. destruct x as [ai e1]. opn H. destruct x as [mx my]. opn H. eapply steady_trans; [eapply steady_aug_get; eauto|]. eapply IH; eauto.
Qed.
Lemma steady_triangulate : forall k u ci pc ac e t x e', TriangulateFeature solve u ci pc ac e t = OK (x, e') -> steady k e e'.
Proof.
  intros k u ci pc ac e t x e' H. unfold TriangulateFeature in H. opn H. opn H. destruct x1 as [a0 e1]. opn H. destruct x1 as [[A b] e2].
  assert (S : steady k e e2) by (eapply steady_trans; [eapply steady_aug_get; eauto|eapply steady_tri_rows; eauto]).
  cbv zeta in H. destruct (mu_use_true u); [destruct (ft_true t); [|discriminate]|destruct (_ || _)]; injection H as _ <-; exact S.
Qed.
Lemma steady_feature_row : forall k u ci pc ac n ix pf e i f a b c a' b' c' e',
  feature_row u ci pc ac n ix pf e i f a b c = OK (a', b', c', e') -> steady k e e'.
Proof.
  intros k u ci pc ac n ix pf e i f a b c a' b' c' e' H. unfold feature_row in H. opn H. destruct x as [ai e1].
  pose proof (steady_aug_get k _ _ _ _ _ _ B) as S. cbv zeta in H.
  opn H. destruct x as [px py]. opn H. destruct x as [mx my]. opn H. opn H. opn H. opn H. opn H. injection H as _ _ _ <-. exact S.
Qed.
Lemma steady_feature_rows : forall k u ci pc ac n ix pf l e i a b c a' b' c' e',
  feature_rows u ci pc ac n ix pf e i l a b c = OK (a', b', c', e') -> steady k e e'.
Proof.
  intros k u ci pc ac n ix pf. induction l as [|f l IH]; intros e i a b c a' b' c' e' H; cbn [feature_rows] in H.
  - injection H as _ _ _ <-. apply steady_refl.
  - opn H. destruct x as [[[a1 b1] c1] e1]. eapply steady_trans; [eapply steady_feature_row; eauto|eapply IH; eauto].
Qed.
Lemma steady_track_rows : forall k u ci pc ac n ix l e ct a b a' b' ct' e',
  track_rows solve u ci pc ac n ix e l ct a b = OK (a', b', ct', e') -> steady k e e'.
Proof.
  intros k u ci pc ac n ix. induction l as [|t l IH]; intros e ct a b a' b' ct' e' H; cbn [track_rows] in H.
  - injection H as _ _ _ <-. apply steady_refl.
  - opn H. destruct x as [[pf|] e1].
    + cbv zeta in H. opn H. destruct x as [[[a1 b1] c1] e2]. opn H. destruct x as [c2 a2]. opn H. opn H.
      eapply steady_trans; [eapply steady_triangulate; eauto|]. eapply steady_trans; [eapply steady_feature_rows; eauto|eapply IH; eauto].
    + eapply steady_trans; [eapply steady_triangulate; eauto|eapply IH; eauto].
Qed.
Lemma steady_msckf : forall k u e time tracks px u' e', msckf_UpdateEKF solve u e time tracks px = OK (u', e') -> steady k e e'.
Proof.
  intros k u e time tracks px u' e' H. unfold msckf_UpdateEKF in H.
  destruct (CalculateLocalTime e time) as [lt e0] eqn:EL. opn H. rename x into e1.
  pose proof (steady_trans _ _ _ _ (steady_local k _ _ _ _ EL) (steady_predict k _ _ _ B)) as S.
  destruct tracks as [|tr tracks]; [injection H as _ <-; exact S|].
  match type of H with (let '(_, _) := ?p in _) = _ => destruct p as [u1 e2] eqn:E end.
  assert (S2 : steady k e1 e2).
  { destruct (_ || _); [destruct (GetCamState e1 (mu_id u)) as [c ec] eqn:E2|]; injection E as _ <-;
      [change ec with (snd (c, ec)); rewrite <- E2; apply steady_cam_get|apply steady_refl]. }
  destruct (mu_poses u1) as [[[ci pc] ac]|]; [|discriminate]. cbv zeta in H.
  destruct (GetCamState e2 (mu_id u1)) as [c e3] eqn:E3.
  assert (S3 : steady k e2 e3) by (change e3 with (snd (c, e3)); rewrite <- E3; apply steady_cam_get).
  opn H. destruct x as [[[hx rx] ct] e4]. pose proof (steady_track_rows k _ _ _ _ _ _ _ _ _ _ _ _ _ _ _ B0) as S4.
  assert (S' : steady k e e4).
  { eapply steady_trans; [exact S|]. eapply steady_trans; [exact S2|]. eapply steady_trans; eauto. }
  destruct (Nat.eqb ct 0); [injection H as _ <-; exact S'|]. opn H. destruct x as [hx2 rx2].
  destruct (Nat.leb _ 1); [injection H as _ <-; exact S'|]. opn H. injection H as _ <-. eapply steady_trans; [exact S'|]. eapply steady_kalman; eauto.
Qed.
Lemma steady_track_all : forall k time l trs e trs' e', track_all solve trs e time l = OK (trs', e') -> steady k e e'.
Proof.
  intros k time. induction l as [|[j ts] l IH]; intros trs e trs' e' H; cbn [track_all] in H.
  - injection H as _ <-. apply steady_refl.
  - destruct ts as [|tr ts]; [eapply IH; eauto|]. destruct (mfind j trs) as [tk|]; [|discriminate].
    opn H. destruct x as [u1 e1]. eapply steady_trans; [eapply steady_msckf; eauto|eapply IH; eauto].
Qed.
End Msckf.
Lemma steady_board_all : forall mat_quat k time l fids e fids' e', board_all mat_quat fids e time l = OK (fids', e') -> steady k e e'.
Proof.
  intros mat_quat k time. induction l as [|[j b] l IH]; intros fids e fids' e' H; cbn [board_all] in H.
  - injection H as _ <-. apply steady_refl.
  - destruct (mfind j fids) as [u|]; [|discriminate]. destruct b as [d|]; [|eapply IH; eauto].
    opn H. destruct x as [u1 e1]. eapply steady_trans; [eapply steady_fid; eauto|eapply IH; eauto].
Qed.

(** *** A new frame *)
Definition next_frames (n : nat) (l : list nat) (f : nat) : list nat := (if Nat.ltb (length l) n then l else tl l) ++ [f].
Lemma next_frames_last : forall n h f, 1 <= n -> next_frames n (last_n n h) f = last_n n (h ++ [f]).
Proof.
  intros n h f P. unfold next_frames, last_n. rewrite skipn_length, app_length. cbn [length].
  destruct (Nat.le_gt_cases n (length h)) as [H|H].
  - destruct (Nat.ltb_spec (length h - (length h - n)) n); [lia|]. rewrite skipn_app.
    replace (length h + 1 - n) with (S (length h - n)) by lia. replace (S (length h - n) - length h) with 0 by lia. cbn [skipn].
    f_equal. assert (T : forall A (l : list A) i, tl (skipn i l) = skipn (S i) l).
    { intros A l. induction l as [|x l IH]; intros [|i]; try reflexivity. cbn [skipn]. rewrite IH. destruct l; reflexivity. }
    apply T.
  - destruct (Nat.ltb_spec (length h - (length h - n)) n); [|lia]. replace (length h - n) with 0 by lia.
    replace (length h + 1 - n) with 0 by lia. reflexivity.
Qed.
Lemma frame_same : forall e cam f e', AugmentStateFrame e cam f = OK e' ->
  e_par e' = e_par e /\ e_primary e' = e_primary e /\ e_max_len e' = e_max_len e /\
  (forall k, k <> cam -> frames_at e' k = frames_at e k) /\
  (per_frame e cam = true -> frames_at e' cam = next_frames (e_max_len e) (frames_at e cam) f).
Proof.
  intros e cam f e' H. unfold AugmentStateFrame in H. change (e_par (with_frame_recv e true)) with (e_par e) in H.
  change (e_primary (with_frame_recv e true)) with (e_primary e) in H. fold (per_frame e cam) in H.
  destruct (per_frame e cam) eqn:P; [|injection H as <-; repeat split; discriminate].
  remember (with_frame_recv e true) as e0 eqn:E0.
  assert (Z : e_par e0 = e_par e /\ e_primary e0 = e_primary e /\ e_max_len e0 = e_max_len e /\ forall k, aug_at e0 k = aug_at e k)
    by (subst e0; repeat split).
  destruct Z as [Z1 [Z2 [Z3 Z4]]]. clear E0. set (c := clone_of e0 f) in *. assert (Fc : a_frame c = f) by reflexivity. clearbody c.
  cbv zeta in H. opn H. opn H. opn H. opn H. injection H as <-.
  destruct (refresh_scalars _ _ B0) as [R1 [R2 R3]]. cbn [with_cov e_par e_primary e_max_len].
  assert (AA : forall e1 l k, aug_at (set_aug e1 cam l) k = if Nat.eqb k cam then l else aug_at e1 k).
  { intros e1 l k. unfold aug_at, set_aug. cbn [with_state e_state state_with_aug s_aug]. apply mget_mset. }
  assert (SS : e_par x = e_par e0 /\ e_primary x = e_primary e0 /\ e_max_len x = e_max_len e0 /\
    forall k, aug_at x k = if Nat.eqb k cam then (if Nat.leb (length (aug_at e0 cam) + 1) (e_max_len e0) then aug_at e0 cam ++ [c] else tl (aug_at e0 cam ++ [c])) else aug_at e0 k).
  { rewrite AA, Nat.eqb_refl, app_length in B. cbn [length] in B. change (e_max_len (set_aug e0 cam (aug_at e0 cam ++ [c]))) with (e_max_len e0) in B.
    destruct (Nat.leb (length (aug_at e0 cam) + 1) (e_max_len e0)).
    - injection B as <-. repeat split. intros k. change (aug_at (set_aug e0 cam (aug_at e0 cam ++ [c])) k = if Nat.eqb k cam then aug_at e0 cam ++ [c] else aug_at e0 k). apply AA.
    - opn B. opn B. injection B as <-. repeat split. intros k. unfold erase. cbn [firstn skipn app].
      match goal with |- aug_at (with_cov (set_aug ?g cam ?l) _) k = _ => change (aug_at (set_aug g cam l) k = if Nat.eqb k cam then tl (aug_at e0 cam ++ [c]) else aug_at e0 k) end.
      rewrite AA. destruct (Nat.eqb k cam) eqn:K; [destruct (aug_at e0 cam ++ [c]); reflexivity|]. rewrite AA, K. reflexivity. }
  destruct SS as [S1 [S2 [S3 S4]]]. split; [congruence|]. split; [congruence|]. split; [congruence|].
  assert (FA : forall k, frames_at (with_cov x0 x2) k = frames_at x k).
  { intros k. transitivity (frames_at x0 k); [reflexivity|]. apply frames_refresh. exact B0. }
  split.
  - intros k N. rewrite FA. unfold frames_at. rewrite S4. destruct (Nat.eqb_spec k cam); [contradiction|]. rewrite Z4. reflexivity.
  - intros _. rewrite FA. unfold frames_at, next_frames. rewrite S4, Nat.eqb_refl, !Z4, Z3, map_length.
    destruct (Nat.leb_spec (length (aug_at e cam) + 1) (e_max_len e)); destruct (Nat.ltb_spec (length (aug_at e cam)) (e_max_len e)); try lia.
    + rewrite map_app. cbn [map]. rewrite Fc. reflexivity.
    + destruct (aug_at e cam) as [|a l] eqn:EA; cbn [app tl map].
      * exfalso. assert (N : aug_at x0 cam <> []) by (intros X; rewrite X in B1; discriminate). apply N.
        pose proof (frames_refresh _ _ cam B0) as X. unfold frames_at in X. rewrite S4, Nat.eqb_refl, Z4, EA, Z3 in X. cbn [length app tl] in X.
        destruct (Nat.leb_spec (0 + 1) (e_max_len e)); [cbn [length] in *; lia|]. cbn [map] in X. apply map_eq_nil in X. exact X.
      * rewrite map_app. cbn [map]. rewrite Fc. reflexivity.
Qed.

(** *** Deliveries *)
Section World.
Variable svd : m2 -> m2 * m2.
Variable hull : list (Z * Z) -> list (Z * Z).
Variable ecef_to_lla : V3 -> V3.
Variable mat_quat : mat R -> quat.
Variable solve : mat R -> V3 -> V3.

Definition own_frame (m : message) (k : nat) (fs : list nat) (n : nat) : list nat :=
  match m with MCam id _ frame _ _ => if Nat.eqb id k then next_frames n fs frame else fs | _ => fs end.
Lemma deliver_steady : forall w m w' k, deliver svd hull ecef_to_lla mat_quat solve w m = OK w' ->
  mfind (msg_id m) (w_sensors w) <> None ->
  e_par (w_ekf w') = e_par (w_ekf w) /\ e_primary (w_ekf w') = e_primary (w_ekf w) /\ e_max_len (w_ekf w') = e_max_len (w_ekf w) /\
  (per_frame (w_ekf w) k = true -> frames_at (w_ekf w') k = own_frame m k (frames_at (w_ekf w) k) (e_max_len (w_ekf w))).
Proof.
  intros w m w' k H N. unfold deliver in H. destruct (mfind (msg_id m) (w_sensors w)) as [s|]; [|congruence]. clear N.
  destruct m as [id t acc A omg W|id t lla NN|id t frame tracks boards|id t]; destruct s as [u|u|trs fids]; try discriminate.
  all: try (injection H as <-; repeat split; reflexivity).
  - opn H. destruct x as [u' e']. injection H as <-. cbn [w_ekf own_frame]. destruct (steady_imu k _ _ _ _ _ _ _ _ _ B) as [X1 [X2 [X3 X4]]]. do 3 (split; [assumption|]). intros P. apply X4. left. exact P.
  - opn H. destruct x as [u' e']. injection H as <-. cbn [w_ekf own_frame]. destruct (steady_gps _ _ _ k _ _ _ _ _ _ _ B) as [X1 [X2 [X3 X4]]]. do 3 (split; [assumption|]). intros P. apply X4. left. exact P.
  - opn H. destruct x as [[trs' fids'] e']. injection H as <-. cbn [w_ekf own_frame].
    unfold sim_camera_Callback in B. destruct (CalculateLocalTime (w_ekf w) t) as [lt e0] eqn:EL. opn B. opn B. opn B. destruct x1 as [t1 e1].
    opn B. destruct x1 as [f1 e2]. injection B as <- <- <-.
    pose proof (steady_trans _ _ _ _ (steady_local k _ _ _ _ EL) (steady_predict k _ _ _ B0)) as S.
    pose proof (steady_trans _ _ _ _ (steady_track_all solve k _ _ _ _ _ _ B2) (steady_board_all mat_quat k _ _ _ _ _ _ B3)) as S2.
    pose proof (steady_per _ _ _ S) as P1.
    destruct (frame_same _ _ _ _ B1) as [F1 [F2 [F3 [F4 F5]]]].
    assert (P2 : per_frame x0 k = per_frame x k) by (unfold per_frame; rewrite F1, F2; reflexivity).
    destruct S as [S1 [S12 [S13 S14]]]. destruct S2 as [S21 [S22 [S23 S24]]].
    split; [congruence|]. split; [congruence|]. split; [congruence|]. intros P. rewrite S24 by (left; congruence).
    destruct (Nat.eqb_spec id k) as [->|Q].
    + rewrite F5 by congruence. rewrite S13, S14 by (left; exact P). reflexivity.
    + rewrite F4 by auto. apply S14. left. exact P.
Qed.
(** Without augmentation no window changes. *)
Lemma deliver_none : forall w m w' k, deliver svd hull ecef_to_lla mat_quat solve w m = OK w' ->
  p_aug (e_par (w_ekf w)) = ANone ->
  e_par (w_ekf w') = e_par (w_ekf w) /\ frames_at (w_ekf w') k = frames_at (w_ekf w) k.
Proof.
  intros w m w' k H N. unfold deliver in H. destruct (mfind (msg_id m) (w_sensors w)) as [s|]; [|injection H as <-; auto].
  destruct m as [id t acc A omg W|id t lla NN|id t frame tracks boards|id t]; destruct s as [u|u|trs fids]; try discriminate.
  all: try (injection H as <-; split; reflexivity).
  - opn H. destruct x as [u' e']. injection H as <-. cbn [w_ekf]. destruct (steady_imu k _ _ _ _ _ _ _ _ _ B) as [X1 [X2 [X3 X4]]].
    split; [exact X1|]. apply X4. right. exact N.
  - opn H. destruct x as [u' e']. injection H as <-. cbn [w_ekf]. destruct (steady_gps _ _ _ k _ _ _ _ _ _ _ B) as [X1 [X2 [X3 X4]]].
    split; [exact X1|]. apply X4. right. exact N.
  - opn H. destruct x as [[trs' fids'] e']. injection H as <-. cbn [w_ekf].
    unfold sim_camera_Callback in B. destruct (CalculateLocalTime (w_ekf w) t) as [lt e0] eqn:EL. opn B. opn B. opn B. destruct x1 as [t1 e1].
    opn B. destruct x1 as [f1 e2]. injection B as <- <- <-.
    pose proof (steady_trans _ _ _ _ (steady_local k _ _ _ _ EL) (steady_predict k _ _ _ B0)) as S.
    pose proof (steady_trans _ _ _ _ (steady_track_all solve k _ _ _ _ _ _ B2) (steady_board_all mat_quat k _ _ _ _ _ _ B3)) as S2.
    assert (N1 : p_aug (e_par x) = ANone) by (destruct S as [S1 _]; rewrite S1; exact N).
    assert (F : e_par x0 = e_par x /\ frames_at x0 k = frames_at x k).
    { unfold AugmentStateFrame in B1. cbv zeta in B1. change (e_par (with_frame_recv x true)) with (e_par x) in B1. rewrite N1 in B1.
      cbn [orb andb] in B1. injection B1 as <-. split; reflexivity. }
    destruct F as [F1 F2]. destruct S as [S1 [_ [_ S4]]]. destruct S2 as [T1 [_ [_ T4]]].
    split; [congruence|]. rewrite T4 by (right; congruence). rewrite F2. apply S4. right. exact N.
Qed.
End World.
