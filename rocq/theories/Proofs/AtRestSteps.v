(** Single measurements of a moving body. *)
From Coq Require Import Reals List Arith Bool Lia Lra.
From Verif Require Import Base.Res Base.Mat Base.RDec Base.RSum Base.LinAlg Base.Geom Base.AMap Base.RMat
  Model.TypeHelper Model.Types Model.MathHelperMat Model.MathHelper Model.Matrix3 Model.QR Model.Ekf Model.Updater
  Model.GpsHelper Model.ImuUpdater Model.GpsUpdater Model.FiducialUpdater Model.MsckfUpdater
  Model.Sensors Model.Trackers Model.SimSensors
  Spec.History Spec.Same Spec.Lookup Spec.Rotation Spec.AtRest
  Proofs.Effects Proofs.Update Proofs.Rotations Proofs.GpsFrames Proofs.Same Proofs.Lookup Proofs.Follows
  Proofs.ZeroStep Proofs.RestLookup Proofs.AtRest Proofs.Demo.
Import ListNotations.
Open Scope nat_scope.

(** *** Prediction keeps the rates *)
Definition rates (e : ekf) : V3 * V3 * V3 :=
  (b_acc (s_body (e_state e)), b_ang_vel (s_body (e_state e)), b_ang_acc (s_body (e_state e))).
Lemma refresh_rates : forall e e', RefreshIndices e = OK e' -> rates e' = rates e.
Proof.
  intros e e' H. destruct (refresh_bare _ _ H) as [X _]. pose proof (f_equal s_body X) as Y.
  pose proof (f_equal b_acc Y) as Y1. pose proof (f_equal b_ang_vel Y) as Y2. pose proof (f_equal b_ang_acc Y) as Y3.
  cbn in Y1, Y2, Y3. unfold rates. congruence.
Qed.
Lemma prune_rates : forall k e e', prune k e = OK e' -> rates e' = rates e.
Proof.
  induction k as [|i IH]; intros e e' H; cbn [prune] in H; [injection H as <-; reflexivity|].
  opn H. destruct (_ && _); [|apply IH; assumption].
  opn H. opn H. opn H. opn H. opn H. apply IH in H. rewrite H. apply refresh_rates in B4. rewrite B4. reflexivity.
Qed.
Lemma augment_rates : forall e e', AugmentStateIfNeeded e = OK e' -> rates e' = rates e.
Proof.
  intros e e' H. unfold AugmentStateIfNeeded in H.
  destruct (p_aug (e_par e)); try (injection H as <-; reflexivity); cbv zeta in H; opn H; opn H; apply prune_rates in B0;
    (destruct (_ && _); [|injection H as <-; rewrite B0; reflexivity]); opn H; opn H; opn H; injection H as <-;
    apply refresh_rates in B1; unfold rates in *; cbn in *; congruence.
Qed.
Lemma predict_rates : forall e t e', PredictModel e t = OK e' -> rates e' = rates e.
Proof.
  intros e t e' H. unfold PredictModel in H. destruct (Rltb _ _); [injection H as <-; reflexivity|]. opn H.
  apply augment_rates in H. rewrite H. destruct (e_gravity e); [opn B|]; injection B as <-; reflexivity.
Qed.

(** *** The only IMU of a moving body *)
Lemma imu_alone : forall u e time acc A omg W u' e' s, iu_moved u = true -> length (s_imu (e_state e)) = 1 ->
  mfind (iu_id u) (s_imu (e_state e)) = Some s -> imu_UpdateEKF u e time acc A omg W = OK (u', e') ->
  let rot := qmul (b_ang (s_body (e_state e))) (i_ang s) in
  rates e' = (qrot rot (vsub acc (i_acc_bias s)), qrot rot (vsub omg (i_omg_bias s)), v0).
Proof.
  intros u e time acc A omg W u' e' s M L K H rot. unfold imu_UpdateEKF in H.
  destruct (CalculateLocalTime e time) as [lt e0] eqn:EL.
  assert (S0 : e_state e0 = e_state e).
  { unfold CalculateLocalTime in EL. destruct (e_time_init e); injection EL as <- <-; reflexivity. }
  unfold ZeroAccelerationUpdate in H. rewrite M in H. cbn [bind] in H.
  assert (K0 : mfind (iu_id u) (s_imu (e_state (SetZeroAcceleration e0 false))) = Some s) by (cbn; rewrite S0; exact K).
  rewrite (get_imu_known _ _ _ K0) in H.
  assert (L0 : length (s_imu (e_state (SetZeroAcceleration e0 false))) = 1) by (cbn; rewrite S0; exact L).
  rewrite L0 in H. cbn [Nat.eqb] in H. cbn [bind] in H. opn H. injection H as <- <-. apply predict_rates in B. rewrite B.
  unfold rates. cbn. rewrite S0. reflexivity.
Qed.

Lemma qrot_vadd : forall q a b, qrot q (vadd a b) = vadd (qrot q a) (qrot q b).
Proof. intros [w x y z] [a b c] [d e f]. unfold qrot, vadd, vcross, vscale. cbn. f_equal; ring. Qed.
Lemma qrot_vsub : forall q a b, qrot q (vsub a b) = vsub (qrot q a) (qrot q b).
Proof. intros [w x y z] [a b c] [d e f]. unfold qrot, vadd, vsub, vcross, vscale. cbn. f_equal; ring. Qed.
Lemma qrot_back : forall q v, qnorm2 q = 1%R -> qrot q (qrot (qinv q) v) = v.
Proof.
  intros q v U. rewrite <- qrot_mul by (try apply qinv_unit; assumption). rewrite qmul_qinv by assumption.
  destruct v. unfold qrot, qid, vadd, vcross, vscale. cbn. f_equal; ring.
Qed.

Lemma imu_alone_true : forall t u e time acc A omg W u' e' s ae oe vr a q w al r,
  iu_moved u = true -> length (s_imu (e_state e)) = 1 -> mfind (iu_id u) (s_imu (e_state e)) = Some s ->
  bt_acc (tr_body t) time = OK a -> bt_ang (tr_body t) time = OK q -> bt_rate (tr_body t) time = OK w ->
  bt_ang_acc (tr_body t) time = OK al -> qnorm2 q = 1%R -> b_ang (s_body (e_state e)) = q ->
  GetImuPosition t (iu_id u) = OK r -> GetImuAngularPosition t (iu_id u) = OK (i_ang s) -> qnorm2 (i_ang s) = 1%R ->
  sim_imu_message t (iu_id u) true ae oe vr time = OK (MImu (iu_id u) time acc A omg W) ->
  imu_UpdateEKF u e time acc A omg W = OK (u', e') ->
  let b := s_body (e_state e') in
  b_acc b = vsub (vadd (vadd a g_gravity) (qrot q (vadd (vcross al r) (vcross w (vcross w r)))))
                 (qrot q (qrot (i_ang s) (i_acc_bias s))) /\
  b_ang_vel b = vsub (qrot q w) (qrot q (qrot (i_ang s) (i_omg_bias s))) /\ b_ang_acc b = v0.
Proof.
  intros t u e time acc A omg W u' e' s ae oe vr a q w al r M L K T1 T2 T3 T4 Uq Eb TP TA Us X H b.
  pose proof (imu_alone _ _ _ _ _ _ _ _ _ _ M L K H) as R. cbv zeta in R. unfold rates in R. injection R as R1 R2 R3.
  unfold sim_imu_message, sim_imu_measure in X. rewrite T1, T2, T3, T4, TP, TA in X. cbn [bind] in X. opn X. opn B.
  opn B. injection B as <-. injection X as <- _ <- _. unfold b. rewrite R1, R2, R3, Eb. clear R1 R2 R3.
  rewrite !qrot_mul, !qrot_vsub, !qrot_back by assumption. split; [|auto]. f_equal.
  rewrite !qrot_vadd, !qrot_back by assumption.
  generalize (qrot q (vcross al r)) (qrot q (vcross w (vcross w r))). intros [m1 m2 m3] [n1 n2 n3]. destruct a as [a1 a2 a3].
  unfold vadd. cbn. f_equal; ring.
Qed.

Section Run.
Variable svd : m2 -> m2 * m2.
Variable hull : list (BinNums.Z * BinNums.Z) -> list (BinNums.Z * BinNums.Z).
Variable ecef_to_lla : V3 -> V3.
Variable mat_quat : mat R -> quat.

(** *** An exact fix *)
Lemma gps_exact : forall t p q e id u le vr time lla N lt e0 e1 u' e',
  bt_pos (tr_body t) time = OK p -> bt_ang (tr_body t) time = OK q ->
  CalculateLocalTime e time = (lt, e0) -> PredictModel e0 lt = OK e1 ->
  b_pos (s_body (e_state e1)) = p -> b_ang (s_body (e_state e1)) = q ->
  gps_true t e1 id u -> located ecef_to_lla t p q id ->
  sim_gps_message ecef_to_lla t id true le vr time = OK (MGps id time lla N) ->
  gps_UpdateEKF svd hull ecef_to_lla u e time lla N = OK (u', e') -> e_state e' = e_state e1.
Proof.
  intros t p q e id u le vr time lla N lt e0 e1 u' e' T1 T2 EL B E1 E2 [I1 [I2 [I3 [I4 [s [K1 [TG F]]]]]]] Loc M H.
  assert (V : lla_to_enu lla (GetLocalPosition t) = OK (local_to_enu (vadd p (qrot q (g_pos s))) (e_ang_l_to_e e1))).
  { unfold sim_gps_message in M. rewrite T1, T2, TG, I4 in M. cbn [bind] in M. opn M. injection M as <- _.
    unfold enu_to_lla in B0. opn B0. injection B0 as <-. unfold lla_to_enu. rewrite (Loc _ _ _ TG I4 B1). cbn [bind].
    apply ecef_enu_roundtrip. exact B1. }
  clear M. unfold gps_UpdateEKF in H. rewrite EL, B in H. cbn [bind] in H.
  cbv zeta in H. rewrite I2 in H. cbn [negb] in H. rewrite I3, V in H. cbn [bind] in H. rewrite <- I1 in K1.
  destruct (gps_PredictMeasurement u e1) as [[h u1] e2] eqn:EP.
  destruct (gps_predict_known _ _ _ _ _ _ K1 F EP) as [Eh [-> [Iu1 Pu1]]].
  opn H. destruct x as [[jac u2] e3].
  assert (K2 : mfind (gu_id u1) (s_gps (e_state e1)) = Some s) by (rewrite Iu1; exact K1).
  destruct (gps_jac_known _ _ _ _ _ _ K2 B0) as [-> [Iu2 Pu2]].
  opn H. injection H as <- <-.
  assert (Z : zeros (v3mat (vsub (enu_to_local (local_to_enu (vadd p (qrot q (g_pos s))) (e_ang_l_to_e e1)) (e_ang_l_to_e e1)) h))).
  { rewrite (proj1 (local_roundtrip _ _)), Eh, E1, E2, vsub_self. apply zeros_v3. }
  destruct (kalman_zero _ _ _ _ _ Z B1) as [c ->]. reflexivity.
Qed.

(** *** An exact detection of a board *)
Lemma board_exact : forall t p q e id c k u time d te re vr qr lt e0 e1 u' e',
  bt_pos (tr_body t) time = OK p -> bt_ang (tr_body t) time = OK q -> qnorm2 q = 1%R ->
  reads_rotations mat_quat ->
  CalculateLocalTime e time = (lt, e0) -> PredictModel e0 lt = OK e1 ->
  b_pos (s_body (e_state e1)) = p -> b_ang (s_body (e_state e1)) = q ->
  mfind id (s_cam (e_state e1)) = Some c -> GetCameraPosition t id = OK (c_pos c) ->
  GetCameraAngularPosition t id = OK (c_ang c) -> qnorm2 (c_ang c) = 1%R ->
  board_true t e1 id c k u -> representable (bd_ang d) ->
  sim_board_message t k id true te re vr qr time = OK d ->
  fid_UpdateEKF mat_quat u e time d = OK (u', e') -> e_state e' = e_state e1.
Proof.
  intros t p q e id c k u time d te re vr qr lt e0 e1 u' e' T1 T2 Uq RR EL B E1 E2 K1 TP TA Uc [Ic [f [K2 [FP [FA [Uf F]]]]]] Rep M H.
  unfold sim_board_message in M. rewrite FP, FA, T1, T2, TP, TA in M. cbn [bind] in M. injection M as <-.
  cbn [bd_ang] in Rep.
  unfold fid_UpdateEKF in H. rewrite EL, B in H. cbn [bind] in H. rewrite <- Ic in K1.
  opn H. destruct x as [[[pp ap] u1] e2]. unfold fid_PredictMeasurement in B0. opn B0. destruct x as [[ps u2] e3].
  destruct (fid_refresh_known _ _ _ _ _ _ _ K1 K2 F B1) as [-> [-> [I1 [I2 P]]]].
  injection B0 as <- <- <- <-. cbv zeta in H. cbn [bd_pos bd_ang] in H.
  opn H. destruct x as [[jac u3] e3]. opn H. opn H. injection H as <- <-.
  destruct (fid_jac_known u2 e1 c f _ _ _ ltac:(rewrite I2; exact K1) ltac:(rewrite I1; exact K2) (fun _ => P) B0)
    as [-> [I3 [I4 P3]]].
  assert (Z : zeros (stack2 (vsub (mat_vec (m3tr (qmat (c_ang c))) (vsub (mat_vec (m3tr (qmat q)) (vsub (f_pos f) p)) (c_pos c)))
     (mat_vec (m3tr (qmat (c_ang c))) (vsub (mat_vec (m3tr (qmat (b_ang (s_body (e_state e1))))) (vsub (f_pos f) (b_pos (s_body (e_state e1))))) (c_pos c))))
     (QuatToRotVec (qmul (RotVecToQuat (QuatToRotVec (qmul (mat_quat (m3mul (m3tr (qmat (c_ang c))) (m3tr (qmat (b_ang (s_body (e_state e1))))))) (f_ang f))))
       (qinv (qmul (qmul (qinv (c_ang c)) (qinv q)) (f_ang f))))))).
  { rewrite E1, E2, vsub_self.
    assert (Uci : qnorm2 (qinv (c_ang c)) = 1%R) by (apply qinv_unit; exact Uc).
    assert (Uqi : qnorm2 (qinv q) = 1%R) by (apply qinv_unit; exact Uq).
    set (qc := qmul (qinv (c_ang c)) (qinv q)) in *.
    assert (Uqc : qnorm2 qc = 1%R) by (apply qunit_mul; assumption).
    assert (Um : qnorm2 (qmul qc (f_ang f)) = 1%R) by (apply qunit_mul; assumption).
    assert (MQ : mat_quat (m3mul (m3tr (qmat (c_ang c))) (m3tr (qmat q))) = qc \/
                 mat_quat (m3mul (m3tr (qmat (c_ang c))) (m3tr (qmat q))) = opposite qc).
    { apply RR; [exact Uqc|]. intros i j Hi Hj. unfold qc. rewrite (qmat_mul _ _ Uci Uqi) by assumption.
      unfold m3mul. cbn [ent]. unfold mm. apply rsum_ext. intros b Hb.
      rewrite (qmat_inv _ Uc), (qmat_inv _ Uq) by assumption. reflexivity. }
    rewrite resid_zero; [apply zeros_stack|exact Um|].
    destruct MQ as [-> | ->].
    - apply rep_back; assumption.
    - rewrite opp_mul_l. destruct (rep_back (opposite (qmul qc (f_ang f)))) as [-> | ->];
        [rewrite opp_unit; exact Um|apply rep_opp; assumption|auto|rewrite opp_opp; auto]. }
  destruct (kalman_zero _ _ _ _ _ Z B3) as [cc ->]. reflexivity.
Qed.
End Run.

(** *** Two bodies whose acceleration the filter gets wrong *)
Lemma imu_alone_runs : forall u e time acc A omg W s, iu_moved u = true -> length (s_imu (e_state e)) = 1 ->
  mfind (iu_id u) (s_imu (e_state e)) = Some s -> p_aug (e_par e) = ANone -> e_gravity e = false ->
  exists e', imu_UpdateEKF u e time acc A omg W = OK (u, e').
Proof.
  intros u e time acc A omg W s M L K PA G. unfold imu_UpdateEKF. destruct (CalculateLocalTime e time) as [lt e0] eqn:EL.
  assert (X0 : e_state e0 = e_state e /\ p_aug (e_par e0) = ANone /\ e_gravity e0 = false).
  { unfold CalculateLocalTime in EL. destruct (e_time_init e); injection EL as <- <-; auto. }
  destruct X0 as [S0 [P0 G0]]. unfold ZeroAccelerationUpdate. rewrite M. cbn [bind].
  assert (K0 : mfind (iu_id u) (s_imu (e_state (SetZeroAcceleration e0 false))) = Some s) by (cbn; rewrite S0; exact K).
  rewrite (get_imu_known _ _ _ K0).
  assert (L0 : length (s_imu (e_state (SetZeroAcceleration e0 false))) = 1) by (cbn; rewrite S0; exact L).
  rewrite L0. cbn [Nat.eqb]. cbn [bind].
  set (e1 := SetBodyRates _ _ _ _). assert (X1 : p_aug (e_par e1) = ANone /\ e_gravity e1 = false) by (split; [exact P0|exact G0]).
  destruct X1 as [P1 G1]. clearbody e1.
  assert (PM : exists e', PredictModel e1 lt = OK e').
  { unfold PredictModel. destruct (Rltb lt (e_time e1)); [eauto|]. rewrite G1. cbn [bind].
    unfold AugmentStateIfNeeded. cbn [with_time e_par]. rewrite P1. eauto. }
  destruct PM as [e' PM]. rewrite PM. cbn [bind]. eauto.
Qed.

(** Turning about the vertical axis at one radian per second. *)
Definition spin : body_truth :=
  mkBT (fun _ => OK v0) (fun _ => OK v0) (fun _ => OK v0) (fun t => OK (RotVecToQuat (mkV3 0 0 t)))
    (fun _ => OK (mkV3 0 0 1)) (fun _ => OK v0).
Definition stand : body_truth :=
  mkBT (fun _ => OK v0) (fun _ => OK v0) (fun _ => OK v0) (fun t => OK qid) (fun _ => OK v0) (fun _ => OK v0).
Definition only_imu (s : ImuState) (e : ekf) : ekf := with_state e (state_with_imu (e_state e) [(1, s)]).

Lemma knows_one : forall b s e, p_aug (e_par e) = ANone -> e_gravity e = false ->
  bt_ang b 0 = OK (b_ang (s_body (e_state e))) -> qnorm2 (b_ang (s_body (e_state e))) = 1%R -> qnorm2 (i_ang s) = 1%R ->
  knows_imu (set_imu (truth_new b 1) 1 (i_pos s) (i_ang s) (i_acc_bias s) (i_omg_bias s)) 0 (mkIU 1 false false true) (only_imu s e) s.
Proof.
  intros b s e P G B U V. unfold knows_imu. repeat (split; [reflexivity|]). split; [exact B|]. split; [exact U|].
  repeat (split; [reflexivity|]). exact V.
Qed.

Lemma acc_wrong : forall b s e a w al, p_aug (e_par e) = ANone -> e_gravity e = false ->
  bt_acc b 0 = OK a -> bt_ang b 0 = OK (b_ang (s_body (e_state e))) -> bt_rate b 0 = OK w -> bt_ang_acc b 0 = OK al ->
  qnorm2 (b_ang (s_body (e_state e))) = 1%R -> qnorm2 (i_ang s) = 1%R ->
  exists t u e0 ae oe vr acc A omg W e',
   tr_body t = b /\ knows_imu t 0 u e0 s /\
   sim_imu_message t (iu_id u) true ae oe vr 0 = OK (MImu (iu_id u) 0 acc A omg W) /\
   imu_UpdateEKF u e0 0 acc A omg W = OK (u, e') /\
   b_acc (s_body (e_state e')) =
     vsub (vadd (vadd a g_gravity) (qrot (b_ang (s_body (e_state e))) (vadd (vcross al (i_pos s)) (vcross w (vcross w (i_pos s))))))
          (qrot (b_ang (s_body (e_state e))) (qrot (i_ang s) (i_acc_bias s))).
Proof.
  intros b s e a w al P G B1 B2 B3 B4 U V. pose proof (knows_one b s e P G B2 U V) as KN.
  set (t := set_imu _ _ _ _ _ _) in *. set (u := mkIU 1 false false true) in *.
  assert (M : exists acc omg, sim_imu_message t 1 true v0 v0 (fun x _ => x) 0 = OK (MImu 1 0 acc (square_diag v0) omg (square_diag v0))).
  { unfold sim_imu_message, sim_imu_measure. change (tr_body t) with b. rewrite B1, B2, B3, B4. eexists. eexists. reflexivity. }
  destruct M as [acc [omg M]].
  destruct (imu_alone_runs u (only_imu s e) 0 acc (square_diag v0) omg (square_diag v0) s) as [e' E']; auto.
  exists t, u, (only_imu s e), v0, v0, (fun x _ => x), acc, (square_diag v0), omg, (square_diag v0), e'.
  split; [reflexivity|]. split; [exact KN|]. split; [exact M|]. split; [exact E'|].
  apply (imu_alone_true t u (only_imu s e) 0 acc (square_diag v0) omg (square_diag v0) u e' s v0 v0 (fun x _ => x) a
    (b_ang (s_body (e_state e))) w al (i_pos s)); auto.
Qed.

Lemma imu_known : forall t time u e s a w al ae oe vr acc A omg W u' e', knows_imu t time u e s ->
  bt_acc (tr_body t) time = OK a -> bt_rate (tr_body t) time = OK w -> bt_ang_acc (tr_body t) time = OK al ->
  sim_imu_message t (iu_id u) true ae oe vr time = OK (MImu (iu_id u) time acc A omg W) ->
  imu_UpdateEKF u e time acc A omg W = OK (u', e') ->
  let b := s_body (e_state e') in
  let turn := qrot (b_ang (s_body (e_state e))) in
  b_acc b = vsub (vadd (vadd a g_gravity) (turn (vadd (vcross al (i_pos s)) (vcross w (vcross w (i_pos s))))))
                 (turn (qrot (i_ang s) (i_acc_bias s))) /\
  b_ang_vel b = vsub (turn w) (turn (qrot (i_ang s) (i_omg_bias s))) /\ b_ang_acc b = v0.
Proof.
  intros t time u e s a w al ae oe vr acc A omg W u' e' (K1 & K2 & K3 & K4 & K5 & K6 & K7 & _ & _ & K8) T1 T2 T3 M H.
  apply (imu_alone_true t u e time acc A omg W u' e' s ae oe vr a (b_ang (s_body (e_state e))) w al (i_pos s)); auto.
Qed.

Lemma qrot_qid : forall v, qrot qid v = v.
Proof. intros [x y z]. unfold qrot, qid, vadd, vcross, vscale. cbn. f_equal; ring. Qed.
Lemma lever_refuted : exists t u e s ae oe vr acc A omg W e', knows_imu t 0 u e s /\ i_acc_bias s = v0 /\ i_omg_bias s = v0 /\
  bt_acc (tr_body t) 0 = OK v0 /\
  sim_imu_message t (iu_id u) true ae oe vr 0 = OK (MImu (iu_id u) 0 acc A omg W) /\
  imu_UpdateEKF u e 0 acc A omg W = OK (u, e') /\ b_acc (s_body (e_state e')) <> vadd v0 g_gravity.
Proof.
  set (s := mkImu e9 e9 e9 e9 (mkV3 1 0 0) qid v0 v0 0 0 0 0 false false).
  destruct (acc_wrong spin s (demo0 ANone false) v0 (mkV3 0 0 1) v0) as (t & u & e & ae & oe & vr & acc & A & omg & W & e' & E & K & M & H & R);
    try reflexivity.
  - cbn [bt_ang spin]. f_equal. apply RotVec_0.
  - unfold qnorm2. cbn. ring.
  - unfold qnorm2. cbn. ring.
  - exists t, u, e, s, ae, oe, vr, acc, A, omg, W, e'. split; [exact K|]. split; [reflexivity|]. split; [reflexivity|].
    split; [rewrite E; reflexivity|]. split; [exact M|]. split; [exact H|]. rewrite R. change (b_ang (s_body (e_state (demo0 ANone false)))) with qid. clear.
    change (i_ang s) with qid. rewrite !qrot_qid.
    intros X. apply (f_equal vx) in X. unfold vsub, vadd, vcross in X. cbn [vx vy vz s i_pos i_acc_bias v0 g_gravity] in X. lra.
Qed.
Lemma bias_refuted : exists t u e s ae oe vr acc A omg W e', knows_imu t 0 u e s /\ still t v0 qid /\ i_pos s = v0 /\ i_omg_bias s = v0 /\
  sim_imu_message t (iu_id u) true ae oe vr 0 = OK (MImu (iu_id u) 0 acc A omg W) /\
  imu_UpdateEKF u e 0 acc A omg W = OK (u, e') /\ b_acc (s_body (e_state e')) <> vadd v0 g_gravity.
Proof.
  set (s := mkImu e9 e9 e9 e9 v0 qid (mkV3 1 0 0) v0 0 0 0 0 false false).
  destruct (acc_wrong stand s (demo0 ANone false) v0 v0 v0) as (t & u & e & ae & oe & vr & acc & A & omg & W & e' & E & K & M & H & R);
    try reflexivity.
  - unfold qnorm2. cbn. ring.
  - unfold qnorm2. cbn. ring.
  - exists t, u, e, s, ae, oe, vr, acc, A, omg, W, e'. split; [exact K|].
    split; [split; [unfold qnorm2; cbn; ring|]; rewrite E; intros time; repeat split|]. split; [reflexivity|]. split; [reflexivity|].
    split; [exact M|]. split; [exact H|]. rewrite R. change (b_ang (s_body (e_state (demo0 ANone false)))) with qid. clear.
    change (i_ang s) with qid. rewrite !qrot_qid.
    intros X. apply (f_equal vx) in X. unfold vsub, vadd, vcross in X. cbn [vx vy vz s i_pos i_acc_bias v0 g_gravity] in X. lra.
Qed.

Lemma gps_arrived : forall svd hull ecef_to_lla t e id u le vr time lla N e1 u' e', arrived t e time e1 -> gps_true t e1 id u ->
  located ecef_to_lla t (b_pos (s_body (e_state e1))) (b_ang (s_body (e_state e1))) id ->
  sim_gps_message ecef_to_lla t id true le vr time = OK (MGps id time lla N) ->
  gps_UpdateEKF svd hull ecef_to_lla u e time lla N = OK (u', e') -> e_state e' = e_state e1.
Proof.
  intros svd hull ecef_to_lla t e id u le vr time lla N e1 u' e' [A1 [A2 [A3 A4]]] G L M H.
  destruct (CalculateLocalTime e time) as [lt e0] eqn:EL.
  eapply (gps_exact svd hull ecef_to_lla t _ _ e id u); [exact A2|exact A3|exact EL|exact A1|reflexivity|reflexivity|exact G|exact L|exact M|exact H].
Qed.
Lemma board_arrived : forall mat_quat t e id c k u time d te re vr qr e1 u' e', reads_rotations mat_quat -> arrived t e time e1 ->
  mfind id (s_cam (e_state e1)) = Some c -> GetCameraPosition t id = OK (c_pos c) ->
  GetCameraAngularPosition t id = OK (c_ang c) -> qnorm2 (c_ang c) = 1%R ->
  board_true t e1 id c k u -> representable (bd_ang d) ->
  sim_board_message t k id true te re vr qr time = OK d ->
  fid_UpdateEKF mat_quat u e time d = OK (u', e') -> e_state e' = e_state e1.
Proof.
  intros mat_quat t e id c k u time d te re vr qr e1 u' e' RR [A1 [A2 [A3 A4]]] K C1 C2 C3 B Rep M H.
  destruct (CalculateLocalTime e time) as [lt e0] eqn:EL.
  eapply (board_exact mat_quat t _ _ e id c k u time d te re vr qr lt e0 e1); eauto.
Qed.
