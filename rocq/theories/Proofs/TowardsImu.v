(** What readings of an IMU and detections of a board do to the estimates. *)
From Coq Require Import Reals List Arith Bool Lia Lra.
From Verif Require Import Base.Res Base.Mat Base.RDec Base.RSum Base.LinAlg Base.Inverse Base.Geom Base.AMap Base.RMat
  Model.TypeHelper Model.Types Model.MathHelperMat Model.MathHelper Model.Matrix3 Model.Ekf Model.Updater Model.Ops
  Model.ImuUpdater Model.FiducialUpdater
  Spec.Layout Spec.History Spec.Contract Spec.Correct Spec.Named Spec.Same Spec.Callback Spec.KF Spec.Unused Spec.Rotation Spec.AtRest Spec.Towards
  Proofs.Refresh Proofs.Wf Proofs.Invariant Proofs.Named Proofs.Same Proofs.Update Proofs.Scalars Proofs.Clock Proofs.Effects Proofs.Kalman
  Proofs.Rotations Proofs.CovGood Proofs.Follows Proofs.BlockDiag
  Proofs.ImuCallback Proofs.FidCallback Proofs.Unused Proofs.ZeroStep Proofs.AtRest Proofs.RestLookup Proofs.Towards.
Import ListNotations.
Open Scope nat_scope.

Lemma local_kept : forall e t lt e0, CalculateLocalTime e t = (lt, e0) ->
  lt = local_of e t /\ e_state e0 = e_state e /\ covariance e0 = covariance e /\ e_par e0 = e_par e.
Proof.
  intros e t lt e0 E. unfold CalculateLocalTime, local_of in *. destruct (e_time_init e); injection E as <- <-; auto.
Qed.

Lemma stack_difference : forall a b a' b' y, subc (stack2 a b) (stack2 a' b') = OK y -> difference a b a' b' y.
Proof.
  intros a b a' b' y E. rewrite subc_ok in E by reflexivity. injection E as <-.
  split; [reflexivity|]. split; [reflexivity|]. intros r Hr. unfold column, msub, stack2. cbn [ent].
  rewrite (proj2 (Nat.ltb_lt r 3) Hr), (proj2 (Nat.ltb_ge (3 + r) 3)) by lia. replace (3 + r - 3) with r by lia.
  split; reflexivity.
Qed.

Lemma imu_towards : forall u e t acc A omg W u' e' s, reachable e -> mfind (iu_id u) (s_imu (e_state e)) = Some s ->
  i_ext s = iu_ext u -> i_int s = iu_int u ->
  noise_ok (p_root (e_par e)) 3 A -> noise_ok (p_root (e_par e)) 3 W -> length (s_imu (e_state e)) <> 1 ->
  imu_UpdateEKF u e t acc A omg W = OK (u', e') -> e_zero_acc e' = false ->
  exists e0 e1 H y N d, e_state e0 = e_state e /\ covariance e0 = covariance e /\
    imu_GetMeasurementJacobian u e0 = OK (H, e0) /\ ImuUpdater.imu_noise A W = OK N /\
    difference acc omg (accelerometer e s) (gyroscope e s) y /\
    moved_by e0 H y N d e1 /\ PredictModel e1 (local_of e t) = OK e'.
Proof.
  intros u e t acc A omg W u' e' s Hr Hf X1 X2 HA HW HL E Z.
  unfold imu_UpdateEKF in E. destruct (CalculateLocalTime e t) as [lt e0] eqn:EL.
  destruct (local_kept _ _ _ _ EL) as [-> [S0 [C0 P0]]].
  destruct (local_went e t Hr) as [W0 _]. rewrite EL in W0. cbn [snd] in W0.
  pose proof (w_reach _ _ W0) as Hr0.
  assert (HK : knows u e0 s) by (unfold knows; rewrite S0; auto).
  rewrite <- P0 in HA, HW.
  opn E. destruct x as [[ap u1] ez0].
  destruct ap; [injection E as <- <-; discriminate|].
  assert (ez0 = e0 /\ iu_id u1 = iu_id u /\ iu_ext u1 = iu_ext u /\ iu_int u1 = iu_int u) as [-> [U1 [U2 U3]]].
  { destruct (zero_update u e0 s (local_of e t) acc A omg W Hr0 HK HA HW) as [[Q _]|[[_ Q]|[_ [x [_ [[_ [_ Q]]|[_ [e4 [Q _]]]]]]]]];
      rewrite Q in B; try discriminate; injection B as <- <-; auto. }
  assert (HK1 : knows u1 e0 s) by (unfold knows in *; rewrite U1, U2, U3; exact HK).
  destruct (zero_went e0 false Hr0) as [Wz Sz].
  assert (KZ : knows u1 (SetZeroAcceleration e0 false) s) by exact HK1.
  assert (SZ : e_state (SetZeroAcceleration e0 false) = e_state e) by exact S0.
  assert (CZ : covariance (SetZeroAcceleration e0 false) = covariance e) by exact C0.
  assert (PZ : e_par (SetZeroAcceleration e0 false) = e_par e0) by reflexivity.
  set (ez := SetZeroAcceleration e0 false) in *. clearbody ez. cbv zeta in E. pose proof (w_reach _ _ Wz) as Hrz.
  rewrite (get_imu_same _ _ _ (proj1 KZ)) in E. rewrite SZ in E. rewrite (proj2 (Nat.eqb_neq _ 1) HL) in E.
  opn E. opn E. injection E as <- <-. unfold imu_PredictMeasurement in B0. rewrite (get_imu_same _ _ _ (proj1 KZ)) in B0.
  cbv zeta in B0. opn B0.
  destruct (imu_jac_ok u ez s Hrz) as [jac [EJ [J1 J2]]].
  { unfold knows in *. rewrite U1, U2, U3 in KZ. exact KZ. }
  assert (EJ' : imu_GetMeasurementJacobian u1 ez = OK (jac, ez)).
  { rewrite <- EJ. unfold imu_GetMeasurementJacobian. rewrite U1, U2, U3. reflexivity. }
  rewrite EJ' in B0. cbn [bind] in B0. opn B0. rename x2 into N.
  assert (NN : noise_ok (p_root (e_par ez)) 6 N).
  { rewrite PZ. destruct (noise6 _ A W HA HW) as [N' [EN NN]]. rewrite B3 in EN. injection EN as <-. exact NN. }
  apply stack_difference in B2. rewrite SZ in B2.
  apply kalman_moved' in B0; [|exact Hrz|].
  2:{ apply (noise_meas _ 6); auto; apply B2. }
  destruct B0 as [d M]. exists ez, x, jac, x1, N, d. auto 10.
Qed.

(** With one IMU its readings, turned into the local frame, are taken for the
    acceleration and the rate of the body as they are. *)
Lemma imu_alone : forall u e t acc A omg W u' e' s, reachable e -> mfind (iu_id u) (s_imu (e_state e)) = Some s ->
  i_ext s = iu_ext u -> i_int s = iu_int u ->
  noise_ok (p_root (e_par e)) 3 A -> noise_ok (p_root (e_par e)) 3 W -> length (s_imu (e_state e)) = 1 ->
  imu_UpdateEKF u e t acc A omg W = OK (u', e') -> e_zero_acc e' = false ->
  let q := qmul (b_ang (s_body (e_state e))) (i_ang s) in
  exists e0, e_state e0 = e_state e /\ covariance e0 = covariance e /\
    PredictModel (SetBodyRates e0 (qrot q (vsub acc (i_acc_bias s))) (qrot q (vsub omg (i_omg_bias s))) v0) (local_of e t) = OK e'.
Proof.
  intros u e t acc A omg W u' e' s Hr Hf X1 X2 HA HW HL E Z.
  unfold imu_UpdateEKF in E. destruct (CalculateLocalTime e t) as [lt e0] eqn:EL.
  destruct (local_kept _ _ _ _ EL) as [-> [S0 [C0 P0]]].
  destruct (local_went e t Hr) as [W0 _]. rewrite EL in W0. cbn [snd] in W0.
  pose proof (w_reach _ _ W0) as Hr0.
  assert (HK : knows u e0 s) by (unfold knows; rewrite S0; auto).
  rewrite <- P0 in HA, HW.
  opn E. destruct x as [[ap u1] ez0].
  destruct ap; [injection E as <- <-; discriminate|].
  assert (ez0 = e0 /\ iu_id u1 = iu_id u) as [-> U1].
  { destruct (zero_update u e0 s (local_of e t) acc A omg W Hr0 HK HA HW) as [[Q _]|[[_ Q]|[_ [x [_ [[_ [_ Q]]|[_ [e4 [Q _]]]]]]]]];
      rewrite Q in B; try discriminate; injection B as <- <-; auto. }
  exists (SetZeroAcceleration e0 false).
  assert (KZ : mfind (iu_id u1) (s_imu (e_state (SetZeroAcceleration e0 false))) = Some s) by (rewrite U1; apply HK).
  assert (SZ : e_state (SetZeroAcceleration e0 false) = e_state e) by exact S0.
  assert (CZ : covariance (SetZeroAcceleration e0 false) = covariance e) by exact C0.
  set (ez := SetZeroAcceleration e0 false) in *. clearbody ez. cbv zeta in E.
  rewrite (get_imu_same _ _ _ KZ) in E. rewrite SZ in E. rewrite (proj2 (Nat.eqb_eq _ 1) HL) in E. cbn [bind] in E.
  opn E. injection E as <- <-. auto.
Qed.

Lemma vopp_get : forall a r, r < 3 -> vget (vopp a) r = (- vget a r)%R.
Proof. intros [a b c] [|[|[|r]]] H; cbn; try reflexivity; lia. Qed.
Lemma vsub_get : forall a b r, r < 3 -> vget (vsub a b) r = (vget a r - vget b r)%R.
Proof. intros [a b c] [d e f] [|[|[|r]]] H; cbn; try reflexivity; lia. Qed.
Lemma vadd_get : forall a b r, r < 3 -> vget (vadd a b) r = (vget a r + vget b r)%R.
Proof. intros [a b c] [d e f] [|[|[|r]]] H; cbn; try reflexivity; lia. Qed.

Lemma resid_shortfall : forall u e s acc omg, shortfall (iu_int u) e s acc omg (zero_resid u e s acc omg).
Proof.
  intros u e s acc omg. destruct (zero_resid_shape u e s acc omg) as [A B]. split; [exact A|]. split; [exact B|].
  intros r Hr. unfold column, zero_resid, standing. cbv zeta. split.
  - destruct (iu_int u); unfold stack2, v3mat; cbn [ent]; [rewrite (proj2 (Nat.ltb_lt r 3) Hr)|];
      rewrite vopp_get, !vsub_get, vadd_get by exact Hr; ring.
  - intros ->. unfold stack2. cbn [ent]. rewrite (proj2 (Nat.ltb_ge (3 + r) 3)) by lia. replace (3 + r - 3) with r by lia.
    rewrite vopp_get, vsub_get by exact Hr. ring.
Qed.

Lemma stationary_towards : forall u e t acc A omg W u' e' s, reachable e -> mfind (iu_id u) (s_imu (e_state e)) = Some s ->
  i_ext s = iu_ext u -> i_int s = iu_int u ->
  noise_ok (p_root (e_par e)) 3 A -> noise_ok (p_root (e_par e)) 3 W ->
  imu_UpdateEKF u e t acc A omg W = OK (u', e') -> e_zero_acc e' = true ->
  exists e0 e1 e2 H y N d, e_state e0 = e_state e /\ covariance e0 = covariance e /\
    PredictModel e0 (local_of e t) = OK e1 /\
    GetZeroAccelerationJacobian u e1 = OK (H, e1) /\ zero_noise u A W = OK N /\
    shortfall (iu_int u) e s acc omg y /\
    moved_by e1 H y N d e2 /\ e_state e' = e_state (SetBodyRates e2 g_gravity v0 v0) /\ covariance e' = covariance e2.
Proof.
  intros u e t acc A omg W u' e' s Hr Hf X1 X2 HA HW E Z.
  unfold imu_UpdateEKF in E. destruct (CalculateLocalTime e t) as [lt e0] eqn:EL.
  destruct (local_kept _ _ _ _ EL) as [-> [S0 [C0 P0]]].
  destruct (local_went e t Hr) as [W0 _]. rewrite EL in W0. cbn [snd] in W0.
  pose proof (w_reach _ _ W0) as Hr0.
  assert (HK : knows u e0 s) by (unfold knows; rewrite S0; auto).
  rewrite <- P0 in HA, HW.
  opn E. destruct x as [[ap u1] ez0].
  destruct ap.
  2:{ exfalso. assert (ez0 = e0 /\ iu_id u1 = iu_id u /\ iu_ext u1 = iu_ext u /\ iu_int u1 = iu_int u) as [-> [U1 [U2 U3]]].
      { destruct (zero_update u e0 s (local_of e t) acc A omg W Hr0 HK HA HW) as [[Q _]|[[_ Q]|[_ [x [_ [[_ [_ Q]]|[_ [e4 [Q _]]]]]]]]];
          rewrite Q in B; try discriminate; injection B as <- <-; auto. }
      assert (HK1 : knows u1 e0 s) by (unfold knows in *; rewrite U1, U2, U3; exact HK).
      destruct (imu_ordinary_ok u1 e0 s (local_of e t) acc A omg W Hr0 HK1 HA HW) as [e3 [E3 [_ [_ [_ [_ [Z3 _]]]]]]].
      unfold imu_ordinary in E3. cbv zeta in E3. cbv zeta in E. rewrite E in E3. injection E3 as _ <-. congruence. }
  injection E as <- <-. unfold ZeroAccelerationUpdate in B.
  destruct (iu_moved u) eqn:M; [discriminate|].
  rewrite (get_imu_same _ _ _ (proj1 HK)) in B.
  destruct (zero_jac_ok u e0 s Hr0 HK) as [jac [EJ [J1 J2]]]. rewrite EJ in B. cbn [bind] in B.
  opn B. rename x into N. cbv zeta in B. opn B. rename x into sc.
  destruct (zero_noise_ok _ u A W HA HW) as [N' [EN NN]]. rewrite B0 in EN. injection EN as <-.
  destruct (Rltb (p_chi2 (e_par e0)) sc && e_gravity e0); [discriminate|].
  set (eg := if Rltb sc (p_chi2 (e_par e0)) then InitializeGravity e0 else e0) in *.
  assert (G : went e0 eg /\ e_state eg = e_state e /\ covariance eg = covariance e).
  { unfold eg. destruct (Rltb sc (p_chi2 (e_par e0))).
    - destruct (gravity_went e0 Hr0) as [Wg _]. split; [exact Wg|]. split; [exact S0|exact C0].
    - split; [apply went_refl; exact Hr0|]. split; [exact S0|exact C0]. }
  destruct G as [Wg [Sg Cg]]. clearbody eg.
  opn B. rename x into e1.
  destruct (predict_went eg (local_of e t) (w_reach _ _ Wg)) as [e1' [E2 [W2 _]]]. rewrite B2 in E2. injection E2 as <-.
  destruct (knows_keeps u e0 e1 s HK) as [s2 K2]; [apply (w_keeps e0 e1); eapply went_trans; eauto|].
  destruct (zero_jac_ok u e1 s2 (w_reach _ _ W2) K2) as [jac2 [EJ2 [J3 J4]]]. rewrite EJ2 in B. cbn [bind] in B.
  opn B. rename x into e2. injection B as <- <-.
  destruct (zero_resid_shape u e0 s acc omg) as [R1 R2].
  apply kalman_moved' in B3; [|exact (w_reach _ _ W2)|].
  2:{ apply (noise_meas _ (msize u)); auto. rewrite (w_par _ _ W2), (w_par _ _ Wg). exact NN. }
  destruct B3 as [d MV]. exists eg, e1, e2, jac2, (zero_resid u e0 s acc omg), N, d.
  split; [exact Sg|]. split; [exact Cg|]. split; [exact B2|]. split; [exact EJ2|]. split; [exact B0|].
  split; [|split; [exact MV|split; reflexivity]].
  pose proof (resid_shortfall u e0 s acc omg) as SF. unfold shortfall, standing in *. rewrite S0 in SF. exact SF.
Qed.

Lemma turn_read : forall mat_quat qc qb qf, reads_rotations mat_quat -> qnorm2 qc = 1%R -> qnorm2 qb = 1%R -> qnorm2 qf = 1%R ->
  representable (qmul (qmul (qinv qc) (qinv qb)) qf) ->
  same_turn (RotVecToQuat (QuatToRotVec (qmul (mat_quat (m3mul (m3tr (qmat qc)) (m3tr (qmat qb)))) qf))) (qmul (qmul (qinv qc) (qinv qb)) qf).
Proof.
  intros mq qc q qf RR Uc Uq Uf Rep.
  assert (Uci : qnorm2 (qinv qc) = 1%R) by (apply qinv_unit; exact Uc).
  assert (Uqi : qnorm2 (qinv q) = 1%R) by (apply qinv_unit; exact Uq).
  set (qq := qmul (qinv qc) (qinv q)) in *.
  assert (Uqc : qnorm2 qq = 1%R) by (apply qunit_mul; assumption).
  assert (Um : qnorm2 (qmul qq qf) = 1%R) by (apply qunit_mul; assumption).
  assert (MQ : mq (m3mul (m3tr (qmat qc)) (m3tr (qmat q))) = qq \/
               mq (m3mul (m3tr (qmat qc)) (m3tr (qmat q))) = opposite qq).
  { apply RR; [exact Uqc|]. intros i j Hi Hj. unfold qq. rewrite (qmat_mul _ _ Uci Uqi) by assumption.
    unfold m3mul. cbn [ent]. unfold mm. apply rsum_ext. intros b Hb.
    rewrite (qmat_inv _ Uc), (qmat_inv _ Uq) by assumption. reflexivity. }
  unfold same_turn. destruct MQ as [-> | ->].
  - apply rep_back; assumption.
  - rewrite opp_mul_l. destruct (rep_back (opposite (qmul qq qf))) as [-> | ->];
      [rewrite opp_unit; exact Um|apply rep_opp; assumption|auto|rewrite opp_opp; auto].
Qed.

Lemma place_read : forall qc qb pc pb pf, qnorm2 qc = 1%R -> qnorm2 qb = 1%R ->
  mat_vec (m3tr (qmat qc)) (vsub (mat_vec (m3tr (qmat qb)) (vsub pf pb)) pc) =
  qrot (qinv qc) (vsub (qrot (qinv qb) (vsub pf pb)) pc).
Proof.
  assert (A : forall q v, qnorm2 q = 1%R -> mat_vec (m3tr (qmat q)) v = qrot (qinv q) v).
  { intros q v U. rewrite <- (qmat_vec (qinv q)) by (apply qinv_unit; exact U). apply mat_vec_ext.
    intros i j Hi Hj. rewrite (qmat_inv q U) by assumption. reflexivity. }
  intros. rewrite !A by assumption. reflexivity.
Qed.

Lemma board_towards : forall mat_quat u e t b ext u' e', reachable e -> p_fej (e_par e) = false ->
  reads_rotations mat_quat -> has_cam e (fu_cam u) ext -> at_most (fu_cam_ext u) ext -> has_fid e (fu_id u) (fu_ext u) ->
  errors_positive b -> fid_UpdateEKF mat_quat u e t b = OK (u', e') ->
  exists e1 c f, only_predicted e t e1 /\ mfind (fu_cam u) (s_cam (e_state e1)) = Some c /\
    mfind (fu_id u) (s_fid (e_state e1)) = Some f /\
    (qnorm2 (b_ang (s_body (e_state e1))) = 1%R -> qnorm2 (c_ang c) = 1%R -> qnorm2 (f_ang f) = 1%R ->
     representable (board_turn e1 c f) ->
     exists H y N d p, fid_GetMeasurementJacobian u e1 = OK (H, u', e1) /\ board_noise b = OK N /\
       same_turn p (board_turn e1 c f) /\
       nr y = 6 /\ nc y = 1 /\
       (forall r, r < 3 -> column y r = (vget (bd_pos b) r - vget (board_place e1 c f) r)%R /\
          column y (3 + r) = vget (QuatToRotVec (qmul p (qinv (bd_ang b)))) r) /\
       moved_by e1 H y N d e').
Proof.
  intros mq u e t b ext u' e' Hr HF RR [c [H1 H2]] HX [f [H3 H4]] HB E.
  assert (HK : fknows u e c f) by (subst ext; repeat split; auto).
  unfold fid_UpdateEKF in E. destruct (CalculateLocalTime e t) as [lt e0] eqn:E0.
  destruct (predicted_split e t lt e0 E0) as [L P].
  destruct (local_went e t Hr) as [W0 _]. rewrite E0 in W0. cbn [snd] in W0.
  opn E. rename x into e1. destruct (predict_went e0 lt (w_reach _ _ W0)) as [e1' [E1 [W1 _]]].
  rewrite B in E1. injection E1 as <-.
  assert (W : went e e1) by (eapply went_trans; eauto).
  destruct (fknows_keeps u e e1 c f HK (w_keeps _ _ W)) as [c1 [f1 HK1]]. pose proof (w_reach _ _ W) as Hr1.
  exists e1, c1, f1. split; [apply P; exact B|].
  pose proof HK1 as [K1 [_ [K2 _]]]. split; [exact K1|]. split; [exact K2|].
  intros Ub Uc Uf Rep.
  assert (HF1 : p_fej (e_par e1) = false) by (rewrite (w_par _ _ W); exact HF).
  unfold fid_PredictMeasurement, fid_RefreshStates in E. rewrite HF1 in E. cbn [negb orb] in E.
  rewrite (get_cam_known _ _ _ K1) in E. unfold fid_at in E at 1. rewrite K2 in E. cbn [bind] in E.
  opn E. destruct x as [[jac u3] e3]. opn E. rename x into N. opn E. injection E as <- <-.
  assert (EJ : fid_GetMeasurementJacobian u e1 = OK (jac, u3, e3)).
  { rewrite <- B0. unfold fid_GetMeasurementJacobian, fid_RefreshStates. rewrite HF1. cbn [negb orb fu_id fu_cam fu_ext fu_cam_ext]. reflexivity. }
  assert (RD : fid_ready (mkFU (fu_id u) (fu_cam u) (fu_ext u) (fu_cam_ext u) false (Some (c_pos c1, c_ang c1, f_pos f1, f_ang f1))))
    by (right; discriminate).
  destruct (fid_jac_ok (mkFU (fu_id u) (fu_cam u) (fu_ext u) (fu_cam_ext u) false (Some (c_pos c1, c_ang c1, f_pos f1, f_ang f1))) e1 c1 f1 Hr1 HK1 RD) as [j [u2 [E3 [_ [_ [J1 J2]]]]]]. rewrite B0 in E3. injection E3 as -> <- ->.
  destruct (board_noise_ok (p_root (e_par e1)) b HB) as [N' [EN NN]]. rewrite B1 in EN. injection EN as <-.
  apply kalman_moved' in B2; [|exact Hr1|apply (noise_meas _ 6); auto].
  destruct B2 as [d M].
  match type of M with moved_by _ _ (stack2 (vsub _ ?pp) (QuatToRotVec (qmul ?rr _))) _ _ _ => pose (pl := pp); pose (p := rr) end.
  exists j, (stack2 (vsub (bd_pos b) pl) (QuatToRotVec (qmul p (qinv (bd_ang b))))), N, d, p.
  split; [exact EJ|]. split; [exact B1|]. split; [apply turn_read; assumption|].
  split; [reflexivity|]. split; [reflexivity|]. split; [|exact M].
  intros r Hr'. unfold column, stack2. cbn [ent].
  rewrite (proj2 (Nat.ltb_lt r 3) Hr'), (proj2 (Nat.ltb_ge (3 + r) 3)) by lia. replace (3 + r - 3) with r by lia.
  split; [|reflexivity]. rewrite vsub_get by exact Hr'. unfold pl, board_place. rewrite place_read by assumption. reflexivity.
Qed.
