(** C61: What a measurement does to the estimates. *)
From Coq Require Import Reals List Arith Lra.
From Verif Require Import Base.Res Base.Mat Base.RSum Base.LinAlg Base.Inverse Base.Geom Base.AMap Base.RMat Model.TypeHelper Model.Types Model.GpsHelper Model.MathHelper
  Model.Ekf Model.Updater Model.Ops Model.GpsUpdater Model.ImuUpdater Model.FiducialUpdater
  Spec.Layout Spec.History Spec.Correct Spec.KF Spec.Contract Spec.Named Spec.Rotation Spec.Callback Spec.Unused Spec.AtRest Spec.Towards
  Proofs.ImuCallback Proofs.FidCallback Proofs.Demo Proofs.DemoFilter Proofs.TowardsDemo Proofs.Towards Proofs.TowardsImu Proofs.TowardsBoard.
Import ListNotations.
Open Scope nat_scope.

(** Of all corrections the filter holds possible, the one it makes is the best
    compromise between agreeing with the measurement and staying where it is;
    it never agrees less with the measurement than before, and agrees more
    unless nothing is moved. *)
Theorem C61_least_squares : forall e H y N, reachable e -> meas_arg (p_root (e_par e)) (e_size e) H y N ->
  exists e' d, KalmanUpdate e H y N = OK e' /\ moved_by e H y N d e' /\
  forall M, is_inv (nr H) (noise_meant e (nr H) N) M ->
    exists z, (forall i, i < e_size e -> column d i = mv (e_size e) (covariance e) z i) /\
      (forall z', misfit (e_size e) H y M (mv (e_size e) (covariance e) z) + qf (e_size e) (covariance e) z <=
                  misfit (e_size e) H y M (mv (e_size e) (covariance e) z') + qf (e_size e) (covariance e) z')%R /\
      (misfit (e_size e) H y M (column d) <= misfit (e_size e) H y M (fun _ => 0))%R /\
      (misfit (e_size e) H y M (column d) = misfit (e_size e) H y M (fun _ => 0)%R -> forall i, i < e_size e -> column d i = 0%R).
Proof. exact answer. Qed.
Print Assumptions C61_least_squares.

(** Two measurements that say the same, say it with the same effect. *)
Theorem C61_same_information : forall e H y H' y' c, reachable e -> (0 < c)%R -> nc H = e_size e -> nr y = nr H -> nc y = 1 ->
  nc H' = e_size e -> nr y' = nr H' -> nc y' = 1 ->
  eqm (e_size e) (e_size e) (gram (nr H) (ent H)) (gram (nr H') (ent H')) ->
  eqm (e_size e) 1 (mm (nr H) (tr (ent H)) (ent y)) (mm (nr H') (tr (ent H')) (ent y')) ->
  exists e1 e2, KalmanUpdate e H y (mscale c (midm (nr H) (nr H))) = OK e1 /\
    KalmanUpdate e H' y' (mscale c (midm (nr H') (nr H'))) = OK e2 /\
    e_state e1 = e_state e2 /\ eqm (e_size e) (e_size e) (covariance e1) (covariance e2).
Proof. exact alike. Qed.
Print Assumptions C61_same_information.

(** A fix: the antenna is moved to where the fix places it. *)
Theorem C61_gps : forall svd hull ecef_to_lla u e t lla N u' e', reachable e -> p_fej (e_par e) = false ->
  has_gps e (gu_id u) (gu_ext u) -> noise_ok (p_root (e_par e)) 3 N -> e_lla_init e = true ->
  gps_UpdateEKF svd hull ecef_to_lla u e t lla N = OK (u', e') ->
  exists e1 q H d, only_predicted e t e1 /\ lla_to_enu lla (e_pos_e_in_g e) = OK q /\
    gps_GetMeasurementJacobian u e1 = OK (H, u', e1) /\
    moved_by e1 H (v3mat (vsub (enu_to_local q (e_ang_l_to_e e)) (antenna e1 (gu_id u)))) N d e'.
Proof. exact gps_towards. Qed.
Print Assumptions C61_gps.

(** The fix that completes the self-alignment: all fixes collected so far are
    compared with where the body was then. *)
Theorem C61_survey : forall svd hull ecef_to_lla u e t lla N u' e', reachable e -> p_fej (e_par e) = false ->
  has_gps e (gu_id u) (gu_ext u) -> e_lla_init e = false ->
  gps_UpdateEKF svd hull ecef_to_lla u e t lla N = OK (u', e') -> e_lla_init e' = true ->
  exists e1 e2 j v H y H' y', only_predicted e t e1 /\ AttemptGps svd hull ecef_to_lla e1 (local_of e t) lla = OK e2 /\
    gps_GetMeasurementJacobian u e2 = OK (j, v, e2) /\ stacked e2 j H y /\
    CompressMeasurements H y = OK (H', y') /\
    (if Nat.leb (nr y') 1 then e' = e2 else exists d, moved_by e2 H' y' (midm (nr y') (nr y')) d e').
Proof. exact survey_towards. Qed.
Print Assumptions C61_survey.

(** An IMU of several: expected readings are compared with actual ones, and
    the model is predicted afterwards. *)
Theorem C61_imu : forall u e t acc A omg W u' e' s, reachable e -> mfind (iu_id u) (s_imu (e_state e)) = Some s ->
  i_ext s = iu_ext u -> i_int s = iu_int u ->
  noise_ok (p_root (e_par e)) 3 A -> noise_ok (p_root (e_par e)) 3 W -> length (s_imu (e_state e)) <> 1 ->
  imu_UpdateEKF u e t acc A omg W = OK (u', e') -> e_zero_acc e' = false ->
  exists e0 e1 H y N d, e_state e0 = e_state e /\ covariance e0 = covariance e /\
    imu_GetMeasurementJacobian u e0 = OK (H, e0) /\ imu_noise A W = OK N /\
    difference acc omg (accelerometer e s) (gyroscope e s) y /\
    moved_by e0 H y N d e1 /\ PredictModel e1 (local_of e t) = OK e'.
Proof. exact imu_towards. Qed.
Print Assumptions C61_imu.

(** An IMU that is the only one: no update; its readings become the rates. *)
Theorem C61_imu_alone : forall u e t acc A omg W u' e' s, reachable e -> mfind (iu_id u) (s_imu (e_state e)) = Some s ->
  i_ext s = iu_ext u -> i_int s = iu_int u ->
  noise_ok (p_root (e_par e)) 3 A -> noise_ok (p_root (e_par e)) 3 W -> length (s_imu (e_state e)) = 1 ->
  imu_UpdateEKF u e t acc A omg W = OK (u', e') -> e_zero_acc e' = false ->
  let q := qmul (b_ang (s_body (e_state e))) (i_ang s) in
  exists e0, e_state e0 = e_state e /\ covariance e0 = covariance e /\
    PredictModel (SetBodyRates e0 (qrot q (vsub acc (i_acc_bias s))) (qrot q (vsub omg (i_omg_bias s))) v0) (local_of e t) = OK e'.
Proof. exact imu_alone. Qed.
Print Assumptions C61_imu_alone.

(** A reading taken for that of a body at rest: the shortfall is measured
    before the prediction, the Jacobian after it. *)
Theorem C61_stationary : forall u e t acc A omg W u' e' s, reachable e -> mfind (iu_id u) (s_imu (e_state e)) = Some s ->
  i_ext s = iu_ext u -> i_int s = iu_int u ->
  noise_ok (p_root (e_par e)) 3 A -> noise_ok (p_root (e_par e)) 3 W ->
  imu_UpdateEKF u e t acc A omg W = OK (u', e') -> e_zero_acc e' = true ->
  exists e0 e1 e2 H y N d, e_state e0 = e_state e /\ covariance e0 = covariance e /\
    PredictModel e0 (local_of e t) = OK e1 /\
    GetZeroAccelerationJacobian u e1 = OK (H, e1) /\ zero_noise u A W = OK N /\
    shortfall (iu_int u) e s acc omg y /\
    moved_by e1 H y N d e2 /\ e_state e' = e_state (SetBodyRates e2 g_gravity v0 v0) /\ covariance e' = covariance e2.
Proof. exact stationary_towards. Qed.
Print Assumptions C61_stationary.

(** A board: measured position less expected position; but expected
    orientation less measured orientation. *)
Theorem C61_board : forall mat_quat u e t b ext u' e', reachable e -> p_fej (e_par e) = false ->
  reads_rotations mat_quat -> has_cam e (fu_cam u) ext -> at_most (fu_cam_ext u) ext -> has_fid e (fu_id u) (fu_ext u) ->
  errors_positive b -> fid_UpdateEKF mat_quat u e t b = OK (u', e') ->
  exists e1 c f, only_predicted e t e1 /\ mfind (fu_cam u) (s_cam (e_state e1)) = Some c /\
    mfind (fu_id u) (s_fid (e_state e1)) = Some f /\
    (qnorm2 (b_ang (s_body (e_state e1))) = 1%R -> qnorm2 (c_ang c) = 1%R -> qnorm2 (f_ang f) = 1%R ->
     representable (board_turn e1 c f) ->
     exists H y N d p, fid_GetMeasurementJacobian u e1 = OK (H, u', e1) /\ board_noise b = OK N /\
       same_turn p (board_turn e1 c f) /\
       nr y = 6 /\ nc y = 1 /\
       (forall r, r < 3 -> column y r = (vget (bd_pos b) r - vget (board_place e1 c f) r)%R /\
          column y (3 + r) = vget (QuatToRotVec (qmul p (qinv (bd_ang b)))) r) /\
       moved_by e1 H y N d e').
Proof. exact board_towards. Qed.
Print Assumptions C61_board.

(** So a board seen exactly where it is expected, but turned, makes the filter
    turn the body the wrong way: afterwards the expected orientation is
    further off than before. *)
Theorem C61_board_refuted : exists mat_quat e u t b u' e' c f, reads_rotations mat_quat /\ reachable e /\ p_fej (e_par e) = false /\
  has_cam e (fu_cam u) false /\ has_fid e (fu_id u) false /\ fu_first u = true /\ errors_positive b /\
  mfind (fu_cam u) (s_cam (e_state e)) = Some c /\ mfind (fu_id u) (s_fid (e_state e)) = Some f /\
  qnorm2 (bd_ang b) = 1%R /\ bd_pos b = board_place e c f /\
  fid_UpdateEKF mat_quat u e t b = OK (u', e') /\
  mfind (fu_cam u) (s_cam (e_state e')) = Some c /\ mfind (fu_id u) (s_fid (e_state e')) = Some f /\
  (off_by e c f (bd_ang b) < off_by e' c f (bd_ang b))%R.
Proof. exact board_away. Qed.
Print Assumptions C61_board_refuted.

(** One position coordinate measured; the same with a row that says nothing. *)
Example C61_hypotheses : forall a root, reachable (demo0 a root) /\
  meas_arg root (e_size (demo0 a root)) demo_jac demo_res demo_meas_noise /\
  eqm 18 18 (gram 1 (ent demo_jac)) (gram 2 (ent idle_jac)) /\
  eqm 18 1 (mm 1 (tr (ent demo_jac)) (ent demo_res)) (mm 2 (tr (ent idle_jac)) (ent idle_res)).
Proof. exact idle_case. Qed.
(** A filter with an antenna and a reference; one with two IMUs. *)
Example C61_antenna : exists e, reachable e /\ p_fej (e_par e) = false /\ has_gps e 3 true /\ e_lla_init e = true /\
  noise_ok (p_root (e_par e)) 3 (midm 3 3).
Proof. exact placed_case. Qed.
Example C61_imus : exists e, reachable e /\ length (s_imu (e_state e)) = 2 /\ has_imu e 1 true true /\ has_imu e 7 true true.
Proof. exact two_imus. Qed.
