(** C36: Measurement Jacobians against the derivatives of the measurement
    models.  Rates are taken along arbitrary curves [c] of filter states; [x]
    collects the rates of the state entries.  Orientations are parametrised
    by their rotation vectors. *)
From Coq Require Import Reals List Arith Bool.
From Verif Require Import Base.Res Base.Mat Base.RMat Base.Geom Base.AMap
  Model.TypeHelper Model.Types Model.MathHelper Model.Ekf Model.GpsUpdater Model.ImuUpdater Model.FiducialUpdater Model.MsckfUpdater
  Spec.Deriv Spec.Correct Spec.DerivImu Spec.AtRest Spec.Towards Spec.DerivBoard
  Proofs.Deriv Proofs.Jacobians Proofs.CamJacobians Proofs.FidJacobians Proofs.JacWrong Proofs.JacDemo
  Proofs.ImuJacobians Proofs.ImuJacDemo Proofs.BoardTurn Proofs.BoardTurnDemo.
Import ListNotations.
Open Scope R_scope.

(** Projection to the image plane. *)
Theorem C36_projection : forall p v jac, vmoves p v -> ProjectionJacobian (p 0) = OK jac ->
  exists x y, near (fun t => Project (p t) = OK (x t, y t)) /\
    moves x (row3 jac 0 v) /\ moves y (row3 jac 1 v).
Proof. exact project_jacobian. Qed.
Print Assumptions C36_projection.

(** Lens distortion: right exactly for equal radial coefficients, or at the
    image centre. *)
Theorem C36_distortion : forall x y k,
  plane_derivative (fun a b => Distort a b k) (DistortionJacobian x y k) x y <->
  in_k_1 k = in_k_2 k \/ (x = 0 /\ y = 0).
Proof. exact distortion_iff. Qed.
Print Assumptions C36_distortion.

Theorem C36_distortion_refuted : exists x y k,
  ~ plane_derivative (fun a b => Distort a b k) (DistortionJacobian x y k) x y.
Proof. exact distortion_wrong. Qed.
Print Assumptions C36_distortion_refuted.

(** GPS: all columns, with and without a calibrated antenna. *)
Theorem C36_gps : forall u c jac u' e' x phi,
  let s := mget default_gps (gu_id u) (s_gps (e_state (c 0))) in
  (forall t, p_fej (e_par (c t)) = false) ->
  gps_GetMeasurementJacobian u (c 0) = OK (jac, u', e') ->
  (gu_ext u = true -> (18 <= g_index s)%nat) ->
  (forall t, b_ang (s_body (e_state (c t))) = RotVecToQuat (phi t)) ->
  proper_turn (phi 0) ->
  vmoves (fun t => b_pos (s_body (e_state (c t)))) (slice x 0) ->
  vmoves phi (slice x 9) ->
  vmoves (fun t => g_pos (mget default_gps (gu_id u) (s_gps (e_state (c t)))))
    (if gu_ext u then slice x (g_index s) else v0) ->
  vmoves (fun t => fst (fst (gps_PredictMeasurement u (c t)))) (rows3 jac x 0).
Proof. exact gps_jacobian. Qed.
Print Assumptions C36_gps.

(** A correction turns the body from the right (C14, [correct]).  The
    orientation columns are the derivative for that turn at the identity
    attitude ... *)
Theorem C36_gps_correction : forall u c jac u' e' x k,
  (forall t, p_fej (e_par (c t)) = false) ->
  gps_GetMeasurementJacobian u (c 0) = OK (jac, u', e') -> gu_ext u = false ->
  (forall t, b_ang (s_body (e_state (c t))) = angle_axis_quat t k) -> vnorm2 k = 1 -> slice x 9 = k ->
  vmoves (fun t => b_pos (s_body (e_state (c t)))) (slice x 0) ->
  (forall t, g_pos (mget default_gps (gu_id u) (s_gps (e_state (c t)))) =
             g_pos (mget default_gps (gu_id u) (s_gps (e_state (c 0))))) ->
  vmoves (fun t => fst (fst (gps_PredictMeasurement u (c t)))) (rows3 jac x 0).
Proof. exact gps_identity. Qed.
Print Assumptions C36_gps_correction.

(** ... and not at other attitudes. *)
Theorem C36_gps_correction_refuted : exists u c jac u' e' x k,
  (forall t, p_fej (e_par (c t)) = false) /\
  gps_GetMeasurementJacobian u (c 0) = OK (jac, u', e') /\ gu_ext u = false /\
  (forall t, b_ang (s_body (e_state (c t))) = qmul (b_ang (s_body (e_state (c 0)))) (angle_axis_quat t k)) /\
  vnorm2 k = 1 /\ slice x 9 = k /\ slice x 0 = v0 /\
  (forall t, b_pos (s_body (e_state (c t))) = v0) /\
  (forall t, s_gps (e_state (c t)) = s_gps (e_state (c 0))) /\
  ~ vmoves (fun t => fst (fst (gps_PredictMeasurement u (c t)))) (rows3 jac x 0).
Proof. exact gps_wrong. Qed.
Print Assumptions C36_gps_correction_refuted.

(** Camera: one observation of a feature by a stored clone, lens without
    distortion; the camera pose fixed ... *)
Theorem C36_camera_fixed : forall u k n cam i e e0 e1 f a R0 F0 C0 R1 F1 C1 pf pb tb pc qc x dpf,
  no_distortion k -> mu_ext u = false ->
  GetAugState e (mu_id u) (fp_frame f) (fp_time f) = OK (a, e0) -> a_alpha a = 0 ->
  feature_row u k pc qc n cam (pf 0) e i f R0 F0 C0 = OK (R1, F1, C1, e1) ->
  (forall r c, (2 * i <= r < 2 * i + 2)%nat -> ent C0 r c = 0) ->
  qnorm2 qc = 1 -> a_pos a = pb 0 -> a_ang a = RotVecToQuat (tb 0) -> proper_turn (tb 0) ->
  vmoves pf dpf -> vmoves pb (slice x (a_index a)) -> vmoves tb (slice x (a_index a + 3)) ->
  let image t := on_image (seen_from (pf t) (pb t) (RotVecToQuat (tb t)) pc qc) in
  (exists mx my, undo_pixel k (fp_kp f) = OK (mx, my) /\
     ent R1 (2 * i) 0 = mx - fst (image 0) /\ ent R1 (2 * i + 1) 0 = my - snd (image 0)) /\
  moves (fun t => fst (image t)) (row3 F1 (2 * i) dpf + apply_row C1 x (2 * i)) /\
  moves (fun t => snd (image t)) (row3 F1 (2 * i + 1) dpf + apply_row C1 x (2 * i + 1)).
Proof. exact msckf_rows_fixed. Qed.
Print Assumptions C36_camera_fixed.

(** ... and calibrated. *)
Theorem C36_camera_calibrated : forall u k n cam i e e0 e1 f a R0 F0 C0 R1 F1 C1 pf pb tb pc tc x dpf,
  no_distortion k -> mu_ext u = true -> (cam + 6 <= a_index a)%nat ->
  GetAugState e (mu_id u) (fp_frame f) (fp_time f) = OK (a, e0) -> a_alpha a = 0 ->
  feature_row u k (pc 0) (RotVecToQuat (tc 0)) n cam (pf 0) e i f R0 F0 C0 = OK (R1, F1, C1, e1) ->
  (forall r c, (2 * i <= r < 2 * i + 2)%nat -> ent C0 r c = 0) ->
  a_pos a = pb 0 -> a_ang a = RotVecToQuat (tb 0) -> proper_turn (tb 0) -> proper_turn (tc 0) ->
  vmoves pf dpf -> vmoves pb (slice x (a_index a)) -> vmoves tb (slice x (a_index a + 3)) ->
  vmoves pc (slice x cam) -> vmoves tc (slice x (cam + 3)) ->
  let image t := on_image (seen_from (pf t) (pb t) (RotVecToQuat (tb t)) (pc t) (RotVecToQuat (tc t))) in
  (exists mx my, undo_pixel k (fp_kp f) = OK (mx, my) /\
     ent R1 (2 * i) 0 = mx - fst (image 0) /\ ent R1 (2 * i + 1) 0 = my - snd (image 0)) /\
  moves (fun t => fst (image t)) (row3 F1 (2 * i) dpf + apply_row C1 x (2 * i)) /\
  moves (fun t => snd (image t)) (row3 F1 (2 * i + 1) dpf + apply_row C1 x (2 * i + 1)).
Proof. exact msckf_rows_ext. Qed.
Print Assumptions C36_camera_calibrated.

(** Fiducial board position: board known, camera fixed ... *)
Theorem C36_fiducial_fixed : forall mq u u' c e' jac x pos tb f,
  (forall t, p_fej (e_par (c t)) = false) ->
  fid_GetMeasurementJacobian u (c 0) = OK (jac, u', e') ->
  (forall t, mfind (fu_id u) (s_fid (e_state (c t))) = Some (f t)) ->
  (forall t, exists a v e, fid_PredictMeasurement mq u (c t) = OK (pos t, a, v, e)) ->
  (forall t, b_ang (s_body (e_state (c t))) = RotVecToQuat (tb t)) -> proper_turn (tb 0) ->
  vmoves (fun t => b_pos (s_body (e_state (c t)))) (slice x 0) -> vmoves tb (slice x 9) ->
  fu_cam_ext u = false -> fu_ext u = false ->
  (forall t, c_pos (cam_of (c t) (fu_cam u)) = c_pos (cam_of (c 0) (fu_cam u)) /\
             c_ang (cam_of (c t) (fu_cam u)) = c_ang (cam_of (c 0) (fu_cam u))) ->
  (forall t, f_pos (f t) = f_pos (f 0)) ->
  vmoves pos (rows3 jac x 0).
Proof. exact fid_jacobian_fixed. Qed.
Print Assumptions C36_fiducial_fixed.

(** ... or calibrated. *)
Theorem C36_fiducial_calibrated : forall mq u u' c e' jac x pos tb f,
  (forall t, p_fej (e_par (c t)) = false) ->
  fid_GetMeasurementJacobian u (c 0) = OK (jac, u', e') ->
  (forall t, mfind (fu_id u) (s_fid (e_state (c t))) = Some (f t)) ->
  (forall t, exists a v e, fid_PredictMeasurement mq u (c t) = OK (pos t, a, v, e)) ->
  (forall t, b_ang (s_body (e_state (c t))) = RotVecToQuat (tb t)) -> proper_turn (tb 0) ->
  vmoves (fun t => b_pos (s_body (e_state (c t)))) (slice x 0) -> vmoves tb (slice x 9) ->
  forall tc, fu_cam_ext u = true -> fu_ext u = false ->
  let ix := c_index (cam_of (c 0) (fu_cam u)) in
  (18 <= ix)%nat ->
  (forall t, c_ang (cam_of (c t) (fu_cam u)) = RotVecToQuat (tc t)) -> proper_turn (tc 0) ->
  vmoves (fun t => c_pos (cam_of (c t) (fu_cam u))) (slice x ix) -> vmoves tc (slice x (ix + 3)) ->
  (forall t, f_pos (f t) = f_pos (f 0)) ->
  vmoves pos (rows3 jac x 0).
Proof. exact fid_jacobian_cam. Qed.
Print Assumptions C36_fiducial_calibrated.

(** When the board itself is calibrated, its position columns are wrong. *)
Theorem C36_board_refuted : forall mq, exists u c jac u' e' x pos f,
  (forall t, p_fej (e_par (c t)) = false) /\
  fid_GetMeasurementJacobian u (c 0) = OK (jac, u', e') /\
  (forall t, mfind (fu_id u) (s_fid (e_state (c t))) = Some (f t)) /\
  (forall t, exists a v e, fid_PredictMeasurement mq u (c t) = OK (pos t, a, v, e)) /\
  fu_ext u = true /\ fu_cam_ext u = false /\
  (forall t, s_body (e_state (c t)) = s_body (e_state (c 0))) /\
  (forall t, s_cam (e_state (c t)) = s_cam (e_state (c 0))) /\
  (forall i, (i < 18)%nat -> x i = 0) /\ f_index (f 0) = 18%nat /\
  vmoves (fun t => f_pos (f t)) (slice x 18) /\
  ~ vmoves pos (rows3 jac x 0).
Proof. exact board_wrong. Qed.
Print Assumptions C36_board_refuted.

(** Inertial sensor: the rows are right exactly where the terms they leave out
    vanish ([accel_gap], [gyro_gap]).  Orientations are turned from the right,
    as corrections turn them. *)
Theorem C36_imu : forall u c jac e' x,
  imu_GetMeasurementJacobian u (c 0) = OK (jac, e') -> imu_apart u (imu_of (c 0) (iu_id u)) ->
  imu_rates u c x ->
  (vmoves (fun t => segv (fst (imu_PredictMeasurement u (c t))) 0) (rows3 jac x 0) <-> accel_gap u (c 0) x = v0) /\
  (vmoves (fun t => segv (fst (imu_PredictMeasurement u (c t))) 3) (rows3 jac x 3) <-> gyro_gap u (c 0) x = v0).
Proof. exact imu_right. Qed.
Print Assumptions C36_imu.

(** They vanish for a level body without velocity, and for the gyroscope
    whenever the attitude is not changed. *)
Theorem C36_imu_level : forall u c x, imu_rates u c x ->
  b_ang (s_body (e_state (c 0))) = qid -> b_vel (s_body (e_state (c 0))) = v0 -> slice x 3 = v0 ->
  accel_gap u (c 0) x = v0.
Proof. exact level_right. Qed.
Print Assumptions C36_imu_level.

Theorem C36_gyroscope_fixed : forall u c x, imu_rates u c x -> slice x 9 = v0 -> gyro_gap u (c 0) x = v0.
Proof. exact fixed_right. Qed.
Print Assumptions C36_gyroscope_fixed.

(** They do not vanish in general: a body at a half turn that accelerates, ... *)
Theorem C36_imu_attitude_refuted : exists u c jac e' x,
  imu_GetMeasurementJacobian u (c 0) = OK (jac, e') /\ imu_apart u (imu_of (c 0) (iu_id u)) /\ imu_rates u c x /\
  (forall t, b_vel (s_body (e_state (c t))) = v0) /\
  (forall t, b_ang (s_body (e_state (c t))) = b_ang (s_body (e_state (c 0)))) /\
  ~ vmoves (fun t => segv (fst (imu_PredictMeasurement u (c t))) 0) (rows3 jac x 0).
Proof. exact accel_attitude. Qed.
Print Assumptions C36_imu_attitude_refuted.

(** ... a level turning body whose velocity changes, ... *)
Theorem C36_imu_velocity_refuted : exists u c jac e' x,
  imu_GetMeasurementJacobian u (c 0) = OK (jac, e') /\ imu_apart u (imu_of (c 0) (iu_id u)) /\ imu_rates u c x /\
  (forall t, b_ang (s_body (e_state (c t))) = qid) /\
  (forall i, i <> 3%nat -> x i = 0) /\
  ~ vmoves (fun t => segv (fst (imu_PredictMeasurement u (c t))) 0) (rows3 jac x 0).
Proof. exact accel_velocity. Qed.
Print Assumptions C36_imu_velocity_refuted.

(** ... and a turning body whose attitude changes. *)
Theorem C36_gyroscope_refuted : exists u c jac e' x,
  imu_GetMeasurementJacobian u (c 0) = OK (jac, e') /\ imu_apart u (imu_of (c 0) (iu_id u)) /\ imu_rates u c x /\
  b_ang (s_body (e_state (c 0))) = qid /\
  (forall i, i <> 11%nat -> x i = 0) /\
  ~ vmoves (fun t => segv (fst (imu_PredictMeasurement u (c t))) 3) (rows3 jac x 3).
Proof. exact gyro_attitude. Qed.
Print Assumptions C36_gyroscope_refuted.

(** At rest: what is shown to be zero is the negated residual.  The
    gyroscope rows are right; the accelerometer rows exactly where
    [rest_gap] vanishes. *)
Theorem C36_stationary : forall u c jac e' x acc omg,
  GetZeroAccelerationJacobian u (c 0) = OK (jac, e') -> imu_apart u (imu_of (c 0) (iu_id u)) ->
  imu_rates u c x ->
  let shown t i := vopp (segv (zero_resid u (c t) (imu_of (c t) (iu_id u)) acc omg) i) in
  (vmoves (fun t => shown t 0%nat) (rows3 jac x 0) <-> rest_gap u (c 0) x = v0) /\
  (iu_int u = true -> vmoves (fun t => shown t 3%nat) (rows3 jac x 3)).
Proof. exact rest_right. Qed.
Print Assumptions C36_stationary.

Theorem C36_stationary_level : forall u c x,
  b_ang (s_body (e_state (c 0))) = qid -> i_ang (imu_of (c 0) (iu_id u)) = qid ->
  iu_ext u = false -> rest_gap u (c 0) x = v0.
Proof. exact rest_level. Qed.
Print Assumptions C36_stationary_level.

(** The position of a calibrated sensor is taken for its orientation, ... *)
Theorem C36_stationary_position_refuted : forall acc omg, exists u c jac e' x,
  GetZeroAccelerationJacobian u (c 0) = OK (jac, e') /\ imu_apart u (imu_of (c 0) (iu_id u)) /\ imu_rates u c x /\
  (forall i, i <> i_index_ext (imu_of (c 0) (iu_id u)) -> x i = 0) /\
  ~ vmoves (fun t => vopp (segv (zero_resid u (c t) (imu_of (c t) (iu_id u)) acc omg) 0)) (rows3 jac x 0).
Proof. exact rest_position. Qed.
Print Assumptions C36_stationary_position_refuted.

(** ... and the turn of a level body is not turned into the frame of its
    sensor. *)
Theorem C36_stationary_mounted_refuted : forall acc omg, exists u c jac e' x,
  GetZeroAccelerationJacobian u (c 0) = OK (jac, e') /\ imu_apart u (imu_of (c 0) (iu_id u)) /\ imu_rates u c x /\
  iu_ext u = false /\ b_ang (s_body (e_state (c 0))) = qid /\
  ~ vmoves (fun t => vopp (segv (zero_resid u (c t) (imu_of (c t) (iu_id u)) acc omg) 0)) (rows3 jac x 0).
Proof. exact rest_mounted. Qed.
Print Assumptions C36_stationary_mounted_refuted.

(** The orientation a board is seen with: with the measured orientation equal
    to the predicted one, the last three rows are the rate of change of the
    orientation shown exactly where three errors cancel. *)
Theorem C36_board_turn : forall mq u u' c e' jac x k f ang meas, reads_rotations mq ->
  (forall t, p_fej (e_par (c t)) = false) ->
  fid_GetMeasurementJacobian u (c 0) = OK (jac, u', e') ->
  (forall t, mfind (fu_cam u) (s_cam (e_state (c t))) = Some (k t)) ->
  (forall t, mfind (fu_id u) (s_fid (e_state (c t))) = Some (f t)) ->
  (forall t, exists p v e, fid_PredictMeasurement mq u (c t) = OK (p, ang t, v, e)) ->
  board_apart u (k 0) (f 0) -> board_rates u c k f x -> seen_turned (c 0) (k 0) (f 0) ->
  same_turn meas (board_turn (c 0) (k 0) (f 0)) ->
  (vmoves (fun t => turn_shown (ang t) meas) (rows3 jac x 3) <-> turn_gap u (c 0) (k 0) (f 0) x = v0).
Proof. exact board_turn_right. Qed.
Print Assumptions C36_board_turn.

(** ... each of which is there in every state, for some turn of the body, of
    the camera and of the board. *)
Theorem C36_board_turn_never : forall e k f,
  qnorm2 (b_ang (s_body (e_state e))) = 1 -> qnorm2 (c_ang k) = 1 -> qnorm2 (f_ang f) = 1 ->
  (exists d, vnorm2 d = 1 /\ body_turn_gap e k f d <> v0) /\
  (exists d, vnorm2 d = 1 /\ cam_turn_gap e k f d <> v0) /\ (exists d, vnorm2 d = 1 /\ board_turn_gap e k f d <> v0).
Proof. exact board_turn_never. Qed.
Print Assumptions C36_board_turn_never.

(** So in every state there is a turn of the body alone along which the rows
    are not the rate. *)
Theorem C36_board_body_refuted : forall mq u e jac u' e' k f meas, reads_rotations mq -> p_fej (e_par e) = false ->
  fid_GetMeasurementJacobian u e = OK (jac, u', e') ->
  mfind (fu_cam u) (s_cam (e_state e)) = Some k -> mfind (fu_id u) (s_fid (e_state e)) = Some f -> board_apart u k f ->
  qnorm2 (b_ang (s_body (e_state e))) = 1 -> qnorm2 (c_ang k) = 1 -> qnorm2 (f_ang f) = 1 -> seen_turned e k f ->
  same_turn meas (board_turn e k f) ->
  exists q x ang, with_attitude e (q 0) = e /\ board_rates u (fun t => with_attitude e (q t)) (fun _ => k) (fun _ => f) x /\
    (forall t, exists p v e1, fid_PredictMeasurement mq u (with_attitude e (q t)) = OK (p, ang t, v, e1)) /\
    ~ vmoves (fun t => turn_shown (ang t) meas) (rows3 jac x 3).
Proof. exact board_body_wrong. Qed.
Print Assumptions C36_board_body_refuted.

(** For a level body and a level board the rows of the body are the exact
    opposite of the rate. *)
Theorem C36_board_opposite : forall mq u u' c e' jac x k f ang meas, reads_rotations mq ->
  (forall t, p_fej (e_par (c t)) = false) ->
  fid_GetMeasurementJacobian u (c 0) = OK (jac, u', e') ->
  (forall t, mfind (fu_cam u) (s_cam (e_state (c t))) = Some (k t)) ->
  (forall t, mfind (fu_id u) (s_fid (e_state (c t))) = Some (f t)) ->
  (forall t, exists p v e, fid_PredictMeasurement mq u (c t) = OK (p, ang t, v, e)) ->
  board_apart u (k 0) (f 0) -> board_rates u c k f x -> seen_turned (c 0) (k 0) (f 0) ->
  same_turn meas (board_turn (c 0) (k 0) (f 0)) ->
  b_ang (s_body (e_state (c 0))) = qid -> f_ang (f 0) = qid ->
  if_on (fu_cam_ext u) x (c_index (k 0) + 3) = v0 -> if_on (fu_ext u) x (f_index (f 0) + 3) = v0 ->
  vmoves (fun t => turn_shown (ang t) meas) (vopp (rows3 jac x 3)).
Proof. exact board_turn_opposite. Qed.
Print Assumptions C36_board_opposite.

(** Non-vacuity. *)
Example C36_board_turn_case : exists mq u c jac u' e' x k f ang meas,
  reads_rotations mq /\ (forall t, p_fej (e_par (c t)) = false) /\
  fid_GetMeasurementJacobian u (c 0) = OK (jac, u', e') /\
  (forall t, mfind (fu_cam u) (s_cam (e_state (c t))) = Some (k t)) /\
  (forall t, mfind (fu_id u) (s_fid (e_state (c t))) = Some (f t)) /\
  (forall t, exists p v e, fid_PredictMeasurement mq u (c t) = OK (p, ang t, v, e)) /\
  board_apart u (k 0) (f 0) /\ board_rates u c k f x /\ seen_turned (c 0) (k 0) (f 0) /\
  same_turn meas (board_turn (c 0) (k 0) (f 0)) /\
  fu_cam_ext u = true /\ fu_ext u = true /\ slice x 9 = e_x /\ slice x (c_index (k 0) + 3) = e_x /\ slice x (f_index (f 0) + 3) = e_x /\
  turn_gap u (c 0) (k 0) (f 0) x = v0.
Proof. exact board_turn_case. Qed.
Example C36_board_opposite_case : exists mq u c jac u' e' x k f ang meas,
  reads_rotations mq /\ (forall t, p_fej (e_par (c t)) = false) /\
  fid_GetMeasurementJacobian u (c 0) = OK (jac, u', e') /\
  (forall t, mfind (fu_cam u) (s_cam (e_state (c t))) = Some (k t)) /\
  (forall t, mfind (fu_id u) (s_fid (e_state (c t))) = Some (f t)) /\
  (forall t, exists p v e, fid_PredictMeasurement mq u (c t) = OK (p, ang t, v, e)) /\
  board_apart u (k 0) (f 0) /\ board_rates u c k f x /\ seen_turned (c 0) (k 0) (f 0) /\
  same_turn meas (board_turn (c 0) (k 0) (f 0)) /\
  b_ang (s_body (e_state (c 0))) = qid /\ f_ang (f 0) = qid /\ slice x 9 = e_x /\
  if_on (fu_cam_ext u) x (c_index (k 0) + 3) = v0 /\ if_on (fu_ext u) x (f_index (f 0) + 3) = v0.
Proof. exact board_opposite_case. Qed.
Example C36_imu_case : exists c jac jac2 e' e'' x,
  let u := imu_updater_init 1 true true in
  imu_GetMeasurementJacobian u (c 0) = OK (jac, e') /\ GetZeroAccelerationJacobian u (c 0) = OK (jac2, e'') /\
  imu_apart u (imu_of (c 0) 1) /\ imu_rates u c x /\
  (forall i, In i [6; 12; 15; 18; 21; 24; 27]%nat -> slice x i <> v0) /\
  accel_gap u (c 0) x = v0 /\ gyro_gap u (c 0) x = v0.
Proof. exact imu_case. Qed.
Example C36_projection_case : exists p v jac, vmoves p v /\ ProjectionJacobian (p 0) = OK jac /\ v <> v0.
Proof. exact project_case. Qed.
Example C36_gps_case : exists c jac u' e' x phi,
  let u := gps_updater_init 1 false in
  (forall t, p_fej (e_par (c t)) = false) /\
  gps_GetMeasurementJacobian u (c 0) = OK (jac, u', e') /\
  (forall t, b_ang (s_body (e_state (c t))) = RotVecToQuat (phi t)) /\ proper_turn (phi 0) /\
  vmoves (fun t => b_pos (s_body (e_state (c t)))) (slice x 0) /\ vmoves phi (slice x 9) /\
  vmoves (fun t => g_pos (mget default_gps (gu_id u) (s_gps (e_state (c t))))) v0 /\
  slice x 0 = e_z /\ slice x 9 = e_z /\ g_pos (mget default_gps (gu_id u) (s_gps (e_state (c 0)))) = e_x.
Proof. exact gps_case. Qed.
Example C36_gps_correction_case : exists c jac u' e' x,
  let u := gps_updater_init 1 false in
  (forall t, p_fej (e_par (c t)) = false) /\
  gps_GetMeasurementJacobian u (c 0) = OK (jac, u', e') /\
  (forall t, b_ang (s_body (e_state (c t))) = angle_axis_quat t e_x) /\ vnorm2 e_x = 1 /\ slice x 9 = e_x /\
  vmoves (fun t => b_pos (s_body (e_state (c t)))) (slice x 0) /\
  (forall t, g_pos (mget default_gps (gu_id u) (s_gps (e_state (c t)))) = e_z).
Proof. exact gps_correction_case. Qed.
Example C36_camera_case : forall ext, exists q a e0 R1 F1 C1 e1,
  let u := msckf_updater_init 1 ext 1 in
  no_distortion default_intrinsics /\ (18 + 6 <= a_index a)%nat /\ proper_turn (yaw 0) /\ q = RotVecToQuat (yaw 0) /\
  GetAugState clone_filter (mu_id u) (fp_frame demo_point) (fp_time demo_point) = OK (a, e0) /\ a_alpha a = 0 /\
  feature_row u default_intrinsics v0 q 30 18 demo_feature clone_filter 0 demo_point
    (mzero 2 1) (mzero 2 3) (mzero 2 30) = OK (R1, F1, C1, e1) /\
  a_pos a = v0 /\ a_ang a = RotVecToQuat (yaw 0) /\ qnorm2 q = 1.
Proof. exact camera_case. Qed.
Example C36_fiducial_case : forall mq cam_ext, exists c u jac u' e' pos f x,
  fu_ext u = false /\ fu_cam_ext u = cam_ext /\ (forall t, p_fej (e_par (c t)) = false) /\
  fid_GetMeasurementJacobian u (c 0) = OK (jac, u', e') /\
  (forall t, mfind (fu_id u) (s_fid (e_state (c t))) = Some (f t)) /\
  (forall t, exists a v e, fid_PredictMeasurement mq u (c t) = OK (pos t, a, v, e)) /\
  (forall t, b_ang (s_body (e_state (c t))) = RotVecToQuat (yaw t)) /\ proper_turn (yaw 0) /\
  vmoves (fun t => b_pos (s_body (e_state (c t)))) (slice x 0) /\ vmoves yaw (slice x 9) /\
  c_index (cam_of (c 0) (fu_cam u)) = 18%nat /\
  (forall t, c_ang (cam_of (c t) (fu_cam u)) = RotVecToQuat (yaw 0)) /\
  (forall t, f_pos (f t) = demo_feature).
Proof. exact fiducial_case. Qed.
