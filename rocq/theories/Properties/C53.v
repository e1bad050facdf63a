(** C53: Exact measurements leave a correct filter alone. *)
From Coq Require Import Reals List Lra.
From Verif Require Import Base.Res Base.Mat Base.Geom Base.AMap Base.RMat Model.TypeHelper Model.Types Model.Ekf
  Model.MathHelper Model.GpsHelper Model.ImuUpdater Model.GpsUpdater Model.FiducialUpdater Model.MsckfUpdater
  Model.Sensors Model.Trackers Model.TruthEngine Model.SimSensors Model.EigenQuat
  Spec.AtRest Proofs.Demo Proofs.WorldFinals Proofs.EigenQuat Proofs.AtRest Proofs.AtRestSteps Proofs.AtRestFinals.
Import ListNotations.
Open Scope R_scope.

(** A program built from true parameters, for a body that rests: whatever
    error-free messages arrive, in whatever order, all estimates stay what
    they were, and true. *)
Theorem C53_rest : forall svd hull ecef_to_lla mat_quat solve t p q par Q pe a t0 b l w ms w',
  reads_rotations mat_quat -> still t p q -> at_rest p q b -> 0 <= p_chi2 par ->
  all_told t (world_init (Initialize (EKF_init par Q pe a) t0 b)) l ->
  wrun svd hull ecef_to_lla mat_quat solve (world_init (Initialize (EKF_init par Q pe a) t0 b)) l = OK w ->
  exact_run ecef_to_lla svd hull mat_quat solve t p q w ms ->
  wrun svd hull ecef_to_lla mat_quat solve w (map EMsg ms) = OK w' ->
  holds t p q w' /\ same_but_clones (e_state (w_ekf w)) (e_state (w_ekf w')).
Proof. exact simulated_rest. Qed.
Print Assumptions C53_rest.

(** The contract for the conversion of rotation matrices is met by Eigen's
    method. *)
Theorem C53_eigen : reads_rotations eigen_mat_quat.
Proof. exact eigen_reads. Qed.
Print Assumptions C53_eigen.

(** A moving body: an exact GPS fix changes nothing in a filter that has
    arrived at the right place. *)
Theorem C53_gps : forall svd hull ecef_to_lla t e id u le vr time lla N e1 u' e', arrived t e time e1 -> gps_true t e1 id u ->
  located ecef_to_lla t (b_pos (s_body (e_state e1))) (b_ang (s_body (e_state e1))) id ->
  sim_gps_message ecef_to_lla t id true le vr time = OK (MGps id time lla N) ->
  gps_UpdateEKF svd hull ecef_to_lla u e time lla N = OK (u', e') -> e_state e' = e_state e1.
Proof. exact gps_arrived. Qed.
Print Assumptions C53_gps.

(** Nor does an exact detection of a board. *)
Theorem C53_board : forall mat_quat t e id c k u time d te re vr qr e1 u' e', reads_rotations mat_quat -> arrived t e time e1 ->
  mfind id (s_cam (e_state e1)) = Some c -> GetCameraPosition t id = OK (c_pos c) ->
  GetCameraAngularPosition t id = OK (c_ang c) -> qnorm2 (c_ang c) = 1%R ->
  board_true t e1 id c k u -> representable (bd_ang d) ->
  sim_board_message t k id true te re vr qr time = OK d ->
  fid_UpdateEKF mat_quat u e time d = OK (u', e') -> e_state e' = e_state e1.
Proof. exact board_arrived. Qed.
Print Assumptions C53_board.

(** The only IMU of a moving body: the lever arm and the configured biases
    end up in the acceleration and rate of the body. *)
Theorem C53_imu : forall t time u e s a w al ae oe vr acc A omg W u' e', knows_imu t time u e s ->
  bt_acc (tr_body t) time = OK a -> bt_rate (tr_body t) time = OK w -> bt_ang_acc (tr_body t) time = OK al ->
  sim_imu_message t (iu_id u) true ae oe vr time = OK (MImu (iu_id u) time acc A omg W) ->
  imu_UpdateEKF u e time acc A omg W = OK (u', e') ->
  let b := s_body (e_state e') in
  let turn := qrot (b_ang (s_body (e_state e))) in
  b_acc b = vsub (vadd (vadd a g_gravity) (turn (vadd (vcross al (i_pos s)) (vcross w (vcross w (i_pos s))))))
                 (turn (qrot (i_ang s) (i_acc_bias s))) /\
  b_ang_vel b = vsub (turn w) (turn (qrot (i_ang s) (i_omg_bias s))) /\ b_ang_acc b = v0.
Proof. exact imu_known. Qed.
Print Assumptions C53_imu.

(** A turning body with the IMU off its centre: the filter knows everything
    and still reports an acceleration that is not there. *)
Theorem C53_lever_refuted : exists t u e s ae oe vr acc A omg W e', knows_imu t 0 u e s /\ i_acc_bias s = v0 /\ i_omg_bias s = v0 /\
  bt_acc (tr_body t) 0 = OK v0 /\
  sim_imu_message t (iu_id u) true ae oe vr 0 = OK (MImu (iu_id u) 0 acc A omg W) /\
  imu_UpdateEKF u e 0 acc A omg W = OK (u, e') /\ b_acc (s_body (e_state e')) <> vadd v0 g_gravity.
Proof. exact lever_refuted. Qed.
Print Assumptions C53_lever_refuted.

(** A standing body with a configured accelerometer bias: the error-free
    measurement does not contain the bias which the filter subtracts. *)
Theorem C53_bias_refuted : exists t u e s ae oe vr acc A omg W e', knows_imu t 0 u e s /\ still t v0 qid /\ i_pos s = v0 /\ i_omg_bias s = v0 /\
  sim_imu_message t (iu_id u) true ae oe vr 0 = OK (MImu (iu_id u) 0 acc A omg W) /\
  imu_UpdateEKF u e 0 acc A omg W = OK (u, e') /\ b_acc (s_body (e_state e')) <> vadd v0 g_gravity.
Proof. exact bias_refuted. Qed.
Print Assumptions C53_bias_refuted.

(** *** Concrete cases *)
(** A cyclic engine without amplitudes stands still. *)
Example C53_ex_still : still rest_truth v0 qid.
Proof. exact rest_still. Qed.
(** A program with an IMU, a camera, a tracker and a board, and three
    error-free messages. *)
Example C53_ex_run : forall svd hull ecef_to_lla solve a, exists w acc omg d acc' omg' w',
  let start := world_init (Initialize (demo0 a false) 0 default_body) in
  let ms := rest_msgs acc omg d acc' omg' in
  still rest_truth v0 qid /\ at_rest v0 qid default_body /\ all_told rest_truth start rest_build /\
  wrun svd hull ecef_to_lla eigen_mat_quat solve start rest_build = OK w /\
  exact_run ecef_to_lla svd hull eigen_mat_quat solve rest_truth v0 qid w ms /\
  wrun svd hull ecef_to_lla eigen_mat_quat solve w (map EMsg ms) = OK w'.
Proof. exact rest_run. Qed.
(** An error-free track. *)
Example C53_ex_track : forall e frame, exists tr, length (ft_track tr) = 1%nat /\ exact_track rest_truth e 2 frame tr.
Proof. exact rest_track. Qed.
(** A filter at the right place. *)
Example C53_ex_arrived : exists e1, arrived rest_truth (Initialize (demo0 ANone false) 0 default_body) 1 e1.
Proof. exact rest_arrived. Qed.
