(** The truth about sensors and boards, and what the simulated sensors
    measure.  /repo/src/infrastructure/sim/truth_engine.cpp (everything but
    the features, see Model/Trackers),
    /repo/src/sensors/sim/{sim_imu,sim_gps,sim_camera}.cpp,
    /repo/src/trackers/sim/sim_fiducial_tracker.cpp,
    /repo/src/utility/sim/sim_rng.cpp.

    Random draws are arguments: [vr mean dev] is the value a call
    VecNormRand(mean, dev) returns, [qr] the three draws of a QuatNormRand. *)
From Coq Require Import Reals List Arith Bool.
From Verif Require Import Base.Res Base.Mat Base.RDec Base.Geom Base.AMap Base.RMat
  Model.TypeHelper Model.Types Model.MathHelper Model.Matrix3 Model.GpsHelper Model.GpsUpdater
  Model.FiducialUpdater Model.MsckfUpdater Model.Sensors Model.Trackers Model.TruthEngine.
Import ListNotations.
Open Scope R_scope.

(** *** The truth engine *)
(** truth_engine.hpp 51-86: the virtual getters of the engines of
    Model/TruthEngine. *)
Record body_truth : Type := mkBT {
  bt_pos : R -> res V3; bt_vel : R -> res V3; bt_acc : R -> res V3;
  bt_ang : R -> res quat; bt_rate : R -> res V3; bt_ang_acc : R -> res V3 }.
(** The overriders: truth_engine_cyclic.cpp, truth_engine_smoother.cpp (its
    velocity and the like are results already) and truth_engine_spline.cpp. *)
Definition cyclic_body (c : cyclic) : body_truth :=
  mkBT (fun t => OK (cy_GetBodyPosition c t)) (fun t => OK (cy_GetBodyVelocity c t))
    (fun t => OK (cy_GetBodyAcceleration c t)) (fun t => OK (cy_GetBodyAngularPosition c t))
    (fun t => OK (cy_GetBodyAngularRate c t)) (fun t => OK (cy_GetBodyAngularAcceleration c t)).
Definition smoother_body (s : smoother) : body_truth :=
  mkBT (sm_GetBodyPosition s) (sm_GetBodyVelocity s) (sm_GetBodyAcceleration s)
    (sm_GetBodyAngularPosition s) (sm_GetBodyAngularRate s) (sm_GetBodyAngularAcceleration s).
Definition spline_body (s : spline_truth) : body_truth :=
  mkBT (st_GetBodyPosition s) (st_GetBodyVelocity s) (st_GetBodyAcceleration s)
    (st_GetBodyAngularPosition s) (st_GetBodyAngularRate s) (st_GetBodyAngularAcceleration s).

(** truth_engine.hpp 280-295.  The heading has no initialiser: [None] until
    it is set. *)
Record truth : Type := mkTruth {
  tr_body : body_truth; tr_max_time : R;
  tr_imu_pos : amap V3; tr_imu_ang : amap quat; tr_acc_bias : amap V3; tr_omg_bias : amap V3;
  tr_cam_pos : amap V3; tr_cam_ang : amap quat; tr_cam_intr : amap Intrinsics;
  tr_board_pos : amap V3; tr_board_ang : amap quat;
  tr_gps_pos : amap V3; tr_ref : V3; tr_heading : option R; tr_features : features }.

(** truth_engine.cpp 29-33: grid of 15, room of 4 metres *)
Definition truth_new (b : body_truth) (max_time : R) : truth :=
  mkTruth b max_time [] [] [] [] [] [] [] [] [] [] v0 None (GenerateGridFeatures 15 4 (mkFeat [] [])).

(** A getter of a position or orientation: [map[id]] of a missing id inserts
    and returns an Eigen object that was never initialised. *)
Definition tget {A : Type} (m : amap A) (id : nat) : res A :=
  match mfind id m with Some a => OK a | None => UB end.
(** truth_engine.cpp 35-76, 130-133, 147-150, 320-323.  Intrinsics have
    initialisers: a missing id returns the defaults. *)
Definition GetImuPosition (t : truth) : nat -> res V3 := tget (tr_imu_pos t).
Definition GetImuAngularPosition (t : truth) : nat -> res quat := tget (tr_imu_ang t).
Definition GetImuAccelerometerBias (t : truth) : nat -> res V3 := tget (tr_acc_bias t).
Definition GetImuGyroscopeBias (t : truth) : nat -> res V3 := tget (tr_omg_bias t).
Definition GetCameraPosition (t : truth) : nat -> res V3 := tget (tr_cam_pos t).
Definition GetCameraAngularPosition (t : truth) : nat -> res quat := tget (tr_cam_ang t).
Definition GetCameraIntrinsics (t : truth) (id : nat) : Intrinsics := mget default_intrinsics id (tr_cam_intr t).
Definition GetBoardPosition (t : truth) : nat -> res V3 := tget (tr_board_pos t).
Definition GetBoardOrientation (t : truth) : nat -> res quat := tget (tr_board_ang t).
Definition GetGpsPosition (t : truth) : nat -> res V3 := tget (tr_gps_pos t).
Definition GetLocalPosition (t : truth) : V3 := tr_ref t.
Definition GetLocalHeading (t : truth) : res R := match tr_heading t with Some h => OK h | None => UB end.

(** *** The constructors of the simulated sensors store the truth *)
(** sim_rng.cpp 53-67 *)
Definition QuatNormRand (qr : V3) (mean : quat) : quat :=
  qmul (RotVecToQuat (mkV3 (Rmin (vx qr) (PI / 2)) (Rmin (vy qr) (PI / 2)) (Rmin (vz qr) (PI / 2)))) mean.

(** truth_engine.cpp 78-103 as called by sim_imu.cpp 61-64 *)
Definition set_imu (t : truth) (id : nat) (pos : V3) (ang : quat) (ab ob : V3) : truth :=
  mkTruth (tr_body t) (tr_max_time t) (mset id pos (tr_imu_pos t)) (mset id ang (tr_imu_ang t))
    (mset id ab (tr_acc_bias t)) (mset id ob (tr_omg_bias t)) (tr_cam_pos t) (tr_cam_ang t) (tr_cam_intr t)
    (tr_board_pos t) (tr_board_ang t) (tr_gps_pos t) (tr_ref t) (tr_heading t) (tr_features t).
(** sim_imu.cpp 33-65 *)
Definition sim_imu_new (t : truth) (id : nat) (no_errors : bool) (p : ImuParams) (pos_error acc_bias_error omg_bias_error : V3)
  (vr : V3 -> V3 -> V3) (qr : V3) : truth :=
  if no_errors then set_imu t id (ip_pos p) (ip_ang p) (ip_acc_bias p) (ip_omg_bias p)
  else set_imu t id (vr (ip_pos p) pos_error) (QuatNormRand qr (ip_ang p))
         (vr (ip_acc_bias p) acc_bias_error) (vr (ip_omg_bias p) omg_bias_error).

(** truth_engine.cpp 105-117, 325-328 as called by sim_camera.cpp 61-63 *)
Definition set_cam (t : truth) (id : nat) (pos : V3) (ang : quat) (k : Intrinsics) : truth :=
  mkTruth (tr_body t) (tr_max_time t) (tr_imu_pos t) (tr_imu_ang t) (tr_acc_bias t) (tr_omg_bias t)
    (mset id pos (tr_cam_pos t)) (mset id ang (tr_cam_ang t)) (mset id k (tr_cam_intr t))
    (tr_board_pos t) (tr_board_ang t) (tr_gps_pos t) (tr_ref t) (tr_heading t) (tr_features t).
(** sim_camera.cpp 41-64 *)
Definition sim_cam_new (t : truth) (id : nat) (no_errors : bool) (p : CamParams) (pos_error : V3)
  (vr : V3 -> V3 -> V3) (qr : V3) : truth :=
  if no_errors then set_cam t id (cp_pos p) (cp_ang p) (cp_intr p)
  else set_cam t id (vr (cp_pos p) pos_error) (QuatNormRand qr (cp_ang p)) (cp_intr p).

(** truth_engine.cpp 114-117, 135-140 as called by sim_fiducial_tracker.cpp
    49-50: boards are filed under the id of the tracker. *)
Definition set_board (t : truth) (id : nat) (pos : V3) (ang : quat) : truth :=
  mkTruth (tr_body t) (tr_max_time t) (tr_imu_pos t) (tr_imu_ang t) (tr_acc_bias t) (tr_omg_bias t)
    (tr_cam_pos t) (tr_cam_ang t) (tr_cam_intr t) (mset id pos (tr_board_pos t)) (mset id ang (tr_board_ang t))
    (tr_gps_pos t) (tr_ref t) (tr_heading t) (tr_features t).
(** sim_fiducial_tracker.cpp 25-51 *)
Definition sim_board_new (t : truth) (id : nat) (no_errors : bool) (p : FidParams) (pos_error : V3)
  (vr : V3 -> V3 -> V3) (qr : V3) : truth :=
  if no_errors then set_board t id (fp_pos p) (fp_ang p)
  else set_board t id (vr (fp_pos p) pos_error) (QuatNormRand qr (fp_ang p)).

(** truth_engine.cpp 119-122 *)
Definition set_gps (t : truth) (id : nat) (pos : V3) : truth :=
  mkTruth (tr_body t) (tr_max_time t) (tr_imu_pos t) (tr_imu_ang t) (tr_acc_bias t) (tr_omg_bias t)
    (tr_cam_pos t) (tr_cam_ang t) (tr_cam_intr t) (tr_board_pos t) (tr_board_ang t)
    (mset id pos (tr_gps_pos t)) (tr_ref t) (tr_heading t) (tr_features t).
(** sim_gps.cpp 30-44 *)
Definition sim_gps_new (t : truth) (id : nat) (no_errors : bool) (p : GpsParams) (pos_error : V3)
  (vr : V3 -> V3 -> V3) : truth :=
  set_gps t id (if no_errors then gp_pos p else vr (gp_pos p) pos_error).

(** truth_engine.cpp 124-132, simulation.cpp 284-285 *)
Definition set_local (t : truth) (ref : V3) (heading : R) : truth :=
  mkTruth (tr_body t) (tr_max_time t) (tr_imu_pos t) (tr_imu_ang t) (tr_acc_bias t) (tr_omg_bias t)
    (tr_cam_pos t) (tr_cam_ang t) (tr_cam_intr t) (tr_board_pos t) (tr_board_ang t) (tr_gps_pos t)
    ref (Some heading) (tr_features t).

(** *** Measurements *)
(** [v.cwiseProduct(v).asDiagonal()] *)
Definition square_diag (v : V3) : mat R := mdiag (v3mat (mkV3 (vx v * vx v) (vy v * vy v) (vz v * vz v))).

(** sim_imu.cpp 81-102: acceleration and angular rate measured at [time]. *)
Definition sim_imu_measure (t : truth) (id : nat) (no_errors : bool) (acc_error omg_error : V3)
  (vr : V3 -> V3 -> V3) (time : R) : res (V3 * V3) :=
  let* body_acc_l := bt_acc (tr_body t) time in
  let* body_b_to_l := bt_ang (tr_body t) time in
  let* body_ang_vel := bt_rate (tr_body t) time in
  let* body_ang_acc := bt_ang_acc (tr_body t) time in
  let* pos_i := GetImuPosition t id in
  let* ang_i := GetImuAngularPosition t id in
  let* acc_bias := GetImuAccelerometerBias t id in
  let* omg_bias := GetImuGyroscopeBias t id in
  let imu_acc_b := vadd (vadd (qrot (qinv body_b_to_l) (vadd body_acc_l g_gravity)) (vcross body_ang_acc pos_i))
                        (vcross body_ang_vel (vcross body_ang_vel pos_i)) in
  let acc := qrot (qinv ang_i) imu_acc_b in
  let omg := qrot (qinv ang_i) body_ang_vel in
  if no_errors then OK (acc, omg)
  else OK (vadd acc (vr acc_bias acc_error), vadd omg (vr omg_bias omg_error)).
(** sim_imu.cpp 67-113, one message *)
Definition sim_imu_message (t : truth) (id : nat) (no_errors : bool) (acc_error omg_error : V3)
  (vr : V3 -> V3 -> V3) (time : R) : res message :=
  let* (acc, omg) := sim_imu_measure t id no_errors acc_error omg_error vr time in
  OK (MImu id time acc (square_diag acc_error) omg (square_diag omg_error)).

(** sim_gps.cpp 46-81, one message.  [ecef_to_lla]: gps_helper.cpp 100-166. *)
Definition sim_gps_message (ecef_to_lla : V3 -> V3) (t : truth) (id : nat) (no_errors : bool) (lla_error : V3)
  (vr : V3 -> V3 -> V3) (time : R) : res message :=
  let* pos_b := bt_pos (tr_body t) time in
  let* ang_b := bt_ang (tr_body t) time in
  let* pos_a := GetGpsPosition t id in
  let* heading := GetLocalHeading t in
  let pos_a_in_l := vadd pos_b (qrot ang_b pos_a) in
  let pos_a_in_l := if no_errors then pos_a_in_l else vadd pos_a_in_l (vr v0 lla_error) in
  let* lla := enu_to_lla ecef_to_lla (local_to_enu pos_a_in_l heading) (GetLocalPosition t) in
  OK (MGps id time lla (square_diag lla_error)).

(** sim_fiducial_tracker.cpp 95-145; [IsBoardVisible] (53-93) returns true
    before doing anything.  [id]: the tracker, [cam]: its camera. *)
Definition sim_board_message (t : truth) (id cam : nat) (no_errors : bool) (t_vec_error r_vec_error : V3)
  (vr : V3 -> V3 -> V3) (qr : V3) (time : R) : res BoardDetection :=
  let* pos_f := GetBoardPosition t id in
  let* ang_f := GetBoardOrientation t id in
  let* pos_b := bt_pos (tr_body t) time in
  let* ang_b := bt_ang (tr_body t) time in
  let* pos_c := GetCameraPosition t cam in
  let* ang_c := GetCameraAngularPosition t cam in
  let rot_l_to_b := m3tr (qmat ang_b) in
  let rot_b_to_c := m3tr (qmat ang_c) in
  let pos_f_in_c := mat_vec rot_b_to_c (vsub (mat_vec rot_l_to_b (vsub pos_f pos_b)) pos_c) in
  let ang_f_to_c := qmul (qmul (qinv ang_c) (qinv ang_b)) ang_f in
  if no_errors then OK (mkBoard pos_f_in_c ang_f_to_c t_vec_error r_vec_error)
  else OK (mkBoard (vr pos_f_in_c t_vec_error) (QuatNormRand qr ang_f_to_c) t_vec_error r_vec_error).

(** *** What a simulated camera sees *)
(** types.cpp 526-537 with cv::projectPoints for a camera without
    distortion: pixel of a point [p] given in camera coordinates. *)
Definition pinhole (k : Intrinsics) (p : V3) : R * R :=
  (in_f_x k / in_pixel_size k * (vx p / vz p) + in_width k / 2,
   in_f_y k / in_pixel_size k * (vy p / vz p) + in_height k / 2).
(** sim_feature_tracker.cpp 46-80: pose and intrinsics of the camera at
    [time].  [project] is cv::projectPoints as a function of intrinsics and
    of the point in camera coordinates. *)
Definition sim_view (project : Intrinsics -> V3 -> R * R) (t : truth) (cam : nat) (fresh : nat -> list V3) (time : R) : res view :=
  let* pos_b := bt_pos (tr_body t) time in
  let* ang_b := bt_ang (tr_body t) time in
  let* pos_c := GetCameraPosition t cam in
  let* ang_c := GetCameraAngularPosition t cam in
  let k := GetCameraIntrinsics t cam in
  let rot_c_to_l := qmat (qmul ang_b ang_c) in
  let pos_l_in_c := mat_vec (m3tr rot_c_to_l) (vopp (vadd pos_b (qrot ang_b pos_c))) in
  OK (mkView rot_c_to_l (vadd pos_b (qrot ang_b pos_c)) (in_width k) (in_height k)
        (fun p => project k (vadd (mat_vec (m3tr rot_c_to_l) p) pos_l_in_c)) fresh).

(** truth_engine.cpp 173-205: the new features.  [cx], [cy] are the draws of
    UniRand(0, width) and UniRand(0, height), cut to whole pixels; [depth]
    that of UniRand(0, room). *)
Definition visible_feature (k : Intrinsics) (pos_b : V3) (ang_b : quat) (pos_c : V3) (ang_c : quat)
  (cx cy depth : R) : res V3 :=
  let* fx := rdiv (in_f_x k) (in_pixel_size k) in
  let* fy := rdiv (in_f_y k) (in_pixel_size k) in
  let* x := rdiv (depth * (IZR (Int_part cx) - in_width k / 2)) fx in
  let* y := rdiv (depth * (IZR (Int_part cy) - in_height k / 2)) fy in
  OK (vadd (qrot (qmul ang_b ang_c) (mkV3 x y depth)) (vadd pos_b (qrot ang_b pos_c))).

(** *** body_truth.csv, truth_engine.cpp 222-294 *)
(** 269-286: the numbers of the sensors in a row: the sensors are taken to be
    numbered from one in the order IMUs, cameras, GPS. *)
Definition truth_row (t : truth) (time : R) : res (list R) :=
  let v3 := fun v => [vx v; vy v; vz v] in
  let q4 := fun q => [qw q; qx q; qy q; qz q] in
  let* p := bt_pos (tr_body t) time in
  let* v := bt_vel (tr_body t) time in
  let* a := bt_acc (tr_body t) time in
  let* q := bt_ang (tr_body t) time in
  let* w := bt_rate (tr_body t) time in
  let* wa := bt_ang_acc (tr_body t) time in
  let ni := length (tr_imu_pos t) in
  let nc := length (tr_cam_pos t) in
  let ng := length (tr_gps_pos t) in
  let* imus := mapM (fun id =>
    let* p := GetImuPosition t id in
    let* q := GetImuAngularPosition t id in
    let* ab := GetImuAccelerometerBias t id in
    let* ob := GetImuGyroscopeBias t id in
    OK (v3 p ++ q4 q ++ v3 ab ++ v3 ob)) (seq 1 ni) in
  let* cams := mapM (fun id =>
    let* p := GetCameraPosition t id in
    let* q := GetCameraAngularPosition t id in
    OK (v3 p ++ q4 q)) (seq (1 + ni) nc) in
  let* gpss := mapM (fun id => let* p := GetGpsPosition t id in OK (v3 p)) (seq (1 + ni + nc) ng) in
  let* tail := (if Nat.eqb ng 0 then OK []
                else let* h := GetLocalHeading t in OK (v3 (GetLocalPosition t) ++ [h])) in
  OK ([time] ++ v3 p ++ v3 v ++ v3 (vadd a g_gravity) ++ q4 q ++ v3 w ++ v3 wa ++
      concat imus ++ concat cams ++ concat gpss ++ tail).
