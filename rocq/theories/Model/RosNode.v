(** The ROS node: parameters, loading of sensors, message conversion,
    callbacks.  /repo/src/application/ros/node/ekf_cal_node.cpp,
    /repo/src/application/ros/ekf_cal_main.cpp, /repo/src/sensors/ros/*.cpp,
    /repo/src/utility/ros_helper.cpp.

    A parameter the user did not set is [None]; the default is the second
    argument of [declare_parameter].  An exception of rclcpp (a parameter
    declared twice or never, an empty topic name) ends the program and is
    [UB] here.  Debug output, data log settings and the republished images
    are omitted; so are the parameters of the image detectors.  Enumerations
    take their named values only. *)
From Coq Require Import Reals List Arith Bool ZArith String.
From Verif Require Import Base.Res Base.Mat Base.RDec Base.Geom Base.AMap Base.RMat Base.LinAlg
  Model.TypeHelper Model.Types Model.MathHelper Model.Ekf Model.Updater Model.Ops
  Model.ImuUpdater Model.GpsUpdater Model.FiducialUpdater Model.MsckfUpdater Model.Matrix3 Model.Sensors.
Import ListNotations.
Open Scope R_scope.

(** *** Message conversion *)
(** utility/constants.hpp 21 *)
Definition g_nsec_to_sec : R := 1 / 1000000000.
(** builtin_interfaces/Time *)
Record stamp : Type := mkStamp { st_sec : Z; st_nsec : Z }.
(** ros_helper.cpp 26-29 *)
Definition RosHeaderToTime (s : stamp) : R := IZR (st_sec s) + IZR (st_nsec s) * g_nsec_to_sec.
(** ros_helper.cpp 31-34; a geometry_msgs/Vector3 is a [V3] *)
Definition RosToEigen_vec (v : V3) : V3 := mkV3 (vx v) (vy v) (vz v).
(** ros_helper.cpp 36-43: nine numbers, row by row *)
Definition RosToEigen_mat (a : nat -> R) : mat R := mkmat 3 3 (fun i j => a (3 * i + j)%nat).

(** sensor_msgs/Imu, sensor_msgs/NavSatFix *)
Record RosImu : Type := mkRosImu {
  ri_stamp : stamp; ri_acc : V3; ri_acc_cov : nat -> R; ri_omg : V3; ri_omg_cov : nat -> R }.
Record RosFix : Type := mkRosFix { rf_stamp : stamp; rf_lat : R; rf_lon : R; rf_alt : R; rf_cov : nat -> R }.

(** ros_imu_message.cpp 26-34 with ekf_cal_node.cpp 540 *)
Definition RosImuMessage (id : nat) (m : RosImu) : message :=
  MImu id (RosHeaderToTime (ri_stamp m)) (RosToEigen_vec (ri_acc m)) (RosToEigen_mat (ri_acc_cov m))
    (RosToEigen_vec (ri_omg m)) (RosToEigen_mat (ri_omg_cov m)).
(** ros_gps_message.cpp 23-28 with ekf_cal_node.cpp 566.  [pos_covariance] is
    never assigned: [junk] is what the memory holds. *)
Definition RosGpsMessage (junk : mat R) (id : nat) (m : RosFix) : message :=
  MGps id (RosHeaderToTime (rf_stamp m)) (mkV3 (rf_lat m) (rf_lon m) (rf_alt m)) junk.

(** *** Parameters *)
Definition get {A} (o : option A) (d : A) : A := match o with Some x => x | None => d end.
(** type_helper.cpp 28-36 as used here: a dynamic vector.  The assertion is
    compiled in ([asserts]) or not. *)
Definition StdToEigVecX (asserts : bool) (v : list R) : res (list R) :=
  let* _ := guard (negb asserts || Nat.eqb (List.length v) 3) in OK v.
(** Assigned to an [Eigen::Vector3d] it must have three entries. *)
Definition to_V3 (asserts : bool) (v : list R) : res V3 :=
  let* v := StdToEigVecX asserts v in
  match v with [a; b; c] => OK (mkV3 a b c) | _ => UB end.

Record RawImu : Type := mkRawImu {
  rwi_topic : option string; rwi_ext : option bool; rwi_int : option bool; rwi_var : option (list R);
  rwi_pos : option (list R); rwi_ang : option (list R); rwi_acc_bias : option (list R); rwi_omg_bias : option (list R);
  rwi_pos_stab : option R; rwi_ang_stab : option R; rwi_acc_stab : option R; rwi_omg_stab : option R }.
Record RawCam : Type := mkRawCam {
  rwc_topic : option string; rwc_rate : option R; rwc_pos : option (list R); rwc_ang : option (list R);
  rwc_var : option (list R); rwc_tracker : option string; rwc_fiducial : option string;
  rwc_pos_stab : option R; rwc_ang_stab : option R; rwc_ext : option bool;
  rwc_f_x : option R; rwc_f_y : option R; rwc_k_1 : option R; rwc_k_2 : option R; rwc_p_1 : option R; rwc_p_2 : option R;
  rwc_pixel : option R; rwc_width : option R; rwc_height : option R }.
Record RawTracker : Type := mkRawTracker {
  rwt_px : option R; rwt_min_dist : option R; rwt_max_len : option nat }.
Record RawFid : Type := mkRawFid {
  rwf_id : option nat; rwf_pos : option (list R); rwf_ang : option (list R); rwf_var : option (list R);
  rwf_ext : option bool }.
Record RawGps : Type := mkRawGps {
  rwg_topic : option string; rwg_pos : option (list R); rwg_stab : option R; rwg_var : option (list R) }.
(** The parameters of the filter (ekf_cal_node.cpp 58-79) and the lists. *)
Record RosConfig : Type := mkRosConfig {
  rc_aug : option AugType; rc_aug_dt : option R; rc_aug_pos : option R; rc_aug_ang : option R;
  rc_noise_pos : option R; rc_noise_vel : option R; rc_noise_ang : option R;
  rc_pos_b_in_l : option (list R); rc_ang_b_to_l : option (list R);
  rc_pos_e_in_g : option (list R); rc_ang_l_to_e : option R;
  rc_gps_init : option GpsInitType; rc_gps_baseline : option R; rc_gps_pos : option R; rc_gps_ang : option R;
  rc_chi2 : option R; rc_imu_scale : option R; rc_root : option bool; rc_fej : option bool;
  rc_imus : list (string * RawImu); rc_cams : list (string * RawCam);
  rc_trackers : list (string * RawTracker); rc_fids : list (string * RawFid);
  rc_gps : list (string * RawGps) }.

(** [get_parameter] of something under the name of a tracker or board that
    was not declared throws. *)
Fixpoint named {A} (x : string) (l : list (string * A)) : res A :=
  match l with
  | [] => UB
  | (y, v) :: l => if String.eqb x y then OK v else named x l
  end.

Section Loading.
Variable asserts : bool.

(** ekf_cal_node.cpp 217-268 *)
Definition GetImuParameters (r : RawImu) : res ImuParams :=
  let* var := StdToEigVecX asserts (get (rwi_var r) [1; 1; 1; 1; 1; 1; 1; 1; 1; 1; 1; 1]) in
  let* pos := to_V3 asserts (get (rwi_pos r) [0; 0; 0]) in
  let ang := StdToEigQuat (get (rwi_ang r) [1; 0; 0; 0]) in
  let* ab := to_V3 asserts (get (rwi_acc_bias r) [0; 0; 0]) in
  let* ob := to_V3 asserts (get (rwi_omg_bias r) [0; 0; 0]) in
  OK (mkIP (get (rwi_ext r) false) (get (rwi_int r) false) (get (rwi_pos_stab r) e9) (get (rwi_ang_stab r) e9)
        (get (rwi_acc_stab r) e9) (get (rwi_omg_stab r) e9) pos ang ab ob var).
(** ekf_cal_node.cpp 270-297 *)
Definition GetIntrinsicParameters (r : RawCam) : Intrinsics :=
  mkIntrinsics (get (rwc_f_x r) (1 / 100)) (get (rwc_f_y r) (1 / 100)) (get (rwc_k_1 r) 0) (get (rwc_k_2 r) 0)
    (get (rwc_p_1 r) 0) (get (rwc_p_2 r) 0) (get (rwc_width r) 640) (get (rwc_height r) 480)
    (get (rwc_pixel r) (5 / 1000000)).
(** ekf_cal_node.cpp 299-332 *)
Definition GetCameraParameters (r : RawCam) : res CamParams :=
  let* pos := to_V3 asserts (get (rwc_pos r) [0; 0; 0]) in
  let ang := StdToEigQuat (get (rwc_ang r) [1; 0; 0; 0]) in
  let* var := StdToEigVecX asserts (get (rwc_var r) [1; 1; 1; 1; 1; 1]) in
  OK (mkCP (get (rwc_ext r) false) (get (rwc_rate r) 1) (get (rwc_pos_stab r) e9) (get (rwc_ang_stab r) e9)
        pos ang (GetIntrinsicParameters r) var).
(** ekf_cal_node.cpp 334-381.  [is_cam_extrinsic] keeps its default
    (feature_tracker.hpp 85). *)
Definition GetTrackerParameters (r : RawTracker) : TrackerParams :=
  mkTP false (get (rwt_min_dist r) 1) (get (rwt_px r) 1).
(** ekf_cal_node.cpp 383-433.  [is_cam_extrinsic] keeps its default
    (fiducial_tracker.hpp 66). *)
Definition GetFiducialParameters (r : RawFid) : res FidParams :=
  let* pos := to_V3 asserts (get (rwf_pos r) [0; 0; 0]) in
  let ang := StdToEigQuat (get (rwf_ang r) [1; 0; 0; 0]) in
  let* var := StdToEigVecX asserts (get (rwf_var r) [0; 0; 0; 0; 0; 0]) in
  OK (mkFidP (get (rwf_id r) 0%nat) (get (rwf_ext r) false) false pos ang var).
(** ekf_cal_node.cpp 435-459.  [is_extrinsic] keeps its default (gps.hpp 45). *)
Definition GetGpsParameters (r : RawGps) : res GpsParams :=
  let* pos := to_V3 asserts (get (rwg_pos r) [0; 0; 0]) in
  let* var := to_V3 asserts (get (rwg_var r) [1; 1; 1]) in
  OK (mkGP false (get (rwg_stab r) e9) pos var).

(** ekf_cal_node.cpp 620-633: an 18-vector of which nine entries are
    assigned; [junk] is what the memory holds. *)
Definition LoadProcessNoise (junk : nat -> R) (c : RosConfig) : mat R :=
  mkmat g_body_state_size 1 (fun i _ =>
    if (i <? 3)%nat then get (rc_noise_pos c) (1 / 100)
    else if (i <? 6)%nat then get (rc_noise_vel c) (1 / 100)
    else if (i <? 9)%nat then get (rc_noise_ang c) (1 / 100)
    else junk i).

(** ekf_cal_node.cpp 106-143 *)
Definition LoadFilterParameters (c : RosConfig) : params :=
  let aug := match rc_trackers c with [] => ANone | _ => get (rc_aug c) ANone end in
  mkParams aug (get (rc_aug_dt c) 0) (get (rc_aug_pos c) 0) (get (rc_aug_ang c) 0)
    (get (rc_gps_init c) GConstant) (get (rc_gps_baseline c) 1) (get (rc_gps_pos c) 1) (get (rc_gps_ang c) 1)
    (get (rc_chi2 c) 1) (get (rc_imu_scale c) 100) (get (rc_root c) true) (get (rc_fej c) false).
(** ekf_cal_node.cpp 91-147.  [pos_b_in_l] and [ang_b_to_l] go into the
    parameters, which the constructor of the filter does not look at
    (ekf.cpp 37-87). *)
Definition ros_Initialize (junk : nat -> R) (c : RosConfig) : res ekf :=
  let* _ := to_V3 asserts (get (rc_pos_b_in_l c) [0; 0; 0]) in
  let* pe := to_V3 asserts (get (rc_pos_e_in_g c) [0; 0; 0]) in
  OK (EKF_init (LoadFilterParameters c) (LoadProcessNoise junk c) pe (get (rc_ang_l_to_e c) 0)).

(** *** The node (ekf_cal_node.hpp): sensors by id and type, subscriptions
    with the id their callback is bound to, image publishers *)
Record node : Type := mkNode {
  nd_ekf : ekf; nd_cnt : counters;
  nd_imus : amap imu_updater; nd_cams : amap (amap tracker * amap fid_updater); nd_gps : amap gps_updater;
  nd_imu_subs : list (string * nat); nd_cam_subs : list (string * nat); nd_gps_subs : list (string * nat);
  nd_pubs : amap string }.

(** create_subscription *)
Definition subscribe (topic : string) (id : nat) (l : list (string * nat)) : res (list (string * nat)) :=
  let* _ := guard (negb (String.eqb topic "")) in OK (l ++ [(topic, id)]).

(** ekf_cal_node.cpp 461-485 *)
Definition LoadImu (n : node) (x : string * RawImu) : res node :=
  let* p := GetImuParameters (snd x) in
  let* (id, s, c, e) := imu_new (nd_cnt n) (nd_ekf n) p in
  match s with
  | SImu u =>
      let* subs := subscribe (get (rwi_topic (snd x)) ""%string) id (nd_imu_subs n) in
      OK (mkNode e c (mset id u (nd_imus n)) (nd_cams n) (nd_gps n) subs (nd_cam_subs n) (nd_gps_subs n) (nd_pubs n))
  | _ => UB
  end.
(** ekf_cal_node.cpp 487-531 *)
Definition LoadCamera (cfg : RosConfig) (n : node) (x : string * RawCam) : res node :=
  let* p := GetCameraParameters (snd x) in
  let tracker := get (rwc_tracker (snd x)) ""%string in
  let fiducial := get (rwc_fiducial (snd x)) ""%string in
  let* ts := (if String.eqb tracker "" then OK []
              else let* r := named tracker (rc_trackers cfg) in OK [GetTrackerParameters r]) in
  let* fs := (if String.eqb fiducial "" then OK []
              else let* r := named fiducial (rc_fids cfg) in let* f := GetFiducialParameters r in OK [f]) in
  let* (id, s, c, e) := camera_new (nd_cnt n) (nd_ekf n) p ts fs in
  match s with
  | SCam trs fids =>
      let* subs := subscribe (get (rwc_topic (snd x)) ""%string) id (nd_cam_subs n) in
      OK (mkNode e c (nd_imus n) (mset id (trs, fids) (nd_cams n)) (nd_gps n) (nd_imu_subs n) subs (nd_gps_subs n)
            (mset id ("~/" ++ fst x)%string (nd_pubs n)))
  | _ => UB
  end.
(** ekf_cal_node.cpp 533-556 *)
Definition LoadGps (n : node) (x : string * RawGps) : res node :=
  let* p := GetGpsParameters (snd x) in
  let* (id, s, c, e) := gps_new (nd_cnt n) (nd_ekf n) p in
  match s with
  | SGps u =>
      let* subs := subscribe (get (rwg_topic (snd x)) ""%string) id (nd_gps_subs n) in
      OK (mkNode e c (nd_imus n) (nd_cams n) (mset id u (nd_gps n)) (nd_imu_subs n) (nd_cam_subs n) subs (nd_pubs n))
  | _ => UB
  end.

Fixpoint foldM {A B} (f : B -> A -> res B) (b : B) (l : list A) : res B :=
  match l with [] => OK b | x :: l => let* b := f b x in foldM f b l end.

(** Declaring the parameters of a name twice throws (ekf_cal_node.cpp 149-168). *)
Fixpoint distinct (l : list string) : bool :=
  match l with [] => true | x :: l => negb (existsb (String.eqb x) l) && distinct l end.
Definition DeclareSensors (c : RosConfig) : res unit :=
  let* _ := guard (distinct (map fst (rc_imus c))) in
  let* _ := guard (distinct (map fst (rc_cams c))) in
  let* _ := guard (distinct (map fst (rc_trackers c))) in
  let* _ := guard (distinct (map fst (rc_fids c))) in
  guard (distinct (map fst (rc_gps c))).
(** ekf_cal_node.cpp 193-215 *)
Definition LoadSensors (c : RosConfig) (n : node) : res node :=
  let* n := foldM LoadImu n (rc_imus c) in
  let* n := foldM (LoadCamera c) n (rc_cams c) in
  foldM LoadGps n (rc_gps c).
(** ekf_cal_main.cpp 20-30, up to [spin] *)
Definition ros_start (junk : nat -> R) (c : RosConfig) : res node :=
  let* e := ros_Initialize junk c in
  let* _ := DeclareSensors c in
  LoadSensors c (mkNode e counters_init [] [] [] [] [] [] []).
End Loading.

(** *** Callbacks *)
(** One callback run by [spin]: the message and which subscription of its
    type it arrived at.  For images, what the detectors make of them (see
    [camera_Callback]); for fixes, the memory behind the covariance. *)
Inductive ros_event : Type :=
| OnImu (k : nat) (m : RosImu)
| OnImage (k : nat) (s : stamp) (image : bool) (seen : nat -> list FeatureTrack) (board : nat -> option BoardDetection)
| OnFix (k : nat) (m : RosFix) (junk : mat R).

Section Spin.
Variable svd : m2 -> m2 * m2.
Variable hull : list (Z * Z) -> list (Z * Z).
Variable ecef_to_lla : V3 -> V3.
Variable mat_quat : mat R -> quat.
Variable solve : mat R -> V3 -> V3.

(** ekf_cal_node.cpp 558-569, imu.cpp 59-75 *)
Definition ImuCallback (n : node) (id : nat) (m : RosImu) : res node :=
  match mfind id (nd_imus n), RosImuMessage id m with
  | Some u, MImu _ t acc A omg W =>
      let* (u, e) := imu_UpdateEKF u (nd_ekf n) t acc A omg W in
      OK (mkNode e (nd_cnt n) (mset id u (nd_imus n)) (nd_cams n) (nd_gps n) (nd_imu_subs n) (nd_cam_subs n)
            (nd_gps_subs n) (nd_pubs n))
  | Some _, _ => UB
  | None, _ => OK n
  end.
(** ekf_cal_node.cpp 571-582; the publisher of the camera is dereferenced *)
Definition CameraCallback (n : node) (id : nat) (s : stamp) (image : bool) (seen : nat -> list FeatureTrack)
  (board : nat -> option BoardDetection) : res node :=
  match mfind id (nd_cams n) with
  | Some (trs, fids) =>
      let* (trs, fids, c, e) := camera_Callback mat_quat solve (nd_cnt n) trs fids (nd_ekf n) id (RosHeaderToTime s)
                                 image seen board in
      match mfind id (nd_pubs n) with
      | None => UB
      | Some _ => OK (mkNode e c (nd_imus n) (mset id (trs, fids) (nd_cams n)) (nd_gps n) (nd_imu_subs n)
                        (nd_cam_subs n) (nd_gps_subs n) (nd_pubs n))
      end
  | None => OK n
  end.
(** ekf_cal_node.cpp 584-595, gps.cpp 49-62 *)
Definition GpsCallback (n : node) (id : nat) (m : RosFix) (junk : mat R) : res node :=
  match mfind id (nd_gps n), RosGpsMessage junk id m with
  | Some u, MGps _ t lla N =>
      let* (u, e) := gps_UpdateEKF svd hull ecef_to_lla u (nd_ekf n) t lla N in
      OK (mkNode e (nd_cnt n) (nd_imus n) (nd_cams n) (mset id u (nd_gps n)) (nd_imu_subs n) (nd_cam_subs n)
            (nd_gps_subs n) (nd_pubs n))
  | Some _, _ => UB
  | None, _ => OK n
  end.

(** The callback bound to the subscription runs. *)
Definition node_step (n : node) (v : ros_event) : res node :=
  match v with
  | OnImu k m => match nth_error (nd_imu_subs n) k with Some (_, id) => ImuCallback n id m | None => OK n end
  | OnImage k s image seen board =>
      match nth_error (nd_cam_subs n) k with Some (_, id) => CameraCallback n id s image seen board | None => OK n end
  | OnFix k m junk => match nth_error (nd_gps_subs n) k with Some (_, id) => GpsCallback n id m junk | None => OK n end
  end.
Fixpoint node_run (n : node) (l : list ros_event) : res node :=
  match l with [] => OK n | v :: l => let* n := node_step n v in node_run n l end.
End Spin.
