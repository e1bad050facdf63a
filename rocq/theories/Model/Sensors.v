(** Sensor and tracker objects, their constructors and callbacks, and the
    loop that replays a simulation.
    /repo/src/sensors/{sensor,imu,gps,camera}.cpp, /repo/src/sensors/sim/*.cpp,
    /repo/src/trackers/{tracker,feature_tracker,fiducial_tracker}.cpp,
    /repo/src/application/sim/simulation.cpp 497-521.

    Objects hold only what their callbacks read: the updaters, the trackers
    and the pixel error.  Debug log calls are omitted (see Model/DebugLogger).
    The static members and function-local statics that number sensors,
    trackers, frames and features form the record [counters]; they are
    [unsigned int] in the code and unbounded here. *)
From Coq Require Import Reals List Arith Bool ZArith.
From Verif Require Import Base.Res Base.Mat Base.RDec Base.Geom Base.AMap Base.RMat Base.LinAlg
  Model.TypeHelper Model.Types Model.MathHelper Model.Ekf Model.Updater Model.Ops
  Model.ImuUpdater Model.GpsUpdater Model.FiducialUpdater Model.MsckfUpdater Model.Matrix3.
Import ListNotations.
Open Scope R_scope.

(** *** Numbering *)
(** sensor.hpp/sensor.cpp 21 [m_sensor_count = 0], tracker.cpp 19
    [m_tracker_count = 0], camera.cpp 100, feature_tracker.cpp 275 *)
Record counters : Type := mkCnt { n_sensors : nat; n_trackers : nat; n_frames : nat; n_features : nat }.
Definition counters_init : counters := mkCnt 0 0 0 0.
(** sensor.cpp 24-31: [m_id(++m_sensor_count)] *)
Definition new_sensor_id (c : counters) : nat * counters :=
  (S (n_sensors c), mkCnt (S (n_sensors c)) (n_trackers c) (n_frames c) (n_features c)).
(** tracker.cpp 20-28: [m_id(++m_tracker_count)] *)
Definition new_tracker_id (c : counters) : nat * counters :=
  (S (n_trackers c), mkCnt (n_sensors c) (S (n_trackers c)) (n_frames c) (n_features c)).
(** camera.cpp 98-102: [return frame_id++] *)
Definition GenerateFrameID (c : counters) : nat * counters :=
  (n_frames c, mkCnt (n_sensors c) (n_trackers c) (S (n_frames c)) (n_features c)).
(** feature_tracker.cpp 273-277: [return feature_id++] *)
Definition GenerateFeatureID (c : counters) : nat * counters :=
  (n_features c, mkCnt (n_sensors c) (n_trackers c) (n_frames c) (S (n_features c))).

(** *** Parameters (imu.hpp 38-66, gps.hpp 36-50, camera.hpp 40-58,
    feature_tracker.hpp 45-66, fiducial_tracker.hpp 52-72) *)
Record ImuParams : Type := mkIP {
  ip_ext : bool; ip_int : bool; ip_pos_stab : R; ip_ang_stab : R; ip_acc_stab : R; ip_omg_stab : R;
  ip_pos : V3; ip_ang : quat; ip_acc_bias : V3; ip_omg_bias : V3; ip_var : list R }.
Record GpsParams : Type := mkGP {
  gp_ext : bool; gp_pos_stab : R; gp_pos : V3; gp_var : V3 }.
Record CamParams : Type := mkCP {
  cp_ext : bool; cp_rate : R; cp_pos_stab : R; cp_ang_stab : R; cp_pos : V3; cp_ang : quat;
  cp_intr : Intrinsics; cp_var : list R }.
Record TrackerParams : Type := mkTP { tp_cam_ext : bool; tp_min_dist : R; tp_px : R }.
Record FidParams : Type := mkFidP {
  fp_id : nat; fp_ext : bool; fp_cam_ext : bool; fp_pos : V3; fp_ang : quat; fp_var : list R }.

(** *** Objects *)
Record tracker : Type := mkTrk { tk_upd : msckf_updater; tk_px : R }.
Inductive sensor : Type :=
| SImu (u : imu_updater)
| SGps (u : gps_updater)
| SCam (trackers : amap tracker) (fiducials : amap fid_updater).

(** [v.asDiagonal()] of a dynamic vector *)
Definition diag_of (v : list R) : mat R :=
  mkmat (length v) (length v) (diagm (fun i => nth i v 0)).
(** [v.segment<n>(0)]: the vector must be long enough. *)
Definition head_segment (n : nat) (v : list R) : res (list R) :=
  let* _ := guard (Nat.leb n (length v)) in OK (firstn n v).

(** *** Constructors *)
(** imu.cpp 37-46 *)
Definition imu_state_of (p : ImuParams) : ImuState :=
  let s := imu_SetIsIntrinsic (ip_int p) (imu_SetIsExtrinsic (ip_ext p) default_imu) in
  mkImu (ip_pos_stab p) (ip_ang_stab p) (ip_acc_stab p) (ip_omg_stab p) (ip_pos p) (ip_ang p)
    (ip_acc_bias p) (ip_omg_bias p) (i_size s) (i_index s) (i_index_int s) (i_index_ext s) (i_ext s) (i_int s).
(** imu.cpp 47-54.  An IMU calibrated intrinsically only takes the first six
    variances, as in the code. *)
Definition imu_cov_of (p : ImuParams) : res (mat R) :=
  let v := MinBoundVector (ip_var p) (1 / 1000000) in
  if ip_ext p && ip_int p then let* w := head_segment 12 v in OK (diag_of w)
  else if ip_ext p || ip_int p then let* w := head_segment 6 v in OK (diag_of w)
  else OK (mzero 0 0).
(** imu.cpp 30-57 *)
Definition imu_new (c : counters) (e : ekf) (p : ImuParams) : res (nat * sensor * counters * ekf) :=
  let '(id, c) := new_sensor_id c in
  let* cov := imu_cov_of p in
  let* e := RegisterIMU e id (imu_state_of p) cov in
  OK (id, SImu (imu_updater_init id (ip_ext p) (ip_int p)), c, e).

(** gps.cpp 41-44 *)
Definition gps_state_of (p : GpsParams) : GpsState :=
  gps_SetIsExtrinsic (gp_ext p) (mkGps (gp_pos p) (gp_pos_stab p) 0 0 false).
(** gps.cpp 29-47 *)
Definition gps_new (c : counters) (e : ekf) (p : GpsParams) : res (nat * sensor * counters * ekf) :=
  let '(id, c) := new_sensor_id c in
  let* e := RegisterGPS e id (gps_state_of p) (mdiag (v3mat (gp_var p))) in
  OK (id, SGps (gps_updater_init id (gp_ext p)), c, e).

(** camera.cpp 42-50 *)
Definition cam_state_of (p : CamParams) : CamState :=
  cam_SetIsExtrinsic (cp_ext p)
    (mkCam (cp_pos_stab p) (cp_ang_stab p) (cp_pos p) (cp_ang p) (cp_intr p) (cp_rate p) 0 0 false).
(** camera.cpp 37-56.  Trackers are added afterwards. *)
Definition cam_new (c : counters) (e : ekf) (p : CamParams) : res (nat * counters * ekf) :=
  let '(id, c) := new_sensor_id c in
  let* e := RegisterCamera e id (cam_state_of p) (diag_of (MinBoundVector (cp_var p) (1 / 1000000))) in
  OK (id, c, e).

(** feature_tracker.cpp 35-55: nothing is registered with the filter *)
Definition tracker_new (c : counters) (cam : nat) (p : TrackerParams) : nat * tracker * counters :=
  let '(id, c) := new_tracker_id c in
  (id, mkTrk (msckf_updater_init cam (tp_cam_ext p) (tp_min_dist p)) (tp_px p), c).
(** fiducial_tracker.cpp 24-67: [variance] must have at least six entries. *)
Definition fid_state_of (p : FidParams) : FidState :=
  fid_SetIsExtrinsic (fp_ext p) (mkFid (fp_pos p) (fp_ang p) e9 e9 0 0 (fp_id p) false).
Definition fid_new (c : counters) (e : ekf) (cam : nat) (p : FidParams) :
  res (nat * fid_updater * counters * ekf) :=
  let '(id, c) := new_tracker_id c in
  let* _ := guard (Nat.leb 6 (length (fp_var p))) in
  let* e := RegisterFiducial e (fid_state_of p) (diag_of (fp_var p)) in
  OK (id, fid_updater_init (fp_id p) cam (fp_ext p) (fp_cam_ext p), c, e).

(** camera.cpp 104-112, sim_camera.cpp 97-105: [m_trackers[tracker->GetID()] = tracker].
    simulation.cpp 403-465 builds a camera and then its trackers and boards. *)
Fixpoint add_trackers (c : counters) (cam : nat) (ps : list TrackerParams) (m : amap tracker) :
  amap tracker * counters :=
  match ps with
  | [] => (m, c)
  | p :: ps => let '(id, t, c) := tracker_new c cam p in add_trackers c cam ps (mset id t m)
  end.
Fixpoint add_fiducials (c : counters) (e : ekf) (cam : nat) (ps : list FidParams) (m : amap fid_updater) :
  res (amap fid_updater * counters * ekf) :=
  match ps with
  | [] => OK (m, c, e)
  | p :: ps => let* (q, e) := fid_new c e cam p in
               let '(id, u, c) := q in add_fiducials c e cam ps (mset id u m)
  end.
Definition camera_new (c : counters) (e : ekf) (p : CamParams) (ts : list TrackerParams) (fs : list FidParams) :
  res (nat * sensor * counters * ekf) :=
  let* (q, e) := cam_new c e p in
  let '(id, c) := q in
  let '(trs, c) := add_trackers c id ts [] in
  let* (q, e) := add_fiducials c e id fs [] in
  let '(fids, c) := q in
  OK (id, SCam trs fids, c, e).

(** *** Messages (imu_message.hpp, gps_message.hpp, sim_camera_message.hpp,
    sim_feature_tracker_message.hpp, sim_fiducial_tracker_message.hpp).  A
    board that is not visible is [None]. *)
Inductive message : Type :=
| MImu (id : nat) (t : R) (acc : V3) (acc_cov : mat R) (omg : V3) (omg_cov : mat R)
| MGps (id : nat) (t : R) (lla : V3) (pos_cov : mat R)
| MCam (id : nat) (t : R) (frame : nat) (tracks : list (nat * list FeatureTrack))
    (boards : list (nat * option BoardDetection))
| MOther (id : nat) (t : R).
Definition msg_id (m : message) : nat :=
  match m with MImu id _ _ _ _ _ | MGps id _ _ _ | MCam id _ _ _ _ | MOther id _ => id end.
Definition msg_time (m : message) : R :=
  match m with MImu _ t _ _ _ _ | MGps _ t _ _ | MCam _ t _ _ _ | MOther _ t => t end.
(** sensor.cpp 43-46 *)
Definition MessageCompare (l r : message) : bool := Rltb (msg_time l) (msg_time r).

Section Callbacks.
Variable svd : m2 -> m2 * m2.
Variable hull : list (Z * Z) -> list (Z * Z).
Variable ecef_to_lla : V3 -> V3.
Variable mat_quat : mat R -> quat.
Variable solve : mat R -> V3 -> V3.

(** *** Camera callbacks *)
(** sim_camera.cpp 113-118 with sim_feature_tracker.cpp 183-190;
    dereferencing a tracker that is not in the map is undefined. *)
Fixpoint track_all (trs : amap tracker) (e : ekf) (t : R) (l : list (nat * list FeatureTrack)) :
  res (amap tracker * ekf) :=
  match l with
  | [] => OK (trs, e)
  | (k, []) :: l => track_all trs e t l
  | (k, tracks) :: l =>
      match mfind k trs with
      | None => UB
      | Some tr =>
          let* (u, e) := msckf_UpdateEKF solve (tk_upd tr) e t tracks (tk_px tr) in
          track_all (mset k (mkTrk u (tk_px tr)) trs) e t l
      end
  end.
(** sim_camera.cpp 119-122 with sim_fiducial_tracker.cpp 147-157 *)
Fixpoint board_all (fids : amap fid_updater) (e : ekf) (t : R) (l : list (nat * option BoardDetection)) :
  res (amap fid_updater * ekf) :=
  match l with
  | [] => OK (fids, e)
  | (k, b) :: l =>
      match mfind k fids with
      | None => UB
      | Some u =>
          match b with
          | None => board_all fids e t l
          | Some d =>
              let* (u, e) := fid_UpdateEKF mat_quat u e t d in
              board_all (mset k u fids) e t l
          end
      end
  end.
(** sim_camera.cpp 107-123 *)
Definition sim_camera_Callback (trs : amap tracker) (fids : amap fid_updater) (e : ekf) (id : nat) (t : R)
  (frame : nat) (tracks : list (nat * list FeatureTrack)) (boards : list (nat * option BoardDetection)) :
  res (amap tracker * amap fid_updater * ekf) :=
  let '(lt, e) := CalculateLocalTime e t in
  let* e := PredictModel e lt in
  let* e := AugmentStateFrame e id frame in
  let* (trs, e) := track_all trs e t tracks in
  let* (fids, e) := board_all fids e t boards in
  OK (trs, fids, e).

(** camera.cpp 60-95.  What the detectors make of the image is given:
    [seen k] are the tracks the tracker [k] hands to its updater (none: no
    update, feature_tracker.cpp 259-262) and [board k] the pose found by the
    fiducial tracker [k] (fiducial_tracker.cpp 118-170).  Drawing is omitted. *)
Definition camera_Callback (c : counters) (trs : amap tracker) (fids : amap fid_updater) (e : ekf) (id : nat) (t : R)
  (image : bool) (seen : nat -> list FeatureTrack) (board : nat -> option BoardDetection) :
  res (amap tracker * amap fid_updater * counters * ekf) :=
  if image && negb (Nat.eqb (length trs + length fids) 0) then
    let '(lt, e) := CalculateLocalTime e t in
    let* e := PredictModel e lt in
    let '(frame, c) := GenerateFrameID c in
    let* e := AugmentStateFrame e id frame in
    let* (trs', e) := track_all trs e t (map (fun k => (k, seen k)) (keys trs)) in
    let* (fids', e) := board_all fids e t (map (fun k => (k, board k)) (keys fids)) in
    OK (trs', fids', c, e)
  else OK (trs, fids, c, e).

(** *** A program: one filter, counters, sensors by id *)
Record world : Type := mkWorld { w_ekf : ekf; w_cnt : counters; w_sensors : amap sensor }.

(** simulation.cpp 502-521 (one message).  Delivering a message to a sensor
    of another type is undefined ([static_pointer_cast]). *)
Definition deliver (w : world) (m : message) : res world :=
  match mfind (msg_id m) (w_sensors w) with
  | None => OK w
  | Some s =>
      match m, s with
      | MImu id t acc A omg W, SImu u =>
          let* (u, e) := imu_UpdateEKF u (w_ekf w) t acc A omg W in
          OK (mkWorld e (w_cnt w) (mset id (SImu u) (w_sensors w)))
      | MGps id t lla N, SGps u =>
          let* (u, e) := gps_UpdateEKF svd hull ecef_to_lla u (w_ekf w) t lla N in
          OK (mkWorld e (w_cnt w) (mset id (SGps u) (w_sensors w)))
      | MCam id t frame tracks boards, SCam trs fids =>
          let* (q, e) := sim_camera_Callback trs fids (w_ekf w) id t frame tracks boards in
          let '(trs, fids) := q in
          OK (mkWorld e (w_cnt w) (mset id (SCam trs fids) (w_sensors w)))
      | MOther _ _, _ => OK w
      | _, _ => UB
      end
  end.

Inductive event : Type :=
| ENewImu (p : ImuParams)
| ENewGps (p : GpsParams)
| ENewCam (p : CamParams) (ts : list TrackerParams) (fs : list FidParams)
| EMsg (m : message)
| EImage (id : nat) (t : R) (image : bool) (seen : nat -> list FeatureTrack) (board : nat -> option BoardDetection)
| EConf (o : op).

(** simulation.cpp: [sensor_map[imu->GetId()] = imu] *)
Definition install (w : world) (q : nat * sensor * counters * ekf) : world :=
  let '(id, s, c, e) := q in mkWorld e c (mset id s (w_sensors w)).

(** [EImage] is the callback of a real camera (ekf_cal_node.cpp finds the
    camera by its id and calls it); [EConf] is a call of a public member of
    the filter by the application. *)
Definition wstep (w : world) (v : event) : res world :=
  match v with
  | ENewImu p => let* q := imu_new (w_cnt w) (w_ekf w) p in OK (install w q)
  | ENewGps p => let* q := gps_new (w_cnt w) (w_ekf w) p in OK (install w q)
  | ENewCam p ts fs => let* q := camera_new (w_cnt w) (w_ekf w) p ts fs in OK (install w q)
  | EMsg m => deliver w m
  | EImage id t image seen board =>
      match mfind id (w_sensors w) with
      | Some (SCam trs fids) =>
          let* (q, e) := camera_Callback (w_cnt w) trs fids (w_ekf w) id t image seen board in
          let '(trs, fids, c) := q in
          OK (mkWorld e c (mset id (SCam trs fids) (w_sensors w)))
      | Some _ => UB
      | None => OK w
      end
  | EConf o => let* e := step (w_ekf w) o in OK (mkWorld e (w_cnt w) (w_sensors w))
  end.
Fixpoint wrun (w : world) (l : list event) : res world :=
  match l with
  | [] => OK w
  | v :: l => let* w := wstep w v in wrun w l
  end.
Definition world_init (e : ekf) : world := mkWorld e counters_init [].
End Callbacks.
