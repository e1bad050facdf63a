(** The headers and rows of the data logs: string building code of
    /repo/src/ekf/ekf.cpp, /repo/src/ekf/update/*.cpp and
    /repo/src/infrastructure/sim/truth_engine.cpp.  [show] prints a double;
    [dur] is the measured duration in microseconds.  [show12] is [show] with
    precision 12, [show3] with precision 3. *)
From Coq Require Import Reals List Arith Bool String ZArith.
From Verif Require Import Base.Res Base.Mat Base.Geom Base.AMap Base.RMat
  Model.TypeHelper Model.Types Model.StringHelper Model.Ekf.
Import ListNotations.
Open Scope string_scope.

(** A Vector3d / VectorXd as the list of its entries. *)
Definition v3list (v : V3) : list R := [vx v; vy v; vz v].
Definition vlist (v : mat R) : list R := map (fun i => ent v i 0) (seq 0 (nr v)).

(** [m.block(i, i, n, n).diagonal()] *)
Definition diag_block (m : mat R) (i n : nat) : res (list R) :=
  let* b := block m i i n n in OK (map (fun k => ent b k k) (seq 0 n)).
(** [v.cwiseProduct(v)] *)
Definition squares (l : list R) : list R := map (fun x => (x * x)%R) l.
(** The pattern [cov_diag = block.diagonal(); if (root) cov_diag = cov_diag.cwiseProduct(cov_diag)] *)
Definition cov_diag (e : ekf) (i n : nat) : res (list R) :=
  let* d := diag_block (e_cov e) i n in OK (if is_root e then squares d else d).

Section Rows.
Variable show show12 show3 : R -> string.
Let vec (v : V3) := VectorToCommaString show (v3list v).
Let ang (q : quat) := QuaternionToCommaString show q.

(** ekf.cpp 57-69 *)
Definition body_header : string :=
  "time" ++ EnumerateHeader "body_pos" 3 ++ EnumerateHeader "body_vel" 3 ++
  EnumerateHeader "body_acc" 3 ++ EnumerateHeader "body_ang_pos" 4 ++
  EnumerateHeader "body_ang_vel" 3 ++ EnumerateHeader "body_ang_acc" 3 ++
  EnumerateHeader "body_cov" g_body_state_size ++ ",state_size" ++ EnumerateHeader "duration" 1.
(** ekf.cpp 100-115 *)
Definition body_row (e : ekf) (count : Z) : res string :=
  let* body_cov := cov_diag e 0 g_body_state_size in
  let b := s_body (e_state e) in
  OK (show (e_time e) ++ vec (b_pos b) ++ vec (b_vel b) ++ vec (b_acc b) ++ ang (b_ang b) ++
      vec (b_ang_vel b) ++ vec (b_ang_acc b) ++ VectorToCommaString show body_cov ++
      "," ++ to_string (e_size e) ++ "," ++ int_string count).

(** ekf.cpp 73-77 *)
Definition aug_header : string := "time" ++ EnumerateHeader "aug_pos" 3 ++ EnumerateHeader "aug_ang" 4.
(** ekf.cpp 517-521, 561-565 *)
Definition aug_row (e : ekf) : string :=
  show (e_time e) ++ vec (b_pos (s_body (e_state e))) ++ ang (b_ang (s_body (e_state e))).

(** imu_updater.cpp 48-60 *)
Definition imu_header (ext int : bool) : string :=
  "time,stationary,score" ++ EnumerateHeader "imu_pos" 3 ++ EnumerateHeader "imu_ang_pos" 4 ++
  EnumerateHeader "imu_acc_bias" 3 ++ EnumerateHeader "imu_gyr_bias" 3 ++
  (if ext then EnumerateHeader "imu_ext_cov" g_imu_extrinsic_state_size else "") ++
  (if int then EnumerateHeader "imu_int_cov" g_imu_intrinsic_state_size else "") ++
  EnumerateHeader "acc" 3 ++ EnumerateHeader "omg" 3 ++ EnumerateHeader "residual" 6 ++
  EnumerateHeader "duration" 1.
(** imu_updater.cpp 129-151: [resid] is a VectorXd of six entries. *)
Definition imu_row (e : ekf) (id : nat) (ext int : bool) (t : R) (acc omg : V3) (resid : mat R) (dur : Z)
  : res string :=
  let s := mget default_imu id (s_imu (e_state e)) in
  let* c := (if ext || int
             then let* d := cov_diag e (i_index s) (i_size s) in OK (VectorToCommaString show d)
             else OK "") in
  OK (show t ++ ",0," ++ show (p_chi2 (e_par e)) ++ vec (i_pos s) ++ ang (i_ang s) ++
      vec (i_acc_bias s) ++ vec (i_omg_bias s) ++ c ++ vec acc ++ vec omg ++
      VectorToCommaString show (vlist resid) ++ "," ++ int_string dur).
(** imu_updater.cpp 267-297: the diagonals are squared in both covariance
    forms; [resid] has six entries with intrinsic calibration and three
    without. *)
Definition imu_zero_row (e : ekf) (id : nat) (ext int : bool) (t score : R) (acc omg : V3) (resid : mat R)
  (dur : Z) : res string :=
  let s := mget default_imu id (s_imu (e_state e)) in
  let* ce := (if ext then let* d := diag_block (e_cov e) (i_index_ext s) 6 in
                          OK (VectorToCommaString show (squares d)) else OK "") in
  let* ci := (if int then let* d := diag_block (e_cov e) (i_index_int s) 6 in
                          OK (VectorToCommaString show (squares d)) else OK "") in
  OK (show t ++ ",1," ++ show score ++ vec (i_pos s) ++ ang (i_ang s) ++
      vec (i_acc_bias s) ++ vec (i_omg_bias s) ++ ce ++ ci ++ vec acc ++ vec omg ++
      VectorToCommaString show (vlist resid) ++
      (if negb int then vec v0 else "") ++ "," ++ int_string dur).

(** gps_updater.cpp 45-53 *)
Definition gps_header (ext : bool) : string :=
  "time,lat,lon,alt,x,y,z,ref_lat,ref_lon,ref_alt,ref_heading,is_initialized" ++
  (if ext then EnumerateHeader "ant_pos" g_gps_extrinsic_state_size ++
               EnumerateHeader "gps_cov" g_gps_extrinsic_state_size else "") ++
  EnumerateHeader "residual" g_gps_extrinsic_state_size ++ EnumerateHeader "duration" 1.
(** gps_updater.cpp 128-147 *)
Definition gps_row (e : ekf) (id : nat) (ext : bool) (t : R) (lla pos_a ref : V3) (heading : R)
  (residual : V3) (dur : Z) : res string :=
  let s := mget default_gps id (s_gps (e_state e)) in
  let* c := (if ext
             then let* d := cov_diag e (g_index s) g_gps_extrinsic_state_size in
                  OK (vec (g_pos s) ++ VectorToCommaString show d)
             else OK "") in
  OK (show t ++ VectorToCommaString show12 (v3list lla) ++ vec pos_a ++
      VectorToCommaString show12 (v3list ref) ++ "," ++ show heading ++ "," ++
      (if e_lla_init e then "1" else "0") ++ c ++ vec residual ++ "," ++ int_string dur).

(** fiducial_updater.cpp 54-68 *)
Definition fid_header (fid_ext cam_ext : bool) : string :=
  "time,board" ++ EnumerateHeader "board_meas_pos" 3 ++ EnumerateHeader "board_meas_ang" 4 ++
  EnumerateHeader "cam_pos" 3 ++ EnumerateHeader "cam_ang_pos" 4 ++
  EnumerateHeader "residual" g_fid_measurement_size ++
  (if fid_ext then EnumerateHeader "fid_pos" 3 ++ EnumerateHeader "fid_ang" 4 ++
                   EnumerateHeader "fid_cov" g_cam_extrinsic_state_size else "") ++
  (if cam_ext then EnumerateHeader "cam_cov" g_cam_extrinsic_state_size else "") ++
  EnumerateHeader "duration" 1.
(** fiducial_updater.cpp 189-217: [res] is a VectorXd of six entries. *)
Definition fid_row (e : ekf) (id cam : nat) (fid_ext cam_ext : bool) (dflt : FidState) (t : R)
  (pos_m : V3) (ang_m : quat) (resid : mat R) (dur : Z) : res string :=
  let f := mget dflt id (s_fid (e_state e)) in
  let c := mget default_cam cam (s_cam (e_state e)) in
  let* cf := (if fid_ext
              then let* d := cov_diag e (f_index f) g_fid_extrinsic_state_size in
                   OK (vec (f_pos f) ++ ang (f_ang f) ++ VectorToCommaString show d)
              else OK "") in
  let* cc := (if cam_ext
              then let* d := cov_diag e (c_index c) g_cam_extrinsic_state_size in
                   OK (VectorToCommaString show d)
              else OK "") in
  OK (show t ++ "," ++ to_string id ++ vec pos_m ++ ang ang_m ++ vec (c_pos c) ++ ang (c_ang c) ++
      VectorToCommaString show (vlist resid) ++ cf ++ cc ++ "," ++ int_string dur).

(** msckf_updater.cpp 52-58 *)
Definition msckf_header (cam_ext : bool) : string :=
  "time" ++ EnumerateHeader "cam_pos" 3 ++ EnumerateHeader "cam_ang_pos" 4 ++
  (if cam_ext then EnumerateHeader "cam_cov" g_cam_extrinsic_state_size else "") ++
  ",FeatureTracks" ++ EnumerateHeader "duration" 1.
(** msckf_updater.cpp 408-422: [cam_index] was read before the update. *)
Definition msckf_row (e : ekf) (id : nat) (cam_ext : bool) (cam_index : nat) (t : R) (tracks : nat) (dur : Z)
  : res string :=
  let c := mget default_cam id (s_cam (e_state e)) in
  let* cc := (if cam_ext
              then let* d := cov_diag e cam_index g_cam_extrinsic_state_size in
                   OK (VectorToCommaString show d)
              else OK "") in
  OK (show t ++ vec (c_pos c) ++ ang (c_ang c) ++ cc ++ "," ++ to_string tracks ++ "," ++ int_string dur).

(** msckf_updater.cpp 64 *)
Definition tri_header : string := "time,feature,x,y,z".
(** msckf_updater.cpp 147-151 *)
Definition tri_row (t : R) (feature : Z) (p : V3) : string :=
  show3 t ++ "," ++ int_string feature ++ vec p.

(** truth_engine.cpp 227-256.  The sensor counter runs on over IMUs, cameras
    and GPS. *)
Definition truth_header (imus cams gpss : nat) : string :=
  "time" ++ EnumerateHeader "body_pos" 3 ++ EnumerateHeader "body_vel" 3 ++
  EnumerateHeader "body_acc" 3 ++ EnumerateHeader "body_ang_pos" 4 ++
  EnumerateHeader "body_ang_vel" 3 ++ EnumerateHeader "body_ang_acc" 3 ++
  fold_left (fun s c => s ++ EnumerateHeader ("imu_pos_" ++ to_string c) 3 ++
      EnumerateHeader ("imu_ang_pos_" ++ to_string c) 4 ++
      EnumerateHeader ("imu_acc_bias_" ++ to_string c) 3 ++
      EnumerateHeader ("imu_gyr_bias_" ++ to_string c) 3) (seq 1 imus) "" ++
  fold_left (fun s c => s ++ EnumerateHeader ("cam_pos_" ++ to_string c) 3 ++
      EnumerateHeader ("cam_ang_pos_" ++ to_string c) 4) (seq (imus + 1) cams) "" ++
  fold_left (fun s c => s ++ EnumerateHeader ("gps_pos_" ++ to_string c) 3) (seq (imus + cams + 1) gpss) "" ++
  (if negb (Nat.eqb gpss 0) then ",ref_lat,ref_lon,ref_alt,ref_heading" else "").

(** What the truth getters answer at one time (truth_engine.cpp 268-291). *)
Record truth_sample : Type := mkTruth {
  ts_body : BodyState;
  ts_imus : list (V3 * quat * V3 * V3);
  ts_cams : list (V3 * quat);
  ts_gpss : list V3;
  ts_ref : V3;
  ts_heading : R }.
(** truth_engine.cpp 264-291; the acceleration column has gravity added. *)
Definition truth_row (t : R) (x : truth_sample) : string :=
  let b := ts_body x in
  show t ++ vec (b_pos b) ++ vec (b_vel b) ++ vec (vadd (b_acc b) g_gravity) ++ ang (b_ang b) ++
  vec (b_ang_vel b) ++ vec (b_ang_acc b) ++
  fold_left (fun s i => match i with (p, q, ab, gb) => s ++ vec p ++ ang q ++ vec ab ++ vec gb end) (ts_imus x) "" ++
  fold_left (fun s c => match c with (p, q) => s ++ vec p ++ ang q end) (ts_cams x) "" ++
  fold_left (fun s g => s ++ vec g) (ts_gpss x) "" ++
  (if negb (Nat.eqb (List.length (ts_gpss x)) 0) then vec (ts_ref x) ++ "," ++ show (ts_heading x) else "").

(** truth_engine.cpp 298, 300-306 *)
Definition board_header : string := "board,pos_x,pos_y,pos_z,quat_w,quat_x,quat_y,quat_z".
Definition board_row (id : nat) (p : V3) (q : quat) : string := to_string id ++ vec p ++ ang q.

(** truth_engine.cpp 310, 312-317: the three coordinates are floats. *)
Definition feature_header : string := "Feature,x,y,z".
Definition feature_row (i : nat) (x y z : R) : string :=
  to_string i ++ "," ++ show x ++ "," ++ show y ++ "," ++ show z.
End Rows.
