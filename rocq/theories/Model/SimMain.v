(** The simulation program from its configuration to its last callback.
    /repo/src/application/sim/simulation.cpp 131-525 with the constructors and
    GenerateMessages of /repo/src/sensors/sim/*.cpp and
    /repo/src/trackers/sim/*.cpp.

    The configuration is what the YAML file has been read into (defaults
    filled in).  Random draws are part of it: one [draws] per sensor. *)
From Coq Require Import Reals List Arith Bool ZArith String.
From Verif Require Import Base.Res Base.Mat Base.RDec Base.Geom Base.AMap
  Model.TypeHelper Model.Types Model.Ekf Model.MathHelper Model.GpsHelper Model.ImuUpdater Model.GpsUpdater
  Model.FiducialUpdater Model.MsckfUpdater Model.Sensors Model.Trackers Model.TruthEngine Model.SimSensors
  Model.Simulation.
Import ListNotations.
Open Scope R_scope.

(** What a sensor draws from SimRNG: offset and jitter of the measurement
    times, the errors of its own parameters, those of its board, the errors
    of measurement [i], the new features shown to measurement [i]. *)
Record draws : Type := mkDraws {
  dr_offset : R; dr_jitter : R -> R; dr_new : V3 -> V3 -> V3; dr_new_rot : V3;
  dr_board : V3 -> V3 -> V3; dr_board_rot : V3;
  dr_vec : nat -> V3 -> V3 -> V3; dr_rot : nat -> V3; dr_feat : nat -> nat -> list V3 }.

(** simulation.cpp 290-316 *)
Record imu_cfg : Type := mkIC {
  ic_par : ImuParams; ic_rate : R; ic_no_errors : bool; ic_acc_error : V3; ic_omg_error : V3;
  ic_pos_error : V3; ic_acc_bias_error : V3; ic_omg_bias_error : V3 }.
(** 334-353.  [room_size] is not used by the tracker. *)
Record tracker_cfg : Type := mkTC {
  tc_px : R; tc_min_len : nat; tc_max_len : nat; tc_min_dist : R; tc_count : nat; tc_no_errors : bool }.
(** 363-394.  [fp_cam_ext] is overwritten at 446.  The maximum track length of
    a board detector is not read from the file: tracker.hpp 43. *)
Record board_cfg : Type := mkBC {
  bc_par : FidParams; bc_pos_error : V3; bc_t_error : V3; bc_r_error : V3; bc_no_errors : bool }.
Definition board_max_len : nat := 20.
(** 399-427 *)
Record cam_cfg : Type := mkCC {
  cc_par : CamParams; cc_pos_error : V3; cc_no_errors : bool; cc_tracker : option string; cc_board : option string }.
(** 462-485 *)
Record gps_cfg : Type := mkGC {
  gc_par : GpsParams; gc_rate : R; gc_no_errors : bool; gc_lla_error : V3; gc_pos_error : V3 }.
(** 211-253 *)
Inductive engine : Type := EngCyclic (c : cyclic) | EngSmoother (s : smoother) | EngSpline (s : spline_truth) | EngUnknown.

Record sim_cfg : Type := mkSC {
  sc_par : params; sc_noise : mat R; sc_ref : V3; sc_heading : R;
  sc_pos : V3; sc_ang : quat; sc_pos_error : V3; sc_ref_error : V3; sc_heading_error : R; sc_ang_error : V3;
  sc_engine : engine; sc_max_time : R; sc_log_rate : R;
  sc_imus : list (imu_cfg * draws); sc_trackers : list (string * tracker_cfg); sc_boards : list (string * board_cfg);
  sc_cams : list (cam_cfg * draws); sc_gps : list (gps_cfg * draws);
  sc_vec : V3 -> V3 -> V3; sc_scalar : nat -> R -> R -> R }.

(** [std::map::operator[] = ] in the order of the list: the last entry of a
    name wins. *)
Fixpoint named {A : Type} (n : string) (l : list (string * A)) : option A :=
  match l with
  | [] => None
  | (m, a) :: l => match named n l with Some b => Some b | None => if String.eqb m n then Some a else None end
  end.
(** 432-434, 442-444: looking up a name that is not listed creates parameters
    whose filter and loggers are null pointers; taken to be undefined. *)
Definition chosen {A : Type} (n : option string) (l : list (string * A)) : res (option A) :=
  match n with
  | None => OK None
  | Some n => match named n l with Some a => OK (Some a) | None => UB end
  end.

(** *** IMUs: 286-325, sim_imu.cpp 33-113 *)
Definition indexed {A : Type} (l : list A) : list (nat * A) := combine (seq 0 (List.length l)) l.
Definition add_imu (w : world) (t : truth) (x : imu_cfg * draws) : res (list message * world * truth) :=
  let '(c, d) := x in
  let* q := imu_new (w_cnt w) (w_ekf w) (ic_par c) in
  let '(id, _, _, _) := q in
  let t := sim_imu_new t id (ic_no_errors c) (ic_par c) (ic_pos_error c) (ic_acc_bias_error c) (ic_omg_bias_error c)
             (dr_new d) (dr_new_rot d) in
  let* times := GenerateMeasurementTimes (ic_no_errors c) (dr_offset d) (dr_jitter d) (tr_max_time t) (ic_rate c) in
  let* ms := mapM (fun it => sim_imu_message t id (ic_no_errors c) (ic_acc_error c) (ic_omg_error c)
                              (dr_vec d (fst it)) (snd it)) (indexed times) in
  OK (ms, install w q, t).

(** *** GPS: 459-494, sim_gps.cpp 30-81 *)
Definition add_gps (ecef_to_lla : V3 -> V3) (w : world) (t : truth) (x : gps_cfg * draws) :
  res (list message * world * truth) :=
  let '(c, d) := x in
  let* q := gps_new (w_cnt w) (w_ekf w) (gc_par c) in
  let '(id, _, _, _) := q in
  let t := sim_gps_new t id (gc_no_errors c) (gc_par c) (gc_pos_error c) (dr_new d) in
  let* times := GenerateMeasurementTimes (gc_no_errors c) (dr_offset d) (dr_jitter d) (tr_max_time t) (gc_rate c) in
  let* ms := mapM (fun it => sim_gps_message ecef_to_lla t id (gc_no_errors c) (gc_lla_error c)
                              (dr_vec d (fst it)) (snd it)) (indexed times) in
  OK (ms, install w q, t).

(** *** Cameras: 396-457, sim_camera.cpp 41-95 *)
(** truth_engine.hpp: the features belong to the engine. *)
Definition set_features (t : truth) (f : features) : truth :=
  mkTruth (tr_body t) (tr_max_time t) (tr_imu_pos t) (tr_imu_ang t) (tr_acc_bias t) (tr_omg_bias t)
    (tr_cam_pos t) (tr_cam_ang t) (tr_cam_intr t) (tr_board_pos t) (tr_board_ang t) (tr_gps_pos t)
    (tr_ref t) (tr_heading t) f.
(** sim_camera.cpp 66-95: frame [i] and the following ones.  [project] is
    cv::projectPoints. *)
Fixpoint sim_frames (project : Intrinsics -> V3 -> R * R) (id : nat) (d : draws) (board : option (nat * board_cfg))
  (c : counters) (t : truth) (i : nat) (trk : option (nat * sim_tracker)) (times : list R) :
  res (list message * counters * truth) :=
  match times with
  | [] => OK ([], c, t)
  | time :: times =>
      let '(frame, c) := GenerateFrameID c in
      let* (tracks, trk, t) :=
        match trk with
        | None => OK ([], None, t)
        | Some (k, s) =>
            let* v := sim_view project t id (dr_feat d i) time in
            let* (out, s, f) := GenerateMessage s (tr_features t) time frame v in
            OK ([(k, out)], Some (k, s), set_features t f)
        end in
      let* boards :=
        match board with
        | None => OK []
        | Some (k, b) =>
            let* x := sim_board_message t k id (bc_no_errors b) (bc_t_error b) (bc_r_error b)
                        (dr_vec d i) (dr_rot d i) time in
            OK [(k, Some x)]
        end in
      let* (ms, c, t) := sim_frames project id d board c t (S i) trk times in
      OK (MCam id time frame tracks boards :: ms, c, t)
  end.
(** 430-456.  The tracker of a camera is created before its board detector;
    both take their numbers from the same counter (tracker.cpp 20-28).
    Either is free of errors if it or its camera is (437, 447). *)
Definition add_cam (project : Intrinsics -> V3 -> R * R) (trackers : list (string * tracker_cfg))
  (boards : list (string * board_cfg)) (w : world) (t : truth) (x : cam_cfg * draws) :
  res (list message * world * truth) :=
  let '(c, d) := x in
  let* tk := chosen (cc_tracker c) trackers in
  let* bd := chosen (cc_board c) boards in
  let ext := cp_ext (cc_par c) in
  let ts := match tk with None => [] | Some a => [mkTP ext (tc_min_dist a) (tc_px a)] end in
  let fs := match bd with
            | None => []
            | Some b => let p := bc_par b in [mkFidP (fp_id p) (fp_ext p) ext (fp_pos p) (fp_ang p) (fp_var p)]
            end in
  let* q := camera_new (w_cnt w) (w_ekf w) (cc_par c) ts fs in
  let '(id, s, cnt, e) := q in
  let first := S (n_trackers (w_cnt w)) in
  let t := sim_cam_new t id (cc_no_errors c) (cc_par c) (cc_pos_error c) (dr_new d) (dr_new_rot d) in
  let trk := match tk with
             | None => None
             | Some a => Some (first, sim_tracker_new (tc_min_len a) (tc_max_len a) (tc_count a) (tc_no_errors a || cc_no_errors c))
             end in
  let board := match bd with
               | None => None
               | Some b => Some ((first + List.length ts)%nat,
                                 mkBC (bc_par b) (bc_pos_error b) (bc_t_error b) (bc_r_error b) (bc_no_errors b || cc_no_errors c))
               end in
  let t := match board with
           | None => t
           | Some (k, b) => sim_board_new t k (bc_no_errors b) (bc_par b) (bc_pos_error b) (dr_board d) (dr_board_rot d)
           end in
  let* times := GenerateMeasurementTimes (cc_no_errors c) (dr_offset d) (dr_jitter d) (tr_max_time t) (cp_rate (cc_par c)) in
  let* (ms, cnt, t) := sim_frames project id d board cnt t 0 trk times in
  OK (ms, install w (id, s, cnt, e), t).

Fixpoint add_all {A : Type} (f : world -> truth -> A -> res (list message * world * truth))
  (w : world) (t : truth) (l : list A) : res (list message * world * truth) :=
  match l with
  | [] => OK ([], w, t)
  | a :: l =>
      let* (ms, w, t) := f w t a in
      let* (ms', w, t) := add_all f w t l in
      OK (ms ++ ms', w, t)
  end.

(** *** The program *)
(** 194-196: without trackers nothing is cloned. *)
Definition sim_params (c : sim_cfg) : params :=
  match sc_trackers c with
  | [] => let p := sc_par c in mkParams ANone (p_aug_dt p) (p_aug_pos_err p) (p_aug_ang_err p) (p_gps_init p) (p_gps_baseline p)
            (p_gps_pos_thresh p) (p_gps_ang_thresh p) (p_chi2 p) (p_imu_scale p) (p_root p) (p_fej p)
  | _ => sc_par c
  end.
(** 256-267: the state the filter starts from.  Draw 0 and draw 1 of [sc_scalar] are
    the two angles. *)
Definition initial_state (c : sim_cfg) : BodyState :=
  mkBody (sc_vec c (sc_pos c) (sc_pos_error c)) v0 g_gravity
    (qmul (qmul (angle_axis_quat (sc_scalar c 0 0 (vx (sc_ang_error c))) (mkV3 1 0 0))
                (angle_axis_quat (sc_scalar c 1 0 (vy (sc_ang_error c))) (mkV3 0 1 0))) (sc_ang c)) v0 v0 0.
(** 270-283 *)
Definition true_ref (c : sim_cfg) : V3 :=
  mkV3 (sc_scalar c 2 (vx (sc_ref c)) (wgs84_m_to_deg (vx (sc_ref_error c))))
       (sc_scalar c 3 (vy (sc_ref c)) (wgs84_m_to_deg (vy (sc_ref_error c))))
       (sc_scalar c 4 (vz (sc_ref c)) (vz (sc_ref_error c))).
Definition true_heading (c : sim_cfg) : R := sc_scalar c 5 (sc_heading c) (sc_heading_error c).
(** 211-253: an unknown type leaves a null pointer, dereferenced at 282. *)
Definition truth_of (c : sim_cfg) : res truth :=
  match sc_engine c with
  | EngCyclic e => OK (truth_new (cyclic_body e) (sc_max_time c))
  | EngSmoother e => OK (truth_new (smoother_body e) (sc_max_time c))
  | EngSpline e => OK (truth_new (spline_body e) (sc_max_time c))
  | EngUnknown => UB
  end.
(** 328, 345, 378 *)
Definition longest_track (c : sim_cfg) : nat :=
  fold_left (fun n x => Nat.max n board_max_len) (sc_boards c)
    (fold_left (fun n x => Nat.max n (tc_max_len (snd x))) (sc_trackers c) 0%nat).

(** 131-494: messages, sensors, truth. *)
Definition sim_setup (project : Intrinsics -> V3 -> R * R) (ecef_to_lla : V3 -> V3) (c : sim_cfg) :
  res (list message * world * truth) :=
  let e := Initialize (EKF_init (sim_params c) (sc_noise c) (sc_ref c) (sc_heading c)) 0 (initial_state c) in
  let* t := truth_of c in
  let t := set_local t (true_ref c) (true_heading c) in
  let* (m1, w, t) := add_all add_imu (world_init e) t (sc_imus c) in
  let w := mkWorld (SetMaxTrackLength (w_ekf w) (longest_track c)) (w_cnt w) (w_sensors w) in
  let* (m2, w, t) := add_all (add_cam project (sc_trackers c) (sc_boards c)) w t (sc_cams c) in
  let* (m3, w, t) := add_all (add_gps ecef_to_lla) w t (sc_gps c) in
  OK ((m1 ++ m2) ++ m3, w, t).

(** truth_engine.cpp 222-291: the rows of body_truth.csv. *)
Definition truth_rows (t : truth) (rate : R) : res (list (list R)) :=
  let* _ := guard (Rleb 0 ((tr_max_time t + 1) * rate)) in
  let num := Z.to_nat (Int_part ((tr_max_time t + 1) * rate)) in
  mapM (fun i => truth_row t (INR i / rate)) (seq 0 num).

(** 496-521: [s] is what std::sort made of the messages. *)
Definition sim_main (svd : m2 -> m2 * m2) (hull : list (Z * Z) -> list (Z * Z)) (ecef_to_lla : V3 -> V3)
  (mat_quat : mat R -> quat) (solve : mat R -> V3 -> V3) (project : Intrinsics -> V3 -> R * R)
  (c : sim_cfg) (s : list message) : res (list (list R) * world) :=
  let* (_, w, t) := sim_setup project ecef_to_lla c in
  let* rows := (if Reqb (sc_log_rate c) 0 then OK [] else truth_rows t (sc_log_rate c)) in
  let* w := replay svd hull ecef_to_lla mat_quat solve w s in
  OK (rows, w).
