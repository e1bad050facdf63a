(** C58: The simulation program as a whole. *)
From Coq Require Import Reals List Arith Bool ZArith String.
From Verif Require Import Base.Res Base.Mat Base.RDec Base.Geom Base.AMap Model.TypeHelper Model.Types Model.Ekf
  Model.MathHelper Model.EigenQuat Model.GpsHelper Model.GpsUpdater Model.ImuUpdater Model.FiducialUpdater Model.MsckfUpdater
  Model.Sensors Model.Trackers Model.TruthEngine Model.SimSensors Model.Simulation Model.SimMain
  Spec.History Spec.Same Spec.Rotation Spec.AtRest Spec.Contract Spec.Callback Spec.World Spec.SimMain
  Proofs.EigenQuat Proofs.Sim Proofs.SimMain Proofs.SimRest Proofs.SimLog Proofs.SimTotal Proofs.SimZero Proofs.SimExample Proofs.SimStart.
Import ListNotations.
Open Scope R_scope.

(** A sound configuration is set up without undefined behaviour.  Without GPS
    and feature tracking, and with measurement noise, the whole program runs,
    however the messages of equal times are sorted. *)
Theorem C58_runs : forall svd hull ecef_to_lla mat_quat solve project c, sound_cfg c ->
  exists ms w t, sim_setup project ecef_to_lla c = OK (ms, w, t) /\
    (quiet_cfg c -> 0 <= sc_log_rate c -> forall sm, sort_result ms sm ->
     exists rows w', sim_main svd hull ecef_to_lla mat_quat solve project c sm = OK (rows, w')).
Proof. exact main_total. Qed.
Print Assumptions C58_runs.

(** The filter starts, at time 0, at the configured position with its drawn
    error, at rest, with gravity as acceleration, and at the configured
    orientation turned about y and x by the two drawn angles. *)
Theorem C58_start : forall project ecef_to_lla c ms w t, sim_setup project ecef_to_lla c = OK (ms, w, t) ->
  e_time (w_ekf w) = 0 /\ e_time_init (w_ekf w) = true /\
  let b := s_body (e_state (w_ekf w)) in
  let x := sc_scalar c 0 0 (vx (sc_ang_error c)) in
  let y := sc_scalar c 1 0 (vy (sc_ang_error c)) in
  b_pos b = sc_vec c (sc_pos c) (sc_pos_error c) /\ b_vel b = mkV3 0 0 0 /\ b_acc b = mkV3 0 0 (980665 / 100000) /\
  b_ang_vel b = mkV3 0 0 0 /\ b_ang_acc b = mkV3 0 0 0 /\
  b_ang b = qmul (qmul (mkQ (cos (x / 2)) (sin (x / 2)) 0 0) (mkQ (cos (y / 2)) 0 (sin (y / 2)) 0)) (sc_ang c).
Proof. exact sim_start_state. Qed.
Print Assumptions C58_start.

(** If every camera measures at increasing times, each track handed to the
    filter names only frames whose clone the filter holds at that moment (when
    it clones per frame): the window is as long as the longest track. *)
Theorem C58_frames : forall svd hull ecef_to_lla mat_quat solve project c ms w t sm,
  sim_setup project ecef_to_lla c = OK (ms, w, t) -> (1 <= longest_track c)%nat -> in_order ms -> sort_result ms sm ->
  each_delivery svd hull ecef_to_lla mat_quat solve tracks_stored w sm.
Proof. exact all_stored. Qed.
Print Assumptions C58_frames.

(** Cameras without errors do measure at increasing times. *)
Theorem C58_order : forall project ecef_to_lla c ms w t, sim_setup project ecef_to_lla c = OK (ms, w, t) ->
  (forall x, In x (sc_cams c) -> cc_no_errors (fst x) = true /\ 0 < cp_rate (cc_par (fst x))) -> in_order ms.
Proof. exact setup_order. Qed.
Print Assumptions C58_order.

(** An error-free configuration of a body at rest, whose filter starts at the
    true pose: after the whole run the filter still holds the truth about body
    and sensors, and nothing but its clones has changed. *)
Theorem C58_rest : forall svd hull ecef_to_lla mat_quat solve p q c ms w t sm w', reads_rotations mat_quat ->
  resting ecef_to_lla p q c -> sim_setup pinhole ecef_to_lla c = OK (ms, w, t) -> sort_result ms sm ->
  replay svd hull ecef_to_lla mat_quat solve w sm = OK w' ->
  still t p q /\ holds t p q w' /\ same_but_clones (e_state (w_ekf w)) (e_state (w_ekf w')).
Proof. exact sim_rest. Qed.
Print Assumptions C58_rest.

(** The truth file: no rows for rate 0, otherwise one every 1/rate seconds up
    to one second after the end; row i is its time, the true motion of the body at
    that time, and the true calibration of every configured sensor in the
    order of configuration. *)
Theorem C58_log : forall svd hull ecef_to_lla mat_quat solve project c sm rows w,
  sim_main svd hull ecef_to_lla mat_quat solve project c sm = OK (rows, w) ->
  (sc_log_rate c = 0 -> rows = []) /\
  (sc_log_rate c <> 0 -> INR (List.length rows) <= (sc_max_time c + 1) * sc_log_rate c < INR (List.length rows) + 1) /\
  exists t, truth_of c = OK t /\ forall i r, nth_error rows i = Some r ->
    exists l, body_columns (tr_body t) (INR i / sc_log_rate c) l /\ r = (INR i / sc_log_rate c) :: l ++ sensor_columns c.
Proof. exact truth_file. Qed.
Print Assumptions C58_log.

(** Without feature trackers the filter never clones a pose, whatever the
    configured augmentation. *)
Theorem C58_never_cloned : forall svd hull ecef_to_lla mat_quat solve project c ms w t sm w' id, sc_trackers c = [] ->
  sim_setup project ecef_to_lla c = OK (ms, w, t) -> replay svd hull ecef_to_lla mat_quat solve w sm = OK w' ->
  aug_at (w_ekf w) id = [] /\ aug_at (w_ekf w') id = [].
Proof. exact never_cloned. Qed.
Print Assumptions C58_never_cloned.

(** With trackers and a maximum track length of 0 the replay is undefined as
    soon as there is a camera message. *)
Theorem C58_zero_length : forall svd hull ecef_to_lla mat_quat solve project c ms w t sm,
  sim_setup project ecef_to_lla c = OK (ms, w, t) -> longest_track c = 0%nat ->
  sc_trackers c <> [] -> p_aug (sc_par c) = AAll -> sort_result ms sm -> (exists id m, In m ms /\ of_camera id m = true) ->
  replay svd hull ecef_to_lla mat_quat solve w sm = UB.
Proof. exact length_zero. Qed.
Print Assumptions C58_zero_length.

(** Non-vacuity: one IMU, one camera seeing a board, with or without features,
    one second.  Both configurations are sound and at rest; the one without features
    is run to the end. *)
Example C58_sound : forall a tk, listed tk -> sound_cfg (sim_demo a tk).
Proof. exact demo_sound. Qed.
Example C58_quiet : forall a, quiet_cfg (sim_demo a None).
Proof. exact demo_quiet. Qed.
Example C58_resting : forall a tk g, resting g v0 qid (sim_demo a tk).
Proof. exact demo_resting. Qed.
Example C58_cameras : forall a tk x, In x (sc_cams (sim_demo a tk)) -> cc_no_errors (fst x) = true /\ 0 < cp_rate (cc_par (fst x)).
Proof. exact demo_cameras. Qed.
Example C58_reads : reads_rotations eigen_mat_quat.
Proof. exact eigen_reads. Qed.
Example C58_sorted : forall ms, sort_result ms (sort_messages ms).
Proof. exact sort_exists. Qed.
Example C58_whole : forall svd hull g mat_quat solve a, exists ms w t rows w', sim_setup pinhole g (sim_demo a None) = OK (ms, w, t) /\
  sim_main svd hull g mat_quat solve pinhole (sim_demo a None) (sort_messages ms) = OK (rows, w') /\ List.length rows = 4%nat.
Proof. exact demo_whole. Qed.
(** No trackers, with any configured augmentation. *)
Example C58_bare : forall svd hull g mat_quat solve a, exists ms w t w', sc_trackers (bare_demo a) = [] /\
  sim_setup pinhole g (bare_demo a) = OK (ms, w, t) /\ replay svd hull g mat_quat solve w (sort_messages ms) = OK w'.
Proof. exact bare_whole. Qed.
(** A tracker of length 0. *)
Example C58_zero_case : sc_trackers zero_demo <> [] /\ p_aug (sc_par zero_demo) = AAll /\ longest_track zero_demo = 0%nat /\
  forall project ecef, exists ms w t, sim_setup project ecef zero_demo = OK (ms, w, t) /\ exists id m, In m ms /\ of_camera id m = true.
Proof. exact zero_case. Qed.
