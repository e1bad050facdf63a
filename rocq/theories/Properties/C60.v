(** C60: The configuration file of the simulation. *)
From Coq Require Import Reals List Arith Bool String.
From Verif Require Import Base.Res Base.Mat Base.Geom Model.TypeHelper Model.Types Model.Ekf Model.GpsHelper Model.Sensors
  Model.TruthEngine Model.RosNode Model.SimMain Model.SimConfig
  Spec.Contract Spec.World Spec.SimMain Spec.Ros Spec.Config Spec.ConfigRos Spec.ExampleFile
  Proofs.Config Proofs.ConfigKeys Proofs.ConfigNeeds Proofs.ConfigExample.
Import ListNotations.
Open Scope string_scope.

(** Whatever the file and the random numbers: if reading it succeeds, every
    setting of the filter, of the simulated motion and of each listed sensor
    is what the file says under its own path, or the default; exactly the
    listed sensors are read, in the order of their list. *)
Theorem C60_settings : forall asserts fit f rnd c, read_config asserts fit f rnd = OK c ->
  filter_read f c /\ sim_read fit rnd f c /\ sensors_read rnd f c.
Proof. exact settings. Qed.
Print Assumptions C60_settings.

(** Nothing else in the file matters: two files that agree under all known
    keys read alike (also when reading fails). *)
Theorem C60_unknown : forall asserts fit rnd f g, alike file_keys f g ->
  read_config asserts fit f rnd = read_config asserts fit g rnd.
Proof. exact alike_files. Qed.
Print Assumptions C60_unknown.

(** So documented settings such as [number_of_runs], the time biases of the
    sensors, [min_feature_distance], [room_size] and the window of a board
    may be set to anything without effect. *)
Theorem C60_ignored : forall asserts fit rnd f p v, documented_only p ->
  read_config asserts fit (put p v f) rnd = read_config asserts fit f rnd.
Proof. exact ignored_keys. Qed.
Print Assumptions C60_ignored.

(** An IMU under calibration needs its list of variances: six entries, twelve
    to calibrate both extrinsics and intrinsics, and a build without
    assertions; its default list is too short. *)
Theorem C60_imus : forall asserts fit project ecef_to_lla f rnd r,
  simulation_setup asserts fit project ecef_to_lla f rnd = OK r ->
  forall ns n, names f (top ["imu_list"]) ns -> In n ns ->
  let ext := dflt false (yes_no f (part "imu" n ["is_extrinsic"])) in
  let int := dflt false (yes_no f (part "imu" n ["is_intrinsic"])) in
  (ext || int = true -> enough asserts f (part "imu" n ["variance"]) 6) /\
  (ext && int = true -> enough asserts f (part "imu" n ["variance"]) 12) /\
  dflt 1%R (number f (part "imu" n ["rate"])) <> 0%R.
Proof. exact imu_row. Qed.
Print Assumptions C60_imus.

(** Likewise a camera under calibration, and any board a camera looks at,
    calibrated or not; trackers and boards have to be listed. *)
Theorem C60_cameras : forall asserts fit project ecef_to_lla f rnd r,
  simulation_setup asserts fit project ecef_to_lla f rnd = OK r ->
  forall ns n, names f (top ["camera_list"]) ns -> In n ns ->
  (yes_no f (part "camera" n ["is_extrinsic"]) = Some true -> enough asserts f (part "camera" n ["variance"]) 6) /\
  dflt 1%R (number f (part "camera" n ["rate"])) <> 0%R /\
  (forall k, name_said f (part "camera" n ["tracker"]) = Some k -> exists ts, names f (top ["tracker_list"]) ts /\ In k ts) /\
  (forall k, name_said f (part "camera" n ["fiducial"]) = Some k ->
    exists bs, names f (top ["fiducial_list"]) bs /\ In k bs /\ enough asserts f (part "fiducial" k ["variance"]) 6).
Proof. exact cam_row. Qed.
Print Assumptions C60_cameras.

Theorem C60_others : forall asserts fit project ecef_to_lla f rnd r,
  simulation_setup asserts fit project ecef_to_lla f rnd = OK r ->
  In (dflt "cyclic" (said f (sim "truth_type"))) ["cyclic"; "smoother"; "spline"] /\
  forall ns n, names f (top ["gps_list"]) ns -> In n ns -> dflt 1%R (number f (part "gps" n ["rate"])) <> 0%R.
Proof. exact others. Qed.
Print Assumptions C60_others.

(** The example file of the repository: set up without undefined behaviour in
    a build without assertions, whatever is drawn, as long as the drawn
    reference point is on the earth. *)
Theorem C60_example : forall fit rnd project ecef_to_lla,
  on_earth (mkV3 (rd_scalar rnd 2 0 (wgs84_m_to_deg 1)) (rd_scalar rnd 3 0 (wgs84_m_to_deg 1)) (rd_scalar rnd 4 0 1))%R ->
  exists r, simulation_setup false fit project ecef_to_lla example_file rnd = OK r.
Proof. exact example_runs. Qed.
Print Assumptions C60_example.

(** With assertions it does not get past reading its own IMU. *)
Theorem C60_example_refuted : exists f, f = example_file /\ forall fit project ecef_to_lla rnd, simulation_setup true fit project ecef_to_lla f rnd = UB.
Proof. exact example_aborts. Qed.
Print Assumptions C60_example_refuted.

(** The ROS node started with the same file makes the same filter as the
    simulation, up to the process noise, if the file sets how to clone. *)
Theorem C60_node : forall asserts asserts' fit f rnd s junk c e, read_config asserts fit f rnd = OK s -> ros_says f c -> cloning_set f ->
  ros_Initialize asserts' junk c = OK e -> exists q, e = EKF_init (sim_params s) q (sc_ref s) (sc_heading s).
Proof. exact same_filter. Qed.
Print Assumptions C60_node.

(** If it does not, the node may clone nothing where the simulation clones
    every frame. *)
Theorem C60_node_refuted : exists f c, ros_says f c /\ forall fit rnd junk, exists s e,
  read_config false fit f rnd = OK s /\ ros_Initialize false junk c = OK e /\ p_aug (e_par e) = ANone /\ p_aug (sim_params s) = AAll.
Proof. exact defaults_differ. Qed.
Print Assumptions C60_node_refuted.

(** Non-vacuity. *)
Example C60_reads : forall fit rnd,
  on_earth (mkV3 (rd_scalar rnd 2 0 (wgs84_m_to_deg 1)) (rd_scalar rnd 3 0 (wgs84_m_to_deg 1)) (rd_scalar rnd 4 0 1))%R ->
  exists c, read_config false fit example_file rnd = OK c /\ sound_cfg c /\ sc_ang c = qid /\
    (forall x, In x (sc_gps c) -> gc_pos_error (fst x) = v0) /\ (forall x, In x (sc_trackers c) -> tc_min_dist (snd x) = 1%R).
Proof. exact example_sound. Qed.
Example C60_calibrating : forall fit rnd project ecef_to_lla,
  on_earth (mkV3 (rd_scalar rnd 2 0 (wgs84_m_to_deg 1)) (rd_scalar rnd 3 0 (wgs84_m_to_deg 1)) (rd_scalar rnd 4 0 1))%R ->
  exists r, simulation_setup false fit project ecef_to_lla calibrating_file rnd = OK r.
Proof. exact calibrating_runs. Qed.
Example C60_calibrates : names calibrating_file (top ["imu_list"]) ["imu_1"] /\
  yes_no calibrating_file (part "imu" "imu_1" ["is_extrinsic"]) = Some true.
Proof. exact calibrating_lists. Qed.
Example C60_matters : forall fit rnd, exists c, read_config false fit (put (part "tracker" "orb" ["min_feat_dist"]) (num 7) example_file) rnd = OK c /\
  forall x, In x (sc_trackers c) -> tc_min_dist (snd x) = 7%R.
Proof. exact distance_matters. Qed.
Example C60_says : ros_says example_file example_ros /\ cloning_set example_file.
Proof. exact example_says. Qed.
Example C60_put : forall p v f g k, lookup p f = Some (YMap g) -> lookup (p ++ [k]) (put (p ++ [k]) v f) = Some v.
Proof. exact put_lookup. Qed.
