{
 "claims": [
  {
   "property": "C01",
   "status": "proved",
   "theorems": [
    "C01_dimensions"
   ],
   "note": "Invariant over all histories, all parameters, both covariance forms; run returns OK, i.e. no out-of-range access or unsigned wrap."
  },
  {
   "property": "C02",
   "status": "proved",
   "theorems": [
    "C02_partition"
   ],
   "note": "All reachable filters."
  },
  {
   "property": "C03",
   "status": "proved",
   "theorems": [
    "C03_register_imu",
    "C03_register_gps",
    "C03_register_cam",
    "C03_register_fid",
    "C03_covariance_functional",
    "C03_out_of_order_refuted",
    "C03_fiducial_after_clone_refuted",
    "C03_root_block_refuted"
   ],
   "note": "Positive statement for in-order ids and fiducials before clones; both failure modes named in the property are proved with reachable witnesses, and the square-root form misreads the supplied covariance."
  },
  {
   "property": "C04",
   "status": "proved",
   "theorems": [
    "C04_duplicate",
    "C04_fresh_imu",
    "C04_fresh_gps",
    "C04_fresh_cam",
    "C04_fresh_fid"
   ],
   "note": "All four kinds of sensors."
  },
  {
   "property": "C05",
   "status": "proved",
   "theorems": [
    "C05_history",
    "C05_no_decisions",
    "C05_root_refuted"
   ],
   "note": "Whole histories in covariance form for every clone type: registrations, predictions, measurements, frames, timed clones and removals, getters and setters; the decisions of timed cloning are read off the code (C17 says when they are taken). Square-root form refuted with one registration."
  },
  {
   "property": "C06",
   "status": "proved",
   "theorems": [
    "C06_covariance_psd"
   ],
   "note": "All histories; in square-root form the covariance represented by the factor."
  },
  {
   "property": "C07",
   "status": "proved",
   "theorems": [
    "C07_frame_clone",
    "C07_frame_clone_full",
    "C07_frame_clone_full_root",
    "C07_full_root_refuted",
    "C07_timed_clone"
   ],
   "note": "Per-frame clones in both forms, the full window in both forms (in square-root form with the loss named in the statement, the refutation shows it occurs), clones by time in covariance form."
  },
  {
   "property": "C08",
   "status": "proved",
   "theorems": [
    "C08_insert",
    "C08_insert_out_of_range",
    "C08_remove",
    "C08_remove_out_of_range",
    "C08_remove_insert",
    "C08_insert_read_back",
    "C08_remove_remove",
    "C08_insert_insert"
   ],
   "note": "Any scalar type and any in-range position; out-of-range use is undefined behaviour in the model."
  },
  {
   "property": "C09",
   "status": "proved",
   "theorems": [
    "C09_stale",
    "C09_reaches",
    "C09_monotone",
    "C09_first_local_time_refuted"
   ],
   "note": "The first conversion of a sensor time before initialisation is the exception, shown by a witness."
  },
  {
   "property": "C10",
   "status": "proved",
   "theorems": [
    "C10_predict",
    "C10_predict_before_gravity"
   ],
   "note": "Covariance formula for the covariance form; means, frame and time for both forms."
  },
  {
   "property": "C11",
   "status": "proved",
   "theorems": [
    "C11_root_predict",
    "C11_noise_after_transition",
    "C11_noise_refuted",
    "C11_cross_term_refuted"
   ],
   "note": "The refutations are the deviations named in the statement."
  },
  {
   "property": "C12",
   "status": "proved",
   "theorems": [
    "C12_optimal_update",
    "C12_gain_unique",
    "C12_zero_residual"
   ],
   "note": "Covariance form: optimality, Joseph form, decrease; zero residual in both forms."
  },
  {
   "property": "C13",
   "status": "proved",
   "theorems": [
    "C13_root_update_agrees",
    "C13_correlated_noise_refuted"
   ],
   "note": "Agreement of both forms for diagonal noise; witness for correlated noise."
  },
  {
   "property": "C14",
   "status": "proved",
   "theorems": [
    "C14_correction",
    "C14_entries_read",
    "C14_vector_and_back",
    "C14_vector_identity",
    "C14_bias_only_refuted",
    "C14_camera_map_refuted"
   ],
   "note": "The two refutations are the exceptions named in the statement."
  },
  {
   "property": "C15",
   "status": "proved",
   "theorems": [
    "C15_reported_size",
    "C15_vector",
    "C15_written",
    "C15_clones_refuted",
    "C15_bias_only_refuted"
   ],
   "note": "The two refutations are the failures named in the statement."
  },
  {
   "property": "C16",
   "status": "proved",
   "theorems": [
    "C16_window",
    "C16_window_exact",
    "C16_every_history",
    "C16_never_shrinks",
    "C16_lowered",
    "C16_others",
    "C16_zero_length"
   ],
   "note": "All histories in the per-frame modes (all cameras, primary camera), with the maximum length changing; the time-based modes are C17."
  },
  {
   "property": "C17",
   "status": "proved",
   "theorems": [
    "C17_pruned_window",
    "C17_brackets",
    "C17_ordered"
   ],
   "note": ""
  },
  {
   "property": "C18",
   "status": "proved",
   "theorems": [
    "C18_frame",
    "C18_before",
    "C18_between",
    "C18_after",
    "C18_own_time",
    "C18_arc",
    "C18_fresh_clone",
    "C18_second_camera",
    "C18_at_now_refuted",
    "C18_empty"
   ],
   "note": "The refutation is the failure named in the statement (newest clone as new as the filter)."
  },
  {
   "property": "C19",
   "status": "proved",
   "theorems": [
    "C19_stored",
    "C19_by_time",
    "C19_recent",
    "C19_missing"
   ],
   "note": ""
  },
  {
   "property": "C20",
   "status": "proved",
   "theorems": [
    "C20_local_time"
   ],
   "note": ""
  },
  {
   "property": "C21",
   "status": "proved",
   "theorems": [
    "C21_latches",
    "C21_four_samples",
    "C21_motion"
   ],
   "note": "Switches of the filter over histories of filter calls; the motion switch of an IMU over histories of callbacks."
  },
  {
   "property": "C22",
   "status": "proved",
   "theorems": [
    "C22_unit_quaternions",
    "C22_rotation_preserves_length"
   ],
   "note": ""
  },
  {
   "property": "C23",
   "status": "proved",
   "theorems": [
    "C23_unit",
    "C23_vector_roundtrip",
    "C23_small_is_identity",
    "C23_axis_fixed",
    "C23_turns",
    "C23_quaternion_roundtrip",
    "C23_same_rotation"
   ],
   "note": "Includes the rotation vector of length exactly pi, the angle-axis form of the rotation, and the round trip from quaternions up to sign."
  },
  {
   "property": "C24",
   "status": "proved",
   "theorems": [
    "C24_cross",
    "C24_antisymmetric",
    "C24_conjugation",
    "C24_orthogonal",
    "C24_determinant",
    "C24_multiplicative",
    "C24_action",
    "C24_inverse",
    "C24_composition"
   ],
   "note": ""
  },
  {
   "property": "C25",
   "status": "proved",
   "theorems": [
    "C25_enu_back",
    "C25_ecef_back",
    "C25_defined",
    "C25_enu_distance",
    "C25_ecef_distance",
    "C25_local_roundtrip",
    "C25_local_distance",
    "C25_reference_is_origin",
    "C25_altitude_is_vertical",
    "C25_sea_level"
   ],
   "note": "lla_to_ecef is defined exactly on the accepted latitude/longitude range (elsewhere the code returns uninitialised memory, undefined behaviour in the model). The inverse ecef_to_lla is not modelled."
  },
  {
   "property": "C26",
   "status": "proved",
   "theorems": [
    "C26_cases",
    "C26_no_file",
    "C26_file",
    "C26_exact"
   ],
   "note": ""
  },
  {
   "property": "C27",
   "status": "proved",
   "theorems": [
    "C27_bound",
    "C27_kept",
    "C27_rate_zero",
    "C27_time_zero",
    "C27_zero_start_refuted"
   ],
   "note": "Includes the witnesses that a log starting at time 0 breaks the bound."
  },
  {
   "property": "C28",
   "status": "proved",
   "theorems": [
    "C28_emitted",
    "C28_verbosity",
    "C28_streams",
    "C28_announcement",
    "C28_integer_levels"
   ],
   "note": "All level changes; the announcement of a level change itself bypasses the filter."
  },
  {
   "property": "C29",
   "status": "proved",
   "theorems": [
    "C29_body",
    "C29_clones",
    "C29_imu",
    "C29_imu_stationary",
    "C29_gps",
    "C29_fiducial",
    "C29_msckf",
    "C29_triangulation",
    "C29_truth",
    "C29_boards",
    "C29_features",
    "C29_counts",
    "C29_names_differ",
    "C29_variances",
    "C29_root_variances",
    "C29_root_variances_refuted",
    "C29_stationary_variances_refuted"
   ],
   "note": "Each row is read back column by column against a list of named fields. Number printing is a parameter that never prints a comma; rows are defined for every reachable filter with the sensor registered."
  },
  {
   "property": "C30",
   "status": "proved",
   "theorems": [
    "C30_generators",
    "C30_history",
    "C30_frames"
   ],
   "note": "Counters are unbounded in the model."
  },
  {
   "property": "C31",
   "status": "proved",
   "theorems": [
    "C31_replay",
    "C31_sort"
   ],
   "note": "Any std::sort result; message contents are functions of time. GPS alignment and MSCKF inside a callback may still be undefined; the statement is about callbacks that return."
  },
  {
   "property": "C32",
   "status": "proved",
   "theorems": [
    "C32_times"
   ],
   "note": "Error-free case; doubles are reals."
  },
  {
   "property": "C33",
   "status": "proved",
   "theorems": [
    "C33_sim_total",
    "C33_sim_runs",
    "C33_sim_tracks",
    "C33_sim_once",
    "C33_sim_timing",
    "C33_image_total",
    "C33_image_once",
    "C33_image_tracks",
    "C33_image_seen",
    "C33_image_timing",
    "C33_image_idle"
   ],
   "note": "Simulated tracker: exact refinement to runs of sightings. Image tracker: OpenCV results are inputs constrained by image_ok."
  },
  {
   "property": "C34",
   "status": "proved",
   "theorems": [
    "C34_subsequence",
    "C34_one_per_square",
    "C34_inside",
    "C34_represented",
    "C34_edge_refuted"
   ],
   "note": "C34_edge_refuted is the loss at the edges that the statement asserts."
  },
  {
   "property": "C35",
   "status": "proved",
   "theorems": [
    "C35_ratio",
    "C35_symmetry",
    "C35_one_to_one",
    "C35_ransac",
    "C35_distance",
    "C35_standstill",
    "C35_final"
   ],
   "note": "OpenCV results (nearest neighbours, fundamental matrix mask) are inputs."
  },
  {
   "property": "C36",
   "status": "proved",
   "theorems": [
    "C36_projection",
    "C36_distortion",
    "C36_distortion_refuted",
    "C36_gps",
    "C36_gps_correction",
    "C36_gps_correction_refuted",
    "C36_camera_fixed",
    "C36_camera_calibrated",
    "C36_fiducial_fixed",
    "C36_fiducial_calibrated",
    "C36_board_refuted",
    "C36_imu",
    "C36_imu_level",
    "C36_gyroscope_fixed",
    "C36_imu_attitude_refuted",
    "C36_imu_velocity_refuted",
    "C36_gyroscope_refuted",
    "C36_stationary",
    "C36_stationary_level",
    "C36_stationary_position_refuted",
    "C36_stationary_mounted_refuted",
    "C36_board_turn",
    "C36_board_turn_never",
    "C36_board_body_refuted",
    "C36_board_opposite"
   ],
   "note": "Positive side for GPS, projection, MSCKF rows and fiducial position; negative side by witnesses (distortion, calibrated board, GPS columns against the applied right correction). Inertial and stationary rows: exact characterisation of when they are derivatives, with witnesses of the failures. Fiducial orientation rows: exact characterisation at an exactly agreeing measurement, wrong for some turn in every state."
  },
  {
   "property": "C37",
   "status": "proved",
   "theorems": [
    "C37_bounded",
    "C37_at_least",
    "C37_unchanged",
    "C37_idempotent"
   ],
   "note": ""
  },
  {
   "property": "C38",
   "status": "proved",
   "theorems": [
    "C38_information_kept",
    "C38_never_invents",
    "C38_wide_unchanged",
    "C38_compression_refuted"
   ],
   "note": "Rotations preserve the information for all inputs; equality of information after truncation when no kept row is dropped; witness that the truncation loses information otherwise."
  },
  {
   "property": "C39",
   "status": "proved",
   "theorems": [
    "C39_projection_refuted",
    "C39_columns_annihilate",
    "C39_single_column",
    "C39_too_short"
   ],
   "note": "Witness that the projection used leaves the feature error in; the columns of Q would annihilate it; one-column case; shorter than three rows is undefined behaviour."
  },
  {
   "property": "C40",
   "status": "proved",
   "theorems": [
    "C40_mean",
    "C40_weighted_mean",
    "C40_within_bounds",
    "C40_translation",
    "C40_refuses",
    "C40_recovers",
    "C40_heading"
   ],
   "note": "For any SVD meeting the usual contract, which a concrete SVD in the development meets; recovered heading is the absolute value."
  },
  {
   "property": "C41",
   "status": "proved",
   "theorems": [
    "C41_measurement",
    "C41_gravity",
    "C41_never_again",
    "C41_other_imu_refuted",
    "C41_score",
    "C41_root_score_refuted",
    "C41_root_alarm_refuted",
    "C41_root_singular_refuted"
   ],
   "note": "Stated for the IMU that detected motion; C41_other_imu_refuted shows the unqualified claim fails with two IMUs. The score uses the stored matrix: the covariance in covariance form (C41_score), the factor in square-root form, where a motion can be overlooked (C41_root_score_refuted) rest taken for motion (C41_root_alarm_refuted) and the score not exist (C41_root_singular_refuted)."
  },
  {
   "property": "C42",
   "status": "proved",
   "theorems": [
    "C42_velocity",
    "C42_acceleration",
    "C42_start_kink",
    "C42_continuous",
    "C42_rest",
    "C42_angular_rate",
    "C42_angular_rate_no_offset",
    "C42_angular_acceleration",
    "C42_angular_acceleration_refuted",
    "C42_attitude_jump"
   ],
   "note": "The refutation and the jump are the deviations named in the statement."
  },
  {
   "property": "C43",
   "status": "proved",
   "theorems": [
    "C43_builds",
    "C43_count",
    "C43_inside",
    "C43_attitude",
    "C43_past_end",
    "C43_attitude_past_end",
    "C43_last_interval",
    "C43_outside",
    "C43_samples",
    "C43_rates",
    "C43_start_refuted"
   ],
   "note": "The reads past the end and the refuted start are part of the statement."
  },
  {
   "property": "C44",
   "status": "proved",
   "theorems": [
    "C44_order",
    "C44_time"
   ],
   "note": ""
  },
  {
   "property": "C45",
   "status": "proved",
   "theorems": [
    "C45_registered",
    "C45_clone",
    "C45_unknown_imu",
    "C45_unknown_gps",
    "C45_unknown_cam"
   ],
   "note": "The statement asserts both halves: reads of registered sensors are pure, reads of unknown ids block the later registration."
  },
  {
   "property": "C46",
   "status": "proved",
   "theorems": [
    "C46_order"
   ],
   "note": "The statement asserts the failure to commute; the theorem gives the exact difference for all filters."
  },
  {
   "property": "C47",
   "status": "proved",
   "theorems": [
    "C47_enumerate",
    "C47_names_differ",
    "C47_numbers",
    "C47_vector",
    "C47_quaternion"
   ],
   "note": ""
  },
  {
   "property": "C48",
   "status": "proved",
   "theorems": [
    "C48_no_tracks",
    "C48_all_declined",
    "C48_never_declines",
    "C48_camera_nothing"
   ],
   "note": "Log output and timing not modelled."
  },
  {
   "property": "C49",
   "status": "proved",
   "theorems": [
    "C49_registration",
    "C49_history",
    "C49_initial",
    "C49_ineffective"
   ],
   "note": "Zero noise before the first registration is stated for filters that do not clone by time (those clone at the first prediction)."
  },
  {
   "property": "C50",
   "status": "proved",
   "theorems": [
    "C50_history",
    "C50_message",
    "C50_image",
    "C50_defined"
   ],
   "note": "Callbacks that return. Totality without GPS fixes and feature tracks in covariance form (C50_defined)."
  },
  {
   "property": "C51",
   "status": "proved",
   "theorems": [
    "C51_truth"
   ],
   "note": "Projection by OpenCV is a function given with each frame."
  },
  {
   "property": "C52",
   "status": "proved",
   "theorems": [
    "C52_velocity",
    "C52_acceleration",
    "C52_turn",
    "C52_angular_rate_refuted",
    "C52_within",
    "C52_beyond"
   ],
   "note": "The spline fit itself is a parameter with the contract that it reports its derivatives; the refutation is the deviation named in the statement."
  },
  {
   "property": "C53",
   "status": "proved",
   "theorems": [
    "C53_rest",
    "C53_eigen",
    "C53_gps",
    "C53_board",
    "C53_imu",
    "C53_lever_refuted",
    "C53_bias_refuted"
   ],
   "note": "Whole runs at rest for every mix of sensors and messages; single measurements of a moving body. The refutations are the deviations named in the statement. cv::projectPoints is modelled without distortion; ecef_to_lla is assumed right at the place of the antenna."
  },
  {
   "property": "C54",
   "status": "proved",
   "theorems": [
    "C54_program",
    "C54_lived",
    "C54_starts",
    "C54_defined",
    "C54_assertions",
    "C54_stamps",
    "C54_pose_ignored",
    "C54_window",
    "C54_noise",
    "C54_noise_refuted",
    "C54_fix_memory"
   ],
   "note": "Uninitialised memory is an explicit argument of the model. Exceptions of rclcpp count as undefined. Image detectors and republished images are not modelled."
  },
  {
   "property": "C55",
   "status": "proved",
   "theorems": [
    "C55_threshold_never",
    "C55_standing",
    "C55_extent",
    "C55_baseline",
    "C55_too_close",
    "C55_reference",
    "C55_vertical",
    "C55_misplaced_refuted"
   ],
   "note": "ecef_to_lla, the convex hull and the singular value decomposition are parameters with their contracts. The refutation is the deviation named in the statement."
  },
  {
   "property": "C56",
   "status": "proved",
   "theorems": [
    "C56_exact",
    "C56_back",
    "C56_roundtrip",
    "C56_inverse_refuted",
    "C56_consistent",
    "C56_consistent_back",
    "C56_centre"
   ],
   "note": "Real arithmetic; the refutation is the deviation named in the statement."
  },
  {
   "property": "C57",
   "status": "proved",
   "theorems": [
    "C57_least_squares",
    "C57_exact",
    "C57_parallel",
    "C57_as_built"
   ],
   "note": "colPivHouseholderQr().solve is a parameter: a solver of positive definite systems (an instance is given)."
  },
  {
   "property": "C58",
   "status": "proved",
   "theorems": [
    "C58_runs",
    "C58_start",
    "C58_frames",
    "C58_order",
    "C58_rest",
    "C58_log",
    "C58_never_cloned",
    "C58_zero_length"
   ],
   "note": "Starts from the configuration record; reading the file into it is C60. Random draws are arguments."
  },
  {
   "property": "C59",
   "status": "proved",
   "theorems": [
    "C59_message",
    "C59_image",
    "C59_overwrites",
    "C59_ignored_refuted"
   ],
   "note": "The refutation is the deviation named in the statement (a late measurement is not ignored)."
  },
  {
   "property": "C60",
   "status": "proved",
   "theorems": [
    "C60_settings",
    "C60_unknown",
    "C60_ignored",
    "C60_imus",
    "C60_cameras",
    "C60_others",
    "C60_example",
    "C60_example_refuted",
    "C60_node",
    "C60_node_refuted"
   ],
   "note": "The text-to-number readings of scalars are universally quantified; yaml-cpp itself is not modelled. The refutations are the deviations named in the statement."
  },
  {
   "property": "C61",
   "status": "proved",
   "theorems": [
    "C61_least_squares",
    "C61_same_information",
    "C61_gps",
    "C61_survey",
    "C61_imu",
    "C61_imu_alone",
    "C61_stationary",
    "C61_board",
    "C61_board_refuted"
   ],
   "note": "Feature tracks are C57; the Jacobians themselves are C36. Statements about what is compared hold without first-estimate Jacobians. The refutation is the deviation named in the statement."
  },
  {
   "property": "C62",
   "status": "proved",
   "theorems": [
    "C62_history",
    "C62_rarely_large",
    "C62_exists",
    "C62_misjudged",
    "C62_over_under"
   ],
   "note": "Chance is modelled by laws with finitely many outcomes; the error dynamics are the linear ones the filter assumes (C36 says where the Jacobians are the derivatives)."
  },
  {
   "property": "C63",
   "status": "proved",
   "theorems": [
    "C63_imu",
    "C63_gps",
    "C63_board",
    "C63_board_told",
    "C63_board_right",
    "C63_board_cautious",
    "C63_board_refuted",
    "C63_turns",
    "C63_start",
    "C63_pixels"
   ],
   "note": "Draws are laws with finitely many outcomes; the C++ generator itself is not modelled. The property contains the disagreements; C63_board_refuted is a concrete one."
  },
  {
   "property": "C64",
   "status": "proved",
   "theorems": [
    "C64_runs",
    "C64_towards",
    "C64_noise",
    "C64_noise_refuted"
   ],
   "note": "The statement on noise is for lenses without distortion and the default updater (true feature positions). The property contains the disagreement of the units; C64_noise_refuted is a concrete one."
  },
  {
   "property": "C65",
   "status": "proved",
   "theorems": [
    "C65_calls",
    "C65_program",
    "C65_told",
    "C65_date",
    "C65_date_estimates",
    "C65_lookup",
    "C65_recent",
    "C65_lookup_refuted"
   ],
   "note": "GPS fixes tie the local frame to the Earth, so with them only v = 0 is covered. The property contains the exception; C65_lookup_refuted is a concrete one."
  },
  {
   "property": "C66",
   "status": "proved",
   "theorems": [
    "C66_stamp",
    "C66_order",
    "C66_apart",
    "C66_nanoseconds_refuted",
    "C66_dates",
    "C66_clock",
    "C66_elapsed",
    "C66_sim_order",
    "C66_sim_count",
    "C66_sim_count_refuted"
   ],
   "note": "Only times are modelled with rounding; overflow is left out. The property contains the two exceptions (C66_nanoseconds_refuted, C66_sim_count_refuted)."
  },
  {
   "property": "C67",
   "status": "proved",
   "theorems": [
    "C67_never_surer",
    "C67_variances",
    "C67_imus_only",
    "C67_before_projection",
    "C67_projected_blind",
    "C67_tracks_refuted"
   ],
   "note": "Covariance form; measurements are calls of KalmanUpdate with the Jacobian described by names; whole programs with IMUs only. The statement says that the projection of the code breaks it for feature tracks; C67_tracks_refuted is that half."
  },
  {
   "property": "C68",
   "status": "proved",
   "theorems": [
    "C68_taken",
    "C68_last_time",
    "C68_spacing",
    "C68_frames",
    "C68_untimed"
   ],
   "note": "All augmentation modes; the pruning half of the same function is C17."
  },
  {
   "property": "C69",
   "status": "proved",
   "theorems": [
    "C69_kept",
    "C69_fix",
    "C69_board",
    "C69_tracker",
    "C69_exact_moves"
   ],
   "note": "Kept poses for receivers, trackers and boards; what the kept pose does to the residual is proved for receivers."
  },
  {
   "property": "C70",
   "status": "proved",
   "theorems": [
    "C70_imu",
    "C70_gps",
    "C70_camera",
    "C70_board",
    "C70_board_known",
    "C70_bias_variance_unread"
   ],
   "note": "IMUs, receivers, cameras with trackers, and boards."
  },
  {
   "property": "C71",
   "status": "proved",
   "theorems": [
    "C71_exact",
    "C71_residual",
    "C71_stretched"
   ],
   "note": "Both sides; the displacement is stated for the residual before the feature position is projected out."
  }
 ]
}