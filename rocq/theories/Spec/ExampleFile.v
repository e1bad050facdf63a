(** /repo/config/example.yaml, transcribed.  Anchors of the reading model: a
    quoted or plain word is [word], a decimal number [num], an integer
    literal [int], [true]/[false] are [yes]/[no].  The text of numbers and
    flags is not kept: no key that is read as text holds one. *)
From Coq Require Import Reals List String.
From Verif Require Import Model.SimConfig.
Import ListNotations.
Open Scope R_scope.
Open Scope string_scope.

Definition num (x : R) : ynode := YScalar (mkScalar (Some x) None None "").
Definition int (n : nat) : ynode := YScalar (mkScalar (Some (INR n)) (Some n) None "").
Definition yes : ynode := YScalar (mkScalar None None (Some true) "true").
Definition no : ynode := YScalar (mkScalar None None (Some false) "false").
Definition word (s : string) : ynode := YScalar (mkScalar None None None s).
Definition numbers (l : list R) : ynode := YSeq (map num l).

Definition example_file : ynode := YMap [
  ("/EkfCalNode", YMap [
    ("ros__parameters", YMap [
      ("debug_log_level", int 2);
      ("data_log_rate", num 10);
      ("augmenting_type", int 1);
      ("augmenting_delta_time", num 0);
      ("augmenting_pos_error", num (1 / 10));
      ("augmenting_ang_error", num (1 / 10));
      ("process_noise", YMap [
        ("pos", num 1);
        ("vel", num (1 / 10));
        ("ang_pos", num 1)]);
      ("pos_b_in_l", numbers [0; 0; 0]);
      ("ang_b_to_l", numbers [0; 0; 0]);
      ("pos_e_in_g", numbers [0; 0; 0]);
      ("ang_l_to_e", num 0);
      ("gps_init_type", int 0);
      ("gps_init_baseline_dist", num 100);
      ("gps_init_pos_thresh", num 1);
      ("gps_init_ang_thresh", num (1 / 10));
      ("motion_detection_chi_squared", num 1);
      ("use_root_covariance", yes);
      ("use_first_estimate_jacobian", yes);
      ("sim_params", YMap [
        ("seed", int 1);
        ("max_time", num 10);
        ("number_of_runs", int 10);
        ("run_number", int 0);
        ("stationary_time", num (1 / 10));
        ("truth_type", word "cyclic");
        ("pos_frequency", numbers [3 / 10; 1 / 2; 7 / 10]);
        ("ang_frequency", numbers [1 / 5; 3 / 10; 2 / 5]);
        ("pos_offset", numbers [0; 0; 0]);
        ("ang_offset", numbers [0; 0; 0]);
        ("ang_amplitude", num (1 / 10));
        ("pos_amplitude", num 1);
        ("pos_b_in_l_error", numbers [1 / 2; 1 / 2; 1 / 2]);
        ("ang_b_to_l_error", numbers [3 / 10; 3 / 10; 3 / 10]);
        ("positions", numbers [0; 0; 0; 1 / 10; 1 / 10; 1 / 10; - (1 / 10); - (1 / 10); - (1 / 10); 0; 0; 0]);
        ("angles", numbers [0; 0; 0; 1 / 100; 1 / 100; 1 / 100; 0; 0; 0]);
        ("pos_errors", numbers [1; 1; 1]);
        ("ang_errors", numbers [1 / 10; 1 / 10; 1 / 10]);
        ("pos_e_in_g_error", numbers [1; 1; 1]);
        ("ang_l_to_e_error", num (1 / 10))]);
      ("imu_list", YSeq [word "imu_1"]);
      ("camera_list", YSeq [word "cam_1"]);
      ("tracker_list", YSeq [word "orb"]);
      ("fiducial_list", YSeq [word "charuco"]);
      ("gps_list", YSeq [word "gps_1"]);
      ("imu", YMap [
        ("imu_1", YMap [
          ("is_extrinsic", no);
          ("is_intrinsic", no);
          ("rate", num 1000);
          ("topic", word "/imu_1");
          ("variance", numbers [1 / 100; 1 / 100; 1 / 100; 1 / 100; 1 / 100; 1 / 100; 1 / 100; 1 / 100; 1 / 100; 1 / 100; 1 / 100; 1 / 100]);
          ("pos_i_in_b", numbers [0; 0; 0]);
          ("ang_i_to_b", numbers [1; 0; 0; 0]);
          ("acc_bias", numbers [0; 0; 0]);
          ("omg_bias", numbers [0; 0; 0]);
          ("pos_stability", num (1 / 100));
          ("ang_stability", num (1 / 100));
          ("acc_bias_stability", num (1 / 1000));
          ("omg_bias_stability", num (1 / 1000));
          ("data_log_rate", num 10);
          ("sim_params", YMap [
            ("no_errors", no);
            ("time_bias_error", num (1 / 1000));
            ("time_error", num (1 / 1000000));
            ("pos_error", numbers [0; 0; 0]);
            ("ang_error", numbers [0; 0; 0]);
            ("acc_error", numbers [1 / 1000; 1 / 1000; 1 / 1000]);
            ("omg_error", numbers [1 / 100; 1 / 100; 1 / 100]);
            ("acc_bias_error", numbers [0; 0; 0]);
            ("omg_bias_error", numbers [0; 0; 0])])])]);
      ("camera", YMap [
        ("cam_1", YMap [
          ("rate", num 20);
          ("topic", word "/cam_1");
          ("pos_c_in_b", numbers [0; 0; 0]);
          ("ang_c_to_b", numbers [- (1 / 2); 1 / 2; - (1 / 2); 1 / 2]);
          ("variance", numbers [1 / 10; 1 / 10; 1 / 10; 1 / 10; 1 / 10; 1 / 10]);
          ("tracker", word "orb");
          ("pos_stability", num (1 / 1000000000));
          ("ang_stability", num (1 / 1000000000));
          ("data_log_rate", num 10);
          ("intrinsics", YMap [
            ("f_x", num (1 / 100));
            ("f_y", num (1 / 100));
            ("k_1", num 0);
            ("k_2", num 0);
            ("p_1", num 0);
            ("p_2", num 0);
            ("pixel_size", num (1 / 200000));
            ("width", num 1920);
            ("height", num 1080)]);
          ("is_extrinsic", no);
          ("sim_params", YMap [
            ("no_errors", no);
            ("time_bias_error", num (1 / 1000));
            ("time_error", num (1 / 1000000));
            ("pos_error", numbers [0; 0; 0]);
            ("ang_error", numbers [0; 0; 0])])])]);
      ("tracker", YMap [
        ("orb", YMap [
          ("feature_detector", int 2);
          ("descriptor_extractor", int 1);
          ("descriptor_matcher", int 0);
          ("detector_threshold", num 10);
          ("pixel_error", num (1 / 2));
          ("min_feature_distance", num 1);
          ("min_track_length", int 2);
          ("max_track_length", int 20);
          ("sim_params", YMap [
            ("no_errors", no);
            ("feature_count", int 500);
            ("room_size", num 5)])])]);
      ("fiducial", YMap [
        ("charuco", YMap [
          ("fiducial_type", int 1);
          ("squares_x", int 5);
          ("squares_y", int 7);
          ("square_length", num (1 / 25));
          ("marker_length", num (1 / 50));
          ("id", int 0);
          ("pos_f_in_l", numbers [5; 0; 0]);
          ("ang_f_to_l", numbers [1; 0; 0; 0]);
          ("variance", numbers [1 / 10; 1 / 10; 1 / 10; 1 / 10; 1 / 10; 1 / 10]);
          ("min_track_length", int 0);
          ("max_track_length", int 1);
          ("is_extrinsic", no);
          ("sim_params", YMap [
            ("no_errors", no);
            ("pos_error", numbers [0; 0; 0]);
            ("ang_error", numbers [0; 0; 0]);
            ("t_vec_error", numbers [1 / 100; 1 / 100; 1 / 100]);
            ("r_vec_error", numbers [1 / 100; 1 / 100; 1 / 100])])])]);
      ("gps", YMap [
        ("gps_1", YMap [
          ("rate", num 5);
          ("topic", word "/gps_1");
          ("pos_a_in_b", numbers [0; 0; 0]);
          ("variance", numbers [5; 5; 5]);
          ("data_log_rate", num 5);
          ("is_extrinsic", no);
          ("sim_params", YMap [
            ("no_errors", no);
            ("time_bias_error", num 0);
            ("time_error", num (1 / 1000000000));
            ("lla_error", numbers [5; 5; 5]);
            ("pos_a_in_b_err", numbers [0; 0; 0])])])])])])].
