(** What rclcpp makes of the same file: the parameters of the ROS node by
    name, missing ones unset. *)
From Coq Require Import Reals List Arith Bool String.
From Verif Require Import Base.Res Base.Mat Base.Geom Model.Types Model.Ekf Model.Sensors Model.RosNode Model.SimMain Model.SimConfig Spec.Ros Spec.Config.
Import ListNotations.
Open Scope R_scope.
Open Scope string_scope.

Record ros_says (f : ynode) (c : RosConfig) : Prop := mkRosSays {
  rs_aug : option_map aug_number (rc_aug c) = whole f (top ["augmenting_type"]);
  rs_aug_dt : rc_aug_dt c = number f (top ["augmenting_delta_time"]);
  rs_aug_pos : rc_aug_pos c = number f (top ["augmenting_pos_error"]);
  rs_aug_ang : rc_aug_ang c = number f (top ["augmenting_ang_error"]);
  rs_gps : option_map init_number (rc_gps_init c) = whole f (top ["gps_init_type"]);
  rs_baseline : rc_gps_baseline c = number f (top ["gps_init_baseline_dist"]);
  rs_pos_thresh : rc_gps_pos c = number f (top ["gps_init_pos_thresh"]);
  rs_ang_thresh : rc_gps_ang c = number f (top ["gps_init_ang_thresh"]);
  rs_chi2 : rc_chi2 c = number f (top ["motion_detection_chi_squared"]);
  rs_scale : rc_imu_scale c = number f (top ["imu_noise_scale_factor"]);
  rs_root : rc_root c = yes_no f (top ["use_root_covariance"]);
  rs_fej : rc_fej c = yes_no f (top ["use_first_estimate_jacobian"]);
  rs_ref : row f (top ["pos_e_in_g"]) [0; 0; 0] (dflt [0; 0; 0] (rc_pos_e_in_g c));
  rs_heading : rc_ang_l_to_e c = number f (top ["ang_l_to_e"]);
  rs_trackers : names f (top ["tracker_list"]) (map fst (rc_trackers c)) }.
(** The cloning settings are all in the file. *)
Definition cloning_set (f : ynode) : Prop :=
  whole f (top ["augmenting_type"]) <> None /\ number f (top ["augmenting_delta_time"]) <> None /\
  number f (top ["augmenting_pos_error"]) <> None /\ number f (top ["augmenting_ang_error"]) <> None.
