(** What the configuration file of the simulation means: settings by path,
    with their types and defaults (config/example.yaml, docs/parameters.md);
    which keys there are. *)
From Coq Require Import Reals List Arith Bool String.
From Verif Require Import Base.Res Base.Mat Base.RMat Base.LinAlg Base.Geom Model.Types Model.Ekf Model.Sensors Model.TruthEngine Model.SimMain
  Model.SimConfig Spec.Ros.
Import ListNotations.
Open Scope R_scope.

(** *** Paths *)
Fixpoint lookup (p : list string) (f : ynode) : option ynode :=
  match p with
  | [] => Some f
  | k :: p =>
      match f with
      | YMap l => match find (fun x => String.eqb (fst x) k) l with Some x => lookup p (snd x) | None => None end
      | _ => None
      end
  end.
Definition top (p : list string) : list string := ("/EkfCalNode" :: "ros__parameters" :: p)%string.
Definition scalar_at (f : ynode) (p : list string) : option scalar :=
  match lookup p f with Some (YScalar s) => Some s | _ => None end.
Definition number (f : ynode) (p : list string) : option R :=
  match scalar_at f p with Some s => ys_real s | None => None end.
Definition whole (f : ynode) (p : list string) : option nat :=
  match scalar_at f p with Some s => ys_nat s | None => None end.
Definition yes_no (f : ynode) (p : list string) : option bool :=
  match scalar_at f p with Some s => ys_bool s | None => None end.
Definition said (f : ynode) (p : list string) : option string :=
  match scalar_at f p with Some s => Some (ys_text s) | None => None end.
(** A list of numbers; anything that is not a list counts as missing. *)
Definition row (f : ynode) (p : list string) (d l : list R) : Prop :=
  match lookup p f with
  | Some (YSeq ns) => Forall2 (fun n x => exists s, n = YScalar s /\ ys_real s = Some x) ns l
  | _ => l = d
  end.
(** A list of names; a single word is no list. *)
Definition names (f : ynode) (p : list string) (l : list string) : Prop :=
  match lookup p f with
  | Some (YSeq ns) => Forall2 (fun n x => exists s, n = YScalar s /\ ys_text s = x) ns l
  | _ => l = []
  end.
Definition point (f : ynode) (p : list string) (v : V3) : Prop := row f p [0; 0; 0] (triple v).
(** An orientation: four numbers, normalised; any other count is no rotation. *)
Definition turned (f : ynode) (p : list string) (q : quat) : Prop :=
  exists l, row f p [1; 0; 0; 0] l /\ oriented l q /\ (List.length l <> 4%nat -> q = qid).

(** *** Settings *)
Definition aug_number (a : AugType) : nat :=
  match a with ANone => 0 | AAll => 1 | APrimary => 2 | ATime => 3 | AError => 4 end%nat.
Definition init_number (a : GpsInitType) : nat := match a with GConstant => 0 | GBaseline => 1 | GError => 2 end%nat.
Open Scope string_scope.
Record filter_read (f : ynode) (c : sim_cfg) : Prop := mkFilterRead {
  fr_aug : aug_number (p_aug (sc_par c)) = dflt 1%nat (whole f (top ["augmenting_type"]));
  fr_aug_dt : p_aug_dt (sc_par c) = dflt 1 (number f (top ["augmenting_delta_time"]));
  fr_aug_pos : p_aug_pos_err (sc_par c) = dflt (1 / 10) (number f (top ["augmenting_pos_error"]));
  fr_aug_ang : p_aug_ang_err (sc_par c) = dflt (1 / 10) (number f (top ["augmenting_ang_error"]));
  fr_gps : init_number (p_gps_init (sc_par c)) = dflt 0%nat (whole f (top ["gps_init_type"]));
  fr_baseline : p_gps_baseline (sc_par c) = dflt 1 (number f (top ["gps_init_baseline_dist"]));
  fr_pos_thresh : p_gps_pos_thresh (sc_par c) = dflt 1 (number f (top ["gps_init_pos_thresh"]));
  fr_ang_thresh : p_gps_ang_thresh (sc_par c) = dflt 1 (number f (top ["gps_init_ang_thresh"]));
  fr_chi2 : p_chi2 (sc_par c) = dflt 1 (number f (top ["motion_detection_chi_squared"]));
  fr_scale : p_imu_scale (sc_par c) = dflt 100 (number f (top ["imu_noise_scale_factor"]));
  fr_root : p_root (sc_par c) = dflt true (yes_no f (top ["use_root_covariance"]));
  fr_fej : p_fej (sc_par c) = dflt false (yes_no f (top ["use_first_estimate_jacobian"]));
  fr_noise : nr (sc_noise c) = 18%nat /\ nc (sc_noise c) = 1%nat;
  fr_noise_at : forall g k i, nth_error ["pos"; "vel"; "acc"; "ang_pos"; "ang_vel"; "ang_acc"] g = Some k -> (i < 3)%nat ->
    ent (sc_noise c) (3 * g + i) 0 = dflt (1 / 100) (number f (top ["process_noise"; k]));
  fr_pos : point f (top ["pos_b_in_l"]) (sc_pos c);
  fr_ang : turned f (top ["ang_b_to_l"]) (sc_ang c);
  fr_ref : point f (top ["pos_e_in_g"]) (sc_ref c);
  fr_heading : sc_heading c = dflt 0 (number f (top ["ang_l_to_e"]));
  fr_log : sc_log_rate c = dflt 0 (number f (top ["data_log_rate"])) }.

Definition sim (k : string) : list string := top ["sim_params"; k].
(** Control points: the first is exact, the others are drawn around the
    numbers in the file. *)
Definition points_of (draw : nat -> V3 -> V3 -> V3) (size : nat) (flat : list R) (err : V3) (l : list V3) : Prop :=
  List.length l = size /\ forall i p, nth_error l i = Some p -> exists x y z,
    nth_error flat (3 * i) = Some x /\ nth_error flat (3 * i + 1) = Some y /\ nth_error flat (3 * i + 2) = Some z /\
    p = (match i with O => mkV3 x y z | _ => draw i (mkV3 x y z) err end).
Inductive truth_read (fit : list V3 -> spline) (rnd : random) (f : ynode) (still until : R) : engine -> Prop :=
| tr_cyclic : forall e, dflt "cyclic" (said f (sim "truth_type")) = "cyclic" ->
    point f (sim "pos_frequency") (cy_pos_frequency e) -> point f (sim "ang_frequency") (cy_ang_frequency e) ->
    point f (sim "pos_offset") (cy_pos_offset e) -> point f (sim "ang_offset") (cy_ang_offset e) ->
    cy_pos_amplitude e = dflt 1 (number f (sim "pos_amplitude")) ->
    cy_ang_amplitude e = dflt (1 / 10) (number f (sim "ang_amplitude")) -> cy_stationary_time e = still ->
    truth_read fit rnd f still until (EngCyclic e)
| tr_smoother : forall times positions angles pos_errs ang_errs e, said f (sim "truth_type") = Some "smoother" ->
    row f (sim "times") [0; 0; 0] times -> row f (sim "positions") [0; 0; 0] positions ->
    row f (sim "angles") [0; 0; 0] angles -> row f (sim "pos_errors") [0; 0; 0] pos_errs ->
    row f (sim "ang_errors") [0; 0; 0] ang_errs ->
    mk_smoother times positions angles pos_errs ang_errs still until 1000 (rd_pos rnd) (rd_ang rnd) = OK e ->
    truth_read fit rnd f still until (EngSmoother e)
| tr_spline : forall positions angles pos_err ang_err ps qs, said f (sim "truth_type") = Some "spline" ->
    row f (sim "positions") [0; 0; 0] positions -> row f (sim "angles") [0; 0; 0] angles ->
    point f (sim "pos_errors") pos_err -> point f (sim "ang_errors") ang_err ->
    points_of (rd_pos rnd) (Nat.min (List.length positions) (List.length angles) / 3) positions pos_err ps ->
    points_of (rd_ang rnd) (Nat.min (List.length positions) (List.length angles) / 3) angles ang_err qs ->
    truth_read fit rnd f still until (EngSpline (mkSplineTruth (fit ps) (fit qs) until still))
| tr_unknown : forall w, said f (sim "truth_type") = Some w -> w <> "cyclic" -> w <> "smoother" -> w <> "spline" ->
    truth_read fit rnd f still until EngUnknown.
Record sim_read (fit : list V3 -> spline) (rnd : random) (f : ynode) (c : sim_cfg) : Prop := mkSimRead {
  sr_max : sc_max_time c = dflt 10 (number f (sim "max_time"));
  sr_truth : truth_read fit rnd f (Rmax (dflt (1 / 10) (number f (sim "stationary_time"))) (1 / 10)) (sc_max_time c) (sc_engine c);
  sr_pos : point f (sim "pos_b_in_l_error") (sc_pos_error c);
  sr_ang : point f (sim "ang_b_to_l_error") (sc_ang_error c);
  sr_ref : point f (sim "pos_e_in_g_error") (sc_ref_error c);
  sr_heading : sc_heading_error c = dflt 0 (number f (sim "ang_l_to_e_error"));
  sr_vec : sc_vec c = rd_vec rnd;
  sr_scalar : sc_scalar c = rd_scalar rnd }.

(** One sensor, tracker or board by name. *)
Definition part (kind name : string) (p : list string) : list string := top (kind :: name :: p).
Record imu_read (f : ynode) (n : string) (c : imu_cfg) : Prop := mkImuRead {
  ir_rate : ic_rate c = dflt 1 (number f (part "imu" n ["rate"]));
  ir_ext : ip_ext (ic_par c) = dflt false (yes_no f (part "imu" n ["is_extrinsic"]));
  ir_int : ip_int (ic_par c) = dflt false (yes_no f (part "imu" n ["is_intrinsic"]));
  ir_var : row f (part "imu" n ["variance"]) [0; 0; 0] (ip_var (ic_par c));
  ir_pos : point f (part "imu" n ["pos_i_in_b"]) (ip_pos (ic_par c));
  ir_ang : turned f (part "imu" n ["ang_i_to_b"]) (ip_ang (ic_par c));
  ir_acc_bias : point f (part "imu" n ["acc_bias"]) (ip_acc_bias (ic_par c));
  ir_omg_bias : point f (part "imu" n ["omg_bias"]) (ip_omg_bias (ic_par c));
  ir_pos_stab : ip_pos_stab (ic_par c) = dflt nano (number f (part "imu" n ["pos_stability"]));
  ir_ang_stab : ip_ang_stab (ic_par c) = dflt nano (number f (part "imu" n ["ang_stability"]));
  ir_acc_stab : ip_acc_stab (ic_par c) = dflt nano (number f (part "imu" n ["acc_bias_stability"]));
  ir_omg_stab : ip_omg_stab (ic_par c) = dflt nano (number f (part "imu" n ["omg_bias_stability"]));
  ir_exact : ic_no_errors c = dflt false (yes_no f (part "imu" n ["sim_params"; "no_errors"]));
  ir_acc_error : point f (part "imu" n ["sim_params"; "acc_error"]) (ic_acc_error c);
  ir_omg_error : point f (part "imu" n ["sim_params"; "omg_error"]) (ic_omg_error c);
  ir_pos_error : point f (part "imu" n ["sim_params"; "pos_error"]) (ic_pos_error c);
  ir_acc_bias_error : point f (part "imu" n ["sim_params"; "acc_bias_error"]) (ic_acc_bias_error c);
  ir_omg_bias_error : point f (part "imu" n ["sim_params"; "omg_bias_error"]) (ic_omg_bias_error c) }.
Record tracker_read (f : ynode) (n : string) (c : tracker_cfg) : Prop := mkTrackerRead {
  tr_px : tc_px c = dflt 1 (number f (part "tracker" n ["pixel_error"]));
  tr_min : tc_min_len c = dflt 2%nat (whole f (part "tracker" n ["min_track_length"]));
  tr_max : tc_max_len c = dflt 20%nat (whole f (part "tracker" n ["max_track_length"]));
  tr_dist : tc_min_dist c = dflt 1 (number f (part "tracker" n ["min_feat_dist"]));
  tr_count : tc_count c = dflt 100%nat (whole f (part "tracker" n ["sim_params"; "feature_count"]));
  tr_exact : tc_no_errors c = dflt false (yes_no f (part "tracker" n ["sim_params"; "no_errors"])) }.
Record board_read (f : ynode) (n : string) (c : board_cfg) : Prop := mkBoardRead {
  br_pos : point f (part "fiducial" n ["pos_f_in_l"]) (fp_pos (bc_par c));
  br_ang : turned f (part "fiducial" n ["ang_f_to_l"]) (fp_ang (bc_par c));
  br_var : row f (part "fiducial" n ["variance"]) [0; 0; 0] (fp_var (bc_par c));
  br_id : fp_id (bc_par c) = dflt 0%nat (whole f (part "fiducial" n ["id"]));
  br_ext : fp_ext (bc_par c) = dflt false (yes_no f (part "fiducial" n ["is_extrinsic"]));
  br_pos_error : point f (part "fiducial" n ["sim_params"; "pos_error"]) (bc_pos_error c);
  br_t_error : point f (part "fiducial" n ["sim_params"; "t_vec_error"]) (bc_t_error c);
  br_r_error : point f (part "fiducial" n ["sim_params"; "r_vec_error"]) (bc_r_error c);
  br_exact : bc_no_errors c = dflt false (yes_no f (part "fiducial" n ["sim_params"; "no_errors"])) }.
(** No name and the empty name mean no tracker (board). *)
Definition name_said (f : ynode) (p : list string) : option string :=
  match said f p with Some (String a s) => Some (String a s) | _ => None end.
Record cam_read (f : ynode) (n : string) (c : cam_cfg) : Prop := mkCamRead {
  kr_rate : cp_rate (cc_par c) = dflt 1 (number f (part "camera" n ["rate"]));
  kr_var : row f (part "camera" n ["variance"]) [0; 0; 0] (cp_var (cc_par c));
  kr_pos : point f (part "camera" n ["pos_c_in_b"]) (cp_pos (cc_par c));
  kr_ang : turned f (part "camera" n ["ang_c_to_b"]) (cp_ang (cc_par c));
  kr_ext : cp_ext (cc_par c) = dflt false (yes_no f (part "camera" n ["is_extrinsic"]));
  kr_pos_stab : cp_pos_stab (cc_par c) = dflt nano (number f (part "camera" n ["pos_stability"]));
  kr_ang_stab : cp_ang_stab (cc_par c) = dflt nano (number f (part "camera" n ["ang_stability"]));
  kr_tracker : cc_tracker c = name_said f (part "camera" n ["tracker"]);
  kr_board : cc_board c = name_said f (part "camera" n ["fiducial"]);
  kr_f_x : in_f_x (cp_intr (cc_par c)) = dflt (1 / 100) (number f (part "camera" n ["intrinsics"; "f_x"]));
  kr_f_y : in_f_y (cp_intr (cc_par c)) = dflt (1 / 100) (number f (part "camera" n ["intrinsics"; "f_y"]));
  kr_k_1 : in_k_1 (cp_intr (cc_par c)) = dflt 0 (number f (part "camera" n ["intrinsics"; "k_1"]));
  kr_k_2 : in_k_2 (cp_intr (cc_par c)) = dflt 0 (number f (part "camera" n ["intrinsics"; "k_2"]));
  kr_p_1 : in_p_1 (cp_intr (cc_par c)) = dflt 0 (number f (part "camera" n ["intrinsics"; "p_1"]));
  kr_p_2 : in_p_2 (cp_intr (cc_par c)) = dflt 0 (number f (part "camera" n ["intrinsics"; "p_2"]));
  kr_width : in_width (cp_intr (cc_par c)) = dflt 640 (number f (part "camera" n ["intrinsics"; "width"]));
  kr_height : in_height (cp_intr (cc_par c)) = dflt 480 (number f (part "camera" n ["intrinsics"; "height"]));
  kr_pixel : in_pixel_size (cp_intr (cc_par c)) = dflt (5 / 1000000) (number f (part "camera" n ["intrinsics"; "pixel_size"]));
  kr_exact : cc_no_errors c = dflt false (yes_no f (part "camera" n ["sim_params"; "no_errors"]));
  kr_pos_error : point f (part "camera" n ["sim_params"; "pos_error"]) (cc_pos_error c) }.
Record gps_read (f : ynode) (n : string) (c : gps_cfg) : Prop := mkGpsRead {
  gr_rate : gc_rate c = dflt 1 (number f (part "gps" n ["rate"]));
  gr_var : point f (part "gps" n ["variance"]) (gp_var (gc_par c));
  gr_pos : point f (part "gps" n ["pos_a_in_b"]) (gp_pos (gc_par c));
  gr_stab : gp_pos_stab (gc_par c) = dflt 0 (number f (part "gps" n ["pos_stability"]));
  gr_ext : gp_ext (gc_par c) = dflt false (yes_no f (part "gps" n ["is_extrinsic"]));
  gr_exact : gc_no_errors c = dflt false (yes_no f (part "gps" n ["sim_params"; "no_errors"]));
  gr_lla : point f (part "gps" n ["sim_params"; "lla_error"]) (gc_lla_error c);
  gr_pos_error : point f (part "gps" n ["sim_params"; "pos_a_in_b_error"]) (gc_pos_error c) }.

(** The listed names and nothing else, in the order of the list; the i-th
    sensor of a kind has its own random numbers. *)
Definition listed_as {A : Type} (f : ynode) (key : string) (P : string -> A -> Prop) (l : list A) : Prop :=
  exists ns, names f (top [key]) ns /\ Forall2 P ns l.
Definition drawn {A : Type} (d : nat -> draws) (l : list (A * draws)) : Prop :=
  forall i x, nth_error l i = Some x -> snd x = d i.
Record sensors_read (rnd : random) (f : ynode) (c : sim_cfg) : Prop := mkSensorsRead {
  se_imus : listed_as f "imu_list" (fun n x => imu_read f n (fst x)) (sc_imus c) /\ drawn (rd_imu rnd) (sc_imus c);
  se_cams : listed_as f "camera_list" (fun n x => cam_read f n (fst x)) (sc_cams c) /\ drawn (rd_cam rnd) (sc_cams c);
  se_gps : listed_as f "gps_list" (fun n x => gps_read f n (fst x)) (sc_gps c) /\ drawn (rd_gps rnd) (sc_gps c);
  se_trackers : listed_as f "tracker_list" (fun n x => fst x = n /\ tracker_read f n (snd x)) (sc_trackers c);
  se_boards : listed_as f "fiducial_list" (fun n x => fst x = n /\ board_read f n (snd x)) (sc_boards c) }.

(** A list with at least [k] entries, in a build without assertions. *)
Definition enough (asserts : bool) (f : ynode) (p : list string) (k : nat) : Prop :=
  asserts = false /\ exists ns, lookup p f = Some (YSeq ns) /\ (k <= List.length ns)%nat.

(** *** Which keys there are *)
Inductive schema : Type := Value | Keys (f : string -> option schema).
Definition known (l : list (string * schema)) : schema :=
  Keys (fun k => match find (fun x => String.eqb (fst x) k) l with Some x => Some (snd x) | None => None end).
Definition each_name (s : schema) : schema := Keys (fun _ => Some s).
Definition values (l : list string) : list (string * schema) := map (fun k => (k, Value)) l.
Definition imu_keys : schema := known (
  ("sim_params", known (values ["no_errors"; "time_error"; "acc_error"; "omg_error"; "pos_error"; "ang_error"; "acc_bias_error"; "omg_bias_error"])) ::
  values ["topic"; "rate"; "data_log_rate"; "is_extrinsic"; "is_intrinsic"; "variance"; "pos_i_in_b"; "ang_i_to_b"; "acc_bias"; "omg_bias";
          "pos_stability"; "ang_stability"; "acc_bias_stability"; "omg_bias_stability"]).
Definition tracker_keys : schema := known (
  ("sim_params", known (values ["feature_count"; "no_errors"])) ::
  values ["pixel_error"; "min_track_length"; "max_track_length"; "min_feat_dist"]).
Definition board_keys : schema := known (
  ("sim_params", known (values ["pos_error"; "ang_error"; "t_vec_error"; "r_vec_error"; "no_errors"])) ::
  values ["pos_f_in_l"; "ang_f_to_l"; "variance"; "id"; "is_extrinsic"]).
Definition cam_keys : schema := known (
  ("sim_params", known (values ["no_errors"; "time_error"; "pos_error"; "ang_error"])) ::
  ("intrinsics", known (values ["f_x"; "f_y"; "k_1"; "k_2"; "p_1"; "p_2"; "width"; "height"; "pixel_size"])) ::
  values ["topic"; "rate"; "data_log_rate"; "variance"; "pos_c_in_b"; "ang_c_to_b"; "is_extrinsic"; "pos_stability"; "ang_stability";
          "tracker"; "fiducial"]).
Definition gps_keys : schema := known (
  ("sim_params", known (values ["no_errors"; "time_error"; "lla_error"; "pos_a_in_b_error"; "pos_e_in_g_error"])) ::
  values ["topic"; "rate"; "data_log_rate"; "variance"; "pos_a_in_b"; "pos_stability"; "is_extrinsic"]).
Definition top_keys : schema := known (
  ("process_noise", known (values ["pos"; "vel"; "acc"; "ang_pos"; "ang_vel"; "ang_acc"])) ::
  ("sim_params", known (values ["seed"; "max_time"; "truth_type"; "stationary_time"; "pos_frequency"; "ang_frequency"; "pos_offset"; "ang_offset";
     "pos_amplitude"; "ang_amplitude"; "times"; "positions"; "angles"; "pos_errors"; "ang_errors";
     "pos_b_in_l_error"; "ang_b_to_l_error"; "pos_e_in_g_error"; "ang_l_to_e_error"])) ::
  ("imu", each_name imu_keys) :: ("tracker", each_name tracker_keys) :: ("fiducial", each_name board_keys) :: ("camera", each_name cam_keys) :: ("gps", each_name gps_keys) ::
  values ["imu_list"; "camera_list"; "tracker_list"; "fiducial_list"; "gps_list"; "debug_log_level"; "data_log_rate"; "augmenting_type";
     "augmenting_delta_time"; "augmenting_pos_error"; "augmenting_ang_error"; "pos_b_in_l"; "ang_b_to_l"; "pos_e_in_g"; "ang_l_to_e";
     "gps_init_type"; "gps_init_baseline_dist"; "gps_init_pos_thresh"; "gps_init_ang_thresh"; "motion_detection_chi_squared";
     "imu_noise_scale_factor"; "use_root_covariance"; "use_first_estimate_jacobian"]).
Definition file_keys : schema := known [("/EkfCalNode", known [("ros__parameters", top_keys)])].

(** Two nodes that hold the same under all known keys. *)
Fixpoint alike (s : schema) (a b : ynode) {struct s} : Prop :=
  a = b \/
  match s with
  | Value => False
  | Keys f => exists l m, a = YMap l /\ b = YMap m /\ forall k,
      match f k with
      | None => True
      | Some s' =>
          match find (fun x => String.eqb (fst x) k) l, find (fun x => String.eqb (fst x) k) m with
          | None, None => True
          | Some x, Some y => alike s' (snd x) (snd y)
          | _, _ => False
          end
      end
  end.

(** Writing [v] under a path whose parents exist and are maps. *)
Fixpoint put (p : list string) (v : ynode) (f : ynode) : ynode :=
  match p with
  | [] => v
  | k :: p =>
      match f with
      | YMap l =>
          YMap ((fix go l := match l with
                             | [] => match p with [] => [(k, v)] | _ => [] end
                             | (x, n) :: l => if String.eqb x k then (x, put p v n) :: l else (x, n) :: go l
                             end) l)
      | _ => f
      end
  end.

(** Keys of docs/parameters.md and config/example.yaml (lines given) that the
    simulation does not look at. *)
Definition documented_only (p : list string) : Prop :=
  (** docs 19, 36-37, 49, 51-52, 79-80 *)
  In p (map (fun k => top [k]) ["data_logging_on"; "pos_l_in_g"; "ang_l_to_g"]) \/
  In p (map sim ["use_seed"; "number_of_runs"; "run_number"; "pos_l_in_g_error"; "ang_l_to_g_error"]) \/
  exists n,
    p = part "imu" n ["sim_params"; "time_bias_error"] \/
    p = part "camera" n ["sim_params"; "time_bias_error"] \/
    p = part "gps" n ["sim_params"; "time_bias_error"] \/
    p = part "gps" n ["sim_params"; "pos_a_in_b_err"] \/
    In p (map (fun k => part "tracker" n [k])
      ["feature_detector"; "descriptor_extractor"; "descriptor_matcher"; "detector_threshold"; "min_feature_distance"]) \/
    p = part "tracker" n ["sim_params"; "room_size"] \/
    In p (map (fun k => part "fiducial" n [k])
      ["fiducial_type"; "squares_x"; "squares_y"; "square_length"; "marker_length"; "min_track_length"; "max_track_length"]).
