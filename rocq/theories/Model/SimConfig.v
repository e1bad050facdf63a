(** How the simulation program reads its YAML file.
    /repo/src/application/sim/simulation.cpp 58-125 and the reading parts of
    146-482.

    The text of the file has been parsed into nodes by yaml-cpp, which is not
    part of this repository.  What is used of it: [node["key"]] on a node that
    is not const, [as<T>(default)], [as<T>()], [size()] and [node[i]].
    Anchors, keys that are not scalars and the order in which reading and
    running alternate are left out: an exception ends the program and is [UB]
    here, wherever it happens.  Reading has no lasting effect on the nodes
    that is visible to a later read (a missing key stays undefined).

    Read but not kept: names, topics, log directories and log rates of sensors, debug log level, seed, time and
    angle errors (they shape the random draws, which are arguments), board
    geometry, down sampling, [room_size]. *)
From Coq Require Import Reals List Arith Bool String.
From Verif Require Import Base.Res Base.Mat Base.RDec Base.Geom Model.TypeHelper Model.Types Model.Ekf Model.Sensors
  Model.TruthEngine Model.SimMain Model.RosNode.
Import ListNotations.
Open Scope R_scope.

(** How the text of a scalar reads: as a number, a non-negative integer, a
    flag; every scalar reads as its own text. *)
Record scalar : Type := mkScalar { ys_real : option R; ys_nat : option nat; ys_bool : option bool; ys_text : string }.
Inductive ynode : Type :=
| YNull
| YScalar (s : scalar)
| YSeq (l : list ynode)
| YMap (l : list (string * ynode)).

(** [node["key"]]: the first entry of a map; nothing in a node that is
    missing, null or a sequence; an exception for a scalar. *)
Fixpoint entry (k : string) (l : list (string * ynode)) : option ynode :=
  match l with
  | [] => None
  | (x, n) :: l => if String.eqb x k then Some n else entry k l
  end.
Definition child (n : option ynode) (k : string) : res (option ynode) :=
  match n with
  | Some (YMap l) => OK (entry k l)
  | Some (YScalar _) => UB
  | _ => OK None
  end.

(** [as<double>(d)], [as<unsigned int>(d)], [as<bool>(d)]: the default also
    replaces what cannot be read. *)
Definition as_scalar {A : Type} (f : scalar -> option A) (n : option ynode) (d : A) : A :=
  match n with Some (YScalar s) => get (f s) d | _ => d end.
(** [as<std::string>(d)].  What an explicit null reads as depends on the
    version of yaml-cpp; taken to be undefined. *)
Definition as_text (n : option ynode) (d : string) : res string :=
  match n with
  | Some (YScalar s) => OK (ys_text s)
  | Some YNull => UB
  | _ => OK d
  end.
(** [as<std::vector<double>>(d)]: an element that is not a number is an
    exception. *)
Definition as_reals (n : option ynode) (d : list R) : res (list R) :=
  match n with
  | Some (YSeq l) => mapM (fun x => match x with YScalar s => match ys_real s with Some r => OK r | None => UB end | _ => UB end) l
  | _ => OK d
  end.

Definition real (n : option ynode) (k : string) (d : R) : res R := let* c := child n k in OK (as_scalar ys_real c d).
Definition natural (n : option ynode) (k : string) (d : nat) : res nat := let* c := child n k in OK (as_scalar ys_nat c d).
Definition flag (n : option ynode) (k : string) (d : bool) : res bool := let* c := child n k in OK (as_scalar ys_bool c d).
Definition text (n : option ynode) (k : string) (d : string) : res string := let* c := child n k in as_text c d.
Definition reals (n : option ynode) (k : string) (d : list R) : res (list R) := let* c := child n k in as_reals c d.

(** simulation.cpp 58-65.  [size()] is 0 unless the node is a sequence or a
    map; a map with entries is taken to be undefined. *)
Definition LoadNodeList (n : option ynode) : res (list string) :=
  match n with
  | Some (YSeq l) => mapM (fun x => match x with YScalar s => OK (ys_text s) | _ => UB end) l
  | Some (YMap (_ :: _)) => UB
  | _ => OK []
  end.

(** The numbers drawn from SimRNG: per sensor, for the initial state and
    reference, and for the control points of a smoothed or spline truth. *)
Record random : Type := mkRandom {
  rd_imu : nat -> draws; rd_cam : nat -> draws; rd_gps : nat -> draws;
  rd_vec : V3 -> V3 -> V3; rd_scalar : nat -> R -> R -> R; rd_pos : nat -> V3 -> V3 -> V3; rd_ang : nat -> V3 -> V3 -> V3 }.

(** 174, 184: numbers without a name are left out, as in RosNode.v. *)
Definition aug_of (n : nat) : res AugType :=
  match n with 0 => OK ANone | 1 => OK AAll | 2 => OK APrimary | 3 => OK ATime | 4 => OK AError | _ => UB end%nat.
Definition gps_init_of (n : nat) : res GpsInitType :=
  match n with 0 => OK GConstant | 1 => OK GBaseline | 2 => OK GError | _ => UB end%nat.

Section Reading.
(** Whether assertions are compiled in (type_helper.cpp 30); Eigen's spline
    fit (truth_engine_spline.cpp 154-157). *)
Variable asserts : bool.
Variable fit : list V3 -> spline.

(** [StdToEigVec(node["key"].as<std::vector<double>>(def_vec))] assigned to an [Eigen::Vector3d] or an [Eigen::VectorXd] *)
Definition vec (n : option ynode) (k : string) : res V3 := let* l := reals n k [0; 0; 0] in to_V3 asserts l.
Definition vecx (n : option ynode) (k : string) : res (list R) := let* l := reals n k [0; 0; 0] in StdToEigVecX asserts l.
Definition rotation (n : option ynode) (k : string) : res quat := let* l := reals n k [1; 0; 0; 0] in OK (StdToEigQuat l).

(** 107-125 *)
Definition LoadProcessNoise (n : option ynode) : res (mat R) :=
  let* pos := real n "pos" (1 / 100) in
  let* vel := real n "vel" (1 / 100) in
  let* acc := real n "acc" (1 / 100) in
  let* ang_pos := real n "ang_pos" (1 / 100) in
  let* ang_vel := real n "ang_vel" (1 / 100) in
  let* ang_acc := real n "ang_acc" (1 / 100) in
  OK (mkmat g_body_state_size 1 (fun i _ =>
    if (i <? 3)%nat then pos else if (i <? 6)%nat then vel else if (i <? 9)%nat then acc
    else if (i <? 12)%nat then ang_pos else if (i <? 15)%nat then ang_vel else ang_acc)).

(** 169-193 without the process noise *)
Definition read_params (n : option ynode) : res params :=
  let* a := natural n "augmenting_type" 1 in
  let* aug := aug_of a in
  let* dt := real n "augmenting_delta_time" 1 in
  let* pos_err := real n "augmenting_pos_error" (1 / 10) in
  let* ang_err := real n "augmenting_ang_error" (1 / 10) in
  let* g := natural n "gps_init_type" 0 in
  let* gps := gps_init_of g in
  let* baseline := real n "gps_init_baseline_dist" 1 in
  let* pos_thresh := real n "gps_init_pos_thresh" 1 in
  let* ang_thresh := real n "gps_init_ang_thresh" 1 in
  let* chi2 := real n "motion_detection_chi_squared" 1 in
  let* scale := real n "imu_noise_scale_factor" 100 in
  let* root := flag n "use_root_covariance" true in
  let* fej := flag n "use_first_estimate_jacobian" false in
  OK (mkParams aug dt pos_err ang_err gps baseline pos_thresh ang_thresh chi2 scale root fej).

(** 203, 210-254; truth_engine_spline.cpp 126-160 *)
Definition read_engine (n : option ynode) (max_time : R) (rnd : random) : res engine :=
  let* truth_type := text n "truth_type" "cyclic" in
  let* st := real n "stationary_time" (1 / 10) in
  let stationary_time := Rmax st (1 / 10) in
  if String.eqb truth_type "cyclic" then
    let* pos_frequency := vec n "pos_frequency" in
    let* ang_frequency := vec n "ang_frequency" in
    let* pos_offset := vec n "pos_offset" in
    let* ang_offset := vec n "ang_offset" in
    let* pos_amplitude := real n "pos_amplitude" 1 in
    let* ang_amplitude := real n "ang_amplitude" (1 / 10) in
    OK (EngCyclic (mkCyclic pos_frequency ang_frequency pos_offset ang_offset pos_amplitude ang_amplitude stationary_time))
  else if String.eqb truth_type "smoother" then
    let* times := reals n "times" [0; 0; 0] in
    let* positions := reals n "positions" [0; 0; 0] in
    let* angles := reals n "angles" [0; 0; 0] in
    let* pos_errs := reals n "pos_errors" [0; 0; 0] in
    let* ang_errs := reals n "ang_errors" [0; 0; 0] in
    let* s := mk_smoother times positions angles pos_errs ang_errs stationary_time max_time 1000 (rd_pos rnd) (rd_ang rnd) in
    OK (EngSmoother s)
  else if String.eqb truth_type "spline" then
    let* positions := reals n "positions" [0; 0; 0] in
    let* angles := reals n "angles" [0; 0; 0] in
    let* pos_errs := vec n "pos_errors" in
    let* ang_errs := vec n "ang_errors" in
    let size := (Nat.min (List.length positions) (List.length angles) / 3)%nat in
    let* pos := control_points size positions pos_errs (rd_pos rnd) in
    let* ang := control_points size angles ang_errs (rd_ang rnd) in
    OK (EngSpline (mkSplineTruth (fit pos) (fit ang) max_time stationary_time))
  else OK EngUnknown.

(** 288-316 with 67-91.  [ang_error] is read too. *)
Definition read_imu (n : option ynode) : res imu_cfg :=
  let* sim := child n "sim_params" in
  let* rate := real n "rate" 1 in
  let* ext := flag n "is_extrinsic" false in
  let* int := flag n "is_intrinsic" false in
  let* var := vecx n "variance" in
  let* pos := vec n "pos_i_in_b" in
  let* ang := rotation n "ang_i_to_b" in
  let* acc_bias := vec n "acc_bias" in
  let* omg_bias := vec n "omg_bias" in
  let* pos_stab := real n "pos_stability" e9 in
  let* ang_stab := real n "ang_stability" e9 in
  let* acc_stab := real n "acc_bias_stability" e9 in
  let* omg_stab := real n "omg_bias_stability" e9 in
  let* no_errors := flag sim "no_errors" false in
  let* acc_error := vec sim "acc_error" in
  let* omg_error := vec sim "omg_error" in
  let* pos_error := vec sim "pos_error" in
  let* _ := vec sim "ang_error" in
  let* acc_bias_error := vec sim "acc_bias_error" in
  let* omg_bias_error := vec sim "omg_bias_error" in
  OK (mkIC (mkIP ext int pos_stab ang_stab acc_stab omg_stab pos ang acc_bias omg_bias var) rate no_errors
        acc_error omg_error pos_error acc_bias_error omg_bias_error).

(** 332-353 *)
Definition read_tracker (n : option ynode) : res tracker_cfg :=
  let* sim := child n "sim_params" in
  let* px := real n "pixel_error" 1 in
  let* min_len := natural n "min_track_length" 2 in
  let* max_len := natural n "max_track_length" 20 in
  let* min_dist := real n "min_feat_dist" 1 in
  let* count := natural sim "feature_count" 100 in
  let* no_errors := flag sim "no_errors" false in
  OK (mkTC px min_len max_len min_dist count no_errors).

(** 360-392 *)
Definition read_board (n : option ynode) : res board_cfg :=
  let* sim := child n "sim_params" in
  let* pos := vec n "pos_f_in_l" in
  let* ang := rotation n "ang_f_to_l" in
  let* var := vecx n "variance" in
  let* id := natural n "id" 0 in
  let* ext := flag n "is_extrinsic" false in
  let* pos_error := vec sim "pos_error" in
  let* _ := vec sim "ang_error" in
  let* t_error := vec sim "t_vec_error" in
  let* r_error := vec sim "r_vec_error" in
  let* no_errors := flag sim "no_errors" false in
  OK (mkBC (mkFidP id ext false pos ang var) pos_error t_error r_error no_errors).

(** 412-420 *)
Definition read_intrinsics (n : option ynode) : res Intrinsics :=
  let* f_x := real n "f_x" (1 / 100) in
  let* f_y := real n "f_y" (1 / 100) in
  let* k_1 := real n "k_1" 0 in
  let* k_2 := real n "k_2" 0 in
  let* p_1 := real n "p_1" 0 in
  let* p_2 := real n "p_2" 0 in
  let* width := real n "width" 640 in
  let* height := real n "height" 480 in
  let* pixel_size := real n "pixel_size" (5 / 1000000) in
  OK (mkIntrinsics f_x f_y k_1 k_2 p_1 p_2 width height pixel_size).
(** 410-411, 431, 441: the empty name means none *)
Definition name_of (s : string) : option string := if String.eqb s "" then None else Some s.
(** 399-427 *)
Definition read_camera (n : option ynode) : res cam_cfg :=
  let* sim := child n "sim_params" in
  let* rate := real n "rate" 1 in
  let* var := vecx n "variance" in
  let* pos := vec n "pos_c_in_b" in
  let* ang := rotation n "ang_c_to_b" in
  let* ext := flag n "is_extrinsic" false in
  let* pos_stab := real n "pos_stability" e9 in
  let* ang_stab := real n "ang_stability" e9 in
  let* tracker := text n "tracker" "" in
  let* fiducial := text n "fiducial" "" in
  let* i := child n "intrinsics" in
  let* intrinsics := read_intrinsics i in
  let* no_errors := flag sim "no_errors" false in
  let* pos_error := vec sim "pos_error" in
  let* _ := vec sim "ang_error" in
  OK (mkCC (mkCP ext rate pos_stab ang_stab pos ang intrinsics var) pos_error no_errors (name_of tracker) (name_of fiducial)).

(** 462-482 *)
Definition read_gps (n : option ynode) : res gps_cfg :=
  let* sim := child n "sim_params" in
  let* rate := real n "rate" 1 in
  let* var := vec n "variance" in
  let* pos := vec n "pos_a_in_b" in
  let* pos_stab := real n "pos_stability" 0 in
  let* ext := flag n "is_extrinsic" false in
  let* no_errors := flag sim "no_errors" false in
  let* lla_error := vec sim "lla_error" in
  let* pos_error := vec sim "pos_a_in_b_error" in
  let* _ := vec sim "pos_e_in_g_error" in
  OK (mkGC (mkGP ext pos_stab pos var) rate no_errors lla_error pos_error).

(** 287-288, 331-332, 359-360, 398-399, 461-462: the nodes of the listed names *)
Definition read_each {A : Type} (f : option ynode -> res A) (n : option ynode) (kind : string) (names : list string) :
  res (list (string * A)) :=
  mapM (fun x => let* k := child n kind in let* s := child k x in let* a := f s in OK (x, a)) names.
(** The draws of the i-th sensor of a kind *)
Definition with_draws {A : Type} (d : nat -> draws) (l : list (string * A)) : list (A * draws) :=
  map (fun ix => (snd (snd ix), d (fst ix))) (indexed l).

(** 146-482 *)
Definition read_config (root : ynode) (rnd : random) : res sim_cfg :=
  let* node := child (Some root) "/EkfCalNode" in
  let* n := child node "ros__parameters" in
  let* l := child n "imu_list" in
  let* imus := LoadNodeList l in
  let* l := child n "camera_list" in
  let* cameras := LoadNodeList l in
  let* l := child n "tracker_list" in
  let* trackers := LoadNodeList l in
  let* l := child n "fiducial_list" in
  let* fiducials := LoadNodeList l in
  let* l := child n "gps_list" in
  let* gps_list := LoadNodeList l in
  let* log_rate := real n "data_log_rate" 0 in
  let* par := read_params n in
  let* pn := child n "process_noise" in
  let* noise := LoadProcessNoise pn in
  let* pos := vec n "pos_b_in_l" in
  let* ang := rotation n "ang_b_to_l" in
  let* ref := vec n "pos_e_in_g" in
  let* heading := real n "ang_l_to_e" 0 in
  let* sim := child n "sim_params" in
  let* max_time := real sim "max_time" 10 in
  let* engine := read_engine sim max_time rnd in
  let* pos_error := vec sim "pos_b_in_l_error" in
  let* ang_error := vec sim "ang_b_to_l_error" in
  let* ref_error := vec sim "pos_e_in_g_error" in
  let* heading_error := real sim "ang_l_to_e_error" 0 in
  let* is := read_each read_imu n "imu" imus in
  let* ts := read_each read_tracker n "tracker" trackers in
  let* bs := read_each read_board n "fiducial" fiducials in
  let* cs := read_each read_camera n "camera" cameras in
  let* gs := read_each read_gps n "gps" gps_list in
  OK (mkSC par noise ref heading pos ang pos_error ref_error heading_error ang_error engine max_time log_rate
        (with_draws (rd_imu rnd) is) ts bs (with_draws (rd_cam rnd) cs) (with_draws (rd_gps rnd) gs)
        (rd_vec rnd) (rd_scalar rnd)).

(** The whole program on a file. *)
Definition simulation_setup (project : Intrinsics -> V3 -> R * R) (ecef_to_lla : V3 -> V3) (root : ynode) (rnd : random) :=
  let* c := read_config root rnd in sim_setup project ecef_to_lla c.
End Reading.
