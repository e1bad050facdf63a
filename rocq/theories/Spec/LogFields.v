(** What each log line should say: a list of named fields, in the order of
    the header.  Every field pairs a column name with the printed value. *)
From Coq Require Import Reals List String ZArith.
From Verif Require Import Base.Res Base.Mat Base.Geom Base.AMap
  Model.TypeHelper Model.Types Model.StringHelper Model.Ekf Model.LogRows Spec.Csv.
Import ListNotations.
Open Scope string_scope.

Definition field := (string * string)%type.

(** The header names exactly these fields and the row holds their values in
    the same order. *)
Definition reads (row : res string) (header : string) (fs : list field) : Prop :=
  exists r, row = OK r /\ columns header = map fst fs /\ columns r = map snd fs.

(** What the rows print as variance of error state [i] while the filter is moving. *)
Definition logged (e : ekf) (i : nat) : R :=
  if p_root (e_par e) then (ent (e_cov e) i i * ent (e_cov e) i i)%R else ent (e_cov e) i i.
(** What the stationary IMU row prints. *)
Definition logged_sq (e : ekf) (i : nat) : R := (ent (e_cov e) i i * ent (e_cov e) i i)%R.

Definition xyz (v : V3) : list R := [vx v; vy v; vz v].
Definition wxyz (q : quat) : list R := [qw q; qx q; qy q; qz q].

Section Fields.
Variable show : R -> string.

(** The fields [name_0], [name_1], ... *)
Definition group_with (sh : R -> string) (name : string) (l : list R) : list field :=
  combine (map (fun i => name ++ "_" ++ to_string i) (seq 0 (List.length l))) (map sh l).
Definition group := group_with show.
Definition when (b : bool) (l : list field) : list field := if b then l else [].

(** [var i] is the value printed as the variance of error state [i]. *)
Definition vars (var : nat -> R) (from n : nat) : list R := map var (seq from n).

Definition body_fields (e : ekf) (var : nat -> R) (count : Z) : list field :=
  let b := s_body (e_state e) in
  [("time", show (e_time e))] ++ group "body_pos" (xyz (b_pos b)) ++ group "body_vel" (xyz (b_vel b)) ++
  group "body_acc" (xyz (b_acc b)) ++ group "body_ang_pos" (wxyz (b_ang b)) ++
  group "body_ang_vel" (xyz (b_ang_vel b)) ++ group "body_ang_acc" (xyz (b_ang_acc b)) ++
  group "body_cov" (vars var 0 18) ++ [("state_size", to_string (e_size e)); ("duration_0", int_string count)].

Definition aug_fields (e : ekf) : list field :=
  let b := s_body (e_state e) in
  [("time", show (e_time e))] ++ group "aug_pos" (xyz (b_pos b)) ++ group "aug_ang" (wxyz (b_ang b)).

Definition imu_fields (s : ImuState) (var : nat -> R) (t : R) (stationary : string) (score : R)
  (acc omg : V3) (resid : list R) (dur : Z) : list field :=
  [("time", show t); ("stationary", stationary); ("score", show score)] ++
  group "imu_pos" (xyz (i_pos s)) ++ group "imu_ang_pos" (wxyz (i_ang s)) ++
  group "imu_acc_bias" (xyz (i_acc_bias s)) ++ group "imu_gyr_bias" (xyz (i_omg_bias s)) ++
  when (i_ext s) (group "imu_ext_cov" (vars var (i_index_ext s) 6)) ++
  when (i_int s) (group "imu_int_cov" (vars var (i_index_int s) 6)) ++
  group "acc" (xyz acc) ++ group "omg" (xyz omg) ++ group "residual" resid ++ [("duration_0", int_string dur)].

Definition gps_fields (show12 : R -> string) (s : GpsState) (var : nat -> R) (t : R) (lla pos_a ref : V3) (heading : R)
  (initialised : bool) (residual : V3) (dur : Z) : list field :=
  [("time", show t); ("lat", show12 (vx lla)); ("lon", show12 (vy lla)); ("alt", show12 (vz lla));
   ("x", show (vx pos_a)); ("y", show (vy pos_a)); ("z", show (vz pos_a));
   ("ref_lat", show12 (vx ref)); ("ref_lon", show12 (vy ref)); ("ref_alt", show12 (vz ref));
   ("ref_heading", show heading); ("is_initialized", if initialised then "1" else "0")] ++
  when (g_ext s) (group "ant_pos" (xyz (g_pos s)) ++ group "gps_cov" (vars var (g_index s) 3)) ++
  group "residual" (xyz residual) ++ [("duration_0", int_string dur)].

Definition fid_fields (id : nat) (f : FidState) (c : CamState) (var : nat -> R) (t : R) (pos_m : V3) (ang_m : quat)
  (resid : list R) (dur : Z) : list field :=
  [("time", show t); ("board", to_string id)] ++
  group "board_meas_pos" (xyz pos_m) ++ group "board_meas_ang" (wxyz ang_m) ++
  group "cam_pos" (xyz (c_pos c)) ++ group "cam_ang_pos" (wxyz (c_ang c)) ++ group "residual" resid ++
  when (f_ext f) (group "fid_pos" (xyz (f_pos f)) ++ group "fid_ang" (wxyz (f_ang f)) ++
                  group "fid_cov" (vars var (f_index f) 6)) ++
  when (c_ext c) (group "cam_cov" (vars var (c_index c) 6)) ++ [("duration_0", int_string dur)].

Definition msckf_fields (c : CamState) (var : nat -> R) (t : R) (tracks : nat) (dur : Z) : list field :=
  [("time", show t)] ++ group "cam_pos" (xyz (c_pos c)) ++ group "cam_ang_pos" (wxyz (c_ang c)) ++
  when (c_ext c) (group "cam_cov" (vars var (c_index c) 6)) ++
  [("FeatureTracks", to_string tracks); ("duration_0", int_string dur)].

Definition tri_fields (show3 : R -> string) (t : R) (feature : Z) (p : V3) : list field :=
  [("time", show3 t); ("feature", int_string feature); ("x", show (vx p)); ("y", show (vy p)); ("z", show (vz p))].

(** The acceleration is the specific force: gravity is added to the true
    acceleration, as it is in the body state of the filter.
    The sensors carry consecutive numbers: first the IMUs, then the cameras,
    then the GPS receivers. *)
Definition numbered {A} (from : nat) (l : list A) : list (nat * A) := combine (seq from (List.length l)) l.
Definition truth_fields (t : R) (x : truth_sample) : list field :=
  let b := ts_body x in
  let ni := List.length (ts_imus x) in let nc := List.length (ts_cams x) in
  [("time", show t)] ++ group "body_pos" (xyz (b_pos b)) ++ group "body_vel" (xyz (b_vel b)) ++
  group "body_acc" (xyz (vadd (b_acc b) g_gravity)) ++
  group "body_ang_pos" (wxyz (b_ang b)) ++
  group "body_ang_vel" (xyz (b_ang_vel b)) ++ group "body_ang_acc" (xyz (b_ang_acc b)) ++
  flat_map (fun ks => match ks with (k, (p, q, ab, gb)) =>
      (group ("imu_pos_" ++ to_string k) (xyz p) ++ group ("imu_ang_pos_" ++ to_string k) (wxyz q) ++
       group ("imu_acc_bias_" ++ to_string k) (xyz ab) ++ group ("imu_gyr_bias_" ++ to_string k) (xyz gb))%list end)
    (numbered 1 (ts_imus x)) ++
  flat_map (fun ks => match ks with (k, (p, q)) =>
      (group ("cam_pos_" ++ to_string k) (xyz p) ++ group ("cam_ang_pos_" ++ to_string k) (wxyz q))%list end)
    (numbered (ni + 1) (ts_cams x)) ++
  flat_map (fun ks => match ks with (k, p) => group ("gps_pos_" ++ to_string k) (xyz p) end)
    (numbered (ni + nc + 1) (ts_gpss x)) ++
  match ts_gpss x with
  | [] => []
  | _ => [("ref_lat", show (vx (ts_ref x))); ("ref_lon", show (vy (ts_ref x))); ("ref_alt", show (vz (ts_ref x)));
          ("ref_heading", show (ts_heading x))]
  end.

Definition board_fields (id : nat) (p : V3) (q : quat) : list field :=
  [("board", to_string id); ("pos_x", show (vx p)); ("pos_y", show (vy p)); ("pos_z", show (vz p));
   ("quat_w", show (qw q)); ("quat_x", show (qx q)); ("quat_y", show (qy q)); ("quat_z", show (qz q))].
Definition feature_fields (i : nat) (x y z : R) : list field :=
  [("Feature", to_string i); ("x", show x); ("y", show y); ("z", show z)].
End Fields.
