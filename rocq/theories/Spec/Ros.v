(** What a ROS configuration asks for, and which events of the program a
    ROS message amounts to. *)
From Coq Require Import Reals List Arith Bool ZArith String.
From Verif Require Import Base.Res Base.Mat Base.LinAlg Base.Geom Base.AMap
  Model.Types Model.Ekf Model.Ops Model.ImuUpdater Model.GpsUpdater Model.FiducialUpdater Model.MsckfUpdater
  Model.Matrix3 Model.Sensors Model.RosNode Spec.Layout Spec.Contract Spec.Callback Spec.World.
Import ListNotations.
Open Scope R_scope.

Definition dflt {A} (d : A) (o : option A) : A := match o with Some x => x | None => d end.
Definition triple (v : V3) : list R := [vx v; vy v; vz v].
(** Four numbers, not all zero, give the unit quaternion of that direction. *)
Definition oriented (l : list R) (q : quat) : Prop :=
  forall w x y z, l = [w; x; y; z] -> 0 < w * w + x * x + y * y + z * z ->
  exists k, 0 < k /\ q = mkQ (k * w) (k * x) (k * y) (k * z) /\
    qw q * qw q + qx q * qx q + qy q * qy q + qz q * qz q = 1.
Definition nano : R := / 1000000000.

Definition imu_configured (r : RawImu) (p : ImuParams) : Prop :=
  ip_ext p = dflt false (rwi_ext r) /\ ip_int p = dflt false (rwi_int r) /\
  triple (ip_pos p) = dflt [0; 0; 0] (rwi_pos r) /\ oriented (dflt [1; 0; 0; 0] (rwi_ang r)) (ip_ang p) /\
  triple (ip_acc_bias p) = dflt [0; 0; 0] (rwi_acc_bias r) /\ triple (ip_omg_bias p) = dflt [0; 0; 0] (rwi_omg_bias r) /\
  ip_pos_stab p = dflt nano (rwi_pos_stab r) /\ ip_ang_stab p = dflt nano (rwi_ang_stab r) /\
  ip_acc_stab p = dflt nano (rwi_acc_stab r) /\ ip_omg_stab p = dflt nano (rwi_omg_stab r) /\
  ip_var p = dflt (repeat 1%R 12) (rwi_var r).
Definition lens_configured (r : RawCam) (k : Intrinsics) : Prop :=
  in_f_x k = dflt (1 / 100) (rwc_f_x r) /\ in_f_y k = dflt (1 / 100) (rwc_f_y r) /\
  in_k_1 k = dflt 0 (rwc_k_1 r) /\ in_k_2 k = dflt 0 (rwc_k_2 r) /\
  in_p_1 k = dflt 0 (rwc_p_1 r) /\ in_p_2 k = dflt 0 (rwc_p_2 r) /\
  in_width k = dflt 640 (rwc_width r) /\ in_height k = dflt 480 (rwc_height r) /\
  in_pixel_size k = dflt (5 / 1000000) (rwc_pixel r).
Definition cam_configured (r : RawCam) (p : CamParams) : Prop :=
  cp_ext p = dflt false (rwc_ext r) /\ cp_rate p = dflt 1 (rwc_rate r) /\
  triple (cp_pos p) = dflt [0; 0; 0] (rwc_pos r) /\ oriented (dflt [1; 0; 0; 0] (rwc_ang r)) (cp_ang p) /\
  cp_pos_stab p = dflt nano (rwc_pos_stab r) /\ cp_ang_stab p = dflt nano (rwc_ang_stab r) /\
  lens_configured r (cp_intr p) /\ cp_var p = dflt (repeat 1%R 6) (rwc_var r).
(** A tracker or a board never calibrates its camera, a GPS receiver never
    its antenna. *)
Definition tracker_configured (r : RawTracker) (p : TrackerParams) : Prop :=
  tp_min_dist p = dflt 1 (rwt_min_dist r) /\ tp_px p = dflt 1 (rwt_px r) /\ tp_cam_ext p = false.
Definition fid_configured (r : RawFid) (p : FidParams) : Prop :=
  fp_id p = dflt 0%nat (rwf_id r) /\ fp_ext p = dflt false (rwf_ext r) /\
  triple (fp_pos p) = dflt [0; 0; 0] (rwf_pos r) /\ oriented (dflt [1; 0; 0; 0] (rwf_ang r)) (fp_ang p) /\
  fp_var p = dflt (repeat 0%R 6) (rwf_var r) /\ fp_cam_ext p = false.
Definition gps_configured (r : RawGps) (p : GpsParams) : Prop :=
  triple (gp_pos p) = dflt [0; 0; 0] (rwg_pos r) /\ triple (gp_var p) = dflt [1; 1; 1] (rwg_var r) /\
  gp_pos_stab p = dflt nano (rwg_stab r) /\ gp_ext p = false.

(** At most one thing, named or not. *)
Definition by_name {A B} (table : list (string * A)) (P : A -> B -> Prop) (o : option string) (l : list B) : Prop :=
  match dflt ""%string o with
  | ""%string => l = []
  | x => exists r y, In (x, r) table /\ P r y /\ l = [y]
  end.

(** The sensors the node builds, in order: IMUs, cameras, GPS receivers. *)
Definition imu_event (x : string * RawImu) (v : event) : Prop :=
  exists p, imu_configured (snd x) p /\ v = ENewImu p.
Definition cam_event (c : RosConfig) (x : string * RawCam) (v : event) : Prop :=
  exists p ts fs, cam_configured (snd x) p /\ by_name (rc_trackers c) tracker_configured (rwc_tracker (snd x)) ts /\
    by_name (rc_fids c) fid_configured (rwc_fiducial (snd x)) fs /\ v = ENewCam p ts fs.
Definition gps_event (x : string * RawGps) (v : event) : Prop :=
  exists p, gps_configured (snd x) p /\ v = ENewGps p.
Definition built (c : RosConfig) (l : list event) : Prop :=
  exists li lc lg, Forall2 imu_event (rc_imus c) li /\ Forall2 (cam_event c) (rc_cams c) lc /\
    Forall2 gps_event (rc_gps c) lg /\ l = li ++ lc ++ lg.

(** The filter it starts with. *)
Definition filter_configured (c : RosConfig) (p : params) (q : mat R) (pe : V3) (a : R) : Prop :=
  p_aug p = (match rc_trackers c with [] => ANone | _ => dflt ANone (rc_aug c) end) /\
  p_aug_dt p = dflt 0 (rc_aug_dt c) /\ p_aug_pos_err p = dflt 0 (rc_aug_pos c) /\ p_aug_ang_err p = dflt 0 (rc_aug_ang c) /\
  p_gps_init p = dflt GConstant (rc_gps_init c) /\ p_gps_baseline p = dflt 1 (rc_gps_baseline c) /\
  p_gps_pos_thresh p = dflt 1 (rc_gps_pos c) /\ p_gps_ang_thresh p = dflt 1 (rc_gps_ang c) /\
  p_chi2 p = dflt 1 (rc_chi2 c) /\ p_imu_scale p = dflt 100 (rc_imu_scale c) /\
  p_root p = dflt true (rc_root c) /\ p_fej p = dflt false (rc_fej c) /\
  triple pe = dflt [0; 0; 0] (rc_pos_e_in_g c) /\ a = dflt 0 (rc_ang_l_to_e c) /\
  nr q = 18%nat /\
  (forall i, (i < 3)%nat -> ent q i 0 = dflt (1 / 100) (rc_noise_pos c)) /\
  (forall i, (3 <= i < 6)%nat -> ent q i 0 = dflt (1 / 100) (rc_noise_vel c)) /\
  (forall i, (6 <= i < 9)%nat -> ent q i 0 = dflt (1 / 100) (rc_noise_ang c)).

(** Seconds of a stamp. *)
Definition seconds (s : stamp) : R := IZR (st_sec s) + IZR (st_nsec s) / 1000000000.
(** Nine numbers, row by row. *)
Definition rows9 (a : nat -> R) : mat R := mkmat 3 3 (fun i j => a (3 * i + j)%nat).

(** The [k]-th IMU has id [k + 1], cameras follow, then the receivers; what
    arrives at a subscription goes to the sensor that was configured with
    it. *)
Definition node_event (c : RosConfig) (v : ros_event) : list event :=
  let ni := List.length (rc_imus c) in
  let nc := List.length (rc_cams c) in
  match v with
  | OnImu k m => if (k <? ni)%nat
      then [EMsg (MImu (1 + k) (seconds (ri_stamp m)) (ri_acc m) (rows9 (ri_acc_cov m)) (ri_omg m) (rows9 (ri_omg_cov m)))]
      else []
  | OnImage k s image seen board => if (k <? nc)%nat
      then [EImage (1 + ni + k) (seconds s) image seen board] else []
  | OnFix k m junk => if (k <? List.length (rc_gps c))%nat
      then [EMsg (MGps (1 + ni + nc + k) (seconds (rf_stamp m)) (mkV3 (rf_lat m) (rf_lon m) (rf_alt m)) junk)] else []
  end.

(** The sensor of the node with a given id. *)
Definition member (n : node) (id : nat) : option sensor :=
  match mfind id (nd_imus n) with
  | Some u => Some (SImu u)
  | None =>
      match mfind id (nd_cams n) with
      | Some (trs, fids) => Some (SCam trs fids)
      | None => match mfind id (nd_gps n) with Some u => Some (SGps u) | None => None end
      end
  end.
Definition same_program (n : node) (w : world) : Prop :=
  nd_ekf n = w_ekf w /\ nd_cnt n = w_cnt w /\ forall id, member n id = mfind id (w_sensors w).

(** One subscription per sensor, in the order of the lists, on the topic
    configured. *)
Definition subscribed (c : RosConfig) (n : node) : Prop :=
  map fst (nd_imu_subs n) = map (fun x => dflt ""%string (rwi_topic (snd x))) (rc_imus c) /\
  map fst (nd_cam_subs n) = map (fun x => dflt ""%string (rwc_topic (snd x))) (rc_cams c) /\
  map fst (nd_gps_subs n) = map (fun x => dflt ""%string (rwg_topic (snd x))) (rc_gps c).

(** *** A configuration that can be loaded *)
Definition topic_ok (o : option string) : Prop := dflt ""%string o <> ""%string.
Definition triad (d : list R) (o : option (list R)) : Prop := List.length (dflt d o) = 3%nat.
Definition nonneg (d : R) (o : option R) : Prop := 0 <= dflt d o.
Definition raw_imu_ok (r : RawImu) : Prop :=
  topic_ok (rwi_topic r) /\ triad [0; 0; 0] (rwi_pos r) /\ triad [0; 0; 0] (rwi_acc_bias r) /\
  triad [0; 0; 0] (rwi_omg_bias r) /\ nonneg nano (rwi_pos_stab r) /\ nonneg nano (rwi_ang_stab r) /\
  nonneg nano (rwi_acc_stab r) /\ nonneg nano (rwi_omg_stab r) /\
  ((if dflt false (rwi_ext r) then 6 else 0) + (if dflt false (rwi_int r) then 6 else 0)
     <= List.length (dflt (repeat 1%R 12) (rwi_var r)))%nat.
Definition raw_fid_ok (r : RawFid) : Prop :=
  triad [0; 0; 0] (rwf_pos r) /\ (6 <= List.length (dflt (repeat 0%R 6) (rwf_var r)))%nat /\
  Forall (fun x => 0 <= x) (dflt (repeat 0%R 6) (rwf_var r)).
Definition listed {A} (table : list (string * A)) (o : option string) : Prop :=
  dflt ""%string o = ""%string \/ In (dflt ""%string o) (map fst table).
Definition raw_cam_ok (c : RosConfig) (r : RawCam) : Prop :=
  topic_ok (rwc_topic r) /\ triad [0; 0; 0] (rwc_pos r) /\ nonneg nano (rwc_pos_stab r) /\ nonneg nano (rwc_ang_stab r) /\
  dflt 1 (rwc_rate r) <> 0 /\ (dflt false (rwc_ext r) = true -> (6 <= List.length (dflt (repeat 1%R 6) (rwc_var r)))%nat) /\
  listed (rc_trackers c) (rwc_tracker r) /\ listed (rc_fids c) (rwc_fiducial r).
Definition raw_gps_ok (r : RawGps) : Prop :=
  topic_ok (rwg_topic r) /\ triad [0; 0; 0] (rwg_pos r) /\ triad [1; 1; 1] (rwg_var r).
Definition config_ok (c : RosConfig) : Prop :=
  triad [0; 0; 0] (rc_pos_b_in_l c) /\ triad [0; 0; 0] (rc_pos_e_in_g c) /\
  NoDup (map fst (rc_imus c)) /\ NoDup (map fst (rc_cams c)) /\ NoDup (map fst (rc_trackers c)) /\
  NoDup (map fst (rc_fids c)) /\ NoDup (map fst (rc_gps c)) /\
  (forall x, In x (rc_imus c) -> raw_imu_ok (snd x)) /\ (forall x, In x (rc_cams c) -> raw_cam_ok c (snd x)) /\
  (forall x, In x (rc_fids c) -> raw_fid_ok (snd x)) /\ (forall x, In x (rc_gps c) -> raw_gps_ok (snd x)) /\
  (* boards that share an id agree on being calibrated *)
  (forall x y, In x (rc_fids c) -> In y (rc_fids c) -> dflt 0%nat (rwf_id (snd x)) = dflt 0%nat (rwf_id (snd y)) ->
     dflt false (rwf_ext (snd x)) = dflt false (rwf_ext (snd y))) /\
  nonneg (1 / 100) (rc_noise_pos c) /\ nonneg (1 / 100) (rc_noise_vel c) /\ nonneg (1 / 100) (rc_noise_ang c).
(** Messages with usable noise. *)
Definition ros_event_ok (root : bool) (v : ros_event) : Prop :=
  match v with
  | OnImu _ m => noise_ok root 3 (rows9 (ri_acc_cov m)) /\ noise_ok root 3 (rows9 (ri_omg_cov m))
  | OnImage _ _ _ _ board => forall k d, board k = Some d -> errors_positive d
  | OnFix _ _ junk => noise_ok root 3 junk
  end.
(** Messages whose handling cannot be undefined. *)
Definition ros_event_plain (v : ros_event) : Prop :=
  match v with OnImu _ _ => True | OnImage _ _ _ seen _ => forall k, seen k = [] | OnFix _ _ _ => False end.

(** The configuration with another initial pose of the body. *)
Definition placed (c : RosConfig) (p a : list R) : RosConfig :=
  mkRosConfig (rc_aug c) (rc_aug_dt c) (rc_aug_pos c) (rc_aug_ang c) (rc_noise_pos c) (rc_noise_vel c) (rc_noise_ang c)
    (Some p) (Some a) (rc_pos_e_in_g c) (rc_ang_l_to_e c) (rc_gps_init c) (rc_gps_baseline c) (rc_gps_pos c) (rc_gps_ang c)
    (rc_chi2 c) (rc_imu_scale c) (rc_root c) (rc_fej c) (rc_imus c) (rc_cams c) (rc_trackers c) (rc_fids c) (rc_gps c).
(** Seconds first, then nanoseconds. *)
Definition earlier (a b : stamp) : Prop :=
  (st_sec a < st_sec b)%Z \/ st_sec a = st_sec b /\ (st_nsec a < st_nsec b)%Z.
(** The process noise of entry [i] of the body: position 0-2, velocity 3-5,
    acceleration 6-8, orientation 9-11, angular rate 12-14, angular
    acceleration 15-17. *)
Definition rate_of (junk : nat -> R) (c : RosConfig) (i : nat) : R :=
  if (i <? 3)%nat then dflt (1 / 100) (rc_noise_pos c) else if (i <? 6)%nat then dflt (1 / 100) (rc_noise_vel c)
  else if (i <? 9)%nat then dflt (1 / 100) (rc_noise_ang c) else junk i.
