(** A body that does not move, a filter that knows where everything is, and
    error-free measurements of a simulated run. *)
From Coq Require Import Reals List Arith Bool.
From Verif Require Import Base.Res Base.Mat Base.Geom Base.AMap Model.TypeHelper Model.Types Model.Ekf
  Model.MathHelper Model.GpsHelper Model.GpsUpdater Model.ImuUpdater Model.FiducialUpdater Model.MsckfUpdater
  Model.Sensors Model.Trackers Model.SimSensors Spec.History Spec.Same Spec.Rotation.
Import ListNotations.
Open Scope R_scope.

(** The truth engine says: the body stays at [p] with orientation [q]. *)
Definition still (t : truth) (p : V3) (q : quat) : Prop :=
  qnorm2 q = 1 /\ forall time,
    bt_pos (tr_body t) time = OK p /\ bt_acc (tr_body t) time = OK v0 /\ bt_ang (tr_body t) time = OK q /\
    bt_rate (tr_body t) time = OK v0 /\ bt_ang_acc (tr_body t) time = OK v0.

(** The filter says so too, now and at all stored poses. *)
Definition rests (p : V3) (q : quat) (s : State) : Prop :=
  b_pos (s_body s) = p /\ b_vel (s_body s) = v0 /\ b_acc (s_body s) = g_gravity /\ b_ang (s_body s) = q /\
  b_ang_vel (s_body s) = v0 /\ b_ang_acc (s_body s) = v0 /\
  forall k l a, In (k, l) (s_aug s) -> In a l -> a_pos a = p /\ a_ang a = q.

(** What the filter holds about a sensor is the truth. *)
Definition imu_true (t : truth) (e : ekf) (id : nat) (u : imu_updater) : Prop :=
  iu_id u = id /\ iu_moved u = false /\
  exists s, mfind id (s_imu (e_state e)) = Some s /\ GetImuAngularPosition t id = OK (i_ang s) /\
    qnorm2 (i_ang s) = 1 /\ i_acc_bias s = v0 /\ i_omg_bias s = v0.
Definition gps_true (t : truth) (e : ekf) (id : nat) (u : gps_updater) : Prop :=
  gu_id u = id /\ e_lla_init e = true /\ e_pos_e_in_g e = GetLocalPosition t /\
  GetLocalHeading t = OK (e_ang_l_to_e e) /\
  exists s, mfind id (s_gps (e_state e)) = Some s /\ GetGpsPosition t id = OK (g_pos s) /\
    (gu_first u = false -> gu_pos u = g_pos s).
Definition tracker_true (id : nat) (c : CamState) (u : msckf_updater) : Prop :=
  mu_id u = id /\ mu_use_true u = true /\
  (mu_first u = false -> mu_poses u = Some (c_intr c, c_pos c, c_ang c)).
Definition board_true (t : truth) (e : ekf) (id : nat) (c : CamState) (k : nat) (u : fid_updater) : Prop :=
  fu_cam u = id /\
  exists f, mfind (fu_id u) (s_fid (e_state e)) = Some f /\ GetBoardPosition t k = OK (f_pos f) /\
    GetBoardOrientation t k = OK (f_ang f) /\ qnorm2 (f_ang f) = 1 /\
    (fu_first u = false -> fu_poses u = Some (c_pos c, c_ang c, f_pos f, f_ang f)).
Definition sensor_true (t : truth) (e : ekf) (id : nat) (s : sensor) : Prop :=
  match s with
  | SImu u => imu_true t e id u
  | SGps u => gps_true t e id u
  | SCam trs fids =>
      exists c, mfind id (s_cam (e_state e)) = Some c /\ GetCameraPosition t id = OK (c_pos c) /\
        GetCameraAngularPosition t id = OK (c_ang c) /\ qnorm2 (c_ang c) = 1 /\ GetCameraIntrinsics t id = c_intr c /\
        (forall k tr, mfind k trs = Some tr -> tracker_true id c (tk_upd tr)) /\
        (forall k u, mfind k fids = Some u -> board_true t e id c k u)
  end.
(** Everything the filter of this program holds is the truth. *)
Definition holds (t : truth) (p : V3) (q : quat) (w : world) : Prop :=
  rests p q (e_state (w_ekf w)) /\ 0 <= p_chi2 (e_par (w_ekf w)) /\
  forall id s, mfind id (w_sensors w) = Some s -> sensor_true t (w_ekf w) id s.

(** The same estimates of body and sensors. *)
Definition same_but_clones (s s' : State) : Prop :=
  bare (state_with_aug s' []) = bare (state_with_aug s []).

(** *** Error-free measurements *)
(** The stored frames of a camera once the frame [new] has been cloned. *)
Definition frames_after (e : ekf) (cam new : nat) : list nat :=
  new :: map a_frame (if Nat.ltb (length (aug_at e cam)) (e_max_len e) then aug_at e cam else tl (aug_at e cam)).

(** A track: its feature position is known, every pixel is where a camera at
    the truth sees it, and every frame is still stored. *)
Definition exact_track (t : truth) (e : ekf) (cam new : nat) (tr : FeatureTrack) : Prop :=
  exists f, ft_true tr = Some f /\ forall pt, In pt (ft_track tr) ->
    (exists v, sim_view pinhole t cam (fun _ => []) (fp_time pt) = OK v /\
       vw_project v f = (kp_x (fp_kp pt), kp_y (fp_kp pt))) /\
    (per_frame e cam = true -> In (fp_frame pt) (frames_after e cam new)).
(** A relative rotation that the code can turn into a vector and back. *)
Definition representable (q : quat) : Prop :=
  vnorm (QuatToRotVec q) = 0 \/ 1 / 1000000000 < vnorm (QuatToRotVec q).
Definition exact_board (t : truth) (cam : nat) (time : R) (x : nat * option BoardDetection) : Prop :=
  forall d, snd x = Some d -> representable (bd_ang d) /\
    exists te re vr qr, sim_board_message t (fst x) cam true te re vr qr time = OK d.

Section Exact.
Variable ecef_to_lla : V3 -> V3.
(** The conversion is right at the place the message is about. *)
Definition located (t : truth) (p : V3) (q : quat) (id : nat) : Prop :=
  forall a h x, GetGpsPosition t id = OK a -> GetLocalHeading t = OK h ->
    enu_to_ecef (local_to_enu (vadd p (qrot q a)) h) (GetLocalPosition t) = OK x ->
    lla_to_ecef (ecef_to_lla x) = OK x.
Definition exact_msg (t : truth) (p : V3) (q : quat) (w : world) (m : message) : Prop :=
  match m with
  | MImu id time _ _ _ _ => exists ae oe vr, sim_imu_message t id true ae oe vr time = OK m
  | MGps id time _ _ => located t p q id /\ exists le vr, sim_gps_message ecef_to_lla t id true le vr time = OK m
  | MCam id time frame tracks boards =>
      (forall k l tr, In (k, l) tracks -> In tr l -> exact_track t (w_ekf w) id frame tr) /\
      (forall x, In x boards -> exact_board t id time x)
  | MOther _ _ => True
  end.

Variable svd : m2 -> m2 * m2.
Variable hull : list (BinNums.Z * BinNums.Z) -> list (BinNums.Z * BinNums.Z).
Variable mat_quat : mat R -> quat.
Variable solve : mat R -> V3 -> V3.
Fixpoint exact_run (t : truth) (p : V3) (q : quat) (w : world) (l : list message) : Prop :=
  match l with
  | [] => True
  | m :: l => exact_msg t p q w m /\
      forall w', deliver svd hull ecef_to_lla mat_quat solve w m = OK w' -> exact_run t p q w' l
  end.
End Exact.

(** Eigen's conversion from a rotation matrix gives one of the two
    quaternions. *)
Definition reads_rotations (mat_quat : mat R -> quat) : Prop :=
  forall m q, qnorm2 q = 1 -> (forall i j, (i < 3)%nat -> (j < 3)%nat -> ent m i j = ent (qmat q) i j) ->
    mat_quat m = q \/ mat_quat m = opposite q.

(** *** Building the program *)
(** The parameters of a new sensor are the truth (what the constructors of
    the simulated sensors arrange when [no_errors] is set); the numbers are
    those the constructors will give out.  Biases are zero. *)
Definition boards_told (t : truth) (first : nat) (fs : list FidParams) : Prop :=
  forall i p, nth_error fs i = Some p ->
    GetBoardPosition t (first + i) = OK (fp_pos p) /\ GetBoardOrientation t (first + i) = OK (fp_ang p) /\
    qnorm2 (fp_ang p) = 1.
Definition told (t : truth) (w : world) (v : event) : Prop :=
  let id := S (n_sensors (w_cnt w)) in
  match v with
  | ENewImu p => GetImuAngularPosition t id = OK (ip_ang p) /\ qnorm2 (ip_ang p) = 1 /\
      ip_acc_bias p = v0 /\ ip_omg_bias p = v0
  | ENewGps p => GetGpsPosition t id = OK (gp_pos p) /\ e_lla_init (w_ekf w) = true /\
      e_pos_e_in_g (w_ekf w) = GetLocalPosition t /\ GetLocalHeading t = OK (e_ang_l_to_e (w_ekf w))
  | ENewCam p ts fs => GetCameraPosition t id = OK (cp_pos p) /\ GetCameraAngularPosition t id = OK (cp_ang p) /\
      qnorm2 (cp_ang p) = 1 /\ GetCameraIntrinsics t id = cp_intr p /\
      boards_told t (S (n_trackers (w_cnt w) + length ts)) fs /\
      NoDup (map fp_id fs) /\ (forall f, In f fs -> mfind (fp_id f) (s_fid (e_state (w_ekf w))) = None)
  | _ => False
  end.
Fixpoint all_told (t : truth) (w : world) (l : list event) : Prop :=
  match l with
  | [] => True
  | v :: l => told t w v /\
      forall svd hull ecef_to_lla mat_quat solve w',
        wstep svd hull ecef_to_lla mat_quat solve w v = OK w' -> all_told t w' l
  end.
(** The body state a simulation starts from. *)
Definition at_rest (p : V3) (q : quat) (b : BodyState) : Prop :=
  b_pos b = p /\ b_vel b = v0 /\ b_acc b = g_gravity /\ b_ang b = q /\ b_ang_vel b = v0 /\ b_ang_acc b = v0.

(** The filter holds what is true about its only IMU at [time], and the
    attitude of the body; the body has begun to move. *)
Definition knows_imu (t : truth) (time : R) (u : imu_updater) (e : ekf) (s : ImuState) : Prop :=
  iu_moved u = true /\ length (s_imu (e_state e)) = 1%nat /\ mfind (iu_id u) (s_imu (e_state e)) = Some s /\
  bt_ang (tr_body t) time = OK (b_ang (s_body (e_state e))) /\ qnorm2 (b_ang (s_body (e_state e))) = 1 /\
  GetImuPosition t (iu_id u) = OK (i_pos s) /\ GetImuAngularPosition t (iu_id u) = OK (i_ang s) /\
  GetImuAccelerometerBias t (iu_id u) = OK (i_acc_bias s) /\ GetImuGyroscopeBias t (iu_id u) = OK (i_omg_bias s) /\
  qnorm2 (i_ang s) = 1.

(** The filter has been brought to [time] and is right about the body. *)
Definition arrived (t : truth) (e : ekf) (time : R) (e1 : ekf) : Prop :=
  (let '(lt, e0) := CalculateLocalTime e time in PredictModel e0 lt = OK e1) /\
  bt_pos (tr_body t) time = OK (b_pos (s_body (e_state e1))) /\
  bt_ang (tr_body t) time = OK (b_ang (s_body (e_state e1))) /\ qnorm2 (b_ang (s_body (e_state e1))) = 1.
