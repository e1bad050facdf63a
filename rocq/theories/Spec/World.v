(** What an application has to respect when it builds sensors and feeds
    them: parameters, measurement noise, configuration. *)
From Coq Require Import Reals List Arith Bool.
From Verif Require Import Base.Res Base.Mat Base.LinAlg Base.Geom Base.AMap
  Model.Types Model.Ekf Model.Ops Model.ImuUpdater Model.GpsUpdater Model.FiducialUpdater Model.MsckfUpdater
  Model.Matrix3 Model.GpsHelper Model.MathHelper Model.Sensors Spec.Layout Spec.Contract Spec.Callback.
Import ListNotations.
Open Scope R_scope.

Definition imu_params_ok (p : ImuParams) : Prop :=
  (ip_ext p = true -> 0 <= ip_pos_stab p /\ 0 <= ip_ang_stab p) /\
  (ip_int p = true -> 0 <= ip_acc_stab p /\ 0 <= ip_omg_stab p) /\
  (((if ip_ext p then 6 else 0) + (if ip_int p then 6 else 0)) <= length (ip_var p))%nat.
Definition gps_params_ok (p : GpsParams) : Prop :=
  gp_ext p = true -> 0 <= gp_pos_stab p /\ 0 <= vx (gp_var p) /\ 0 <= vy (gp_var p) /\ 0 <= vz (gp_var p).
Definition cam_params_ok (p : CamParams) : Prop :=
  cp_rate p <> 0 /\ (cp_ext p = true -> 0 <= cp_pos_stab p /\ 0 <= cp_ang_stab p /\ (6 <= length (cp_var p))%nat).
(** Boards: at least six non-negative variances, calibrating the camera only
    if the camera is registered so,
    and one flag for one board id. *)
Definition fid_params_ok (e : ekf) (ext : bool) (fs : list FidParams) (p : FidParams) : Prop :=
  (6 <= length (fp_var p))%nat /\ Forall (fun x => 0 <= x) (fp_var p) /\ at_most (fp_cam_ext p) ext /\
  (forall s, mfind (fp_id p) (s_fid (e_state e)) = Some s -> f_ext s = fp_ext p) /\
  (forall q, In q fs -> fp_id q = fp_id p -> fp_ext q = fp_ext p).

Definition message_ok (root : bool) (m : message) : Prop :=
  match m with
  | MImu _ _ _ A _ W => noise_ok root 3 A /\ noise_ok root 3 W
  | MGps _ _ _ N => noise_ok root 3 N
  | MCam _ _ _ _ boards => Forall (fun x => forall d, snd x = Some d -> errors_positive d) boards
  | MOther _ _ => True
  end.

(** Configuration: anything but registrations (constructors do those) and
    reads that insert entries. *)
Definition config_op (o : op) : Prop :=
  match o with
  | OInit _ _ | OSetNoise _ | OSetLen _ | OSetGps _ _ | ORefresh | OInitGravity => True
  | _ => False
  end.

Definition event_ok (w : world) (v : event) : Prop :=
  match v with
  | ENewImu p => imu_params_ok p
  | ENewGps p => gps_params_ok p
  | ENewCam p ts fs => cam_params_ok p /\ Forall (fun t => at_most (tp_cam_ext t) (cp_ext p)) ts /\
      Forall (fid_params_ok (w_ekf w) (cp_ext p) fs) fs
  | EMsg m => message_ok (p_root (e_par (w_ekf w))) m
  | EImage _ _ _ _ board => forall k d, board k = Some d -> errors_positive d
  | EConf o => config_op o /\ contract (w_ekf w) o
  end.

Section Run.
Variable svd : m2 -> m2 * m2.
Variable hull : list (BinNums.Z * BinNums.Z) -> list (BinNums.Z * BinNums.Z).
Variable ecef_to_lla : V3 -> V3.
Variable mat_quat : mat R -> quat.
Variable solve : mat R -> V3 -> V3.
(** Every event of the sequence is acceptable when it happens. *)
Fixpoint events_ok (w : world) (l : list event) : Prop :=
  match l with
  | [] => True
  | v :: l => event_ok w v /\
      forall w', wstep svd hull ecef_to_lla mat_quat solve w v = OK w' -> events_ok w' l
  end.
End Run.

(** Events whose handling cannot run into undefined behaviour: no GPS fix
    (its alignment may), no feature tracks, messages to sensors of their
    type with boards the camera has. *)
Definition plain_event (w : world) (v : event) : Prop :=
  match v with
  | ENewImu _ | ENewGps _ | ENewCam _ _ _ | EConf _ => True
  | EMsg m =>
      match m, mfind (msg_id m) (w_sensors w) with
      | MImu _ _ _ _ _ _, Some (SImu _) => True
      | MCam _ _ _ tracks boards, Some (SCam _ fids) =>
          Forall (fun x => snd x = []) tracks /\ Forall (fun x => mfind (fst x) fids <> None) boards
      | MOther _ _, _ => True
      | _, None => True
      | _, _ => False
      end
  | EImage id _ _ seen _ =>
      match mfind id (w_sensors w) with
      | Some (SCam _ _) | None => forall k, seen k = []
      | _ => False
      end
  end.
Section PlainRun.
Variable svd : m2 -> m2 * m2.
Variable hull : list (BinNums.Z * BinNums.Z) -> list (BinNums.Z * BinNums.Z).
Variable ecef_to_lla : V3 -> V3.
Variable mat_quat : mat R -> quat.
Variable solve : mat R -> V3 -> V3.
Fixpoint events_plain (w : world) (l : list event) : Prop :=
  match l with
  | [] => True
  | v :: l => plain_event w v /\
      forall w', wstep svd hull ecef_to_lla mat_quat solve w v = OK w' -> events_plain w' l
  end.
End PlainRun.

(** A message that finds the sensor it names, of its own type. *)
Definition addressed (w : world) (m : message) : Prop :=
  match m, mfind (msg_id m) (w_sensors w) with
  | MImu _ _ _ _ _ _, Some (SImu _) | MGps _ _ _ _, Some (SGps _) | MCam _ _ _ _ _, Some (SCam _ _) => True
  | _, _ => False
  end.

(** A world an application can be in: built by the constructor and a
    sequence of acceptable events. *)
Definition lived (svd : m2 -> m2 * m2) (hull : list (BinNums.Z * BinNums.Z) -> list (BinNums.Z * BinNums.Z))
  (ecef_to_lla : V3 -> V3) (mat_quat : mat R -> quat) (solve : mat R -> V3 -> V3) (w : world) : Prop :=
  exists p q pe a l, noise_arg q /\ events_ok svd hull ecef_to_lla mat_quat solve (world_init (EKF_init p q pe a)) l /\
    wrun svd hull ecef_to_lla mat_quat solve (world_init (EKF_init p q pe a)) l = OK w.
