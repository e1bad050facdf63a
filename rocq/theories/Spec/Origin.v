(** The same program with another origin of the local frame, of the filter's
    clock and of the time stamps: every position in the local frame is
    [v] further, every time on the filter's clock [c] later and every time
    stamp [c + d] later. *)
From Coq Require Import Reals List Arith Bool ZArith.
From Verif Require Import Base.Res Base.Mat Base.Geom Base.AMap Base.RMat Base.LinAlg
  Model.Types Model.Ekf Model.Ops Model.MathHelper Model.FiducialUpdater Model.MsckfUpdater Model.Sensors.
Import ListNotations.
Open Scope R_scope.

(** Each value of a map changed. *)
Definition over {A B} (f : A -> B) (m : amap A) : amap B := map (fun x => (fst x, f (snd x))) m.

Section Origin.
Variable v : V3.
Variables c d : R.

(** *** The filter *)
Definition body' (b : BodyState) : BodyState :=
  mkBody (vadd (b_pos b) v) (b_vel b) (b_acc b) (b_ang b) (b_ang_vel b) (b_ang_acc b) (b_index b).
Definition clone' (a : AugState) : AugState :=
  mkAug (a_frame a) (a_time a + c) (vadd (a_pos a) v) (a_ang a) (a_index a) (a_alpha a).
Definition board' (f : FidState) : FidState :=
  mkFid (vadd (f_pos f) v) (f_ang f) (f_pos_stab f) (f_ang_stab f) (f_size f) (f_index f) (f_id f) (f_ext f).
Definition state' (s : State) : State :=
  mkState (body' (s_body s)) (s_imu s) (s_gps s) (s_cam s) (over board' (s_fid s)) (over (map clone') (s_aug s)).
(** The covariance, the process noise and everything else stay. *)
Definition filter' (e : ekf) : ekf :=
  mkEkf (e_par e) (state' (e_state e)) (e_cov e) (e_size e) (e_imu_size e) (e_gps_size e) (e_cam_size e)
    (e_aug_size e) (e_fid_size e) (e_time e + c) (if e_time_init e then e_ref_time e + d else e_ref_time e)
    (e_time_init e) (e_max_len e) (e_Q e) (e_bodyQ e) (e_lla_init e) (e_pos_e_in_g e) (e_ang_l_to_e e)
    (map (fun t => t + c) (e_gps_time e)) (e_gps_ecef e) (map (fun p => vadd p v) (e_gps_xyz e))
    (option_map (fun t => t + c) (e_aug_prev e)) (e_primary e) (e_frame_period e) (e_track_dur e)
    (e_min_aug e) (e_imu_start e) (e_gps_start e) (e_cam_start e) (e_aug_start e) (e_fid_start e)
    (e_gravity e) (e_zero_acc e) (e_frame_recv e).

(** *** Calls of the filter *)
Definition op' (o : op) : op :=
  match o with
  | ORegFid st cov => ORegFid (board' st) cov
  | OPredict t => OPredict (t + c)
  | OGetAug cam f t => OGetAug cam f (t + c)
  | OInit t b => OInit (t + c) (body' b)
  | OLocalTime t => OLocalTime (t + (c + d))
  | OGpsSample f align t lla => OGpsSample f align (t + c) lla
  | _ => o
  end.

(** Does the look-up go by the number of the frame (and not by the time)? *)
Definition by_frame (e : ekf) (cam : nat) : bool :=
  match p_aug (e_par e) with AAll => true | APrimary => Nat.eqb cam (e_primary e) | _ => false end.
(** The window shows the frame that is looked up. *)
Definition shown (e : ekf) (cam frame : nat) : Prop :=
  by_frame e cam = true ->
  exists l a, mfind cam (s_aug (e_state e)) = Some l /\ In a l /\ a_frame a = frame.

(** A frame is found, or a made-up clone would be at the same place. *)
Definition found (e : ekf) (cam frame : nat) : Prop := (v = v0 /\ c = 0) \/ shown e cam frame.
(** The first time stamp sets an unset clock to 0. *)
Definition clocked (e : ekf) : Prop := e_time_init e = true \/ c = 0.

(** Calls for which the origins must not matter: a look-up finds its frame;
    Initialize sets an unset clock only if time stamps are local times; GPS
    positions fix the origin of space. *)
Definition free (e : ekf) (o : op) : Prop :=
  match o with
  | OGetAug cam f _ => found e cam f
  | OInit _ _ => e_time_init e = true \/ d = 0
  | OGpsSample _ _ _ _ => v = v0
  | _ => True
  end.
Fixpoint all_free (e : ekf) (l : list op) : Prop :=
  match l with
  | [] => True
  | o :: l => free e o /\ forall e', step e o = OK e' -> all_free e' l
  end.

(** *** Sensors and messages *)
(** Stored first estimates of a board are positions in the local frame. *)
Definition fid_updater' (u : fid_updater) : fid_updater :=
  mkFU (fu_id u) (fu_cam u) (fu_ext u) (fu_cam_ext u) (fu_first u)
    (option_map (fun x => let '(p, q, pf, qf) := x in (p, q, vadd pf v, qf)) (fu_poses u)).
Definition sensor' (s : sensor) : sensor :=
  match s with
  | SCam trs fids => SCam trs (over fid_updater' fids)
  | s => s
  end.
Definition point' (f : FeaturePoint) : FeaturePoint := mkFP (fp_frame f) (fp_time f + c) (fp_kp f).
Definition track' (t : FeatureTrack) : FeatureTrack :=
  mkFT (map point' (ft_track t)) (option_map (fun p => vadd p v) (ft_true t)).
Definition tracks' (l : list (nat * list FeatureTrack)) : list (nat * list FeatureTrack) :=
  over (map track') l.
Definition message' (m : message) : message :=
  match m with
  | MImu id t acc A omg W => MImu id (t + (c + d)) acc A omg W
  | MGps id t lla N => MGps id (t + (c + d)) lla N
  | MCam id t frame tracks boards => MCam id (t + (c + d)) frame (tracks' tracks) boards
  | MOther id t => MOther id (t + (c + d))
  end.
Definition fid_params' (p : FidParams) : FidParams :=
  mkFidP (fp_id p) (fp_ext p) (fp_cam_ext p) (vadd (fp_pos p) v) (fp_ang p) (fp_var p).
Definition event' (x : event) : event :=
  match x with
  | ENewImu p => ENewImu p
  | ENewGps p => ENewGps p
  | ENewCam p ts fs => ENewCam p ts (map fid_params' fs)
  | EMsg m => EMsg (message' m)
  | EImage id t image seen board => EImage id (t + (c + d)) image (fun k => map track' (seen k)) board
  | EConf o => EConf (op' o)
  end.
Definition world' (w : world) : world :=
  mkWorld (filter' (w_ekf w)) (w_cnt w) (over sensor' (w_sensors w)).

(** The window a camera has once its new frame is in it shows every frame of
    the tracks given to the tracker. *)
Definition tracks_shown (e : ekf) (id : nat) (t : R) (frame : nat) (trs : amap tracker)
  (tracks : list (nat * list FeatureTrack)) : Prop :=
  forall e1, run e [OLocalTime t; OPredict (fst (CalculateLocalTime e t)); OFrame id frame] = OK e1 ->
  forall k l tr x p, In (k, l) tracks -> mfind k trs = Some tr -> In x l -> In p (ft_track x) ->
    found e1 (mu_id (tk_upd tr)) (fp_frame p).
Definition free_event (w : world) (x : event) : Prop :=
  match x with
  | EMsg (MGps _ _ _ _) => v = v0
  | EMsg (MCam id t frame tracks _) =>
      forall trs fids, mfind id (w_sensors w) = Some (SCam trs fids) ->
        tracks_shown (w_ekf w) id t frame trs tracks
  | EImage id t _ seen _ =>
      forall trs fids, mfind id (w_sensors w) = Some (SCam trs fids) ->
        tracks_shown (w_ekf w) id t (n_frames (w_cnt w)) trs (map (fun k => (k, seen k)) (keys trs))
  | EConf o => free (w_ekf w) o
  | _ => True
  end.
Fixpoint all_free_events (svd : m2 -> m2 * m2) (hull : list (Z * Z) -> list (Z * Z)) (ecef_to_lla : V3 -> V3)
  (mat_quat : mat R -> quat) (solve : mat R -> V3 -> V3) (w : world) (l : list event) : Prop :=
  match l with
  | [] => True
  | x :: l => free_event w x /\
      forall w', wstep svd hull ecef_to_lla mat_quat solve w x = OK w' ->
        all_free_events svd hull ecef_to_lla mat_quat solve w' l
  end.
End Origin.
