(** C63: The noise that the simulation adds, and the noise that the filter is
    told. *)
From Coq Require Import Reals List Arith ZArith Bool Lia Lra.
From Verif Require Import Base.Res Base.Mat Base.RDec Base.LinAlg Base.Geom Base.AMap Base.RMat
  Model.TypeHelper Model.Types Model.MathHelper Model.GpsHelper Model.Ekf Model.Updater Model.Ops
  Model.FiducialUpdater Model.MsckfUpdater Model.Sensors Model.Trackers Model.SimSensors Model.SimMain
  Spec.Earth Spec.Tracks Spec.Named Spec.Chance Spec.SimNoise Proofs.ChanceExists Proofs.SimNoise Proofs.TrackDemo.
Import ListNotations.
Open Scope R_scope.

(** Readings of an IMU scatter, around the exact readings plus the true biases,
    with the covariances that the message announces. *)
Theorem C63_imu : forall A (L : law A), chances L ->
  forall t id ae we vr vr0 time acc0 omg0 ab ob, proper_draws L vr ->
  sim_imu_measure t id true ae we vr0 time = OK (acc0, omg0) ->
  GetImuAccelerometerBias t id = OK ab -> GetImuGyroscopeBias t id = OK ob ->
  exists acc omg Ca Cw, (forall a, sim_imu_message t id false ae we (vr a) time = OK (MImu id time (acc a) Ca (omg a) Cw)) /\
    centred L acc (vadd acc0 ab) /\ scattered L acc (ent Ca) /\ centred L omg (vadd omg0 ob) /\ scattered L omg (ent Cw).
Proof. exact @imu_noise_said. Qed.
Print Assumptions C63_imu.

(** A fix, placed in the local frame, scatters around the antenna with the
    announced covariance, where the conversion to latitude and longitude is
    right: the errors configured for the fix are metres in the local frame. *)
Theorem C63_gps : forall A (L : law A), chances L ->
  forall ecef_to_lla t id le vr time p q r h, proper_draws L vr ->
  bt_pos (tr_body t) time = OK p -> bt_ang (tr_body t) time = OK q -> GetGpsPosition t id = OK r -> GetLocalHeading t = OK h ->
  on_globe (GetLocalPosition t) ->
  (forall a x, enu_to_ecef (local_to_enu (vadd (vadd p (qrot q r)) (vr a v0 le)) h) (GetLocalPosition t) = OK x -> lla_to_ecef (ecef_to_lla x) = OK x) ->
  exists lla placed C, (forall a, sim_gps_message ecef_to_lla t id false le (vr a) time = OK (MGps id time (lla a) C) /\
      exists e, lla_to_enu (lla a) (GetLocalPosition t) = OK e /\ enu_to_local e h = placed a) /\
    centred L placed (vadd p (qrot q r)) /\ scattered L placed (ent C).
Proof. exact @gps_noise_said. Qed.
Print Assumptions C63_gps.

(** The position of a detected board scatters around the exact one; the
    configured errors are its standard deviations and travel with it. *)
Theorem C63_board : forall A (L : law A) t id cam te re vr vr0 (qr : A -> V3) qr0 time b, proper_draws L vr ->
  sim_board_message t id cam true te re vr0 qr0 time = OK b ->
  exists d, (forall a, sim_board_message t id cam false te re (vr a) (qr a) time = OK (d a) /\ bd_pos_error (d a) = te /\ bd_ang_error (d a) = re /\
      bd_ang (d a) = QuatNormRand (qr a) (bd_ang b)) /\
    centred L (fun a => bd_pos (d a)) (bd_pos b) /\ scattered L (fun a => bd_pos (d a)) (squares te).
Proof. exact @board_scatter. Qed.
Print Assumptions C63_board.

(** The filter takes them for variances. *)
Theorem C63_board_told : forall mat_quat u e time b u' e', fid_UpdateEKF mat_quat u e time b = OK (u', e') ->
  exists e1 H r N, KalmanUpdate e1 H r N = OK e' /\
    forall i j, (i < 6)%nat -> (j < 6)%nat -> ent N i j = told_board (bd_pos_error b) (bd_ang_error b) i j.
Proof. exact board_told. Qed.
Print Assumptions C63_board_told.

(** This is right for errors 0 and 1 only; too cautious below 1, too confident
    above. *)
Theorem C63_board_right : forall d i, coord i d = squares d i i <-> coord i d = 0 \/ coord i d = 1.
Proof. exact told_right. Qed.
Print Assumptions C63_board_right.
Theorem C63_board_cautious : forall d i, 0 <= coord i d -> (squares d i i <= coord i d <-> coord i d <= 1).
Proof. exact told_more. Qed.
Print Assumptions C63_board_cautious.
Theorem C63_board_refuted : exists t id cam te re (vr : outcome -> V3 -> V3 -> V3) (qr : outcome -> V3) time d, proper_draws (coins 3) vr /\
  (forall a, sim_board_message t id cam false te re (vr a) (qr a) time = OK (d a)) /\
  forall a, told_board (bd_pos_error (d a)) (bd_ang_error (d a)) 0 0 <> spread (coins 3) (fun a => vx (bd_pos (d a))) (fun a => vx (bd_pos (d a))).
Proof. exact board_wrong. Qed.
Print Assumptions C63_board_refuted.

(** Random turns are capped at a right angle on one side only, so draws with
    mean 0 give turns with mean at most 0, and below 0 as soon as the cap can
    be reached. *)
Theorem C63_turns : forall A (L : law A), chances L ->
  forall (qr : A -> V3) (m : quat) i, (i < 3)%nat -> mean L (fun a => coord i (qr a)) = 0 ->
  exists turn, (forall a, QuatNormRand (qr a) m = qmul (RotVecToQuat (turn a)) m) /\
    (forall a, coord i (qr a) <= PI / 2 -> coord i (turn a) = coord i (qr a)) /\
    (forall a, PI / 2 <= coord i (qr a) -> coord i (turn a) = PI / 2) /\
    mean L (fun a => coord i (turn a)) <= 0 /\
    ((exists w a, In (w, a) L /\ 0 < w /\ PI / 2 < coord i (qr a)) -> mean L (fun a => coord i (turn a)) < 0).
Proof. exact @turns. Qed.
Print Assumptions C63_turns.

(** The position the filter starts from scatters with the configured errors;
    the covariance it starts with is right only if they are all 1/10. *)
Theorem C63_start : forall A (L : law A) (c : A -> sim_cfg) p d, proper_draws L (fun a => sc_vec (c a)) ->
  (forall a, sc_pos (c a) = p /\ sc_pos_error (c a) = d) ->
  let e a := Initialize (EKF_init (sim_params (c a)) (sc_noise (c a)) (sc_ref (c a)) (sc_heading (c a))) 0 (initial_state (c a)) in
  centred L (fun a => b_pos (s_body (e_state (e a)))) p /\ scattered L (fun a => b_pos (s_body (e_state (e a)))) (squares d) /\
  forall a, p_root (sc_par (c a)) = false ->
    ((forall i j, (i < 3)%nat -> (j < 3)%nat -> covariance (e a) i j = squares d i j) <-> forall i, (i < 3)%nat -> Rabs (coord i d) = 1 / 10).
Proof. exact @start_noise. Qed.
Print Assumptions C63_start.

(** Pixels of simulated tracks are at most rounded: their squared error never
    exceeds the variance the filter assumes, whatever pixel error is
    configured. *)
Theorem C63_pixels : forall mn mx count ne f l, grown f -> ascending (map sf_frame l) ->
  forall outs s' f', sim_run (sim_tracker_new mn mx count ne) f l = OK (outs, s', f') ->
  forall T p, In T (concat outs) -> In p (ft_track T) -> exists x pos,
  In x l /\ ft_true T = Some pos /\ fp_frame p = sf_frame x /\
  let px := vw_project (sf_view x) pos in
  Rabs (kp_x (fp_kp p) - fst px) <= 1 / 2 /\ Rabs (kp_y (fp_kp p) - snd px) <= 1 / 2 /\
  forall px_error, (kp_x (fp_kp p) - fst px) * (kp_x (fp_kp p) - fst px) <= Rmax px_error (1 / 2) * Rmax px_error (1 / 2) /\
    (kp_y (fp_kp p) - snd px) * (kp_y (fp_kp p) - snd px) <= Rmax px_error (1 / 2) * Rmax px_error (1 / 2).
Proof. exact pixel_near. Qed.
Print Assumptions C63_pixels.

(** Draws with every mean and standard deviation. *)
Example C63_draws : chances (coins 3) /\ proper_draws (coins 3) coin_draws.
Proof. exact (conj (coins_chances 3 (le_n_S _ _ (Nat.le_0_l _))) coin_proper). Qed.
Example C63_imu_case : exists acc0 omg0 ab ob, sim_imu_measure scene 1 true (mkV3 (1 / 100) (1 / 100) (1 / 100)) (mkV3 (1 / 100) (1 / 100) (1 / 100)) (fun _ _ => v0) 0 = OK (acc0, omg0) /\
  GetImuAccelerometerBias scene 1 = OK ab /\ GetImuGyroscopeBias scene 1 = OK ob.
Proof. exact imu_case. Qed.
(** Errors in height of any size; the conversion has to be right there. *)
Example C63_gps_case : bt_pos (tr_body scene) 0 = OK v0 /\ bt_ang (tr_body scene) 0 = OK qid /\ GetGpsPosition scene 3 = OK v0 /\ GetLocalHeading scene = OK 0 /\
  on_globe (GetLocalPosition scene) /\
  forall a s x, enu_to_ecef (local_to_enu (vadd (vadd v0 (qrot qid v0)) (coin_draws a v0 (mkV3 0 0 s))) 0) (GetLocalPosition scene) = OK x -> lla_to_ecef (upward x) = OK x.
Proof. exact gps_case. Qed.
Example C63_board_case : forall te re, exists b, sim_board_message scene 4 2 true te re (fun _ _ => v0) v0 0 = OK b.
Proof. exact board_case. Qed.
Example C63_turns_case : exists w a, In (w, a) (coins 1) /\ 0 < w /\ PI / 2 < coord 0 (mkV3 (4 * coin 1 0 a) 0 0) /\
  mean (coins 1) (fun a => coord 0 (mkV3 (4 * coin 1 0 a) 0 0)) = 0.
Proof. exact turn_case. Qed.
Example C63_start_case : forall c, proper_draws (coins 3) (fun a => sc_vec (redrawn c (coin_draws a))) /\
  forall a, sc_pos (redrawn c (coin_draws a)) = sc_pos c /\ sc_pos_error (redrawn c (coin_draws a)) = sc_pos_error c.
Proof. exact start_case. Qed.
(** A run of the simulated tracker that reports a track. *)
Example C63_pixels_case : exists f l outs s' f', grown f /\ ascending (map sf_frame l) /\
  sim_run (sim_tracker_new 1 5 0 true) f l = OK (outs, s', f') /\ map (@length _) outs = [0; 0; 1]%nat /\
  map (fun T => frames (ft_track T)) (concat outs) = [[1; 2]]%nat.
Proof. exact demo_sim. Qed.
