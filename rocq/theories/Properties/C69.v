(** C69: With first estimates an updater keeps the sensor pose it was first
    used with. *)
From Coq Require Import Reals List Arith Bool Lia Lra ZArith.
From Verif Require Import Base.Res Base.Mat Base.LinAlg Base.Geom Base.AMap Base.RMat
  Model.TypeHelper Model.Types Model.MathHelper Model.Matrix3 Model.GpsHelper Model.Ekf Model.Updater Model.Ops Model.GpsUpdater Model.FiducialUpdater Model.MsckfUpdater Model.Sensors
  Spec.Layout Spec.History Spec.Contract Spec.Named Spec.Correct Spec.Callback Spec.KF Spec.Unused Spec.Towards Spec.World Spec.FirstUse
  Proofs.FirstUse Proofs.FirstGps Proofs.FirstDemo Proofs.FirstWorld
  Proofs.CamTrackDemo Proofs.FirstTaken Proofs.FirstTakenDemo.
Import ListNotations.
Open Scope nat_scope.

(** Whatever happens to a program, a receiver, tracker or board that was used
    once keeps the poses it was used with. *)
Theorem C69_kept : forall svd hull ecef_to_lla mat_quat solve w l w' id s,
  lived svd hull ecef_to_lla mat_quat solve w -> p_fej (e_par (w_ekf w)) = true ->
  events_ok svd hull ecef_to_lla mat_quat solve w l -> wrun svd hull ecef_to_lla mat_quat solve w l = OK w' ->
  mfind id (w_sensors w) = Some s -> exists s', mfind id (w_sensors w') = Some s' /\ frozen s s'.
Proof. exact first_kept. Qed.
Print Assumptions C69_kept.

(** A fix: the first one takes the lever arm from the filter and keeps it; every
    one is compared with the place the kept lever arm gives. *)
Theorem C69_fix : forall svd hull ecef_to_lla u e t lla N u' e', reachable e -> p_fej (e_par e) = true ->
  has_gps e (gu_id u) (gu_ext u) -> noise_ok (p_root (e_par e)) 3 N -> e_lla_init e = true ->
  gps_UpdateEKF svd hull ecef_to_lla u e t lla N = OK (u', e') ->
  exists e1 q H d, only_predicted e t e1 /\ lla_to_enu lla (e_pos_e_in_g e) = OK q /\
    u' = mkGU (gu_id u) (gu_ext u) false (lever u e1) /\
    gps_GetMeasurementJacobian u e1 = OK (H, u', e1) /\
    moved_by e1 H (v3mat (vsub (enu_to_local q (e_ang_l_to_e e))
      (vadd (b_pos (s_body (e_state e1))) (qrot (b_ang (s_body (e_state e1))) (lever u e1))))) N d e'.
Proof. exact gps_first. Qed.
Print Assumptions C69_fix.

(** A board: the first picture takes the poses of camera and board from the
    filter brought to the time of the picture, and the updater counts as used. *)
Theorem C69_board : forall mat_quat u e t b u' e', p_fej (e_par e) = true -> fu_first u = true ->
  fid_UpdateEKF mat_quat u e t b = OK (u', e') ->
  exists e1 f, only_predicted e t e1 /\ mfind (fu_id u) (s_fid (e_state e1)) = Some f /\
    let c := mget default_cam (fu_cam u) (s_cam (e_state e1)) in
    u' = mkFU (fu_id u) (fu_cam u) (fu_ext u) (fu_cam_ext u) false (Some (c_pos c, c_ang c, f_pos f, f_ang f)).
Proof. exact board_taken. Qed.
Print Assumptions C69_board.

(** A tracker: the first tracks take lens and pose of the camera. *)
Theorem C69_tracker : forall solve u e t tracks px u' e', p_fej (e_par e) = true -> mu_first u = true -> tracks <> [] ->
  msckf_UpdateEKF solve u e t tracks px = OK (u', e') ->
  exists e1, only_predicted e t e1 /\
    let c := mget default_cam (mu_id u) (s_cam (e_state e1)) in
    u' = mkMU (mu_id u) (mu_ext u) false (Some (c_intr c, c_pos c, c_ang c)) (mu_min_dist u) (mu_max_dist u) (mu_use_true u).
Proof. exact tracker_taken. Qed.
Print Assumptions C69_tracker.

(** Once the estimate of the lever arm has left the kept one, a fix that
    agrees exactly with the estimates does not leave them alone. *)
Theorem C69_exact_moves : forall svd hull ecef_to_lla u e t lla N u' e' e1 q, reachable e -> p_fej (e_par e) = true ->
  has_gps e (gu_id u) (gu_ext u) -> noise_ok (p_root (e_par e)) 3 N -> e_lla_init e = true ->
  only_predicted e t e1 -> spd (e_size e1) (covariance e1) -> qnorm2 (b_ang (s_body (e_state e1))) = 1%R ->
  lla_to_enu lla (e_pos_e_in_g e) = OK q -> enu_to_local q (e_ang_l_to_e e) = antenna e1 (gu_id u) ->
  gu_first u = false -> g_pos (mget default_gps (gu_id u) (s_gps (e_state e1))) <> gu_pos u ->
  gps_UpdateEKF svd hull ecef_to_lla u e t lla N = OK (u', e') ->
  exists d i, e_state e' = correct d (e_state e1) /\ i < e_size e1 /\ column d i <> 0%R.
Proof. exact gps_exact_moves. Qed.
Print Assumptions C69_exact_moves.

(** A program whose receiver has been used. *)
Example C69_used : forall svd hull ecef_to_lla mat_quat solve, exists w u, lived svd hull ecef_to_lla mat_quat solve w /\
  p_fej (e_par (w_ekf w)) = true /\ mfind 1 (w_sensors w) = Some (SGps u) /\ gu_first u = false.
Proof. exact used_case. Qed.
(** A filter at the reference whose updater was used with the antenna one
    metre above the estimate: a fix at the reference is exact. *)
Example C69_exact_case : exists e1, reachable first_e /\ p_fej (e_par first_e) = true /\
  has_gps first_e (gu_id first_u) (gu_ext first_u) /\ noise_ok (p_root (e_par first_e)) 3 (midm 3 3) /\ e_lla_init first_e = true /\
  only_predicted first_e 5 e1 /\ spd (e_size e1) (covariance e1) /\ qnorm2 (b_ang (s_body (e_state e1))) = 1%R /\
  lla_to_enu v0 (e_pos_e_in_g first_e) = OK v0 /\ enu_to_local v0 (e_ang_l_to_e first_e) = antenna e1 (gu_id first_u) /\
  gu_first first_u = false /\ g_pos (mget default_gps (gu_id first_u) (s_gps (e_state e1))) <> gu_pos first_u.
Proof. exact first_case. Qed.
(** A filter with a camera, two clones and a board: the first picture of the
    board and the first track are handled. *)
Example C69_taken_case : p_fej (e_par taken_e) = true /\
  (forall mat_quat t b, errors_positive b -> exists u' e', fid_UpdateEKF mat_quat (mkFU 4 2 true true true None) taken_e t b = OK (u', e')) /\
  (forall solve t px, exists u' e', msckf_UpdateEKF solve (msckf_updater_init 2 true 1) taken_e t [one_track (mkV3 0 0 3)] px = OK (u', e')).
Proof. exact (conj (proj2 (proj2 taken_rest)) (conj taken_board taken_track)). Qed.
