(** C70: Constructing a sensor enters exactly its configuration. *)
From Coq Require Import Reals List Arith Bool Lia Lra ZArith.
From Verif Require Import Base.Res Base.Mat Base.LinAlg Base.Geom Base.AMap Base.RMat
  Model.TypeHelper Model.Types Model.MathHelper Model.Matrix3 Model.Ekf Model.Updater Model.Ops
  Model.ImuUpdater Model.GpsUpdater Model.FiducialUpdater Model.MsckfUpdater Model.Sensors
  Spec.Layout Spec.History Spec.Contract Spec.Named Spec.Same Spec.World Spec.Build
  Proofs.Demo Proofs.RegRefute Proofs.World Proofs.StationaryFinals Proofs.RosFinals Proofs.Build.
Import ListNotations.
Open Scope nat_scope.

Theorem C70_imu : forall svd hull ecef_to_lla mat_quat solve w p w', lived svd hull ecef_to_lla mat_quat solve w ->
  imu_params_ok p -> wstep svd hull ecef_to_lla mat_quat solve w (ENewImu p) = OK w' ->
  exists id s, mfind id (w_sensors w) = None /\
    mfind id (w_sensors w') = Some (SImu (imu_updater_init id (ip_ext p) (ip_int p))) /\
    (forall k, k <> id -> mfind k (w_sensors w') = mfind k (w_sensors w)) /\
    mfind id (s_imu (e_state (w_ekf w'))) = Some s /\ imu_configured p s /\
    (forall k, k <> id -> option_map bare_imu (mfind k (s_imu (e_state (w_ekf w')))) = option_map bare_imu (mfind k (s_imu (e_state (w_ekf w))))) /\
    bare (state_with_imu (e_state (w_ekf w')) []) = bare (state_with_imu (e_state (w_ekf w)) []) /\
    enrolled (w_ekf w) (w_ekf w') (imu_scalars id (ip_ext p) (ip_int p)) (imu_spread p).
Proof. exact imu_build. Qed.
Print Assumptions C70_imu.

Theorem C70_gps : forall svd hull ecef_to_lla mat_quat solve w p w', lived svd hull ecef_to_lla mat_quat solve w ->
  gps_params_ok p -> wstep svd hull ecef_to_lla mat_quat solve w (ENewGps p) = OK w' ->
  exists id s, mfind id (w_sensors w) = None /\
    mfind id (w_sensors w') = Some (SGps (gps_updater_init id (gp_ext p))) /\
    (forall k, k <> id -> mfind k (w_sensors w') = mfind k (w_sensors w)) /\
    mfind id (s_gps (e_state (w_ekf w'))) = Some s /\ gps_configured p s /\
    (forall k, k <> id -> option_map bare_gps (mfind k (s_gps (e_state (w_ekf w')))) = option_map bare_gps (mfind k (s_gps (e_state (w_ekf w))))) /\
    bare (state_with_gps (e_state (w_ekf w')) []) = bare (state_with_gps (e_state (w_ekf w)) []) /\
    enrolled (w_ekf w) (w_ekf w') (if gp_ext p then three (LGps id) else []) (gps_spread p).
Proof. exact gps_build. Qed.
Print Assumptions C70_gps.

(** A camera with any trackers. *)
Theorem C70_camera : forall svd hull ecef_to_lla mat_quat solve w p ts w', lived svd hull ecef_to_lla mat_quat solve w ->
  cam_params_ok p -> wstep svd hull ecef_to_lla mat_quat solve w (ENewCam p ts []) = OK w' ->
  exists id s trs, mfind id (w_sensors w) = None /\
    mfind id (w_sensors w') = Some (SCam trs []) /\
    (forall k, k <> id -> mfind k (w_sensors w') = mfind k (w_sensors w)) /\
    mfind id (s_cam (e_state (w_ekf w'))) = Some s /\ cam_configured p s /\
    (forall k, k <> id -> option_map bare_cam (mfind k (s_cam (e_state (w_ekf w')))) = option_map bare_cam (mfind k (s_cam (e_state (w_ekf w))))) /\
    bare (state_with_cam (e_state (w_ekf w')) []) = bare (state_with_cam (e_state (w_ekf w)) []) /\
    enrolled (w_ekf w) (w_ekf w') (if cp_ext p then six (LCam id) else []) (cam_spread p).
Proof. exact cam_build. Qed.
Print Assumptions C70_camera.

(** A board with a number above all boards so far, before clones are taken:
    its pose and its variances, which are not bounded from below. *)
Theorem C70_board : forall c e cam p id u c' e', reachable e -> (6 <= length (fp_var p))%nat -> Forall (fun x => (0 <= x)%R) (fp_var p) ->
  below (fp_id p) (s_fid (e_state e)) -> no_clones e -> fid_new c e cam p = OK (id, u, c', e') ->
  id = S (n_trackers c) /\ n_trackers c' = id /\ n_sensors c' = n_sensors c /\ u = mkFU (fp_id p) cam (fp_ext p) (fp_cam_ext p) true None /\
  exists s, mfind (fp_id p) (s_fid (e_state e')) = Some s /\ fid_configured p s /\
    (forall k, k <> fp_id p -> option_map bare_fid (mfind k (s_fid (e_state e'))) = option_map bare_fid (mfind k (s_fid (e_state e)))) /\
    bare (state_with_fid (e_state e') []) = bare (state_with_fid (e_state e) []) /\
    enrolled e e' (if fp_ext p then six (LFid (fp_id p)) else []) (fid_spread p).
Proof. exact fid_build. Qed.
Print Assumptions C70_board.

(** A board whose number is known, for instance seen by a second camera: its
    configuration is not looked at. *)
Theorem C70_board_known : forall c e cam p s id u c' e', mfind (fp_id p) (s_fid (e_state e)) = Some s ->
  fid_new c e cam p = OK (id, u, c', e') -> e' = e.
Proof. exact fid_known. Qed.
Print Assumptions C70_board_known.

(** An IMU calibrated for its biases only: the configured variances of the
    biases (entries 6 to 11) have no effect at all. *)
Theorem C70_bias_variance_unread : forall c e p v, ip_ext p = false -> length v = length (ip_var p) ->
  firstn 6 v = firstn 6 (ip_var p) -> imu_new c e (with_variance p v) = imu_new c e p.
Proof. exact bias_variance_unread. Qed.
Print Assumptions C70_bias_variance_unread.

Definition c70_imu : ImuParams := mkIP false true 1 1 1 1 v0 qid v0 v0 [1; 2; 3; 4; 5; 6; 7; 8; 9; 10; 11; 12]%R.
Definition c70_gps : GpsParams := mkGP true 1 v0 (mkV3 1 2 3).
Definition c70_cam : CamParams := mkCP true 10 1 1 v0 qid default_intrinsics [1; 2; 3; 4; 5; 0]%R.
Example C70_cases : forall svd hull ecef_to_lla mat_quat solve, exists w, lived svd hull ecef_to_lla mat_quat solve w /\
  (imu_params_ok c70_imu /\ exists w', wstep svd hull ecef_to_lla mat_quat solve w (ENewImu c70_imu) = OK w') /\
  (gps_params_ok c70_gps /\ exists w', wstep svd hull ecef_to_lla mat_quat solve w (ENewGps c70_gps) = OK w') /\
  (cam_params_ok c70_cam /\ exists w', wstep svd hull ecef_to_lla mat_quat solve w (ENewCam c70_cam [mkTP true 1 1] []) = OK w').
Proof.
  intros svd hull ecef mq solve. exists (world_init (demo0 AAll false)).
  assert (L : lived svd hull ecef mq solve (world_init (demo0 AAll false))) by (apply lived_init; exact demo_noise_arg).
  split; [exact L|]. destruct (lived_winv _ _ _ _ _ _ L) as [WI _].
  assert (A : imu_params_ok c70_imu) by (unfold imu_params_ok; cbn; split; [discriminate|]; split; [lra|lia]).
  assert (B : gps_params_ok c70_gps) by (intros _; cbn; lra).
  assert (C : cam_params_ok c70_cam) by (split; [cbn; lra|]; intros _; cbn; split; [lra|]; split; [lra|lia]).
  split; [split; [exact A|]|split; [split; [exact B|]|split; [exact C|]]].
  - destruct (imu_new_inv _ _ WI A) as [q [E _]]. eexists. cbn [wstep]. rewrite E. reflexivity.
  - destruct (gps_new_inv _ _ WI B) as [q [E _]]. eexists. cbn [wstep]. rewrite E. reflexivity.
  - destruct (cam_new_inv _ _ [mkTP true 1 1] [] WI C) as [q [E _]]; [constructor; [exact (fun _ => eq_refl)|constructor]|constructor|].
    eexists. cbn [wstep]. rewrite E. reflexivity.
Qed.
(** A board with a variance of zero; and the same number again, elsewhere. *)
Definition c70_board (x : R) : FidParams := mkFidP 4 true true (mkV3 x 0 0) qid [1; 2; 3; 4; 5; 0]%R.
Example C70_board_case : reachable (demo0 AAll false) /\ below 4 (s_fid (e_state (demo0 AAll false))) /\ no_clones (demo0 AAll false) /\
  exists id u c' e', fid_new counters_init (demo0 AAll false) 1 (c70_board 1) = OK (id, u, c', e') /\
  exists s id' u' c'' e'', mfind (fp_id (c70_board 2)) (s_fid (e_state e')) = Some s /\ fid_new c' e' 2 (c70_board 2) = OK (id', u', c'', e'').
Proof.
  assert (R0 : reachable (demo0 AAll false)) by (exact (demo0_reachable AAll false)).
  assert (B : below 4 (s_fid (e_state (demo0 AAll false)))) by (intros k []).
  assert (N : no_clones (demo0 AAll false)) by (intros k l []).
  assert (V : forall x, Forall (fun x => (0 <= x)%R) (fp_var (c70_board x))) by (intros x; cbn; repeat constructor; lra).
  split; [exact R0|]. split; [exact B|]. split; [exact N|].
  destruct (fid_builds counters_init (demo0 AAll false) 1 (c70_board 1) R0 (le_n 6) (V _)) as (id & u & c' & e' & E).
  exists id, u, c', e'. split; [exact E|].
  destruct (C70_board _ _ _ (c70_board 1) _ _ _ _ R0 (le_n 6) (V _) B N E) as (_ & _ & _ & _ & s & F & _).
  destruct (fid_new c' e' 2 (c70_board 2)) as [[[[id2 u2] c2] e2]|] eqn:E2; [exists s, id2, u2, c2, e2; split; [exact F|reflexivity]|].
  exfalso. unfold fid_new, new_tracker_id in E2. cbn [fp_var c70_board length Nat.leb guard bind] in E2.
  unfold RegisterFiducial in E2. cbn [fp_id c70_board] in F. change (f_id (fid_state_of (c70_board 2))) with 4 in E2. rewrite F in E2. discriminate.
Qed.
