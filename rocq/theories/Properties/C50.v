(** C50: Sensor callbacks bring the filter to the time of the measurement and keep it well formed. *)
From Coq Require Import Reals List Arith Bool Lia Lra ZArith Sorted Permutation.
From Verif Require Import Base.Res Base.Mat Base.LinAlg Base.Geom Base.AMap Base.RDec
  Model.TypeHelper Model.Types Model.MathHelper Model.GpsHelper Model.Ekf Model.Updater Model.Ops
  Model.ImuUpdater Model.GpsUpdater Model.FiducialUpdater Model.MsckfUpdater Model.Sensors Model.Simulation
  Spec.Layout Spec.History Spec.Contract Spec.Callback Spec.World Spec.Ids Spec.Replay
  Proofs.Demo Proofs.World Proofs.Ids Proofs.Sim Proofs.WorldFinals.
Import ListNotations.
Open Scope nat_scope.

Theorem C50_history : forall svd hull ecef_to_lla mat_quat solve p q pe a l w, noise_arg q ->
  events_ok svd hull ecef_to_lla mat_quat solve (world_init (EKF_init p q pe a)) l ->
  wrun svd hull ecef_to_lla mat_quat solve (world_init (EKF_init p q pe a)) l = OK w ->
  (nr (e_cov (w_ekf w)) = e_size (w_ekf w) /\ nc (e_cov (w_ekf w)) = e_size (w_ekf w) /\
   nr (e_Q (w_ekf w)) = e_size (w_ekf w) /\ nc (e_Q (w_ekf w)) = e_size (w_ekf w) /\
   e_size (w_ekf w) = count_states (e_state (w_ekf w))) /\
  index_fields_correct (e_state (w_ekf w)) /\ NoDup (layout (e_state (w_ekf w))) /\
  length (layout (e_state (w_ekf w))) = e_size (w_ekf w).
Proof. exact callback_history. Qed.
Print Assumptions C50_history.

Theorem C50_message : forall svd hull ecef_to_lla mat_quat solve p q pe a l w m w', noise_arg q ->
  events_ok svd hull ecef_to_lla mat_quat solve (world_init (EKF_init p q pe a)) l ->
  wrun svd hull ecef_to_lla mat_quat solve (world_init (EKF_init p q pe a)) l = OK w ->
  message_ok (p_root (e_par (w_ekf w))) m ->
  wstep svd hull ecef_to_lla mat_quat solve w (EMsg m) = OK w' ->
  (addressed w m -> brought (w_ekf w) (msg_time m) (w_ekf w') /\ follows (w_ekf w) (w_ekf w')) /\
  (~ addressed w m -> w' = w).
Proof. exact callback_message. Qed.
Print Assumptions C50_message.

Theorem C50_image : forall svd hull ecef_to_lla mat_quat solve p q pe a l w id trs fids t image seen board w', noise_arg q ->
  events_ok svd hull ecef_to_lla mat_quat solve (world_init (EKF_init p q pe a)) l ->
  wrun svd hull ecef_to_lla mat_quat solve (world_init (EKF_init p q pe a)) l = OK w ->
  mfind id (w_sensors w) = Some (SCam trs fids) ->
  (forall k d, board k = Some d -> errors_positive d) ->
  wstep svd hull ecef_to_lla mat_quat solve w (EImage id t image seen board) = OK w' ->
  if image && negb (Nat.eqb (length trs + length fids) 0)
  then brought (w_ekf w) t (w_ekf w') /\ follows (w_ekf w) (w_ekf w') /\ n_frames (w_cnt w') = S (n_frames (w_cnt w))
  else w_ekf w' = w_ekf w /\ w_cnt w' = w_cnt w.
Proof. exact callback_image. Qed.
Print Assumptions C50_image.

(** Without GPS fixes and feature tracks nothing is undefined (covariance
    form). *)
Theorem C50_defined : forall svd hull ecef_to_lla mat_quat solve p q pe a l, noise_arg q ->
  p_root p = false -> (0 < p_imu_scale p)%R ->
  events_ok svd hull ecef_to_lla mat_quat solve (world_init (EKF_init p q pe a)) l ->
  events_plain svd hull ecef_to_lla mat_quat solve (world_init (EKF_init p q pe a)) l ->
  exists w, wrun svd hull ecef_to_lla mat_quat solve (world_init (EKF_init p q pe a)) l = OK w.
Proof. exact callback_total. Qed.
Print Assumptions C50_defined.

(** An IMU, a camera with a feature tracker and a board; two camera
    callbacks with detections and an IMU measurement. *)
Example C50_hypotheses : forall svd hull ecef mq solve a root,
  noise_arg demo_noise /\ events_ok svd hull ecef mq solve (world_init (demo0 a root)) ex_events /\
  events_plain svd hull ecef mq solve (world_init (demo0 a root)) ex_events /\ (0 < p_imu_scale (demo_par a root))%R.
Proof.
  intros. split; [apply demo_noise_arg|]. split; [apply ex_ok|]. split; [apply ex_plain|]. cbn. lra.
Qed.
