(** C41: Stationary detection state machine. *)
From Coq Require Import Reals List Arith Bool Lia Lra ZArith.
From Verif Require Import Base.Res Base.Mat Base.LinAlg Base.Geom Base.AMap Base.RDec
  Model.TypeHelper Model.Types Model.MathHelper Model.GpsHelper Model.Ekf Model.Updater Model.Ops
  Model.ImuUpdater Model.GpsUpdater Model.FiducialUpdater Model.MsckfUpdater Model.Sensors
  Spec.Layout Spec.History Spec.Contract Spec.Callback Spec.World Spec.Stationary Spec.Named
  Proofs.Demo Proofs.World Proofs.Ids Proofs.WorldFinals Proofs.Stationary Proofs.StationaryFinals Proofs.RootScore.
Import ListNotations.
Open Scope nat_scope.

(** What one measurement does. *)
Theorem C41_measurement : forall svd hull ecef_to_lla mat_quat solve w id t acc A omg W u w',
  lived svd hull ecef_to_lla mat_quat solve w -> noise_ok (p_root (e_par (w_ekf w))) 3 A -> noise_ok (p_root (e_par (w_ekf w))) 3 W ->
  mfind id (w_sensors w) = Some (SImu u) ->
  wstep svd hull ecef_to_lla mat_quat solve w (EMsg (MImu id t acc A omg W)) = OK w' ->
  exists u', mfind id (w_sensors w') = Some (SImu u') /\
    (iu_moved u = true -> iu_moved u' = true /\ e_zero_acc (w_ekf w') = false /\ e_gravity (w_ekf w') = e_gravity (w_ekf w)) /\
    (iu_moved u = false -> exists x, stationary_score u (w_ekf w) acc A omg W x /\
       ((p_chi2 (e_par (w_ekf w)) < x)%R /\ e_gravity (w_ekf w) = true ->
          iu_moved u' = true /\ e_zero_acc (w_ekf w') = false /\ e_gravity (w_ekf w') = true) /\
       (~ ((p_chi2 (e_par (w_ekf w)) < x)%R /\ e_gravity (w_ekf w) = true) ->
          iu_moved u' = false /\ e_zero_acc (w_ekf w') = true /\ at_rest (w_ekf w') /\
          (e_gravity (w_ekf w') = true <-> e_gravity (w_ekf w) = true \/ (x < p_chi2 (e_par (w_ekf w)))%R))).
Proof. exact measurement_machine. Qed.
Print Assumptions C41_measurement.

(** Gravity is initialised by a measurement that scores below the threshold
    (or by the caller) and stays initialised. *)
Theorem C41_gravity : forall svd hull ecef_to_lla mat_quat solve w v w',
  lived svd hull ecef_to_lla mat_quat solve w -> event_ok w v -> wstep svd hull ecef_to_lla mat_quat solve w v = OK w' ->
  (e_gravity (w_ekf w) = true -> e_gravity (w_ekf w') = true) /\
  (e_gravity (w_ekf w) = false -> e_gravity (w_ekf w') = true ->
   v = EConf OInitGravity \/
   exists id t acc A omg W u x, v = EMsg (MImu id t acc A omg W) /\ mfind id (w_sensors w) = Some (SImu u) /\
     iu_moved u = false /\ stationary_score u (w_ekf w) acc A omg W x /\ (x < p_chi2 (e_par (w_ekf w)))%R /\
     e_zero_acc (w_ekf w') = true /\ at_rest (w_ekf w')).
Proof. exact gravity_only. Qed.
Print Assumptions C41_gravity.

(** Once an IMU has detected motion no later measurement of it is taken for
    rest, whatever happens in between. *)
Theorem C41_never_again : forall svd hull ecef_to_lla mat_quat solve w l w1 w2 id t acc A omg W u,
  lived svd hull ecef_to_lla mat_quat solve w -> mfind id (w_sensors w) = Some (SImu u) -> iu_moved u = true ->
  events_ok svd hull ecef_to_lla mat_quat solve w l -> wrun svd hull ecef_to_lla mat_quat solve w l = OK w1 ->
  noise_ok (p_root (e_par (w_ekf w1))) 3 A -> noise_ok (p_root (e_par (w_ekf w1))) 3 W ->
  wstep svd hull ecef_to_lla mat_quat solve w1 (EMsg (MImu id t acc A omg W)) = OK w2 ->
  e_zero_acc (w_ekf w2) = false.
Proof. exact never_again. Qed.
Print Assumptions C41_never_again.

(** Of another IMU one may be: the switch belongs to the updater of one
    IMU. *)
Theorem C41_other_imu_refuted : forall svd hull ecef_to_lla mat_quat solve, exists w i v w' u,
  lived svd hull ecef_to_lla mat_quat solve w /\ event_ok w v /\
  wstep svd hull ecef_to_lla mat_quat solve w v = OK w' /\
  mfind i (w_sensors w) = Some (SImu u) /\ iu_moved u = true /\ e_gravity (w_ekf w) = true /\
  e_zero_acc (w_ekf w') = true /\ at_rest (w_ekf w').
Proof. exact other_imu. Qed.
Print Assumptions C41_other_imu_refuted.

(** The score weighs the residual with the covariance of the filter, when
    the covariance itself is what is stored. *)
Theorem C41_score : forall u e acc A omg W x, p_root (e_par e) = false ->
  (stationary_score u e acc A omg W x <-> meant_score u e acc A omg W x).
Proof. exact plain_score. Qed.
Print Assumptions C41_score.

(** In square-root form it does not: the root itself is used.  A motion above
    the threshold can score below it, and is then taken for rest whenever it
    arrives: it is not latched and the body rates are set to zero. *)
Theorem C41_root_score_refuted : forall svd hull ecef_to_lla mat_quat solve, exists w u acc A omg W x y,
  lived svd hull ecef_to_lla mat_quat solve w /\ p_root (e_par (w_ekf w)) = true /\
  mfind 1 (w_sensors w) = Some (SImu u) /\ iu_moved u = false /\ e_gravity (w_ekf w) = true /\
  noise_ok true 3 A /\ noise_ok true 3 W /\
  stationary_score u (w_ekf w) acc A omg W x /\ meant_score u (w_ekf w) acc A omg W y /\
  (x < p_chi2 (e_par (w_ekf w)) < y)%R /\
  forall t, exists w', wstep svd hull ecef_to_lla mat_quat solve w (EMsg (MImu 1 t acc A omg W)) = OK w' /\
    mfind 1 (w_sensors w') = Some (SImu u) /\ e_zero_acc (w_ekf w') = true /\ at_rest (w_ekf w').
Proof. exact root_motion. Qed.
Print Assumptions C41_root_score_refuted.

(** Or the other way round, when the root exceeds one: a measurement well
    below the threshold is latched as motion, after which the IMU is never
    again found at rest. *)
Theorem C41_root_alarm_refuted : forall svd hull ecef_to_lla mat_quat solve, exists w u acc A omg W x y,
  lived svd hull ecef_to_lla mat_quat solve w /\ p_root (e_par (w_ekf w)) = true /\
  mfind 1 (w_sensors w) = Some (SImu u) /\ iu_moved u = false /\ e_gravity (w_ekf w) = true /\
  noise_ok true 3 A /\ noise_ok true 3 W /\
  stationary_score u (w_ekf w) acc A omg W x /\ meant_score u (w_ekf w) acc A omg W y /\
  (y < p_chi2 (e_par (w_ekf w)) < x)%R /\
  forall t, exists w' u', wstep svd hull ecef_to_lla mat_quat solve w (EMsg (MImu 1 t acc A omg W)) = OK w' /\
    mfind 1 (w_sensors w') = Some (SImu u') /\ iu_moved u' = true /\ e_zero_acc (w_ekf w') = false.
Proof. exact root_alarm. Qed.
Print Assumptions C41_root_alarm_refuted.

(** Or there is no score at all: a root may have negative entries, and then
    the matrix to be inverted can be singular although the covariance is
    positive definite. *)
Theorem C41_root_singular_refuted : exists e u A W, reachable e /\ p_root (e_par e) = true /\
  has_imu e (iu_id u) (iu_ext u) (iu_int u) /\ iu_moved u = false /\ (0 < p_imu_scale (e_par e))%R /\
  noise_ok true 3 A /\ noise_ok true 3 W /\
  spd (e_size e) (covariance e) /\
  forall t acc omg, imu_UpdateEKF u e t acc A omg W = UB.
Proof. exact root_singular. Qed.
Print Assumptions C41_root_singular_refuted.

(** Two IMUs, both at rest so far, and known gravity; a measurement large
    enough is recognised as motion. *)
Example C41_hypotheses : forall svd hull ecef_to_lla mat_quat solve a, exists w,
  lived svd hull ecef_to_lla mat_quat solve w /\ e_par (w_ekf w) = demo_par a false /\ e_gravity (w_ekf w) = true /\
  (exists u, mfind 1 (w_sensors w) = Some (SImu u) /\ iu_moved u = false) /\
  (exists u, mfind 2 (w_sensors w) = Some (SImu u) /\ iu_moved u = false).
Proof. exact pair_world. Qed.
Example C41_moved : forall svd hull ecef_to_lla mat_quat solve, exists w i u,
  lived svd hull ecef_to_lla mat_quat solve w /\ mfind i (w_sensors w) = Some (SImu u) /\ iu_moved u = true.
Proof.
  intros svd hull ecef mq solve. destruct (other_imu svd hull ecef mq solve) as (w & i & v & w' & u & H1 & _ & _ & H2 & H3 & _).
  exists w, i, u. auto.
Qed.
