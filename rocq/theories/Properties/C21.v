(** C21: One-way switches stay on, and GPS needs four samples. *)
From Coq Require Import Reals List Arith Bool Lia Lra Sorted ZArith.
From Verif Require Import Base.Res Base.Mat Base.LinAlg Base.Geom Base.AMap
  Model.TypeHelper Model.Types Model.MathHelperMat Model.Ekf Model.Updater Model.Ops
  Spec.Layout Spec.History Spec.Contract Spec.Correct Spec.Named Spec.Same Spec.KF Spec.Motion Spec.Surgery
  Proofs.MatSurgery Proofs.Invariant Proofs.Demo Proofs.DemoFilter Proofs.Named Proofs.Same Proofs.Update
  Proofs.Sizes Proofs.RegRefute Proofs.Clock Proofs.Effects Proofs.Windows Proofs.Pruning Proofs.CloneFacts Proofs.Finals
  Model.GpsHelper Model.MathHelper Model.ImuUpdater Model.Sensors Spec.Callback Spec.World Proofs.StationaryFinals.
Import ListNotations.
Open Scope nat_scope.

Theorem C21_latches : forall e l e', reachable e -> respects e l -> run e l = OK e' ->
  (e_gravity e = true -> e_gravity e' = true) /\ (e_lla_init e = true -> e_lla_init e' = true).
Proof. exact run_latch. Qed.
Print Assumptions C21_latches.

Theorem C21_four_samples : forall p q pe a l e, noise_arg q -> respects (EKF_init p q pe a) l ->
  run (EKF_init p q pe a) l = OK e ->
  e_gps_time e = gps_times l /\
  (p_gps_init p <> GConstant -> Forall not_set_gps l -> e_lla_init e = true -> 4 <= length (gps_times l)).
Proof. exact four_samples. Qed.
Print Assumptions C21_four_samples.

(** Motion detected by an IMU stays detected through any sequence of
    callbacks, constructors and configuration calls. *)
Theorem C21_motion : forall svd hull ecef_to_lla mat_quat solve w l w' id u,
  lived svd hull ecef_to_lla mat_quat solve w -> events_ok svd hull ecef_to_lla mat_quat solve w l ->
  wrun svd hull ecef_to_lla mat_quat solve w l = OK w' ->
  (e_gravity (w_ekf w) = true -> e_gravity (w_ekf w') = true) /\
  (mfind id (w_sensors w) = Some (SImu u) -> iu_moved u = true ->
   exists u', mfind id (w_sensors w') = Some (SImu u') /\ iu_moved u' = true).
Proof. exact motion_latch. Qed.
Print Assumptions C21_motion.

Example C21_moved : forall svd hull ecef_to_lla mat_quat solve, exists w i u,
  lived svd hull ecef_to_lla mat_quat solve w /\ mfind i (w_sensors w) = Some (SImu u) /\ iu_moved u = true.
Proof.
  intros svd hull ecef mq solve. destruct (other_imu svd hull ecef mq solve) as (w & i & v & w' & u & H1 & _ & _ & H2 & H3 & _).
  exists w, i, u. auto.
Qed.
Example C21_hypotheses : reachable (InitializeGravity (demo0 AAll false)) /\ e_gravity (InitializeGravity (demo0 AAll false)) = true /\
  respects (demo0 AAll false) [OGpsSample (fun x => x) (fun _ _ => None) 1 v0] /\
  p_gps_init (demo_par AAll false) <> GConstant.
Proof.
  split. { apply (reachable_step (demo0 AAll false) OInitGravity); [apply demo0_reachable|exact I|reflexivity]. }
  split; [reflexivity|]. split; [repeat split|discriminate].
Qed.
