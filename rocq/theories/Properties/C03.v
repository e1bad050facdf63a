(** C03: Adding a sensor does not disturb existing estimates. *)
From Coq Require Import Reals List Arith Bool Lia Lra Sorted.
From Verif Require Import Base.Res Base.Mat Base.LinAlg Base.Geom Base.AMap
  Model.TypeHelper Model.Types Model.MathHelperMat Model.Ekf Model.Updater Model.Ops
  Spec.Layout Spec.History Spec.Contract Spec.Correct Spec.Named Spec.Same Spec.KF Spec.Motion Spec.Surgery
  Proofs.MatSurgery Proofs.Invariant Proofs.Demo Proofs.DemoFilter Proofs.Named Proofs.Same Proofs.Update
  Proofs.Sizes Proofs.RegRefute Proofs.Clock Proofs.Effects Proofs.Windows Proofs.Pruning Proofs.CloneFacts Proofs.Finals.
Import ListNotations.
Open Scope nat_scope.

Theorem C03_register_imu : forall e id st c e', reachable e -> contract e (ORegImu id st c) ->
  below id (s_imu (e_state e)) -> RegisterIMU e id st c = OK e' ->
  adds e e' (imu_labels (id, st)) (stands_for (p_root (e_par e)) (length (imu_labels (id, st))) c).
Proof. exact (fun e id st c e' Hr => register_imu_named e id st c e' (reachable_inv e Hr)). Qed.
Print Assumptions C03_register_imu.

Theorem C03_register_gps : forall e id st c e', reachable e -> contract e (ORegGps id st c) ->
  below id (s_gps (e_state e)) -> RegisterGPS e id st c = OK e' ->
  adds e e' (gps_labels (id, st)) (stands_for (p_root (e_par e)) (length (gps_labels (id, st))) c).
Proof. exact (fun e id st c e' Hr => register_gps_named e id st c e' (reachable_inv e Hr)). Qed.
Print Assumptions C03_register_gps.

Theorem C03_register_cam : forall e id st c e', reachable e -> contract e (ORegCam id st c) ->
  below id (s_cam (e_state e)) -> RegisterCamera e id st c = OK e' ->
  adds e e' (cam_labels (id, st)) (stands_for (p_root (e_par e)) (length (cam_labels (id, st))) c).
Proof. exact (fun e id st c e' Hr => register_cam_named e id st c e' (reachable_inv e Hr)). Qed.
Print Assumptions C03_register_cam.

Theorem C03_register_fid : forall e st c e', reachable e -> contract e (ORegFid st c) ->
  below (f_id st) (s_fid (e_state e)) -> no_clones e -> RegisterFiducial e st c = OK e' ->
  adds e e' (fid_labels (f_id st, st)) (stands_for (p_root (e_par e)) (length (fid_labels (f_id st, st))) c).
Proof. exact (fun e st c e' Hr => register_fid_named e st c e' (reachable_inv e Hr)). Qed.
Print Assumptions C03_register_fid.

(** Each pair of scalars has one covariance, so [adds] pins the result down. *)
Theorem C03_covariance_functional : forall e a b v w, reachable e -> cov_is e a b v -> cov_is e a b w -> v = w.
Proof. exact (fun e a b v w Hr => cov_is_fun e a b v w (reachable_inv e Hr)). Qed.
Print Assumptions C03_covariance_functional.

(** Out of order: IMU 2 is known with variance 1/10, IMU 1 arrives with 1/5,
    and the two variances end up exchanged. *)
Theorem C03_out_of_order_refuted : exists e id st c e',
  reachable e /\ contract e (ORegImu id st c) /\ mfind id (s_imu (e_state e)) = None /\
  p_root (e_par e) = false /\ RegisterIMU e id st c = OK e' /\
  cov_is e (LImuExt 2 0) (LImuExt 2 0) (1 / 10)%R /\ ent c 0 0 = (1 / 5)%R /\ id = 1 /\
  cov_is e' (LImuExt 2 0) (LImuExt 2 0) (1 / 5)%R /\ cov_is e' (LImuExt 1 0) (LImuExt 1 0) (1 / 10)%R.
Proof. exact imu_order_refuted. Qed.
Print Assumptions C03_out_of_order_refuted.

(** A fiducial registered after a clone takes over the clone's rows. *)
Theorem C03_fiducial_after_clone_refuted : exists e st c e',
  reachable e /\ contract e (ORegFid st c) /\ mfind (f_id st) (s_fid (e_state e)) = None /\
  p_root (e_par e) = false /\ RegisterFiducial e st c = OK e' /\ ent c 0 0 = (1 / 10)%R /\
  cov_is e (LAug 2 0 0) (LAug 2 0 0) (1 / 100)%R /\ cov_is e (LAug 2 0 0) (LBody 0) (1 / 100)%R /\
  cov_is e' (LAug 2 0 0) (LAug 2 0 0) (1 / 10)%R /\ cov_is e' (LAug 2 0 0) (LBody 0) 0%R /\
  cov_is e' (LFid (f_id st) 0) (LFid (f_id st) 0) (1 / 100)%R /\
  cov_is e' (LFid (f_id st) 0) (LBody 0) (1 / 100)%R.
Proof. exact fid_after_clone_refuted. Qed.
Print Assumptions C03_fiducial_after_clone_refuted.

(** In square-root form the supplied covariance is stored as if it were a
    square root: variance 1/10 becomes 1/100. *)
Theorem C03_root_block_refuted : exists e id st c e',
  reachable e /\ contract e (ORegImu id st c) /\ mfind id (s_imu (e_state e)) = None /\
  p_root (e_par e) = true /\ RegisterIMU e id st c = OK e' /\ psd 12 (ent c) /\ ent c 0 0 = (1 / 10)%R /\
  cov_is e' (LImuExt id 0) (LImuExt id 0) (1 / 100)%R.
Proof. exact root_block_refuted. Qed.
Print Assumptions C03_root_block_refuted.

Example C03_hypotheses : exists st c, reachable (demo_e AAll false) /\ contract (demo_e AAll false) (ORegImu 2 st c) /\
  below 2 (s_imu (e_state (demo_e AAll false))) /\ length (imu_labels (2, st)) = 12 /\
  match RegisterIMU (demo_e AAll false) 2 st c with OK e' => e_size e' = 63 | UB => False end.
Proof.
  exists demo_imu, (demo_cov 12). split; [apply demo_e_reachable|]. split.
  { intros _. split; [reflexivity|]. split; [apply demo_cov_arg|]. cbn. pose proof e9_pos. auto. }
  split. { intros k Hk. rewrite demo_e_imus in Hk. destruct Hk as [<-|[]]. lia. }
  vm_compute. auto.
Qed.
Example C03_fid_hypotheses : exists st c, contract (demo0 AAll false) (ORegFid st c) /\
  below (f_id st) (s_fid (e_state (demo0 AAll false))) /\ no_clones (demo0 AAll false) /\
  match RegisterFiducial (demo0 AAll false) st c with OK e' => e_size e' = 24 | UB => False end.
Proof.
  exists demo_fid, (demo_cov 6). split.
  { intros _. split; [reflexivity|]. split; [apply demo_cov_arg|]. cbn. pose proof e9_pos. auto. }
  split. { intros k []. } split. { intros k l []. } vm_compute. reflexivity.
Qed.
