(** C59: A late measurement is applied as if it were fresh. *)
From Coq Require Import Reals List Arith Bool Lia Lra ZArith.
From Verif Require Import Base.Res Base.Mat Base.LinAlg Base.Geom Base.AMap Base.RDec Base.RMat
  Model.TypeHelper Model.Types Model.MathHelper Model.Ekf Model.Ops Model.ImuUpdater Model.GpsUpdater
  Model.FiducialUpdater Model.MsckfUpdater Model.Sensors
  Spec.History Spec.Contract Spec.Late Proofs.Late Proofs.LateDemo.
Import ListNotations.
Open Scope R_scope.

(** How late a measurement is makes no difference to anything. *)
Theorem C59_message : forall svd hull ecef_to_lla mat_quat solve w m t t',
  late (w_ekf w) t -> late (w_ekf w) t' -> ~ collected (w_ekf w) m ->
  wstep svd hull ecef_to_lla mat_quat solve w (EMsg (stamped m t)) = wstep svd hull ecef_to_lla mat_quat solve w (EMsg (stamped m t')).
Proof. exact late_message. Qed.
Print Assumptions C59_message.

Theorem C59_image : forall svd hull ecef_to_lla mat_quat solve w id t t' image seen board,
  late (w_ekf w) t -> late (w_ekf w) t' ->
  wstep svd hull ecef_to_lla mat_quat solve w (EImage id t image seen board) =
  wstep svd hull ecef_to_lla mat_quat solve w (EImage id t' image seen board).
Proof. exact late_image. Qed.
Print Assumptions C59_image.

(** The only IMU of a moving body: an old measurement replaces the newer
    acceleration and rates; time and covariance stay. *)
Theorem C59_overwrites : forall u e s t acc A omg W, late e t -> iu_moved u = true -> length (s_imu (e_state e)) = 1%nat ->
  mfind (iu_id u) (s_imu (e_state e)) = Some s ->
  exists e', imu_UpdateEKF u e t acc A omg W = OK (u, e') /\ e_time e' = e_time e /\ e_cov e' = e_cov e /\
    let turn := qrot (qmul (b_ang (s_body (e_state e))) (i_ang s)) in
    b_acc (s_body (e_state e')) = turn (vsub acc (i_acc_bias s)) /\
    b_ang_vel (s_body (e_state e')) = turn (vsub omg (i_omg_bias s)) /\ b_ang_acc (s_body (e_state e')) = v0.
Proof. exact late_overwrites. Qed.
Print Assumptions C59_overwrites.

(** It is not ignored. *)
Theorem C59_ignored_refuted : exists e u s t acc A omg W e', reachable e /\ late e t /\ iu_moved u = true /\
  length (s_imu (e_state e)) = 1%nat /\ mfind (iu_id u) (s_imu (e_state e)) = Some s /\
  imu_UpdateEKF u e t acc A omg W = OK (u, e') /\ b_acc (s_body (e_state e')) <> b_acc (s_body (e_state e)).
Proof. exact late_ignored_refuted. Qed.
Print Assumptions C59_ignored_refuted.

(** A filter with one IMU that has been told the stamp 5 first. *)
Example C59_hypotheses : reachable told /\ late told 3 /\ late told (-7) /\
  ~ collected told (MImu 1 3 v0 (mzero 3 3) v0 (mzero 3 3)).
Proof.
  split; [exact told_reachable|]. split; [exact told_late|]. split.
  - destruct told_late as [A B]. split; [exact A|lra].
  - intros [].
Qed.
