(** C54: The ROS node is the configured program, except where it reads memory nobody wrote. *)
From Coq Require Import Reals List Arith Bool Lia Lra ZArith String.
From Verif Require Import Base.Res Base.Mat Base.RDec Base.LinAlg Base.Geom Base.AMap Base.RMat
  Model.TypeHelper Model.Types Model.MathHelper Model.Ekf Model.Ops Model.Matrix3
  Model.ImuUpdater Model.GpsUpdater Model.FiducialUpdater Model.MsckfUpdater Model.Sensors Model.RosNode
  Spec.Layout Spec.Contract Spec.Noise Spec.Callback Spec.World Spec.Ids Spec.Stationary Spec.Ros
  Proofs.StationaryFinals Proofs.RosLoad Proofs.RosFinals Proofs.RosNoise Proofs.RosGps.
Import ListNotations.
Open Scope nat_scope.

(** A node that starts is the program with the configured filter and the
    configured sensors in the order IMUs, cameras, receivers; from then on
    every sequence of messages does to it what the messages, delivered to the
    sensor of the subscription they arrived at, do to that program. *)
Theorem C54_program : forall svd hull ecef_to_lla mat_quat solve asserts junk c n, ros_start asserts junk c = OK n ->
  exists p q pe a l w, filter_configured c p q pe a /\ (forall i, 9 <= i < 18 -> ent q i 0 = junk i) /\ built c l /\
    wrun svd hull ecef_to_lla mat_quat solve (world_init (EKF_init p q pe a)) l = OK w /\ same_program n w /\ subscribed c n /\
    forall evs, match node_run svd hull ecef_to_lla mat_quat solve n evs with
      | OK n' => exists w', wrun svd hull ecef_to_lla mat_quat solve w (flat_map (node_event c) evs) = OK w' /\ same_program n' w'
      | UB => wrun svd hull ecef_to_lla mat_quat solve w (flat_map (node_event c) evs) = UB
      end.
Proof. exact ros_program. Qed.
Print Assumptions C54_program.

(** Usable configuration, usable messages: what holds of all histories of
    the program holds of the node. *)
Theorem C54_lived : forall svd hull ecef_to_lla mat_quat solve asserts junk c n evs n', config_ok c ->
  (forall i, 9 <= i < 18 -> (0 <= junk i)%R) -> ros_start asserts junk c = OK n ->
  Forall (ros_event_ok (dflt true (rc_root c))) evs -> node_run svd hull ecef_to_lla mat_quat solve n evs = OK n' ->
  exists w, lived svd hull ecef_to_lla mat_quat solve w /\ same_program n' w.
Proof. exact ros_lived. Qed.
Print Assumptions C54_lived.

(** Without assertions a usable configuration starts; in covariance form and
    without fixes and feature tracks nothing is undefined afterwards. *)
Theorem C54_starts : forall junk c, config_ok c -> (forall i, 9 <= i < 18 -> (0 <= junk i)%R) ->
  exists n, ros_start false junk c = OK n.
Proof. exact (ros_starts svd0 hull0 lla0 mq0 solve0). Qed.
Print Assumptions C54_starts.

Theorem C54_defined : forall svd hull ecef_to_lla mat_quat solve junk c evs, config_ok c ->
  (forall i, 9 <= i < 18 -> (0 <= junk i)%R) ->
  dflt true (rc_root c) = false -> (0 < dflt 100 (rc_imu_scale c))%R ->
  Forall (fun v => ros_event_ok false v /\ ros_event_plain v) evs ->
  exists n n', ros_start false junk c = OK n /\ node_run svd hull ecef_to_lla mat_quat solve n evs = OK n'.
Proof. exact ros_defined. Qed.
Print Assumptions C54_defined.

(** With assertions only variances of three numbers pass: no IMU or camera
    is calibrated, no camera watches a board. *)
Theorem C54_assertions : forall junk c n, ros_start true junk c = OK n ->
  (forall x, In x (rc_imus c) -> List.length (dflt (repeat 1%R 12) (rwi_var (snd x))) = 3 /\
     dflt false (rwi_ext (snd x)) = false /\ dflt false (rwi_int (snd x)) = false) /\
  (forall x, In x (rc_cams c) -> List.length (dflt (repeat 1%R 6) (rwc_var (snd x))) = 3 /\
     dflt false (rwc_ext (snd x)) = false /\ dflt ""%string (rwc_fiducial (snd x)) = ""%string).
Proof. exact ros_asserts. Qed.
Print Assumptions C54_assertions.

(** Times compare as stamps do. *)
Theorem C54_stamps : forall a b, (0 <= st_nsec a < 1000000000)%Z -> (0 <= st_nsec b < 1000000000)%Z ->
  ((RosHeaderToTime a < RosHeaderToTime b)%R <-> earlier a b).
Proof. exact stamps_ordered. Qed.
Print Assumptions C54_stamps.

(** The configured initial pose has no effect. *)
Theorem C54_pose_ignored : forall asserts junk c p a, triad [0; 0; 0]%R (rc_pos_b_in_l c) -> List.length p = 3 ->
  ros_start asserts junk (placed c p a) = ros_start asserts junk c.
Proof. exact pose_ignored. Qed.
Print Assumptions C54_pose_ignored.

(** The window of clones keeps its default length, whatever the trackers are
    configured with, and the noise of the body what was loaded. *)
Theorem C54_window : forall svd hull ecef_to_lla mat_quat solve asserts junk c n evs n', config_ok c ->
  (forall i, 9 <= i < 18 -> (0 <= junk i)%R) -> ros_start asserts junk c = OK n ->
  Forall (ros_event_ok (dflt true (rc_root c))) evs -> node_run svd hull ecef_to_lla mat_quat solve n evs = OK n' ->
  e_max_len (nd_ekf n') = 20.
Proof.
  intros svd hull ecef mq solve asserts junk c n evs n' H1 H2 H3 H4 H5.
  exact (proj1 (ros_kept svd hull ecef mq solve asserts junk c n evs n' H1 H2 H3 H4 H5)).
Qed.
Print Assumptions C54_window.

(** In every history the process noise of the body is diagonal.  Position
    and velocity have the configured rates, the acceleration has the one
    configured for the orientation; orientation, angular rate and angular
    acceleration have what the memory held. *)
Theorem C54_noise : forall svd hull ecef_to_lla mat_quat solve asserts junk c n evs n', config_ok c ->
  (forall i, 9 <= i < 18 -> (0 <= junk i)%R) -> rc_imus c <> [] \/ rc_cams c <> [] \/ rc_gps c <> [] ->
  ros_start asserts junk c = OK n -> Forall (ros_event_ok (dflt true (rc_root c))) evs ->
  node_run svd hull ecef_to_lla mat_quat solve n evs = OK n' ->
  forall i j, i < 18 -> j < 18 -> ent (e_Q (nd_ekf n')) i j =
    if Nat.eqb i j then (if dflt true (rc_root c) then sqrt (rate_of junk c i) else rate_of junk c i) else 0%R.
Proof. exact ros_noise. Qed.
Print Assumptions C54_noise.

(** So the configuration does not determine the filter ... *)
Theorem C54_noise_refuted : exists c junk junk' n n', config_ok c /\ (forall i, (0 <= junk i)%R) /\ (forall i, (0 <= junk' i)%R) /\
  ros_start false junk c = OK n /\ ros_start false junk' c = OK n' /\ e_Q (nd_ekf n) <> e_Q (nd_ekf n').
Proof. exact noise_junk. Qed.
Print Assumptions C54_noise_refuted.

(** ... and a fix does not determine what the filter makes of it. *)
Theorem C54_fix_memory : forall svd hull ecef_to_lla mat_quat solve junk, (forall i, (0 <= junk i)%R) ->
  exists c n n1 n2 m N1 N2, config_ok c /\ ros_start false junk c = OK n /\
    ros_event_ok (dflt true (rc_root c)) (OnFix 0 m N1) /\ ros_event_ok (dflt true (rc_root c)) (OnFix 0 m N2) /\
    node_step svd hull ecef_to_lla mat_quat solve n (OnFix 0 m N1) = OK n1 /\
    node_step svd hull ecef_to_lla mat_quat solve n (OnFix 0 m N2) = OK n2 /\ e_cov (nd_ekf n1) <> e_cov (nd_ekf n2).
Proof. exact fix_junk. Qed.
Print Assumptions C54_fix_memory.

(** An IMU with default parameters, and a message for it. *)
Definition C54_msg : ros_event :=
  OnImu 0 (mkRosImu (mkStamp 5 0) (mkV3 0 0 10) (fun i => if (i mod 4 =? 0)%nat then 1%R else 0%R)
             (mkV3 0 0 0) (fun i => if (i mod 4 =? 0)%nat then 1%R else 0%R)).
Example C54_hypotheses : forall root, config_ok (imu_cfg root) /\ rc_imus (imu_cfg root) <> [] /\
  (0 < dflt 100 (rc_imu_scale (imu_cfg root)))%R /\ ros_event_ok false C54_msg /\ ros_event_plain C54_msg.
Proof.
  intros root. split; [apply imu_cfg_ok|]. split; [discriminate|]. split; [cbn; lra|]. split; [|exact Logic.I].
  assert (X : noise_ok false 3 (rows9 (fun i => if (i mod 4 =? 0)%nat then 1%R else 0%R))).
  { split; [reflexivity|]. split; [reflexivity|]. apply (spd_ext 3 idm); [|apply spd_idm]. intros i j Hi Hj.
    destruct i as [|[|[|]]]; [| | |lia]; (destruct j as [|[|[|]]]; [| | |lia]); reflexivity. }
  split; exact X.
Qed.
(** An IMU with three variances also passes the assertions. *)
Example C54_asserting : exists n, ros_start true (fun _ => 0%R)
  (mkRosConfig None None None None None None None None None None None None None None None None None (Some false) None
    [("imu"%string, mkRawImu (Some "imu/data"%string) None None (Some [1; 1; 1]%R) None None None None None None None None)] [] [] [] []) = OK n.
Proof. eexists. reflexivity. Qed.
