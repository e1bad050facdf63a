(** Rates of the quantities an inertial sensor's measurement depends on, and
    what the written Jacobians leave out. *)
From Coq Require Import Reals.
From Verif Require Import Base.Mat Base.Geom Base.AMap Model.TypeHelper Model.Types Model.MathHelper Model.Ekf Model.ImuUpdater
  Spec.Deriv.
Open Scope R_scope.

(** The filter's entry for an inertial sensor. *)
Definition imu_of (e : ekf) (id : nat) : ImuState := mget default_imu id (s_imu (e_state e)).
(** The orientation [q] is turned from the right at rate [d], as a correction
    turns it. *)
Definition turned_at (q : R -> quat) (d : V3) : Prop :=
  qnorm2 (q 0) = 1 /\ exists k r, vnorm2 k = 1 /\ vscale r k = d /\
    forall t, q t = qmul (q 0) (angle_axis_quat (r * t) k).
(** The entries of [x] that a sensor's calibration uses, zero otherwise. *)
Definition if_on (b : bool) (x : nat -> R) (i : nat) : V3 := if b then slice x i else v0.

(** [x] holds the rates of the state entries along the curve [c], as far as
    they matter to the sensor of [u]. *)
Definition imu_rates (u : imu_updater) (c : R -> ekf) (x : nat -> R) : Prop :=
  let s t := imu_of (c t) (iu_id u) in let b t := s_body (e_state (c t)) in
  vmoves (fun t => b_vel (b t)) (slice x 3) /\
  vmoves (fun t => b_acc (b t)) (slice x 6) /\
  turned_at (fun t => b_ang (b t)) (slice x 9) /\
  vmoves (fun t => b_ang_vel (b t)) (slice x 12) /\
  vmoves (fun t => b_ang_acc (b t)) (slice x 15) /\
  vmoves (fun t => i_pos (s t)) (if_on (iu_ext u) x (i_index_ext (s 0))) /\
  turned_at (fun t => i_ang (s t)) (if_on (iu_ext u) x (i_index_ext (s 0) + 3)) /\
  vmoves (fun t => i_acc_bias (s t)) (if_on (iu_int u) x (i_index_int (s 0))) /\
  vmoves (fun t => i_omg_bias (s t)) (if_on (iu_int u) x (i_index_int (s 0) + 3)).

(** The sensor's entries lie behind the body's and do not overlap. *)
Definition imu_apart (u : imu_updater) (s : ImuState) : Prop :=
  (iu_ext u = true -> (18 <= i_index_ext s)%nat) /\
  (iu_int u = true -> (18 <= i_index_int s)%nat) /\
  (iu_ext u = true -> iu_int u = true ->
     (i_index_ext s + 6 <= i_index_int s \/ i_index_int s + 6 <= i_index_ext s)%nat).

(** What the accelerometer rows leave out: [a] is taken to be turned by the
    body attitude, and the term [2 w x v] is forgotten. *)
Definition accel_gap (u : imu_updater) (e : ekf) (x : nat -> R) : V3 :=
  let s := imu_of e (iu_id u) in let b := s_body (e_state e) in
  let turned v := qrot (qinv (b_ang b)) v in
  let seen v := qrot (qinv (i_ang s)) v in
  let w := b_ang_vel b in let v := b_vel b in
  vadd (seen (vadd (vsub (slice x 6) (turned (slice x 6)))
                   (vscale 2 (vadd (vcross (slice x 12) v) (vcross w (slice x 3))))))
       (vcross (seen (vadd (vsub (b_acc b) (turned (b_acc b))) (vscale 2 (vcross w v))))
               (if_on (iu_ext u) x (i_index_ext s + 3))).

(** What the gyroscope rows leave out: the body attitude. *)
Definition gyro_gap (u : imu_updater) (e : ekf) (x : nat -> R) : V3 :=
  let s := imu_of e (iu_id u) in let b := s_body (e_state e) in
  qrot (qinv (i_ang s)) (vcross (qrot (qinv (b_ang b)) (b_ang_vel b)) (slice x 9)).

(** What the stationary rows get wrong, [g] being the direction of gravity
    in the sensor frame: the turn of the body is not turned into the sensor
    frame but through the transposed quaternion Jacobian, and the turn of the
    sensor is looked for among the entries of its position. *)
Definition rest_gap (u : imu_updater) (e : ekf) (x : nat -> R) : V3 :=
  let s := imu_of e (iu_id u) in let b := s_body (e_state e) in
  let g := qrot (qinv (i_ang s)) (qrot (qinv (b_ang b)) g_gravity) in
  vcross g (vadd (vsub (mat_vec (mtrans (QuaternionJacobian (b_ang b))) (slice x 9))
                       (qrot (qinv (i_ang s)) (slice x 9)))
                 (vsub (if_on (iu_ext u) x (i_index_ext s)) (if_on (iu_ext u) x (i_index_ext s + 3)))).
