(** What a measurement does to the estimates. *)
From Coq Require Import Reals List Arith.
From Verif Require Import Base.Res Base.Mat Base.LinAlg Base.Geom Base.AMap Model.TypeHelper Model.Types Model.GpsHelper Model.MathHelper Model.Ekf
  Model.GpsUpdater Model.ImuUpdater Spec.Rotation Spec.Layout Spec.Correct Spec.KF Spec.Contract Spec.Named.
Import ListNotations.
Open Scope R_scope.

(** The noise an update works with: in square-root form the entries of the
    matrix are taken for squares. *)
Definition noise_meant (e : ekf) (m : nat) (N : mat R) : fmat :=
  if p_root (e_par e) then gram m (fun i j => sqrt (ent N i j)) else ent N.

Definition column (y : mat R) : nat -> R := fun i => ent y i 0%nat.

(** The estimates of [e'] are those of [e], moved by what the Kalman gain for
    the Jacobian [H] and the noise [N] makes of the residual [y]. *)
Definition moved_by (e : ekf) (H y N d : mat R) (e' : ekf) : Prop :=
  nr d = e_size e /\ nc d = 1%nat /\ e_state e' = correct d (e_state e) /\
  exists K, is_gain (e_size e) (nr H) (covariance e) (ent H) (noise_meant e (nr H) N) K /\
    forall i, (i < e_size e)%nat -> column d i = mv (nr H) K (column y) i.

(** What of the residual is left, to first order, when the estimates are
    moved by [d], weighed with [M], the inverse of the noise. *)
Definition misfit (n : nat) (H y : mat R) (M : fmat) (d : nat -> R) : R :=
  qf (nr H) M (fun i => column y i - mv n (ent H) d i).

(** The antenna, as the filter sees it. *)
Definition antenna (e : ekf) (id : nat) : V3 :=
  vadd (b_pos (s_body (e_state e)))
       (qrot (b_ang (s_body (e_state e))) (g_pos (mget default_gps id (s_gps (e_state e))))).

(** Rows [k], [k+1], ... of a stack of fixes: every fix is compared with the
    place where the body was when it came in. *)
Definition stacked (e : ekf) (j : mat R) (H y : mat R) : Prop :=
  nr H = (3 * length (e_gps_time e))%nat /\ nr y = nr H /\ nc H = e_size e /\ nc y = 1%nat /\
  forall i p x, nth_error (e_gps_ecef e) i = Some p -> nth_error (e_gps_xyz e) i = Some x ->
    exists q, ecef_to_enu p (e_pos_e_in_g e) = OK q /\
      forall r, (r < 3)%nat ->
        column y (3 * i + r) = vget (enu_to_local q (e_ang_l_to_e e)) r - vget x r /\
        forall c, (c < e_size e)%nat -> ent H (3 * i + r) c = ent j r c.

(** Two measured vectors less two expected ones. *)
Definition difference (a b a' b' : V3) (y : mat R) : Prop :=
  nr y = 6%nat /\ nc y = 1%nat /\ forall r, (r < 3)%nat ->
    column y r = vget a r - vget a' r /\ column y (3 + r) = vget b r - vget b' r.

(** What an IMU reads, as the filter sees it: accelerometer and gyroscope.
    The acceleration of the body is taken as it stands, not turned into the
    body frame; twice the cross product of rate and velocity is added. *)
Definition accelerometer (e : ekf) (s : ImuState) : V3 :=
  let b := s_body (e_state e) in
  vadd (i_acc_bias s) (qrot (qinv (i_ang s))
    (vadd (vadd (vadd (b_acc b) (vcross (b_ang_acc b) (i_pos s)))
                (vcross (b_ang_vel b) (vcross (b_ang_vel b) (i_pos s))))
          (vscale 2 (vcross (b_ang_vel b) (b_vel b))))).
Definition gyroscope (e : ekf) (s : ImuState) : V3 :=
  vadd (i_omg_bias s) (qrot (qinv (i_ang s)) (qrot (qinv (b_ang (s_body (e_state e)))) (b_ang_vel (s_body (e_state e))))).

(** The specific force of a body that stands still, in the IMU frame. *)
Definition standing (e : ekf) (s : ImuState) : V3 :=
  vadd (i_acc_bias s) (qrot (qmul (qinv (i_ang s)) (qinv (b_ang (s_body (e_state e))))) g_gravity).

(** Where the filter expects a board, in the camera frame, and how it is
    turned there. *)
Definition board_place (e : ekf) (c : CamState) (f : FidState) : V3 :=
  let b := s_body (e_state e) in
  qrot (qinv (c_ang c)) (vsub (qrot (qinv (b_ang b)) (vsub (f_pos f) (b_pos b))) (c_pos c)).
Definition board_turn (e : ekf) (c : CamState) (f : FidState) : quat :=
  qmul (qmul (qinv (c_ang c)) (qinv (b_ang (s_body (e_state e))))) (f_ang f).

(** The angle between the orientation a board was measured with and the one
    expected. *)
Definition off_by (e : ekf) (c : CamState) (f : FidState) (q : quat) : R :=
  vnorm (QuatToRotVec (qmul (board_turn e c f) (qinv q))).

(** What the readings fall short of those of a body at rest. *)
Definition shortfall (gyro : bool) (e : ekf) (s : ImuState) (acc omg : V3) (y : mat R) : Prop :=
  nr y = (if gyro then 6%nat else 3%nat) /\ nc y = 1%nat /\ forall r, (r < 3)%nat ->
    column y r = vget (standing e s) r - vget acc r /\
    (gyro = true -> column y (3 + r) = vget (i_omg_bias s) r - vget omg r).

(** One quaternion of the two that stand for the same rotation. *)
Definition same_turn (p q : quat) : Prop := p = q \/ p = opposite q.
