(** What the stationary test should compute: the normalised squared distance
    between an IMU measurement and the one a body at rest would cause. *)
From Coq Require Import Reals List Arith Bool.
From Verif Require Import Base.Res Base.Mat Base.LinAlg Base.Inverse Base.Geom Base.AMap
  Model.TypeHelper Model.Types Model.Ekf Model.ImuUpdater Spec.KF Spec.Named.
Import ListNotations.
Open Scope R_scope.

(** Expected minus measured: gravity in the IMU frame and the gyroscope bias. *)
Definition rest_residual (body : quat) (s : ImuState) (acc omg : V3) (i : nat) : R :=
  if Nat.ltb i 3
  then - vget (vsub (vsub acc (i_acc_bias s)) (qrot (qmul (qinv (i_ang s)) (qinv body)) g_gravity)) i
  else - vget (vsub omg (i_omg_bias s)) (i - 3).

(** Accelerometer and gyroscope noise, uncorrelated. *)
Definition imu_noise_block (A W : mat R) : fmat := fun i j =>
  if Nat.ltb i 3 then (if Nat.ltb j 3 then ent A i j else 0)
  else (if Nat.ltb j 3 then 0 else ent W (i - 3)%nat (j - 3)%nat).

(** [x] is the score of a measurement for the IMU: the residual weighted by
    the inverse of [H P H^T + scale N], [H] being the Jacobian of the
    updater.  The gyroscope takes part only when the IMU calibrates its
    biases. *)
Definition stationary_score (u : imu_updater) (e : ekf) (acc : V3) (A : mat R) (omg : V3) (W : mat R) (x : R) : Prop :=
  exists s H e1 Si, mfind (iu_id u) (s_imu (e_state e)) = Some s /\
    GetZeroAccelerationJacobian u e = OK (H, e1) /\
    (let m := if iu_int u then 6%nat else 3%nat in
     is_inv m (innov (e_size e) (ent (e_cov e)) (ent H) (mscal (p_imu_scale (e_par e)) (imu_noise_block A W))) Si /\
     x = Rabs (qf m Si (rest_residual (b_ang (s_body (e_state e))) s acc omg))).

(** The same with the covariance that the filter stands for, which is not
    the stored matrix when a square root is stored. *)
Definition meant_score (u : imu_updater) (e : ekf) (acc : V3) (A : mat R) (omg : V3) (W : mat R) (x : R) : Prop :=
  exists s H e1 Si, mfind (iu_id u) (s_imu (e_state e)) = Some s /\
    GetZeroAccelerationJacobian u e = OK (H, e1) /\
    (let m := if iu_int u then 6%nat else 3%nat in
     is_inv m (innov (e_size e) (covariance e) (ent H) (mscal (p_imu_scale (e_par e)) (imu_noise_block A W))) Si /\
     x = Rabs (qf m Si (rest_residual (b_ang (s_body (e_state e))) s acc omg))).

(** The body after a zero-acceleration update: gravity is its only
    acceleration and it does not turn. *)
Definition at_rest (e : ekf) : Prop :=
  b_acc (s_body (e_state e)) = g_gravity /\ b_ang_vel (s_body (e_state e)) = v0 /\ b_ang_acc (s_body (e_state e)) = v0.
