(** /repo/src/ekf/update/imu_updater.hpp and imu_updater.cpp.  The log rows
    are modelled in [Model.LogRows]; execution timing is omitted.
    [AngularUpdate] (394-425) is never called and not modelled. *)
From Coq Require Import Reals List Arith Bool.
From Verif Require Import Base.Res Base.Mat Base.RDec Base.Geom Base.AMap Base.RMat
  Model.TypeHelper Model.Types Model.MathHelper Model.Matrix3 Model.Ekf Model.Updater.
Import ListNotations.
Open Scope R_scope.

(** imu_updater.hpp 117-124; the other members are loggers or unused. *)
Record imu_updater : Type := mkIU { iu_id : nat; iu_ext : bool; iu_int : bool; iu_moved : bool }.

(** imu_updater.cpp 33-64 *)
Definition imu_updater_init (id : nat) (ext int : bool) : imu_updater := mkIU id ext int false.

(** [VectorXd] of two stacked [Vector3d]. *)
Definition stack2 (a b : V3) : mat R :=
  mkmat 6 1 (fun i _ => if Nat.ltb i 3 then vget a i else vget b (i - 3)).

(** imu_updater.cpp 156-183 *)
Definition GetZeroAccelerationJacobian (u : imu_updater) (e : ekf) : res (mat R * ekf) :=
  let '(s, e) := GetImuState e (iu_id u) in
  let meas_size := if iu_int u then 6%nat else 3%nat in
  let j := mzero meas_size (e_size e) in
  let ang_b_to_l := b_ang (s_body (e_state e)) in
  let sk := m3neg (SkewSymmetric (qrot (qmul (qinv (i_ang s)) (qinv ang_b_to_l)) g_gravity)) in
  let* j := set_block j 0 9 3 3 (m3mul sk (m3tr (QuaternionJacobian ang_b_to_l))) in
  let* j := (if iu_ext u then set_block j 0 (i_index_ext s) 3 3 sk else OK j) in
  let* j := (if iu_int u then
               let* j := set_block j 0 (i_index_int s + 0) 3 3 (m3neg m3id) in
               set_block j 3 (i_index_int s + 3) 3 3 (m3neg m3id)
             else OK j) in
  OK (j, e).

(** imu_updater.cpp 207-211 *)
Definition zero_noise (u : imu_updater) (acc_cov omg_cov : mat R) : res (mat R) :=
  let meas_size := if iu_int u then 6%nat else 3%nat in
  let n := mzero meas_size meas_size in
  let* n := set_block n 0 0 3 3 acc_cov in
  if iu_int u then set_block n 3 3 3 3 omg_cov else OK n.

(** imu_updater.cpp 213-222 *)
Definition zero_resid (u : imu_updater) (e : ekf) (s : ImuState) (acc omg : V3) : mat R :=
  let ang_b_to_l := b_ang (s_body (e_state e)) in
  let r0 := vopp (vsub (vsub acc (i_acc_bias s))
                       (qrot (qmul (qinv (i_ang s)) (qinv ang_b_to_l)) g_gravity)) in
  if iu_int u then stack2 r0 (vopp (vsub omg (i_omg_bias s))) else v3mat r0.

(** imu_updater.cpp 223-227: |r^T (H m_cov H^T + scale R)^-1 r|.  [m_cov] is
    used as it is stored, also in square-root form. *)
Definition zero_score (e : ekf) (jac noise resid : mat R) : res R :=
  let* a := mulc jac (e_cov e) in
  let* a := mulc a (mtrans jac) in
  let* a := addc a (mscale (p_imu_scale (e_par e)) noise) in
  let* a := invc a in
  let* r := mulc (mtrans resid) a in
  let* r := mulc r resid in
  OK (Rabs (ent r 0 0)).

(** imu_updater.cpp 185-303: was the update applied, the updater and the
    filter. *)
Definition ZeroAccelerationUpdate (u : imu_updater) (e : ekf) (local_time : R) (acc : V3)
  (acc_cov : mat R) (omg : V3) (omg_cov : mat R) : res (bool * imu_updater * ekf) :=
  if iu_moved u then OK (false, u, e)
  else
    let '(s, e) := GetImuState e (iu_id u) in
    let* (jac, e) := GetZeroAccelerationJacobian u e in
    let* noise := zero_noise u acc_cov omg_cov in
    let resid := zero_resid u e s acc omg in
    let* score := zero_score e jac noise resid in
    if Rltb (p_chi2 (e_par e)) score && e_gravity e
    then OK (false, mkIU (iu_id u) (iu_ext u) (iu_int u) true, e)
    else
      let e := if Rltb score (p_chi2 (e_par e)) then InitializeGravity e else e in
      let* e := PredictModel e local_time in
      let* (jac, e) := GetZeroAccelerationJacobian u e in
      let* e := KalmanUpdate e jac resid noise in
      OK (true, u, SetBodyRates e g_gravity v0 v0).

(** imu_updater.cpp 306-331 *)
Definition imu_PredictMeasurement (u : imu_updater) (e : ekf) : mat R * ekf :=
  let '(s, e) := GetImuState e (iu_id u) in
  let b := s_body (e_state e) in
  let imu_acc_b :=
    vadd (vadd (vadd (b_acc b) (vcross (b_ang_acc b) (i_pos s)))
               (vcross (b_ang_vel b) (vcross (b_ang_vel b) (i_pos s))))
         (vscale 2 (vcross (b_ang_vel b) (b_vel b))) in
  let imu_omg_b := qrot (qinv (b_ang b)) (b_ang_vel b) in
  (stack2 (vadd (i_acc_bias s) (qrot (qinv (i_ang s)) imu_acc_b))
          (vadd (i_omg_bias s) (qrot (qinv (i_ang s)) imu_omg_b)), e).

(** imu_updater.cpp 333-392 *)
Definition imu_GetMeasurementJacobian (u : imu_updater) (e : ekf) : res (mat R * ekf) :=
  let '(s, e) := GetImuState e (iu_id u) in
  let b := s_body (e_state e) in
  let w := b_ang_vel b in
  let p := i_pos s in
  let rot_i := qmat_inv (i_ang s) in
  let rot_b := qmat_inv (b_ang b) in
  let j := mzero 6 (e_size e) in
  let* j := set_block j 0 6 3 3 (m3mul rot_i rot_b) in
  let* j := set_block j 0 12 3 3
    (m3mul rot_i (m3add (m3mul (SkewSymmetric w) (m3tr (SkewSymmetric p)))
                        (m3tr (SkewSymmetric (vcross w p))))) in
  let* j := set_block j 0 15 3 3 (m3mul (m3neg rot_i) (SkewSymmetric p)) in
  let* j := set_block j 3 12 3 3 (m3mul rot_i rot_b) in
  let* j := (if iu_ext u then
      let ix := i_index_ext s in
      let* j := set_block j 0 (ix + 0) 3 3
        (m3mul rot_i (m3add (SkewSymmetric (b_ang_acc b)) (m3mul (SkewSymmetric w) (SkewSymmetric w)))) in
      let* j := set_block j 0 (ix + 3) 3 3
        (SkewSymmetric (qrot (qinv (i_ang s))
          (vadd (vadd (vcross (b_ang_acc b) p) (vcross w (vcross w p)))
                (qrot (qinv (b_ang b)) (b_acc b))))) in
      set_block j 3 (ix + 3) 3 3 (SkewSymmetric (qrot (qmul (qinv (i_ang s)) (qinv (b_ang b))) w))
    else OK j) in
  let* j := (if iu_int u then
      let ix := i_index_int s in
      let* j := set_block j 0 (ix + 0) 3 3 m3id in
      set_block j 3 (ix + 3) 3 3 m3id
    else OK j) in
  OK (j, e).

(** imu_updater.cpp 112-117 *)
Definition imu_noise (acc_cov omg_cov : mat R) : res (mat R) :=
  let* n := set_block (mzero 6 6) 0 0 3 3 acc_cov in
  set_block n 3 3 3 3 omg_cov.

(** imu_updater.cpp 66-154 *)
Definition imu_UpdateEKF (u : imu_updater) (e : ekf) (time : R) (acc : V3) (acc_cov : mat R)
  (omg : V3) (omg_cov : mat R) : res (imu_updater * ekf) :=
  let '(local_time, e) := CalculateLocalTime e time in
  let* (applied, u, e) := ZeroAccelerationUpdate u e local_time acc acc_cov omg omg_cov in
  if applied then OK (u, SetZeroAcceleration e true)
  else
    let e := SetZeroAcceleration e false in
    let '(s, e) := GetImuState e (iu_id u) in
    let* e :=
      (if Nat.eqb (length (s_imu (e_state e))) 1 then
         let rot := qmul (b_ang (s_body (e_state e))) (i_ang s) in
         OK (SetBodyRates e (qrot rot (vsub acc (i_acc_bias s))) (qrot rot (vsub omg (i_omg_bias s))) v0)
       else
         let '(pred, e) := imu_PredictMeasurement u e in
         let* resid := subc (stack2 acc omg) pred in
         let* (jac, e) := imu_GetMeasurementJacobian u e in
         let* noise := imu_noise acc_cov omg_cov in
         KalmanUpdate e jac resid noise) in
    let* e := PredictModel e local_time in
    OK (u, e).
