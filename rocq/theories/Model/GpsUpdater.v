(** /repo/src/ekf/update/gps_updater.hpp and gps_updater.cpp, and the full
    [EKF::AttemptGpsInitialization].  The log rows are modelled in
    [Model.LogRows].  Parameters: [svd] (Eigen's JacobiSVD), [hull]
    (cv::convexHull), [ecef_to_lla] (gps_helper.cpp 100-166). *)
From Coq Require Import Reals List Arith Bool.
From Verif Require Import Base.Res Base.Mat Base.RDec Base.Geom Base.AMap Base.RMat
  Model.TypeHelper Model.Types Model.MathHelper Model.Matrix3 Model.GpsHelper Model.Ekf Model.Updater.
Import ListNotations.
Open Scope R_scope.

Section Gps.
Variable svd : m2 -> m2 * m2.
Variable hull : list (Z * Z) -> list (Z * Z).
Variable ecef_to_lla : V3 -> V3.

(** gps_helper.cpp 168-173 *)
Definition enu_to_lla (enu ref_lla : V3) : res V3 :=
  let* p := enu_to_ecef enu ref_lla in OK (ecef_to_lla p).

(** ekf.cpp 768-797: what [AttemptGpsInitialization] sets, given all samples.
    An angular deviation that [kabsch_2d] left unassigned must not be read. *)
Definition gps_align (p : params) (xyz ecef : list V3) : res (option (V3 * R)) :=
  let* init_ref_ecef := average_vectors ecef in
  let init_ref_lla := ecef_to_lla init_ref_ecef in
  let* enu := mapM (fun x => ecef_to_enu x init_ref_lla) ecef in
  let* k := kabsch_2d svd xyz enu in
  let* go :=
    match p_gps_init p with
    | GConstant => OK false
    | GBaseline => OK (Rltb (p_gps_baseline p) (maximum_distance hull enu))
    | GError =>
        match k with
        | None => OK false
        | Some (_, pos_stddev, ang_stddev) =>
            if Rltb pos_stddev (p_gps_pos_thresh p) then
              match ang_stddev with
              | None => UB
              | Some a => OK (negb (Reqb a 0) && Rltb a (tan (p_gps_ang_thresh p)))
              end
            else OK false
        end
    end in
  if go then
    match k with
    | None => UB
    | Some (transformation, _, _) =>
        let* pos_e_in_g := enu_to_lla (vopp (af_tr transformation)) init_ref_lla in
        let* ang_l_to_e := affine_angle transformation in
        OK (Some (pos_e_in_g, ang_l_to_e))
    end
  else OK None.

(** ekf.cpp 759-800 *)
Definition AttemptGps (e : ekf) (time : R) (gps_lla : V3) : res ekf :=
  let* ecef := lla_to_ecef gps_lla in
  let* r := (if Nat.leb 4 (length (e_gps_time e ++ [time]))
             then gps_align (e_par e) (e_gps_xyz e ++ [b_pos (s_body (e_state e))]) (e_gps_ecef e ++ [ecef])
             else OK None) in
  OK (AttemptGpsInitialization (fun _ => ecef) (fun _ _ => r) e time gps_lla).

(** gps_updater.hpp 84-88 *)
Record gps_updater : Type := mkGU { gu_id : nat; gu_ext : bool; gu_first : bool; gu_pos : V3 }.
(** gps_updater.cpp 33-57 *)
Definition gps_updater_init (id : nat) (ext : bool) : gps_updater := mkGU id ext true v0.

(** gps_updater.cpp 61-64, 82-85 *)
Definition gps_refresh (u : gps_updater) (e : ekf) : gps_updater * ekf :=
  if negb (p_fej (e_par e)) || gu_first u then
    let '(s, e) := GetGpsState e (gu_id u) in (mkGU (gu_id u) (gu_ext u) false (g_pos s), e)
  else (u, e).

(** gps_updater.cpp 59-78 *)
Definition gps_GetMeasurementJacobian (u : gps_updater) (e : ekf) : res (mat R * gps_updater * ekf) :=
  let '(u, e) := gps_refresh u e in
  let ang_b_to_l := b_ang (s_body (e_state e)) in
  let j := mzero 3 (e_size e) in
  let* j := set_block j 0 0 3 3 m3id in
  let* j := set_block j 0 9 3 3
    (m3mul (m3mul (m3neg (qmat ang_b_to_l)) (SkewSymmetric (gu_pos u))) (QuaternionJacobian ang_b_to_l)) in
  if gu_ext u then
    let '(s, e) := GetGpsState e (gu_id u) in
    let* j := set_block j 0 (g_index s) 3 3 (qmat ang_b_to_l) in
    OK (j, u, e)
  else OK (j, u, e).

(** gps_updater.cpp 80-88 *)
Definition gps_PredictMeasurement (u : gps_updater) (e : ekf) : V3 * gps_updater * ekf :=
  let '(u, e) := gps_refresh u e in
  let b := s_body (e_state e) in
  (vadd (b_pos b) (qrot (b_ang b) (gu_pos u)), u, e).

(** gps_updater.cpp 162-168: rows [i], [i + 1], ... of the stacked update. *)
Fixpoint multi_rows (u : gps_updater) (e : ekf) (ref : V3) (heading : R) (ecef xyz : list V3) (i : nat)
  (jac resid : mat R) : res (mat R * mat R * gps_updater * ekf) :=
  match ecef, xyz with
  | [], _ => OK (jac, resid, u, e)
  | p :: ecef', x :: xyz' =>
      let* gps_enu := ecef_to_enu p ref in
      let gps_local := enu_to_local gps_enu heading in
      let* (j, u, e) := gps_GetMeasurementJacobian u e in
      let* jac := set_block jac (3 * i) 0 3 (e_size e) j in
      let* resid := set_block resid (3 * i) 0 3 1 (v3mat (vsub gps_local x)) in
      multi_rows u e ref heading ecef' xyz' (S i) jac resid
  | _ :: _, [] => UB
  end.

(** gps_updater.cpp 150-183 *)
Definition MultiUpdateEKF (u : gps_updater) (e : ekf) : res (gps_updater * ekf) :=
  let n := (3 * length (e_gps_time e))%nat in
  let* (jac, resid, u, e) := multi_rows u e (e_pos_e_in_g e) (e_ang_l_to_e e) (e_gps_ecef e) (e_gps_xyz e)
                               0 (mzero n (e_size e)) (mzero n 1) in
  let* (jac, resid) := CompressMeasurements jac resid in
  if Nat.leb (nr resid) 1 then OK (u, e)
  else
    let* e := KalmanUpdate e jac resid (midm (nr resid) (nr resid)) in
    OK (u, e).

(** gps_updater.cpp 90-148 *)
Definition gps_UpdateEKF (u : gps_updater) (e : ekf) (time : R) (gps_lla : V3) (pos_cov : mat R)
  : res (gps_updater * ekf) :=
  let '(local_time, e) := CalculateLocalTime e time in
  let* e := PredictModel e local_time in
  let heading := e_ang_l_to_e e in
  if negb (e_lla_init e) then
    let* e := AttemptGps e local_time gps_lla in
    if e_lla_init e then MultiUpdateEKF u e else OK (u, e)
  else
    let* gps_enu := lla_to_enu gps_lla (e_pos_e_in_g e) in
    let pos_a_in_l := enu_to_local gps_enu heading in
    let '(hat, u, e) := gps_PredictMeasurement u e in
    let residual := v3mat (vsub pos_a_in_l hat) in
    let* (jac, u, e) := gps_GetMeasurementJacobian u e in
    let* e := KalmanUpdate e jac residual pos_cov in
    OK (u, e).
End Gps.
