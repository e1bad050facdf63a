(** /repo/src/ekf/update/fiducial_updater.hpp and fiducial_updater.cpp.  The
    log rows are modelled in [Model.LogRows]. *)
From Coq Require Import Reals List Arith Bool.
From Verif Require Import Base.Res Base.Mat Base.RDec Base.Geom Base.AMap Base.RMat
  Model.TypeHelper Model.Types Model.MathHelper Model.Matrix3 Model.Ekf Model.Updater Model.ImuUpdater.
Import ListNotations.
Open Scope R_scope.

(** types.hpp 303-312 *)
Record BoardDetection : Type := mkBoard {
  bd_pos : V3; bd_ang : quat; bd_pos_error : V3; bd_ang_error : V3 }.

(** fiducial_updater.hpp 86-96.  The stored poses are uninitialised before
    the first use ([fu_poses = None]). *)
Record fid_updater : Type := mkFU {
  fu_id : nat; fu_cam : nat; fu_ext : bool; fu_cam_ext : bool; fu_first : bool;
  fu_poses : option (V3 * quat * V3 * quat) }.

(** fiducial_updater.cpp 33-71 *)
Definition fid_updater_init (id cam : nat) (ext cam_ext : bool) : fid_updater :=
  mkFU id cam ext cam_ext true None.

(** [fid_states[id]]: a missing entry would be inserted with an
    uninitialised pose. *)
Definition fid_at (e : ekf) (id : nat) : res FidState :=
  match mfind id (s_fid (e_state e)) with Some s => OK s | None => UB end.

(** fiducial_updater.cpp 73-82: camera pose, then board pose. *)
Definition fid_RefreshStates (u : fid_updater) (e : ekf) : res (V3 * quat * V3 * quat * fid_updater * ekf) :=
  if negb (p_fej (e_par e)) || fu_first u then
    let '(c, e) := GetCamState e (fu_cam u) in
    let* f := fid_at e (fu_id u) in
    let poses := (c_pos c, c_ang c, f_pos f, f_ang f) in
    OK (poses, mkFU (fu_id u) (fu_cam u) (fu_ext u) (fu_cam_ext u) false (Some poses), e)
  else
    match fu_poses u with
    | Some poses => OK (poses, u, e)
    | None => UB
    end.

(** fiducial_updater.cpp 84-127 *)
Definition fid_GetMeasurementJacobian (u : fid_updater) (e : ekf) : res (mat R * fid_updater * ekf) :=
  let* (poses, u, e) := fid_RefreshStates u e in
  let '(pos_c, ang_c, pos_f, ang_f) := poses in
  let pos_b := b_pos (s_body (e_state e)) in
  let ang_b := b_ang (s_body (e_state e)) in
  let rot_b_to_c := m3tr (qmat ang_c) in
  let rot_f_to_l := qmat ang_f in
  let rot_l_to_b := m3tr (qmat ang_b) in
  let rot_l_to_c := m3mul rot_b_to_c rot_l_to_b in
  let qj_b := m3tr (QuaternionJacobian ang_b) in
  let qj_c := m3tr (QuaternionJacobian ang_c) in
  let j := mzero g_fid_measurement_size (e_size e) in
  let* j := set_block j 0 0 3 3 (m3neg rot_l_to_c) in
  let* j := set_block j 0 9 3 3 (m3mul (m3mul rot_l_to_c (SkewSymmetric (vsub pos_f pos_b))) qj_b) in
  let* j := set_block j 3 9 3 3 (m3mul (m3mul (m3neg rot_l_to_c) rot_f_to_l) qj_b) in
  let* (j, e) := (if fu_cam_ext u then
      let '(c, e) := GetCamState e (fu_cam u) in
      let ix := c_index c in
      let* j := set_block j 0 (ix + 0) 3 3 (m3neg rot_b_to_c) in
      let* j := set_block j 0 (ix + 3) 3 3
        (m3mul (m3mul rot_b_to_c
                  (SkewSymmetric (vsub (mat_vec rot_l_to_b (vsub pos_f pos_b)) pos_c))) qj_c) in
      let* j := set_block j 3 (ix + 3) 3 3
        (m3mul (m3mul (m3mul (m3neg rot_b_to_c) qj_c) rot_l_to_b) rot_f_to_l) in
      OK (j, e)
    else OK (j, e)) in
  let* j := (if fu_ext u then
      let* f := fid_at e (fu_id u) in
      let* j := set_block j 0 (f_index f + 0) 3 3 m3id in
      set_block j 3 (f_index f + 3) 3 3 m3id
    else OK j) in
  OK (j, u, e).

(** fiducial_updater.cpp 129-148: predicted position and rotation vector.
    [mat_quat] stands for Eigen's conversion of a rotation matrix to a
    quaternion. *)
Definition fid_PredictMeasurement (mat_quat : mat R -> quat) (u : fid_updater) (e : ekf)
  : res (V3 * V3 * fid_updater * ekf) :=
  let* (poses, u, e) := fid_RefreshStates u e in
  let '(pos_c, ang_c, pos_f, ang_f) := poses in
  let pos_b := b_pos (s_body (e_state e)) in
  let rot_b_to_c := m3tr (qmat ang_c) in
  let rot_l_to_b := m3tr (qmat (b_ang (s_body (e_state e)))) in
  let ang_l_to_c := mat_quat (m3mul rot_b_to_c rot_l_to_b) in
  let pos_f_in_b := mat_vec rot_l_to_b (vsub pos_f pos_b) in
  OK (mat_vec rot_b_to_c (vsub pos_f_in_b pos_c), QuatToRotVec (qmul ang_l_to_c ang_f), u, e).

(** [pos_error.asDiagonal(), ang_error.asDiagonal()], lines 178-180 *)
Definition board_noise (b : BoardDetection) : res (mat R) :=
  let* n := set_block (mzero g_fid_measurement_size g_fid_measurement_size) 0 0 3 3 (mdiag (v3mat (bd_pos_error b))) in
  set_block n 3 3 3 3 (mdiag (v3mat (bd_ang_error b))).

(** fiducial_updater.cpp 150-218 *)
Definition fid_UpdateEKF (mat_quat : mat R -> quat) (u : fid_updater) (e : ekf) (time : R)
  (b : BoardDetection) : res (fid_updater * ekf) :=
  let '(local_time, e) := CalculateLocalTime e time in
  let* e := PredictModel e local_time in
  let* (pos_pred, ang_pred, u, e) := fid_PredictMeasurement mat_quat u e in
  let resid := stack2 (vsub (bd_pos b) pos_pred)
                      (QuatToRotVec (qmul (RotVecToQuat ang_pred) (qinv (bd_ang b)))) in
  let* (jac, u, e) := fid_GetMeasurementJacobian u e in
  let* noise := board_noise b in
  let* e := KalmanUpdate e jac resid noise in
  OK (u, e).
