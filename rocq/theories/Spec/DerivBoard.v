(** How the orientation a board is seen with changes, and what the written
    Jacobian makes of it. *)
From Coq Require Import Reals.
From Verif Require Import Base.Mat Base.Geom Base.AMap Model.TypeHelper Model.Types Model.MathHelper Model.Ekf Model.FiducialUpdater
  Spec.Deriv Spec.DerivImu Spec.Towards.
Open Scope R_scope.

(** How far the measured orientation [meas] is turned away from the predicted
    rotation vector [ang]: the orientation part of the residual, with the sign
    of "measured minus predicted" turned into "shown by the estimate". *)
Definition turn_shown (ang : V3) (meas : quat) : V3 := vopp (QuatToRotVec (qmul (RotVecToQuat ang) (qinv meas))).

(** [x] holds the rates at which body, camera and board are turned along the
    curve [c]; what is not calibrated is not turned. *)
Definition board_rates (u : fid_updater) (c : R -> ekf) (k : R -> CamState) (f : R -> FidState) (x : nat -> R) : Prop :=
  turned_at (fun t => b_ang (s_body (e_state (c t)))) (slice x 9) /\
  turned_at (fun t => c_ang (k t)) (if_on (fu_cam_ext u) x (c_index (k 0) + 3)) /\
  turned_at (fun t => f_ang (f t)) (if_on (fu_ext u) x (f_index (f 0) + 3)).

(** The entries of camera and board lie behind the body's and do not overlap. *)
Definition board_apart (u : fid_updater) (k : CamState) (f : FidState) : Prop :=
  (fu_cam_ext u = true -> (18 <= c_index k)%nat) /\
  (fu_ext u = true -> (18 <= f_index f)%nat) /\
  (fu_cam_ext u = true -> fu_ext u = true -> (c_index k + 6 <= f_index f \/ f_index f + 6 <= c_index k)%nat).

(** What the rows get wrong about a turn [d] of the body, of the camera, of the
    board. *)
Definition body_turn_gap (e : ekf) (k : CamState) (f : FidState) (d : V3) : V3 :=
  let qb := b_ang (s_body (e_state e)) in
  qrot (qinv (c_ang k)) (vadd d (qrot (qinv qb) (qrot (f_ang f) (mat_vec (mtrans (QuaternionJacobian qb)) d)))).
Definition cam_turn_gap (e : ekf) (k : CamState) (f : FidState) (d : V3) : V3 :=
  let qb := b_ang (s_body (e_state e)) in
  vadd d (qrot (qinv (c_ang k)) (mat_vec (mtrans (QuaternionJacobian (c_ang k))) (qrot (qinv qb) (qrot (f_ang f) d)))).
Definition board_turn_gap (e : ekf) (k : CamState) (f : FidState) (d : V3) : V3 :=
  vopp (vadd d (qrot (board_turn e k f) d)).
Definition turn_gap (u : fid_updater) (e : ekf) (k : CamState) (f : FidState) (x : nat -> R) : V3 :=
  vadd (body_turn_gap e k f (slice x 9))
    (vadd (cam_turn_gap e k f (if_on (fu_cam_ext u) x (c_index k + 3)))
          (board_turn_gap e k f (if_on (fu_ext u) x (f_index f + 3)))).

(** The board is seen at an angle that the conversion to a rotation vector and
    back keeps. *)
Definition seen_turned (e : ekf) (k : CamState) (f : FidState) : Prop := 1 / 1000000000 < vnorm (QuatToRotVec (board_turn e k f)).
(** The filter with only the attitude replaced. *)
Definition with_attitude (e : ekf) (q : quat) : ekf :=
  let b := s_body (e_state e) in
  with_state e (state_with_body (e_state e) (mkBody (b_pos b) (b_vel b) (b_acc b) q (b_ang_vel b) (b_ang_acc b) (b_index b))).
