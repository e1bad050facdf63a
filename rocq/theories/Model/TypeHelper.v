(** /repo/src/utility/type_helper.cpp and the constants of
    /repo/src/ekf/constants.hpp. *)
From Coq Require Import Reals List.
From Verif Require Import Base.Res Base.Mat Base.RDec Base.Geom.
Import ListNotations.
Open Scope R_scope.

(** ekf/constants.hpp *)
Definition g_body_state_size : nat := 18.
Definition g_imu_extrinsic_state_size : nat := 6.
Definition g_imu_intrinsic_state_size : nat := 6.
Definition g_gps_extrinsic_state_size : nat := 3.
Definition g_cam_extrinsic_state_size : nat := 6.
Definition g_aug_state_size : nat := 6.
Definition g_fid_extrinsic_state_size : nat := 6.
Definition g_fid_measurement_size : nat := 6.
Definition g_gravity : V3 := mkV3 0 0 (980665 / 100000).

(** type_helper.cpp 28-36.  The assert makes any other size undefined. *)
Definition StdToEigVec (l : list R) : res V3 :=
  match l with [a; b; c] => OK (mkV3 a b c) | _ => UB end.

(** type_helper.cpp 38-47. *)
Definition StdToEigQuat (l : list R) : quat :=
  match l with [a; b; c; d] => qnormalize (mkQ a b c d) | _ => qid end.

(** type_helper.cpp 49-61. *)
Definition RotVecToQuat (v : V3) : quat :=
  let angle := vnorm v in
  if Rltb (1 / 1000000000) angle then angle_axis_quat angle (vdiv v (vnorm v)) else qid.

(** type_helper.cpp 63-68. *)
Definition QuatToRotVec (q : quat) : V3 :=
  let '(angle, axis) := quat_angle_axis q in
  mkV3 (vx axis * angle) (vy axis * angle) (vz axis * angle).

(** type_helper.cpp 70-77 (yaw * pitch * roll). *)
Definition EigVecToQuat (e : V3) : quat :=
  qmul (qmul (angle_axis_quat (vz e) (mkV3 0 0 1)) (angle_axis_quat (vy e) (mkV3 0 1 0)))
       (angle_axis_quat (vx e) (mkV3 1 0 0)).

(** type_helper.cpp 124-133. *)
Definition vectors_minus (l : list V3) (v : V3) : list V3 := map (fun x => vsub x v) l.
