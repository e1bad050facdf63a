(** /repo/src/utility/gps_helper.cpp.  [ecef_to_lla] (lines 100-166) is in
    Model/Geodetic.v. *)
From Coq Require Import Reals List Bool.
From Verif Require Import Base.Res Base.Mat Base.RDec Base.Geom Model.MathHelper.
Import ListNotations.
Open Scope R_scope.

(** gps_helper.cpp 24-27. *)
Definition g_wgs84_a : R := 6378137.
Definition g_wgs84_f : R := 335281066474748071998 / 100000000000000000000000.
Definition g_deg_to_rad : R := PI / 180.

(** gps_helper.cpp 29-50.  Out of range the function returns an
    uninitialised vector. *)
Definition lla_to_ecef (lla : V3) : res V3 :=
  if Rltb (vx lla) (-90) || Rltb 90 (vx lla) || Rltb (vy lla) (-180) || Rltb 180 (vy lla) then UB
  else
    let NAV_E2 := (2 - g_wgs84_f) * g_wgs84_f in
    let sin_lat := sin (vx lla * g_deg_to_rad) in
    let cos_lat := cos (vx lla * g_deg_to_rad) in
    let r_n := g_wgs84_a / sqrt (1 - NAV_E2 * sin_lat * sin_lat) in
    OK (mkV3 ((r_n + vz lla) * cos_lat * cos (vy lla * g_deg_to_rad))
             ((r_n + vz lla) * cos_lat * sin (vy lla * g_deg_to_rad))
             ((r_n * (1 - NAV_E2) + vz lla) * sin_lat)).

(** The matrix of gps_helper.cpp 59-68. *)
Definition enu_rot (ref_lla : V3) : mat R :=
  let lat := vx ref_lla * g_deg_to_rad in
  let lon := vy ref_lla * g_deg_to_rad in
  of_list 0 3 3 [[- sin lon; cos lon; 0];
                 [- cos lon * sin lat; - sin lon * sin lat; cos lat];
                 [cos lon * cos lat; sin lon * cos lat; sin lat]].

(** gps_helper.cpp 52-73. *)
Definition ecef_to_enu (in_ecef ref_lla : V3) : res V3 :=
  let* ref_ecef := lla_to_ecef ref_lla in
  OK (mat_vec (enu_rot ref_lla) (vsub in_ecef ref_ecef)).

(** The matrix of gps_helper.cpp 78-87. *)
Definition ecef_rot (ref_lla : V3) : mat R :=
  let lat := vx ref_lla * g_deg_to_rad in
  let lon := vy ref_lla * g_deg_to_rad in
  of_list 0 3 3 [[- sin lon; - cos lon * sin lat; cos lon * cos lat];
                 [cos lon; - sin lon * sin lat; sin lon * cos lat];
                 [0; cos lat; sin lat]].

(** gps_helper.cpp 75-91. *)
Definition enu_to_ecef (in_enu ref_lla : V3) : res V3 :=
  let* ref_ecef := lla_to_ecef ref_lla in
  OK (vadd ref_ecef (mat_vec (ecef_rot ref_lla) in_enu)).

(** gps_helper.cpp 93-98. *)
Definition lla_to_enu (point_lla ref_lla : V3) : res V3 :=
  let* point_ecef := lla_to_ecef point_lla in ecef_to_enu point_ecef ref_lla.

(** gps_helper.cpp 175-183. *)
Definition local_to_enu (l : V3) (ang_l_to_e : R) : V3 :=
  mkV3 (cos ang_l_to_e * vx l + sin ang_l_to_e * vy l)
       (- sin ang_l_to_e * vx l + cos ang_l_to_e * vy l) (vz l).

(** gps_helper.cpp 185-193. *)
Definition enu_to_local (e : V3) (ang_l_to_e : R) : V3 :=
  mkV3 (cos ang_l_to_e * vx e - sin ang_l_to_e * vy e)
       (sin ang_l_to_e * vx e + cos ang_l_to_e * vy e) (vz e).

(** gps_helper.cpp 195-198. *)
Definition wgs84_m_to_deg (meters : R) : R := meters / (g_wgs84_a * g_deg_to_rad).
