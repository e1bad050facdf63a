(** /repo/src/utility/gps_helper.cpp, [ecef_to_lla]. *)
From Coq Require Import Reals Bool.
From Verif Require Import Base.Res Base.RDec Base.Geom Model.GpsHelper.
Open Scope R_scope.

(** [std::atan2]; with real numbers there is no negative zero. *)
Definition atan2 (y x : R) : R :=
  if Rltb 0 x then atan (y / x)
  else if Rltb x 0 then (if Rltb y 0 then atan (y / x) - PI else atan (y / x) + PI)
  else if Rltb 0 y then PI / 2 else if Rltb y 0 then - (PI / 2) else 0.

(** [std::sqrt], [pow(x, 1.0 / 3.0)] and [/] of doubles: what would be a NaN
    or an infinity is undefined. *)
Definition sqrt_of (x : R) : res R := if Rltb x 0 then UB else OK (sqrt x).
Definition third_root (x : R) : res R :=
  if Rltb x 0 then UB else OK (if Reqb x 0 then 0 else Rpower x (1 / 3)).
Definition quotient (x y : R) : res R := if Reqb y 0 then UB else OK (x / y).

(** gps_helper.cpp 26. *)
Definition g_wgs84_e : R := 818191908426214947083 / 10000000000000000000000.

(** gps_helper.cpp 110-148, with [g_wgs84_e] as the argument [e]: the root of
    the quartic after the correction. *)
Definition corrected_root (e m n : R) : res R :=
  let mpn := m + n in
  let p := (mpn - e ^ 4) / 6 in
  let G := m * n * e ^ 4 / 4 in
  let H := 2 * p * p * p + G in
  let* root := sqrt_of (H * G) in
  let* cube := third_root (H + G + 2 * root) in
  let* two := third_root 2 in
  let C := cube * (1 / two) in
  let i := - (e ^ 4 / 4) - 1 / 2 * mpn in
  let P := p * p in
  let* PC := quotient P C in
  let beta := i / 3 - C - PC in
  let k := e ^ 4 / 4 * (e ^ 4 / 4 - mpn) in
  let t1 := beta * beta - k in
  let* t2 := sqrt_of t1 in
  let t3 := t2 - 1 / 2 * (beta + i) in
  let* t4 := sqrt_of t3 in
  let t5 := Rabs (1 / 2 * (beta - i)) in
  let* t6 := sqrt_of t5 in
  let t7 := if Rltb m n then t6 else - t6 in
  let t := t4 + t7 in
  let j := e ^ 2 / 2 * (m - n) in
  let g := 2 * j in
  let tt := t * t in
  let ttt := tt * t in
  let tttt := tt * tt in
  let F := tttt + 2 * i * tt + g * t + k in
  let dFdt := 4 * ttt + 4 * i * t + g in
  let* dt := quotient (- F) dFdt in
  OK (t + dt).

(** gps_helper.cpp 100-166. *)
Definition ecef_to_lla_of (e : R) (ecef : V3) : res V3 :=
  let ecef_x := vx ecef in
  let ecef_y := vy ecef in
  let ecef_z := vz ecef in
  let ww := ecef_x * ecef_x + ecef_y * ecef_y in
  let m := ww / g_wgs84_a / g_wgs84_a in
  let n := ecef_z * ecef_z * ((1 - e ^ 2) / g_wgs84_a ^ 2) in
  let* t_dt := corrected_root e m n in
  let u := t_dt + e ^ 2 / 2 in
  let v := t_dt - e ^ 2 / 2 in
  let* w := sqrt_of ww in
  let zu := ecef_z * u in
  let wv := w * v in
  let lat := atan2 zu wv in
  let* inv_uv := quotient 1 (u * v) in
  let dw := w - wv * inv_uv in
  let dz := ecef_z - zu * (1 - e ^ 2) * inv_uv in
  let* da := sqrt_of (dw * dw + dz * dz) in
  let alt := if Rltb u 1 then - da else da in
  let lon := atan2 ecef_y ecef_x in
  OK (mkV3 (lat / g_deg_to_rad) (lon / g_deg_to_rad) alt).

Definition ecef_to_lla (ecef : V3) : res V3 := ecef_to_lla_of g_wgs84_e ecef.
