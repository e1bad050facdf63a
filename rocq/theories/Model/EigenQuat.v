(** Eigen's conversion of a 3 x 3 matrix to a quaternion, as used by
    /repo/src/ekf/update/fiducial_updater.cpp 138
    ([Eigen::Quaterniond ang_l_to_c(rot_b_to_c * rot_l_to_b)]): Shepperd's method, Eigen/src/Geometry/Quaternion.h
    ([quaternionbase_assign_impl<Other,3,3>]). *)
From Coq Require Import Reals.
From Verif Require Import Base.Mat Base.RDec Base.Geom.
Open Scope R_scope.

Definition eigen_mat_quat (m : mat R) : quat :=
  let a := ent m in
  let tr := a 0%nat 0%nat + a 1%nat 1%nat + a 2%nat 2%nat in
  if Rltb 0 tr then
    let t := sqrt (tr + 1) in
    let s := / 2 / t in
    mkQ (/ 2 * t) ((a 2%nat 1%nat - a 1%nat 2%nat) * s) ((a 0%nat 2%nat - a 2%nat 0%nat) * s) ((a 1%nat 0%nat - a 0%nat 1%nat) * s)
  else
    let i := if Rltb (a 0%nat 0%nat) (a 1%nat 1%nat) then 1%nat else 0%nat in
    let i := if Rltb (a i i) (a 2%nat 2%nat) then 2%nat else i in
    let j := Nat.modulo (S i) 3 in
    let k := Nat.modulo (S j) 3 in
    let t := sqrt (a i i - a j j - a k k + 1) in
    let s := / 2 / t in
    let vi := / 2 * t in
    let vj := (a j i + a i j) * s in
    let vk := (a k i + a i k) * s in
    let w := (a k j - a j k) * s in
    match i with
    | 0%nat => mkQ w vi vj vk
    | 1%nat => mkQ w vk vi vj
    | _ => mkQ w vj vk vi
    end.
