(** Three-vectors and quaternions with the semantics of [Eigen::Vector3d] and
    [Eigen::Quaterniond] (real arithmetic). *)
From Coq Require Import Reals Lra List.
From Verif Require Import Base.Res Base.Mat Base.RDec.
Open Scope R_scope.

Record V3 : Type := mkV3 { vx : R; vy : R; vz : R }.
Record quat : Type := mkQ { qw : R; qx : R; qy : R; qz : R }.

Definition v0 : V3 := mkV3 0 0 0.
Definition vadd (a b : V3) : V3 := mkV3 (vx a + vx b) (vy a + vy b) (vz a + vz b).
Definition vsub (a b : V3) : V3 := mkV3 (vx a - vx b) (vy a - vy b) (vz a - vz b).
Definition vopp (a : V3) : V3 := mkV3 (- vx a) (- vy a) (- vz a).
Definition vscale (k : R) (a : V3) : V3 := mkV3 (k * vx a) (k * vy a) (k * vz a).
Definition vdiv (a : V3) (k : R) : V3 := mkV3 (vx a / k) (vy a / k) (vz a / k).
Definition vdot (a b : V3) : R := vx a * vx b + vy a * vy b + vz a * vz b.
Definition vcross (a b : V3) : V3 :=
  mkV3 (vy a * vz b - vz a * vy b) (vz a * vx b - vx a * vz b) (vx a * vy b - vy a * vx b).
Definition vnorm2 (a : V3) : R := vdot a a.
Definition vnorm (a : V3) : R := sqrt (vnorm2 a).
Definition vget (a : V3) (i : nat) : R :=
  match i with O => vx a | S O => vy a | _ => vz a end.

Definition qid : quat := mkQ 1 0 0 0.

(** Eigen [operator*] (Hamilton product). *)
Definition qmul (a b : quat) : quat :=
  mkQ (qw a * qw b - qx a * qx b - qy a * qy b - qz a * qz b)
      (qw a * qx b + qx a * qw b + qy a * qz b - qz a * qy b)
      (qw a * qy b + qy a * qw b + qz a * qx b - qx a * qz b)
      (qw a * qz b + qz a * qw b + qx a * qy b - qy a * qx b).

Definition qnorm2 (q : quat) : R := qw q * qw q + qx q * qx q + qy q * qy q + qz q * qz q.
Definition qconj (q : quat) : quat := mkQ (qw q) (- qx q) (- qy q) (- qz q).

(** Eigen [QuaternionBase::inverse]: conjugate over squared norm, the zero
    quaternion if the norm is zero. *)
Definition qinv (q : quat) : quat :=
  let n2 := qnorm2 q in
  if Rltb 0 n2 then mkQ (qw q / n2) (- qx q / n2) (- qy q / n2) (- qz q / n2)
  else mkQ 0 0 0 0.

Definition qvec (q : quat) : V3 := mkV3 (qx q) (qy q) (qz q).
Definition qdot (a b : quat) : R := qw a * qw b + qx a * qx b + qy a * qy b + qz a * qz b.

(** Eigen [_transformVector] ([q * v]). *)
Definition qrot (q : quat) (v : V3) : V3 :=
  let uv0 := vcross (qvec q) v in
  let uv := vadd uv0 uv0 in
  vadd (vadd v (vscale (qw q) uv)) (vcross (qvec q) uv).

(** Eigen [toRotationMatrix]. *)
Definition qmat (q : quat) : mat R :=
  let tx := 2 * qx q in let ty := 2 * qy q in let tz := 2 * qz q in
  let twx := tx * qw q in let twy := ty * qw q in let twz := tz * qw q in
  let txx := tx * qx q in let txy := ty * qx q in let txz := tz * qx q in
  let tyy := ty * qy q in let tyz := tz * qy q in let tzz := tz * qz q in
  of_list 0 3 3 (
    (1 - (tyy + tzz) :: txy - twz :: txz + twy :: nil) ::
    (txy + twz :: 1 - (txx + tzz) :: tyz - twx :: nil) ::
    (txz - twy :: tyz + twx :: 1 - (txx + tyy) :: nil) :: nil).

(** Eigen [Quaternion(AngleAxis)]. *)
Definition angle_axis_quat (angle : R) (axis : V3) : quat :=
  let h := / 2 * angle in
  mkQ (cos h) (sin h * vx axis) (sin h * vy axis) (sin h * vz axis).

(** [std::atan2(y, x)] for y >= 0, x >= 0. *)
Definition atan2_nn (y x : R) : R :=
  if Rltb 0 x then atan (y / x) else if Rltb 0 y then PI / 2 else 0.

(** Eigen [AngleAxis::operator=(quaternion)]: (angle, axis). *)
Definition quat_angle_axis (q : quat) : R * V3 :=
  let n := vnorm (qvec q) in
  if Reqb n 0 then (0, mkV3 1 0 0)
  else
    let angle := 2 * atan2_nn n (Rabs (qw q)) in
    let n' := if Rltb (qw q) 0 then - n else n in
    (angle, vdiv (qvec q) n').

(** DBL_EPSILON *)
Definition dbl_eps : R := / 2 ^ 52.

(** Eigen [QuaternionBase::slerp(t, other)]. *)
Definition qslerp (a : quat) (t : R) (b : quat) : quat :=
  let d := qdot a b in
  let absD := Rabs d in
  let '(s0, s1) :=
    if Rleb (1 - dbl_eps) absD then (1 - t, t)
    else
      let theta := acos absD in
      let sinTheta := sin theta in
      (sin ((1 - t) * theta) / sinTheta, sin (t * theta) / sinTheta) in
  let s1' := if Rltb d 0 then - s1 else s1 in
  mkQ (s0 * qw a + s1' * qw b) (s0 * qx a + s1' * qx b)
      (s0 * qy a + s1' * qy b) (s0 * qz a + s1' * qz b).

(** Eigen [normalize()]: divides by the norm if it is positive. *)
Definition qnormalize (q : quat) : quat :=
  let z := qnorm2 q in
  if Rltb 0 z then
    let n := sqrt z in mkQ (qw q / n) (qx q / n) (qy q / n) (qz q / n)
  else q.

(** Column vectors ([Eigen::VectorXd]) are n x 1 matrices. *)
Definition vlen (v : mat R) : nat := nr v.
Definition vat (v : mat R) (i : nat) : R := ent v i 0.
Definition vec_of (n : nat) (f : nat -> R) : mat R := mkmat n 1 (fun i _ => f i).

(** [v.segment<3>(i)] *)
Definition seg3 (v : mat R) (i : nat) : res V3 :=
  let* b := block v i 0 3 1 in
  OK (mkV3 (ent b 0 0) (ent b 1 0) (ent b 2 0)).

(** [Vector3d] as a 3 x 1 matrix. *)
Definition v3mat (a : V3) : mat R := mkmat 3 1 (fun i _ => vget a i).
Definition mat_v3 (m : mat R) : V3 := mkV3 (ent m 0 0) (ent m 1 0) (ent m 2 0).
