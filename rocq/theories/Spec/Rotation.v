(** Rotations, independently of quaternions. *)
From Coq Require Import Reals.
From Verif Require Import Base.LinAlg Base.Geom.
Open Scope R_scope.

(** Turning [u] by the angle [a] about the unit axis [k]. *)
Definition turn (a : R) (k u : V3) : V3 :=
  vadd (vadd (vscale (cos a) u) (vscale (sin a) (vcross k u))) (vscale ((1 - cos a) * vdot k u) k).

(** The same rotation is represented by a quaternion and its negative. *)
Definition opposite (q : quat) : quat := mkQ (- qw q) (- qx q) (- qy q) (- qz q).

(** Determinant of a 3 x 3 matrix. *)
Definition det3 (M : fmat) : R :=
  M 0%nat 0%nat * (M 1%nat 1%nat * M 2%nat 2%nat - M 1%nat 2%nat * M 2%nat 1%nat)
  - M 0%nat 1%nat * (M 1%nat 0%nat * M 2%nat 2%nat - M 1%nat 2%nat * M 2%nat 0%nat)
  + M 0%nat 2%nat * (M 1%nat 0%nat * M 2%nat 1%nat - M 1%nat 1%nat * M 2%nat 0%nat).
