(** Geodetic coordinates on an ellipsoid. *)
From Coq Require Import Reals.
From Verif Require Import Base.Geom.
Open Scope R_scope.

Definition degrees (x : R) : R := x * (PI / 180).
(** Radius of curvature in the prime vertical. *)
Definition curvature (a e lat : R) : R := a / sqrt (1 - e ^ 2 * sin lat ^ 2).
(** The point with latitude and longitude (degrees) and height [lla] over the
    ellipsoid with semi-major axis [a] and eccentricity [e]. *)
Definition geodetic (a e : R) (lla : V3) : V3 :=
  let lat := degrees (vx lla) in let lon := degrees (vy lla) in let N := curvature a e lat in
  mkV3 ((N + vz lla) * cos lat * cos lon) ((N + vz lla) * cos lat * sin lon) ((N * (1 - e ^ 2) + vz lla) * sin lat).
