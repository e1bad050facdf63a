(** Geodetic notions. *)
From Coq Require Import Reals.
From Verif Require Import Base.Geom.
Open Scope R_scope.

(** Latitude and longitude in degrees within their ranges. *)
Definition on_globe (lla : V3) : Prop := (-90 <= vx lla <= 90) /\ (-180 <= vy lla <= 180).

(** Ellipsoid of revolution with equatorial radius [a], polar radius [b]. *)
Definition on_ellipsoid (a b : R) (p : V3) : Prop :=
  (vx p * vx p + vy p * vy p) / (a * a) + (vz p * vz p) / (b * b) = 1.
