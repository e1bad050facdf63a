(** C56: Geodetic coordinates of Earth-centred points. *)
From Coq Require Import Reals Lra.
From Verif Require Import Base.Res Base.Geom Model.TypeHelper Model.GpsHelper Model.Geodetic Spec.Earth Spec.Geodesy Proofs.GeodesyFinals.
Open Scope R_scope.

(** At least 50 km from the centre of the Earth the closed-form solution is
    defined and exact: the coordinates it returns are in range and name the
    point, on the ellipsoid with its own eccentricity constant. *)
Theorem C56_exact : forall p, 50000 <= vnorm p ->
  exists lla, ecef_to_lla p = OK lla /\ on_globe lla /\ geodetic g_wgs84_a g_wgs84_e lla = p.
Proof. exact exact. Qed.
Print Assumptions C56_exact.

(** And it finds the coordinates a point was named by, off the poles. *)
Theorem C56_back : forall lla, -90 < vx lla < 90 -> -180 < vy lla <= 180 -> -6000000 <= vz lla ->
  ecef_to_lla (geodetic g_wgs84_a g_wgs84_e lla) = OK lla.
Proof. exact exact_back. Qed.
Print Assumptions C56_back.

(** [lla_to_ecef] uses a flattening constant instead, which does not quite
    agree: a round trip ends within a picometre, and at the point itself
    exactly if it lies in the plane of the equator. *)
Theorem C56_roundtrip : forall p, 50000 <= vnorm p -> exists lla q, ecef_to_lla p = OK lla /\ lla_to_ecef lla = OK q /\
  vnorm (vsub q p) <= 1 / 1000000000000 /\ (q = p <-> vz p = 0).
Proof. exact roundtrip. Qed.
Print Assumptions C56_roundtrip.
Theorem C56_inverse_refuted : exists p lla, 50000 <= vnorm p /\ ecef_to_lla p = OK lla /\ lla_to_ecef lla <> OK p.
Proof. exact roundtrip_refuted. Qed.
Print Assumptions C56_inverse_refuted.

(** With the eccentricity that belongs to the flattening, the two functions
    are inverse to each other. *)
Theorem C56_consistent : forall p, 50000 <= vnorm p ->
  exists lla, ecef_to_lla_of (sqrt ((2 - g_wgs84_f) * g_wgs84_f)) p = OK lla /\ on_globe lla /\ lla_to_ecef lla = OK p.
Proof. exact consistent. Qed.
Print Assumptions C56_consistent.
Theorem C56_consistent_back : forall lla q, -90 < vx lla < 90 -> -180 < vy lla <= 180 -> -6000000 <= vz lla ->
  lla_to_ecef lla = OK q -> ecef_to_lla_of (sqrt ((2 - g_wgs84_f) * g_wgs84_f)) q = OK lla.
Proof. exact consistent_back. Qed.
Print Assumptions C56_consistent_back.

(** At the centre of the Earth the third root of a negative number is taken. *)
Theorem C56_centre : ecef_to_lla v0 = UB.
Proof. exact centre. Qed.
Print Assumptions C56_centre.

(** *** Cases: a point on the surface, a place. *)
Example C56_point : 50000 <= vnorm (mkV3 4000000 3000000 4000000).
Proof.
  unfold vnorm, vnorm2, vdot. cbn [vx vy vz]. rewrite <- (sqrt_square 50000) by lra. apply sqrt_le_1_alt. lra.
Qed.
Example C56_place : ecef_to_lla (geodetic g_wgs84_a g_wgs84_e (mkV3 30 (-96) 100)) = OK (mkV3 30 (-96) 100).
Proof. apply C56_back; cbn; lra. Qed.
