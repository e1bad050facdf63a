(** C25: Earth frame conversions are inverse rigid motions. *)
From Coq Require Import Reals Lra.
From Verif Require Import Base.Res Base.Geom Model.GpsHelper Spec.Earth Proofs.GpsFrames.
Open Scope R_scope.

Theorem C25_enu_back : forall p ref e, ecef_to_enu p ref = OK e -> enu_to_ecef e ref = OK p.
Proof. exact enu_ecef_roundtrip. Qed.
Print Assumptions C25_enu_back.

Theorem C25_ecef_back : forall e ref p, enu_to_ecef e ref = OK p -> ecef_to_enu p ref = OK e.
Proof. exact ecef_enu_roundtrip. Qed.
Print Assumptions C25_ecef_back.

(** Conversions are defined exactly for references on the globe. *)
Theorem C25_defined : forall p, on_globe p <-> exists q, lla_to_ecef p = OK q.
Proof. exact (fun p => conj (lla_ok p) (fun H => match H with ex_intro _ q E => lla_range p q E end)). Qed.
Print Assumptions C25_defined.

Theorem C25_enu_distance : forall ref p q p' q', ecef_to_enu p ref = OK p' -> ecef_to_enu q ref = OK q' ->
  vnorm (vsub p' q') = vnorm (vsub p q).
Proof. exact enu_distance. Qed.
Print Assumptions C25_enu_distance.

Theorem C25_ecef_distance : forall ref p q p' q', enu_to_ecef p ref = OK p' -> enu_to_ecef q ref = OK q' ->
  vnorm (vsub p' q') = vnorm (vsub p q).
Proof. exact ecef_distance. Qed.
Print Assumptions C25_ecef_distance.

Theorem C25_local_roundtrip : forall v a, enu_to_local (local_to_enu v a) a = v /\ local_to_enu (enu_to_local v a) a = v.
Proof. exact local_roundtrip. Qed.
Print Assumptions C25_local_roundtrip.

Theorem C25_local_distance : forall a p q,
  vnorm (vsub (local_to_enu p a) (local_to_enu q a)) = vnorm (vsub p q) /\
  vnorm (vsub (enu_to_local p a) (enu_to_local q a)) = vnorm (vsub p q).
Proof. exact local_distance. Qed.
Print Assumptions C25_local_distance.

Theorem C25_reference_is_origin : forall ref, on_globe ref -> lla_to_enu ref ref = OK v0.
Proof. exact ref_origin. Qed.
Print Assumptions C25_reference_is_origin.

Theorem C25_altitude_is_vertical : forall p ref, on_globe ref -> vx p = vx ref -> vy p = vy ref ->
  lla_to_enu p ref = OK (mkV3 0 0 (vz p - vz ref)).
Proof. exact vertical. Qed.
Print Assumptions C25_altitude_is_vertical.

Theorem C25_sea_level : forall p q, vz p = 0 -> lla_to_ecef p = OK q ->
  on_ellipsoid g_wgs84_a (g_wgs84_a * (1 - g_wgs84_f)) q.
Proof. exact sea_level. Qed.
Print Assumptions C25_sea_level.

Example C25_reference : on_globe (mkV3 39 (-104) 1600) /\ exists q, lla_to_ecef (mkV3 39 (-104) 1600) = OK q.
Proof. assert (H : on_globe (mkV3 39 (-104) 1600)) by (unfold on_globe; cbn; lra). split; [exact H|apply lla_ok; exact H]. Qed.
Example C25_enu_defined : exists e, ecef_to_enu (mkV3 1 2 3) (mkV3 39 (-104) 1600) = OK e.
Proof.
  destruct (proj2 C25_reference) as [q E]. unfold ecef_to_enu. rewrite E. cbn. eauto.
Qed.
