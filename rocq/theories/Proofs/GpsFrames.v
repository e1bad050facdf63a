(** Earth-fixed, east-north-up and local frames. *)
From Coq Require Import Reals List Bool Lra.
From Verif Require Import Base.Res Base.Mat Base.RDec Base.Geom Model.MathHelper Model.GpsHelper
  Spec.Earth Proofs.Effects Proofs.Rotations.
Import ListNotations.
Open Scope R_scope.

Lemma lla_ok : forall p, on_globe p -> exists q, lla_to_ecef p = OK q.
Proof.
  intros p [[H1 H2] [H3 H4]]. unfold lla_to_ecef. rewrite !Rltb_ff by lra. cbn [orb]. eauto.
Qed.
Lemma lla_range : forall p q, lla_to_ecef p = OK q -> on_globe p.
Proof.
  intros p q H. unfold lla_to_ecef in H.
  destruct (Rltb (vx p) (-90)) eqn:E1; [discriminate|]. destruct (Rltb 90 (vx p)) eqn:E2; [discriminate|].
  destruct (Rltb (vy p) (-180)) eqn:E3; [discriminate|]. destruct (Rltb 180 (vy p)) eqn:E4; [discriminate|].
  apply Rltb_false in E1, E2, E3, E4. split; lra.
Qed.
Lemma lla_value : forall p, on_globe p -> lla_to_ecef p =
  let s := sin (vx p * g_deg_to_rad) in let c := cos (vx p * g_deg_to_rad) in
  let r := g_wgs84_a / sqrt (1 - (2 - g_wgs84_f) * g_wgs84_f * s * s) in
  OK (mkV3 ((r + vz p) * c * cos (vy p * g_deg_to_rad)) ((r + vz p) * c * sin (vy p * g_deg_to_rad))
           ((r * (1 - (2 - g_wgs84_f) * g_wgs84_f) + vz p) * s)).
Proof. intros p [[H1 H2] [H3 H4]]. unfold lla_to_ecef. rewrite !Rltb_ff by lra. reflexivity. Qed.

Lemma rots_inverse : forall r v, mat_vec (ecef_rot r) (mat_vec (enu_rot r) v) = v /\
  mat_vec (enu_rot r) (mat_vec (ecef_rot r) v) = v.
Proof.
  intros r [x y z]. unfold ecef_rot, enu_rot, mat_vec, of_list. cbn [ent nth vx vy vz].
  pose proof (sin2_cos2 (vx r * g_deg_to_rad)) as A. pose proof (sin2_cos2 (vy r * g_deg_to_rad)) as B.
  unfold Rsqr in A, B. set (sa := sin (vx r * g_deg_to_rad)) in *. set (ca := cos (vx r * g_deg_to_rad)) in *.
  set (so := sin (vy r * g_deg_to_rad)) in *. set (co := cos (vy r * g_deg_to_rad)) in *.
  assert (EA : sa * sa = 1 - ca * ca) by lra. assert (EB : so * so = 1 - co * co) by lra.
  clearbody sa ca so co. clear A B. split; f_equal; ring [EA EB].
Qed.

Lemma enu_ecef_roundtrip : forall p ref e, ecef_to_enu p ref = OK e -> enu_to_ecef e ref = OK p.
Proof.
  intros p ref e H. unfold ecef_to_enu, enu_to_ecef in *. binv H. rewrite Hb. cbn [bind] in *. injection Hc as <-.
  f_equal. destruct (rots_inverse ref (vsub p a)) as [-> _]. destruct p, a. unfold vadd, vsub. cbn. f_equal; ring.
Qed.
Lemma ecef_enu_roundtrip : forall e ref p, enu_to_ecef e ref = OK p -> ecef_to_enu p ref = OK e.
Proof.
  intros e ref p H. unfold ecef_to_enu, enu_to_ecef in *. binv H. rewrite Hb. cbn [bind] in *. injection Hc as <-.
  f_equal. replace (vsub (vadd a (mat_vec (ecef_rot ref) e)) a) with (mat_vec (ecef_rot ref) e).
  - apply rots_inverse.
  - apply v3_eq; cbn; ring.
Qed.

Lemma enu_rot_norm : forall r v, vnorm2 (mat_vec (enu_rot r) v) = vnorm2 v.
Proof.
  intros r [x y z]. unfold vnorm2, vdot, enu_rot, mat_vec, of_list. cbn [ent nth vx vy vz].
  pose proof (sin2_cos2 (vx r * g_deg_to_rad)) as A. pose proof (sin2_cos2 (vy r * g_deg_to_rad)) as B.
  unfold Rsqr in A, B. set (sa := sin (vx r * g_deg_to_rad)) in *. set (ca := cos (vx r * g_deg_to_rad)) in *.
  set (so := sin (vy r * g_deg_to_rad)) in *. set (co := cos (vy r * g_deg_to_rad)) in *.
  assert (EA : sa * sa = 1 - ca * ca) by lra. assert (EB : so * so = 1 - co * co) by lra.
  clearbody sa ca so co. clear A B. ring [EA EB].
Qed.
Lemma mat_vec_sub : forall M a b, mat_vec M (vsub a b) = vsub (mat_vec M a) (mat_vec M b).
Proof. intros. unfold mat_vec, vsub. cbn [vx vy vz]. f_equal; ring. Qed.

Lemma enu_distance : forall ref p q p' q', ecef_to_enu p ref = OK p' -> ecef_to_enu q ref = OK q' ->
  vnorm (vsub p' q') = vnorm (vsub p q).
Proof.
  intros ref p q p' q' Hp Hq. unfold ecef_to_enu in *. binv Hp. rewrite Hb in Hq. cbn [bind] in *.
  injection Hc as <-. injection Hq as <-. unfold vnorm. f_equal. rewrite <- mat_vec_sub, enu_rot_norm.
  f_equal. apply v3_eq; cbn; ring.
Qed.
Lemma ecef_distance : forall ref p q p' q', enu_to_ecef p ref = OK p' -> enu_to_ecef q ref = OK q' ->
  vnorm (vsub p' q') = vnorm (vsub p q).
Proof.
  intros ref p q p' q' Hp Hq. symmetry. apply enu_distance with ref; apply ecef_enu_roundtrip; auto.
Qed.

Lemma local_roundtrip : forall v a, enu_to_local (local_to_enu v a) a = v /\ local_to_enu (enu_to_local v a) a = v.
Proof.
  intros [x y z] a. unfold enu_to_local, local_to_enu. cbn [vx vy vz].
  pose proof (sin2_cos2 a) as A. unfold Rsqr in A. assert (E : sin a * sin a = 1 - cos a * cos a) by lra.
  split; f_equal; ring [E].
Qed.
Lemma local_distance : forall a p q, vnorm (vsub (local_to_enu p a) (local_to_enu q a)) = vnorm (vsub p q) /\
  vnorm (vsub (enu_to_local p a) (enu_to_local q a)) = vnorm (vsub p q).
Proof.
  intros a [x y z] [u v w]. pose proof (sin2_cos2 a) as A. unfold Rsqr in A. assert (E : sin a * sin a = 1 - cos a * cos a) by lra.
  unfold vnorm, vnorm2, vdot, vsub, enu_to_local, local_to_enu. cbn [vx vy vz]. split; f_equal; ring [E].
Qed.

(** Same latitude and longitude: the altitude difference along the vertical. *)
Lemma vertical : forall p ref, on_globe ref -> vx p = vx ref -> vy p = vy ref ->
  lla_to_enu p ref = OK (mkV3 0 0 (vz p - vz ref)).
Proof.
  intros p ref H E1 E2. unfold lla_to_enu, ecef_to_enu.
  assert (HP : on_globe p) by (unfold on_globe in *; rewrite E1, E2; exact H).
  rewrite (lla_value p HP), (lla_value ref H). cbv zeta. cbn [bind]. rewrite E1, E2. f_equal.
  unfold enu_rot, mat_vec, of_list, vsub. cbn [ent nth vx vy vz].
  pose proof (sin2_cos2 (vx ref * g_deg_to_rad)) as A. pose proof (sin2_cos2 (vy ref * g_deg_to_rad)) as B.
  unfold Rsqr in A, B. set (sa := sin (vx ref * g_deg_to_rad)) in *. set (ca := cos (vx ref * g_deg_to_rad)) in *.
  set (so := sin (vy ref * g_deg_to_rad)) in *. set (co := cos (vy ref * g_deg_to_rad)) in *.
  set (r := g_wgs84_a / sqrt _). clearbody r.
  assert (EA : sa * sa = 1 - ca * ca) by lra. assert (EB : so * so = 1 - co * co) by lra.
  clearbody sa ca so co. clear A B. f_equal; ring [EA EB].
Qed.
Lemma ref_origin : forall ref, on_globe ref -> lla_to_enu ref ref = OK v0.
Proof. intros ref H. rewrite (vertical ref ref H eq_refl eq_refl). f_equal. unfold v0. f_equal. ring. Qed.

(** Altitude zero is the WGS84 ellipsoid. *)
Lemma e2_small : 0 < (2 - g_wgs84_f) * g_wgs84_f < 1.
Proof. unfold g_wgs84_f. lra. Qed.
Lemma sea_level : forall p q, vz p = 0 -> lla_to_ecef p = OK q -> on_ellipsoid g_wgs84_a (g_wgs84_a * (1 - g_wgs84_f)) q.
Proof.
  intros p q Hz H. rewrite (lla_value p (lla_range p q H)) in H. cbv zeta in H. injection H as <-. rewrite Hz.
  unfold on_ellipsoid. cbn [vx vy vz].
  pose proof (sin2_cos2 (vx p * g_deg_to_rad)) as A. pose proof (sin2_cos2 (vy p * g_deg_to_rad)) as B.
  unfold Rsqr in A, B. set (s := sin (vx p * g_deg_to_rad)) in *. set (c := cos (vx p * g_deg_to_rad)) in *.
  set (so := sin (vy p * g_deg_to_rad)) in *. set (co := cos (vy p * g_deg_to_rad)) in *.
  pose proof e2_small as E2. assert (FP : 0 < 1 - g_wgs84_f) by (unfold g_wgs84_f; lra).
  assert (AP : 0 < g_wgs84_a) by (unfold g_wgs84_a; lra).
  set (f := g_wgs84_f) in *. set (a := g_wgs84_a) in *. clearbody f a.
  assert (P : 0 < 1 - (2 - f) * f * s * s) by nra.
  pose proof (sqrt_lt_R0 _ P) as SP. pose proof (sqrt_sqrt _ (Rlt_le _ _ P)) as SS.
  set (d := sqrt (1 - (2 - f) * f * s * s)) in *. clearbody d.
  replace (1 - (2 - f) * f) with ((1 - f) * (1 - f)) by ring.
  transitivity ((c * c * (so * so + co * co) + (1 - f) * (1 - f) * (s * s)) / (d * d)).
  - field. repeat split; lra.
  - rewrite B, SS. replace (c * c) with (1 - s * s) by lra. field. lra.
Qed.
