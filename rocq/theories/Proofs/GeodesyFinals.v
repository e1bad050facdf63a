(** The two constants for the shape of the Earth. *)
From Coq Require Import Reals Lra Psatz.
From Verif Require Import Base.Res Base.RDec Base.Geom Model.GpsHelper Model.Geodetic Spec.Earth Spec.Geodesy Proofs.GpsFrames Proofs.Geodesy.
Open Scope R_scope.

Definition flat_e : R := sqrt ((2 - g_wgs84_f) * g_wgs84_f).
Lemma flat_sq : flat_e ^ 2 = (2 - g_wgs84_f) * g_wgs84_f.
Proof. unfold flat_e. rewrite <- Rsqr_pow2. apply Rsqr_sqrt. unfold g_wgs84_f. lra. Qed.
Lemma flat_range : 0 < flat_e /\ flat_e ^ 2 <= 67 / 10000.
Proof. split; [apply sqrt_lt_R0; unfold g_wgs84_f; lra|rewrite flat_sq; unfold g_wgs84_f; lra]. Qed.
Lemma e_range : 0 < g_wgs84_e /\ g_wgs84_e ^ 2 <= 67 / 10000.
Proof. unfold g_wgs84_e. split; lra. Qed.
Lemma e_flat : 0 < g_wgs84_e ^ 2 - flat_e ^ 2 <= 7 / 100000000000000000000.
Proof. rewrite flat_sq. unfold g_wgs84_e, g_wgs84_f. lra. Qed.
Lemma small1 : forall e, 0 < e -> e ^ 2 <= 67 / 10000 -> 0 < e < 1.
Proof. intros e A B. split; [exact A|]. nra. Qed.

Lemma lla_geodetic : forall lla, on_globe lla -> lla_to_ecef lla = OK (geodetic g_wgs84_a flat_e lla).
Proof.
  intros lla G. rewrite (lla_value lla G). cbv zeta. f_equal. unfold geodetic, curvature, degrees. rewrite flat_sq. unfold g_deg_to_rad.
  set (s := sin (vx lla * (PI / 180))).
  replace (1 - (2 - g_wgs84_f) * g_wgs84_f * s * s) with (1 - (2 - g_wgs84_f) * g_wgs84_f * s ^ 2) by ring. reflexivity.
Qed.

(** Forward with the flattening, back with a consistent eccentricity. *)
Lemma consistent : forall p, 50000 <= vnorm p -> exists lla, ecef_to_lla_of flat_e p = OK lla /\ on_globe lla /\ lla_to_ecef lla = OK p.
Proof.
  intros p L. destruct flat_range as [F1 F2]. destruct (conv_exact flat_e p (small1 _ F1 F2) (far_enough _ p F1 F2 L)) as (lla & A & B & C & _).
  exists lla. split; [exact A|]. split; [exact B|]. rewrite (lla_geodetic lla B), C. reflexivity.
Qed.
Lemma consistent_back : forall lla q, -90 < vx lla < 90 -> -180 < vy lla <= 180 -> -6000000 <= vz lla -> lla_to_ecef lla = OK q -> ecef_to_lla_of flat_e q = OK lla.
Proof.
  intros lla q A B C D. rewrite lla_geodetic in D by (split; lra). injection D as <-. destruct flat_range as [F1 F2]. now apply conv_back.
Qed.

Lemma exact : forall p, 50000 <= vnorm p -> exists lla, ecef_to_lla p = OK lla /\ on_globe lla /\ geodetic g_wgs84_a g_wgs84_e lla = p.
Proof.
  intros p L. destruct e_range as [F1 F2]. destruct (conv_exact g_wgs84_e p (small1 _ F1 F2) (far_enough _ p F1 F2 L)) as (lla & A & B & C & _).
  exists lla. auto.
Qed.
Lemma exact_back : forall lla, -90 < vx lla < 90 -> -180 < vy lla <= 180 -> -6000000 <= vz lla -> ecef_to_lla (geodetic g_wgs84_a g_wgs84_e lla) = OK lla.
Proof. intros lla A B C. destruct e_range as [F1 F2]. now apply conv_back. Qed.

(** How much the radii differ. *)
Lemma radii : forall lat, let N := curvature g_wgs84_a g_wgs84_e lat in let N' := curvature g_wgs84_a flat_e lat in
  0 <= N - N' <= 52 / 100 * (g_wgs84_a * (g_wgs84_e ^ 2 - flat_e ^ 2)) /\ g_wgs84_a <= N' <= 102 / 100 * g_wgs84_a /\ (sin lat = 0 -> N = N').
Proof.
  intros lat N N'. destruct e_flat as [D0 D1]. destruct e_range as [_ E2]. destruct flat_range as [F1 F2]. pose proof a_pos as AP.
  set (d := g_wgs84_e ^ 2 - flat_e ^ 2) in *. pose proof (SIN_bound lat) as [S1 S2]. assert (B : 0 <= sin lat ^ 2 <= 1) by nra.
  assert (Fp : 0 < flat_e ^ 2) by nra.
  unfold N, N', curvature. set (A := 1 - g_wgs84_e ^ 2 * sin lat ^ 2). set (A' := 1 - flat_e ^ 2 * sin lat ^ 2).
  assert (AA : A' - A = d * sin lat ^ 2) by (unfold A, A', d; ring).
  set (s2 := sin lat ^ 2) in *.
  assert (A0 : 9801 / 10000 <= A) by (unfold A; nra). assert (A1 : A <= A') by nra. assert (A2 : A' <= 1) by (unfold A'; nra).
  pose proof (sqrt_sqrt A ltac:(lra)) as R. pose proof (sqrt_sqrt A' ltac:(lra)) as R'.
  assert (L : 99 / 100 <= sqrt A). { rewrite <- (sqrt_square (99 / 100)) by lra. apply sqrt_le_1_alt. lra. }
  assert (L1 : sqrt A <= sqrt A') by (apply sqrt_le_1_alt; exact A1).
  assert (L2 : sqrt A' <= 1) by (rewrite <- sqrt_1; apply sqrt_le_1_alt; exact A2).
  set (r := sqrt A) in *. set (r' := sqrt A') in *.
  assert (X : g_wgs84_a / r - g_wgs84_a / r' = g_wgs84_a * (d * s2) / (r * r' * (r + r'))).
  { rewrite <- AA, <- R, <- R'. field. repeat split; lra. }
  assert (Y : 0 <= d * s2 <= d) by nra. assert (Y2 : 0 <= g_wgs84_a * (d * s2) <= g_wgs84_a * d) by (split; [apply Rmult_le_pos; lra|apply Rmult_le_compat_l; lra]).
  assert (Z : 194 / 100 <= r * r' * (r + r')).
  { assert (98 / 100 <= r * r') by nra. assert (198 / 100 <= r + r') by lra. assert (98 / 100 * (198 / 100) <= r * r' * (r + r')) by (apply Rmult_le_compat; lra). lra. }
  assert (ZI : / (r * r' * (r + r')) <= 52 / 100) by (apply (Rmult_le_reg_l (r * r' * (r + r'))); [lra|rewrite Rinv_r by lra; lra]).
  assert (ZP : 0 < / (r * r' * (r + r'))) by (apply Rinv_0_lt_compat; lra).
  split; [|split].
  - rewrite X. unfold Rdiv at 1 2. split; [apply Rmult_le_pos; lra|].
    rewrite (Rmult_comm (52 / 100)). apply Rmult_le_compat; lra.
  - split; apply (Rmult_le_reg_r r'); try lra; replace (g_wgs84_a / r' * r') with g_wgs84_a by (field; lra); nra.
  - intros S0. assert (s2 = 0) by (unfold s2; rewrite S0; ring). unfold r, r'. replace A' with A by nra. reflexivity.
Qed.

Lemma roundtrip : forall p, 50000 <= vnorm p -> exists lla q, ecef_to_lla p = OK lla /\ lla_to_ecef lla = OK q /\
  vnorm (vsub q p) <= 1 / 1000000000000 /\ (q = p <-> vz p = 0).
Proof.
  intros p L. destruct e_range as [F1 F2]. destruct (conv_exact g_wgs84_e p (small1 _ F1 F2) (far_enough _ p F1 F2 L)) as (lla & A & B & C & Z).
  exists lla, (geodetic g_wgs84_a flat_e lla). split; [exact A|]. split; [apply lla_geodetic; exact B|]. rewrite Z. clear A Z L. subst p.
  destruct (radii (degrees (vx lla))) as (R1 & R2 & R3). destruct e_flat as [D0 D1]. pose proof a_pos as AP.
  unfold geodetic. set (lat := degrees (vx lla)) in *. set (lon := degrees (vy lla)). set (N := curvature g_wgs84_a g_wgs84_e lat) in *. set (N' := curvature g_wgs84_a flat_e lat) in *.
  set (d := g_wgs84_e ^ 2 - flat_e ^ 2) in *.
  pose proof (sin2_cos2 lat) as SC. pose proof (sin2_cos2 lon) as SC'. unfold Rsqr in SC, SC'.
  set (t := N' * (1 - flat_e ^ 2) - N * (1 - g_wgs84_e ^ 2)).
  assert (T : t = N' * d - (N - N') * (1 - g_wgs84_e ^ 2)) by (unfold t, d; ring).
  assert (E0 : 0 < g_wgs84_e ^ 2) by nra.
  assert (T1 : 0 < t).
  { rewrite T. assert ((N - N') * (1 - g_wgs84_e ^ 2) <= 52 / 100 * (g_wgs84_a * d)) by nra. assert (g_wgs84_a * d <= N' * d) by nra. assert (0 < g_wgs84_a * d) by nra. lra. }
  assert (T2 : t <= 102 / 100 * (g_wgs84_a * d)).
  { rewrite T. assert (0 <= (N - N') * (1 - g_wgs84_e ^ 2)) by nra. assert (N' * d <= 102 / 100 * g_wgs84_a * d) by nra. lra. }
  assert (AD : g_wgs84_a * d <= 45 / 100000000000000) by (unfold g_wgs84_a in *; lra).
  split.
  - unfold vnorm, vnorm2, vdot, vsub. cbn [vx vy vz].
    match goal with |- sqrt ?x <= _ => assert (X : x = (N - N') * (N - N') * (cos lat * cos lat) + t * t * (sin lat * sin lat)) end.
    { transitivity ((N - N') * (N - N') * (cos lat * cos lat) * (sin lon * sin lon + cos lon * cos lon) + t * t * (sin lat * sin lat)); [unfold t; ring|rewrite SC'; ring]. }
    rewrite X. rewrite <- (sqrt_square (1 / 1000000000000)) by lra. apply sqrt_le_1_alt.
    set (M := 1 / 1000000000000). assert (N - N' <= M) by (unfold M; lra). assert (t <= M) by (unfold M; lra).
    assert (P1 : (N - N') * (N - N') <= M * M) by (apply Rmult_le_compat; lra). assert (P2 : t * t <= M * M) by (apply Rmult_le_compat; lra).
    assert (0 <= cos lat * cos lat) by apply Rle_0_sqr. assert (0 <= sin lat * sin lat) by apply Rle_0_sqr.
    apply Rle_trans with (M * M * (cos lat * cos lat) + M * M * (sin lat * sin lat)).
    + apply Rplus_le_compat; apply Rmult_le_compat_r; assumption.
    + right. transitivity (M * M * (sin lat * sin lat + cos lat * cos lat)); [ring|rewrite SC; ring].
  - split.
    + intros Q. injection Q as _ _ Q. assert (Q' : t * sin lat = 0) by (unfold t; lra). apply Rmult_integral in Q'. destruct Q'; [lra|assumption].
    + intros S0. rewrite (R3 S0), S0. f_equal. ring.
Qed.

Lemma roundtrip_refuted : exists p lla, 50000 <= vnorm p /\ ecef_to_lla p = OK lla /\ lla_to_ecef lla <> OK p.
Proof.
  assert (L : 50000 <= vnorm (mkV3 0 0 7000000)).
  { unfold vnorm, vnorm2, vdot. cbn [vx vy vz]. replace (0 * 0 + 0 * 0 + 7000000 * 7000000) with (7000000 * 7000000) by ring. rewrite sqrt_square; lra. }
  destruct (roundtrip _ L) as (lla & q & A & B & _ & Z). exists (mkV3 0 0 7000000), lla. split; [exact L|]. split; [exact A|]. rewrite B. intros E.
  assert (q = mkV3 0 0 7000000) by congruence. apply Z in H. cbn in H. lra.
Qed.
Lemma centre : ecef_to_lla v0 = UB.
Proof.
  unfold ecef_to_lla, ecef_to_lla_of. cbv zeta. unfold v0. cbn [vx vy vz].
  replace ((0 * 0 + 0 * 0) / g_wgs84_a / g_wgs84_a) with 0 by (unfold Rdiv; ring). rewrite !Rmult_0_l. unfold corrected_root. cbv zeta.
  set (p := (0 + 0 - g_wgs84_e ^ 4) / 6). assert (P : p < 0) by (unfold p, g_wgs84_e; lra).
  replace (0 * 0 * g_wgs84_e ^ 4 / 4) with 0 by (unfold Rdiv; ring). rewrite Rmult_0_r. unfold sqrt_of at 1. rewrite Rltb_ff by lra. cbn [bind]. rewrite sqrt_0.
  unfold third_root at 1. rewrite (proj2 (Rltb_spec _ _)); [reflexivity|]. assert (0 < p * p) by nra. nra.
Qed.
