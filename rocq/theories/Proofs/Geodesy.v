(** [ecef_to_lla] is exact for the ellipsoid with its eccentricity. *)
From Coq Require Import Reals Lra Psatz.
From Verif Require Import Base.Res Base.RDec Base.Geom Model.GpsHelper Model.Geodetic Spec.Earth Spec.Geodesy Proofs.Olsen Proofs.GpsFrames.
Open Scope R_scope.

Lemma root_ok : forall e m n, 0 < e -> 0 <= m -> 0 <= n -> e ^ 4 < m + n ->
  exists t, corrected_root e m n = OK t /\ e ^ 2 / 2 < t /\
    let u := t + e ^ 2 / 2 in let v := t - e ^ 2 / 2 in u * v * (u * v) = m * (v * v) + n * (u * u).
Proof.
  intros e m n E M N L. unfold corrected_root. cbv zeta.
  set (p := (m + n - e ^ 4) / 6). set (c := e ^ 4 / 4). set (f := e ^ 2 / 2).
  assert (F0 : 0 < f) by (unfold f; nra). assert (FC : f * f = c) by (unfold f, c; field).
  assert (P : 0 < p) by (unfold p; lra). assert (S : m + n = 6 * p + 4 * c) by (unfold p, c; field).
  assert (C0 : 0 < c) by (rewrite <- FC; nra).
  replace (m * n * e ^ 4 / 4) with (m * n * c) by (unfold c; field).
  set (g := m * n * c). assert (G0 : 0 <= g) by (unfold g; repeat apply Rmult_le_pos; lra).
  assert (P3 : 0 < 2 * p * p * p) by (repeat apply Rmult_lt_0_compat; lra).
  assert (HG : 0 <= (2 * p * p * p + g) * g) by (apply Rmult_le_pos; lra).
  rewrite sqrt_of_ok by exact HG. cbn [bind]. pose proof (sqrt_sqrt _ HG) as R2. pose proof (sqrt_pos ((2 * p * p * p + g) * g)) as R0.
  set (root := sqrt _) in *.
  destruct (third_pos (2 * p * p * p + g + g + 2 * root)) as [cube [K1 [K2 K3]]]; [lra|]. rewrite K1. cbn [bind].
  destruct (third_pos 2) as [two [W1 [W2 W3]]]; [lra|]. rewrite W1. cbn [bind].
  set (C := cube * (1 / two)). assert (CP : 0 < C) by (unfold C; apply Rmult_lt_0_compat; [exact K2|]; apply Rdiv_lt_0_compat; lra).
  assert (C3 : C * C * C = (2 * p * p * p + g + g + 2 * root) / 2).
  { transitivity (cube * cube * cube / (two * two * two)); [unfold C; field; lra|rewrite W3, K3; reflexivity]. }
  rewrite quotient_ok by lra. cbn [bind].
  destruct (cubic_root p g _ C root P G0 CP R2 R0 eq_refl C3) as [Q0 Q2]. set (D := p * p / C) in *.
  set (q := C + D - 2 * p) in *.
  assert (Q1 : q <= 2 * c) by (apply (cubic_bound p m n c q); assumption).
  set (i := - c - 1 / 2 * (m + n)).
  assert (B : i / 3 - C - D = - (q + 3 * p + c)) by (unfold i, q; rewrite S; field). rewrite B. set (beta := - (q + 3 * p + c)).
  set (k := c * (c - (m + n))).
  pose proof (q_K4 p m n c f q F0 FC S Q0) as K4. fold beta k in K4.
  assert (K0 : 0 <= beta * beta - k) by (assert (0 <= 4 * c * c + 12 * p * c) by nra; lra).
  rewrite sqrt_of_ok by exact K0. cbn [bind]. pose proof (sqrt_sqrt _ K0) as T2. pose proof (sqrt_pos (beta * beta - k)) as T20.
  set (t2 := sqrt (beta * beta - k)) in *.
  assert (T3 : 0 <= t2 - 1 / 2 * (beta + i)) by (unfold beta, i; lra).
  rewrite sqrt_of_ok by exact T3. cbn [bind]. pose proof (sqrt_sqrt _ T3) as T4. pose proof (sqrt_pos (t2 - 1 / 2 * (beta + i))) as T40.
  set (t4 := sqrt (t2 - _)) in *.
  assert (T5 : 0 <= 1 / 2 * (beta - i)) by (unfold beta, i; lra).
  rewrite Rabs_right by lra. rewrite sqrt_of_ok by exact T5. cbn [bind]. pose proof (sqrt_sqrt _ T5) as T6. pose proof (sqrt_pos (1 / 2 * (beta - i))) as T60.
  set (t6 := sqrt (1 / 2 * _)) in *.
  set (t := t4 + _).
  destruct (quartic_root p m n c f q P F0 FC M N S Q0 Q2 t2 t4 t6 t T20 T2 T40 T4 T60 T6 eq_refl) as [Z TL].
  pose proof (quartic_slope m n c f F0 FC N t Z TL) as SL.
  fold f. pose proof Z as Z'. unfold quartic in Z'. fold i k in Z', SL.
  replace (t * t * (t * t) + 2 * i * (t * t) + 2 * (f * (m - n)) * t + k) with 0.
  rewrite quotient_ok by lra. cbn [bind]. exists t. split; [f_equal; unfold Rdiv; ring|]. split; [exact TL|].
  rewrite (quartic_uv m n c f FC t) in Z. cbv zeta. lra.
Qed.

(** *** atan2 *)
Lemma cos_one : forall d, cos d = 1 -> - (2 * PI) < d < 2 * PI -> d = 0.
Proof.
  intros d C B. assert (S : sin (d / 2) = 0).
  { assert (E : cos d = 1 - 2 * sin (d / 2) * sin (d / 2)) by (rewrite <- cos_2a_sin; f_equal; field).
    rewrite C in E. assert (Z : sin (d / 2) * sin (d / 2) = 0) by lra. apply Rmult_integral in Z. tauto. }
  destruct (Rtotal_order d 0) as [L|[Z|G]]; [exfalso|exact Z|exfalso].
  - assert (sin (d / 2) < 0) by (apply sin_lt_0_var; lra). lra.
  - assert (0 < sin (d / 2)) by (apply sin_gt_0; lra). lra.
Qed.
Lemma angle_same : forall s t, cos s = cos t -> sin s = sin t -> - PI < s <= PI -> - PI < t <= PI -> s = t.
Proof.
  intros s t C S A B. assert (Z : s - t = 0); [|lra]. apply cos_one; [|lra]. rewrite cos_minus, C, S.
  pose proof (sin2_cos2 t) as E. unfold Rsqr in E. lra.
Qed.
Lemma atan_div : forall x y r, 0 < r -> r * r = x * x + y * y -> 0 < x -> r * cos (atan (y / x)) = x /\ r * sin (atan (y / x)) = y.
Proof.
  intros x y r R E X. assert (Q : sqrt (1 + (y / x)²) = r / x).
  { apply sqrt_lem_1; [|apply Rlt_le, Rdiv_lt_0_compat; assumption|].
    - pose proof (Rle_0_sqr (y / x)). lra.
    - unfold Rsqr. replace (r / x * (r / x)) with (r * r / (x * x)) by (field; lra). rewrite E. field. lra. }
  rewrite cos_atan, sin_atan, Q. split; field; lra.
Qed.
Lemma atan2_ok : forall x y r, 0 <= r -> r * r = x * x + y * y ->
  r * cos (atan2 y x) = x /\ r * sin (atan2 y x) = y /\ - PI < atan2 y x <= PI /\ (0 <= x -> - (PI / 2) <= atan2 y x <= PI / 2).
Proof.
  intros x y r R0 E. pose proof PI_RGT_0 as PP. unfold atan2.
  destruct (Rltb 0 x) eqn:X; [apply Rltb_spec in X|apply Rltb_false in X].
  { assert (R : 0 < r) by (destruct (Req_dec r 0) as [->|]; [|lra]; assert (0 < x * x) by nra; pose proof (Rle_0_sqr y); unfold Rsqr in *; lra).
    destruct (atan_div x y r R E X) as [A B]. pose proof (atan_bound (y / x)). split; [exact A|]. split; [exact B|]. split; [lra|]. intros _. lra. }
  destruct (Rltb x 0) eqn:X2; [apply Rltb_spec in X2|apply Rltb_false in X2].
  { assert (R : 0 < r) by (destruct (Req_dec r 0) as [->|]; [|lra]; assert (0 < x * x) by nra; pose proof (Rle_0_sqr y); unfold Rsqr in *; lra).
    assert (E' : r * r = (- x) * (- x) + (- y) * (- y)) by (rewrite E; ring).
    destruct (atan_div (- x) (- y) r R E') as [A B]; [lra|]. replace (- y / - x) with (y / x) in A, B by (field; lra).
    pose proof (atan_bound (y / x)) as [B1 B2].
    destruct (Rltb y 0) eqn:Y; [apply Rltb_spec in Y|apply Rltb_false in Y].
    - assert (P : 0 < atan (y / x)).
      { rewrite <- atan_0. apply atan_increasing. replace (y / x) with ((- y) / (- x)) by (field; lra). apply Rdiv_lt_0_compat; lra. }
      rewrite cos_minus, sin_minus, cos_PI, sin_PI. split; [lra|]. split; [lra|]. split; [lra|]. intros; lra.
    - assert (P : atan (y / x) <= 0).
      { rewrite <- atan_0. destruct (Req_dec y 0) as [->|]; [unfold Rdiv; rewrite Rmult_0_l; lra|]. left. apply atan_increasing.
        replace (y / x) with (- (y / (- x))) by (field; lra). assert (0 < y / (- x)) by (apply Rdiv_lt_0_compat; lra). lra. }
      rewrite cos_plus, sin_plus, cos_PI, sin_PI. split; [lra|]. split; [lra|]. split; [lra|]. intros; lra. }
  assert (x = 0) by lra. subst x. assert (E' : r * r = y * y) by lra.
  destruct (Rltb 0 y) eqn:Y; [apply Rltb_spec in Y|apply Rltb_false in Y].
  { assert (r = y) by nra. rewrite cos_PI2, sin_PI2. split; [lra|]. split; [lra|]. split; [lra|]. intros; lra. }
  destruct (Rltb y 0) eqn:Y2; [apply Rltb_spec in Y2|apply Rltb_false in Y2].
  { assert (r = - y) by nra. rewrite cos_neg, sin_neg, cos_PI2, sin_PI2. split; [lra|]. split; [lra|]. split; [lra|]. intros; lra. }
  assert (y = 0) by lra. subst y. assert (r = 0) by nra. subst r. rewrite cos_0, sin_0. split; [lra|]. split; [lra|]. split; [lra|]. intros; lra.
Qed.
Lemma atan2_full : forall t r, 0 < r -> - PI < t <= PI -> atan2 (r * sin t) (r * cos t) = t.
Proof.
  intros t r R T. destruct (atan2_ok (r * cos t) (r * sin t) r) as (A & B & C & _); [lra| |].
  - pose proof (sin2_cos2 t) as E. unfold Rsqr in E. transitivity (r * r * (sin t * sin t + cos t * cos t)); [rewrite E; ring|ring].
  - apply angle_same; [| |exact C|exact T]; apply (Rmult_eq_reg_l r); try lra; assumption.
Qed.

(** *** What comes out *)
Lemma a_pos : 0 < g_wgs84_a. Proof. unfold g_wgs84_a. lra. Qed.
Lemma d2r : 0 < g_deg_to_rad. Proof. unfold g_deg_to_rad. pose proof PI_RGT_0. lra. Qed.
Lemma degrees_back : forall x, degrees (x / g_deg_to_rad) = x.
Proof. intros x. unfold degrees, g_deg_to_rad. field. apply Rgt_not_eq. exact PI_RGT_0. Qed.

Lemma conv : forall e p, 0 < e < 1 ->
  let ww := vx p * vx p + vy p * vy p in
  e ^ 4 < ww / g_wgs84_a / g_wgs84_a + vz p * vz p * ((1 - e ^ 2) / g_wgs84_a ^ 2) ->
  exists u v w D, 0 <= w /\ w * w = ww /\ 0 < v /\ u = v + e ^ 2 /\ 0 < D /\ D * D = w * v * (w * v) + vz p * u * (vz p * u) /\
    w * v * (w * v) + (1 - e ^ 2) * (vz p * u * (vz p * u)) = g_wgs84_a * u * v * (g_wgs84_a * u * v) /\
    ecef_to_lla_of e p = OK (mkV3 (atan2 (vz p * u) (w * v) / g_deg_to_rad) (atan2 (vy p) (vx p) / g_deg_to_rad) ((u - 1) * (D / (u * v)))).
Proof.
  intros e p E ww L. pose proof a_pos as AP. unfold ecef_to_lla_of. cbv zeta. fold ww.
  assert (W0 : 0 <= ww) by (unfold ww; pose proof (Rle_0_sqr (vx p)); pose proof (Rle_0_sqr (vy p)); unfold Rsqr in *; lra).
  assert (E2 : 0 < 1 - e ^ 2) by nra.
  set (m := ww / g_wgs84_a / g_wgs84_a) in *. set (n := vz p * vz p * ((1 - e ^ 2) / g_wgs84_a ^ 2)) in *.
  assert (M : 0 <= m) by (unfold m, Rdiv; pose proof (Rinv_0_lt_compat _ AP); repeat apply Rmult_le_pos; lra).
  assert (N : 0 <= n).
  { unfold n. apply Rmult_le_pos; [pose proof (Rle_0_sqr (vz p)); unfold Rsqr in *; lra|]. apply Rlt_le, Rdiv_lt_0_compat; [exact E2|]. nra. }
  destruct (root_ok e m n (proj1 E) M N L) as [t [T1 [T2 T3]]]. rewrite T1. cbn [bind]. cbv zeta in T3.
  set (u := t + e ^ 2 / 2) in *. set (v := t - e ^ 2 / 2) in *.
  assert (V : 0 < v) by (unfold v; lra). assert (U : 0 < u) by (unfold u; nra). assert (UV : u = v + e ^ 2) by (unfold u, v; field).
  rewrite sqrt_of_ok by exact W0. cbn [bind]. pose proof (sqrt_sqrt _ W0) as W2. pose proof (sqrt_pos ww) as W1. set (w := sqrt ww) in *.
  rewrite quotient_ok by (apply Rgt_not_eq, Rmult_lt_0_compat; assumption). cbn [bind].
  assert (SS : w * v * (w * v) + (1 - e ^ 2) * (vz p * u * (vz p * u)) = g_wgs84_a * u * v * (g_wgs84_a * u * v)).
  { transitivity (g_wgs84_a * g_wgs84_a * (u * v * (u * v))); [|ring]. rewrite T3. unfold m, n. rewrite <- W2. field. lra. }
  set (dd := w * v * (w * v) + vz p * u * (vz p * u)).
  assert (D0 : 0 < dd).
  { assert (0 < g_wgs84_a * u * v) by (repeat apply Rmult_lt_0_compat; assumption). pose proof (Rle_0_sqr (vz p * u)). unfold Rsqr in *. unfold dd. nra. }
  pose proof (sqrt_sqrt dd (Rlt_le _ _ D0)) as D2. pose proof (sqrt_lt_R0 _ D0) as D1. set (D := sqrt dd) in *.
  match goal with |- context [sqrt_of ?x] => set (xx := x) end.
  assert (X : xx = ((u - 1) * (D / (u * v))) * ((u - 1) * (D / (u * v)))).
  { transitivity ((u - 1) * (u - 1) * (D * D) / (u * v * (u * v))); [|field; lra]. rewrite D2. unfold xx, dd.
    replace (e ^ 2) with (u - v) by lra. field. lra. }
  assert (XX : 0 <= xx) by (rewrite X; apply Rle_0_sqr).
  rewrite sqrt_of_ok by exact XX. cbn [bind]. exists u, v, w, D.
  split; [exact W1|]. split; [exact W2|]. split; [exact V|]. split; [exact UV|]. split; [exact D1|]. split; [exact D2|]. split; [exact SS|].
  f_equal. f_equal. rewrite X. change (sqrt (((u - 1) * (D / (u * v))) * ((u - 1) * (D / (u * v))))) with (sqrt (Rsqr ((u - 1) * (D / (u * v))))). rewrite sqrt_Rsqr_abs.
  assert (Y : 0 < D / (u * v)) by (apply Rdiv_lt_0_compat; [exact D1|]; apply Rmult_lt_0_compat; assumption).
  destruct (Rltb u 1) eqn:U1; [apply Rltb_spec in U1; rewrite Rabs_left by nra; ring|apply Rltb_false in U1; rewrite Rabs_right by nra; reflexivity].
Qed.

Lemma conv_exact : forall e p, 0 < e < 1 ->
  e ^ 4 < (vx p * vx p + vy p * vy p) / g_wgs84_a / g_wgs84_a + vz p * vz p * ((1 - e ^ 2) / g_wgs84_a ^ 2) ->
  exists lla, ecef_to_lla_of e p = OK lla /\ on_globe lla /\ geodetic g_wgs84_a e lla = p /\ (vz p = 0 <-> sin (degrees (vx lla)) = 0).
Proof.
  intros e p E L. destruct (conv e p E L) as (u & v & w & D & W1 & W2 & V & UV & D1 & D2 & SS & R). rewrite R.
  assert (U : 0 < u) by nra. pose proof a_pos as AP. pose proof d2r as DR. pose proof PI_RGT_0 as PP.
  destruct (atan2_ok (w * v) (vz p * u) D (Rlt_le _ _ D1) D2) as (A1 & A2 & _ & A3).
  destruct (atan2_ok (vx p) (vy p) w W1 W2) as (B1 & B2 & B3 & _).
  specialize (A3 (Rmult_le_pos _ _ W1 (Rlt_le _ _ V))).
  eexists. split; [reflexivity|]. split.
  - assert (H : 90 * g_deg_to_rad = PI / 2 /\ 180 * g_deg_to_rad = PI) by (unfold g_deg_to_rad; split; field).
    split; cbn [vx vy]; split; apply (Rmult_le_reg_r g_deg_to_rad); try exact DR; unfold Rdiv; rewrite Rmult_assoc, Rinv_l by lra; lra.
  - unfold geodetic. cbn [vx vy vz]. rewrite !degrees_back.
    set (lat := atan2 (vz p * u) (w * v)) in *. set (lon := atan2 (vy p) (vx p)) in *.
    assert (K : curvature g_wgs84_a e lat = D / (u * v)).
    { unfold curvature. assert (Q : sqrt (1 - e ^ 2 * sin lat ^ 2) = g_wgs84_a * u * v / D).
      { assert (Z : 1 - e ^ 2 * sin lat ^ 2 = g_wgs84_a * u * v / D * (g_wgs84_a * u * v / D)).
        { apply (Rmult_eq_reg_r (D * D)); [|apply Rgt_not_eq, Rmult_lt_0_compat; assumption].
          transitivity (D * D - e ^ 2 * (D * sin lat * (D * sin lat))); [ring|]. rewrite A2, D2.
          transitivity (g_wgs84_a * u * v * (g_wgs84_a * u * v)); [rewrite <- SS; ring|rewrite <- D2; field; lra]. }
        rewrite Z. apply sqrt_square. apply Rlt_le, Rdiv_lt_0_compat; [|exact D1]. repeat apply Rmult_lt_0_compat; assumption. }
      rewrite Q. field. repeat split; lra. }
    rewrite K.
    assert (X1 : D / (u * v) + (u - 1) * (D / (u * v)) = D / v) by (field; lra).
    assert (X2 : D / (u * v) * (1 - e ^ 2) + (u - 1) * (D / (u * v)) = D / u) by (replace (e ^ 2) with (u - v) by lra; field; lra).
    rewrite X1, X2.
    assert (C1 : D / v * cos lat = w) by (transitivity (D * cos lat / v); [field; lra|rewrite A1; field; lra]).
    assert (C2 : D / u * sin lat = vz p) by (transitivity (D * sin lat / u); [field; lra|rewrite A2; field; lra]).
    rewrite C1, C2, B1, B2. split; [destruct p; reflexivity|].
    assert (DU : 0 < D / u) by (apply Rdiv_lt_0_compat; assumption). rewrite <- C2. split; intros Z; [apply Rmult_integral in Z; destruct Z; lra|rewrite Z; ring].
Qed.

(** *** Back *)
Lemma uv_unique : forall m n s v v', 0 <= m -> 0 <= n -> 0 < s -> 0 < v -> 0 < v' ->
  (v + s) * v * ((v + s) * v) = m * (v * v) + n * ((v + s) * (v + s)) ->
  (v' + s) * v' * ((v' + s) * v') = m * (v' * v') + n * ((v' + s) * (v' + s)) -> v = v'.
Proof.
  assert (W : forall m n s v v', 0 <= m -> 0 <= n -> 0 < s -> 0 < v -> v < v' ->
    (v + s) * v * ((v + s) * v) = m * (v * v) + n * ((v + s) * (v + s)) ->
    (v' + s) * v' * ((v' + s) * v') = m * (v' * v') + n * ((v' + s) * (v' + s)) -> False).
  { intros m n s v v' M N SP V L E1 E2. set (u := v + s) in *. set (u' := v' + s) in *. assert (U : 0 < u) by (unfold u; lra). assert (UU : u < u') by (unfold u, u'; lra).
    assert (A : u * u < u' * u') by (apply Rmult_le_0_lt_compat; lra). assert (B : v * v < v' * v') by (apply Rmult_le_0_lt_compat; lra).
    replace (u * v * (u * v)) with (u * u * (v * v)) in E1 by ring. replace (u' * v' * (u' * v')) with (u' * u' * (v' * v')) in E2 by ring.
    set (a := u * u) in *. set (b := v * v) in *. set (a' := u' * u') in *. set (b' := v' * v') in *.
    assert (AP : 0 < a) by (unfold a; nra). assert (BP : 0 < b) by (unfold b; nra).
    assert (X : m * (b * b') * (a' - a) + n * (a * a') * (b' - b) = 0).
    { transitivity (a' * b' * (m * b + n * a) - a * b * (m * b' + n * a')); [ring|]. rewrite <- E1, <- E2. ring. }
    assert (X1 : 0 <= m * (b * b') * (a' - a)) by (repeat apply Rmult_le_pos; lra).
    assert (X2 : 0 <= n * (a * a') * (b' - b)) by (repeat apply Rmult_le_pos; lra).
    assert (m = 0). { destruct (Req_dec m 0); [assumption|]. exfalso. assert (0 < m * (b * b') * (a' - a)) by (repeat apply Rmult_lt_0_compat; lra). lra. }
    assert (n = 0). { destruct (Req_dec n 0); [assumption|]. exfalso. assert (0 < n * (a * a') * (b' - b)) by (repeat apply Rmult_lt_0_compat; lra). lra. }
    subst m n. assert (0 < a * b) by (apply Rmult_lt_0_compat; assumption). lra. }
  intros m n s v v' M N SP V V' E E'. destruct (Rtotal_order v v') as [H|[H|H]]; [destruct (W m n s v v' M N SP V H E E')|exact H|destruct (W m n s v' v M N SP V' H E' E)].
Qed.
Lemma curv_sq : forall e lat, 0 < e < 1 -> 0 < curvature g_wgs84_a e lat /\
  curvature g_wgs84_a e lat * curvature g_wgs84_a e lat * (1 - e ^ 2 * sin lat ^ 2) = g_wgs84_a * g_wgs84_a /\ g_wgs84_a <= curvature g_wgs84_a e lat.
Proof.
  intros e lat E. pose proof a_pos as AP. unfold curvature. pose proof (SIN_bound lat) as [S1 S2].
  assert (B : 0 <= sin lat ^ 2 <= 1) by nra. assert (EE : 0 < e ^ 2 < 1) by nra.
  assert (X : 0 < 1 - e ^ 2 * sin lat ^ 2 <= 1) by nra. pose proof (sqrt_sqrt _ (Rlt_le _ _ (proj1 X))) as Q. pose proof (sqrt_lt_R0 _ (proj1 X)) as Q0.
  set (r := sqrt _) in *. split; [apply Rdiv_lt_0_compat; assumption|]. split.
  - rewrite <- Q. field. lra.
  - assert (r <= 1) by nra. apply (Rmult_le_reg_r r); [exact Q0|]. replace (g_wgs84_a / r * r) with g_wgs84_a by (field; lra). nra.
Qed.
Lemma far_enough : forall e p, 0 < e -> e ^ 2 <= 67 / 10000 -> 50000 <= vnorm p ->
  e ^ 4 < (vx p * vx p + vy p * vy p) / g_wgs84_a / g_wgs84_a + vz p * vz p * ((1 - e ^ 2) / g_wgs84_a ^ 2).
Proof.
  intros e p E E2 L. assert (L2 : 50000 * 50000 <= vx p * vx p + vy p * vy p + vz p * vz p).
  { unfold vnorm, vnorm2, vdot in L. set (x := vx p * vx p + vy p * vy p + vz p * vz p) in *.
    assert (X : 0 <= x) by (unfold x; pose proof (Rle_0_sqr (vx p)); pose proof (Rle_0_sqr (vy p)); pose proof (Rle_0_sqr (vz p)); unfold Rsqr in *; lra).
    rewrite <- (sqrt_sqrt x X). apply Rmult_le_compat; lra. }
  pose proof (Rle_0_sqr (vx p)) as X. pose proof (Rle_0_sqr (vy p)) as Y. unfold Rsqr in *. unfold g_wgs84_a.
  set (A := vx p * vx p + vy p * vy p) in *. set (B := vz p * vz p) in *. assert (A0 : 0 <= A) by (unfold A; lra).
  assert (E4 : e ^ 4 = e ^ 2 * e ^ 2) by ring. assert (E0 : 0 < e ^ 2) by nra. set (s := e ^ 2) in *.
  assert (H : (A + B) * (1 - s) <= A + B * (1 - s)) by nra.
  assert (H2 : 50000 * 50000 * (9933 / 10000) <= A + B * (1 - s)) by (eapply Rle_trans; [|exact H]; apply Rmult_le_compat; lra).
  replace (A / 6378137 / 6378137 + B * ((1 - s) / 6378137 ^ 2)) with ((A + B * (1 - s)) / (6378137 * 6378137)) by field.
  rewrite E4. apply Rle_lt_trans with (67 / 10000 * (67 / 10000)); [apply Rmult_le_compat; lra|].
  apply Rlt_le_trans with (50000 * 50000 * (9933 / 10000) / (6378137 * 6378137)); [lra|]. unfold Rdiv at 1 3. apply Rmult_le_compat_r; lra.
Qed.

Lemma conv_back : forall e lla, 0 < e -> e ^ 2 <= 67 / 10000 -> -90 < vx lla < 90 -> -180 < vy lla <= 180 -> -6000000 <= vz lla ->
  ecef_to_lla_of e (geodetic g_wgs84_a e lla) = OK lla.
Proof.
  intros e lla E E2 LA LO AL. pose proof PI_RGT_0 as PP. assert (E1 : 0 < e < 1) by nra. pose proof a_pos as AP. pose proof d2r as DR.
  set (lat := degrees (vx lla)). set (lon := degrees (vy lla)).
  assert (LA' : - (PI / 2) < lat < PI / 2) by (unfold lat, degrees; split; nra).
  assert (LO' : - PI < lon <= PI) by (unfold lon, degrees; split; nra).
  assert (CL : 0 < cos lat) by (apply cos_gt_0; lra).
  destruct (curv_sq e lat E1) as (N0 & N2 & N1). set (N := curvature g_wgs84_a e lat) in *. set (h := vz lla) in *.
  set (u0 := 1 + h / N). set (v0 := u0 - e ^ 2).
  assert (NV : N * v0 = N * (1 - e ^ 2) + h) by (unfold v0, u0; field; lra).
  assert (NU : N * u0 = N + h) by (unfold u0; field; lra).
  assert (NV0 : 300000 <= N * v0).
  { rewrite NV. assert (N * (9933 / 10000) <= N * (1 - e ^ 2)) by (apply Rmult_le_compat_l; lra). unfold g_wgs84_a in *. lra. }
  assert (V0 : 0 < v0) by nra. assert (U0 : 0 < u0) by (unfold v0 in V0; nra).
  set (p := geodetic g_wgs84_a e lla).
  assert (PX : vx p = N * u0 * cos lat * cos lon) by (rewrite NU; reflexivity).
  assert (PY : vy p = N * u0 * cos lat * sin lon) by (rewrite NU; reflexivity).
  assert (PZ : vz p = N * v0 * sin lat) by (rewrite NV; reflexivity).
  pose proof (sin2_cos2 lat) as SC. unfold Rsqr in SC. pose proof (sin2_cos2 lon) as SC'. unfold Rsqr in SC'.
  assert (PW : vx p * vx p + vy p * vy p = (N * u0 * cos lat) * (N * u0 * cos lat)).
  { rewrite PX, PY. transitivity ((N * u0 * cos lat) * (N * u0 * cos lat) * (sin lon * sin lon + cos lon * cos lon)); [ring|rewrite SC'; ring]. }
  assert (FAR : 50000 <= vnorm p).
  { unfold vnorm, vnorm2, vdot. rewrite PW, PZ.
    assert (X : (N * v0) * (N * v0) <= N * u0 * cos lat * (N * u0 * cos lat) + N * v0 * sin lat * (N * v0 * sin lat)).
    { assert (Y : (N * v0) * (N * v0) <= (N * u0) * (N * u0)) by (assert (N * v0 <= N * u0) by (apply Rmult_le_compat_l; unfold v0; nra); apply Rmult_le_compat; lra).
      apply Rle_trans with ((N * v0) * (N * v0) * (cos lat * cos lat) + (N * v0) * (N * v0) * (sin lat * sin lat)).
      - right. transitivity ((N * v0) * (N * v0) * (sin lat * sin lat + cos lat * cos lat)); [rewrite SC; ring|ring].
      - assert (0 <= cos lat * cos lat) by nra. assert ((N * v0) * (N * v0) * (cos lat * cos lat) <= (N * u0) * (N * u0) * (cos lat * cos lat)) by (apply Rmult_le_compat_r; assumption). lra. }
    rewrite <- (sqrt_square 50000) by lra. apply sqrt_le_1_alt. eapply Rle_trans; [|exact X]. nra. }
  destruct (conv e p E1 (far_enough e p E E2 FAR)) as (u & v & w & D & W1 & W2 & V & UV & D1 & D2 & SS & R).
  rewrite PW in W2. assert (NC : 0 < N * u0 * cos lat) by (exact (Rmult_lt_0_compat _ _ (Rmult_lt_0_compat _ _ N0 U0) CL)).
  assert (W : w = N * u0 * cos lat) by (apply Rsqr_inj; [exact W1|lra|exact W2]).
  assert (VV : v = v0).
  { apply (uv_unique (w * w / (g_wgs84_a * g_wgs84_a)) ((1 - e ^ 2) * (vz p * vz p) / (g_wgs84_a * g_wgs84_a)) (e ^ 2)); try assumption.
    - apply Rmult_le_pos; [nra|]. apply Rlt_le, Rinv_0_lt_compat; nra.
    - apply Rmult_le_pos; [|apply Rlt_le, Rinv_0_lt_compat; nra]. apply Rmult_le_pos; [nra|apply Rle_0_sqr].
    - nra.
    - rewrite <- UV. apply (Rmult_eq_reg_l (g_wgs84_a * g_wgs84_a)); [|nra].
      transitivity (g_wgs84_a * u * v * (g_wgs84_a * u * v)); [ring|]. rewrite <- SS. field. lra.
    - replace (v0 + e ^ 2) with u0 by (unfold v0; ring). apply (Rmult_eq_reg_l (g_wgs84_a * g_wgs84_a)); [|nra].
      transitivity (w * v0 * (w * v0) + (1 - e ^ 2) * (vz p * u0 * (vz p * u0))); [|field; lra]. rewrite W, PZ.
      transitivity (N * N * (1 - e ^ 2 * sin lat ^ 2) * (u0 * v0 * (u0 * v0))); [rewrite N2; ring|].
      transitivity (N * N * (u0 * v0 * (u0 * v0)) * (sin lat * sin lat + cos lat * cos lat - e ^ 2 * sin lat ^ 2)); [rewrite SC; ring|ring]. }
  assert (UU : u = u0) by (rewrite UV, VV; unfold v0; ring).
  assert (DD : D = N * u0 * v0).
  { pose proof (Rmult_lt_0_compat _ _ (Rmult_lt_0_compat _ _ N0 U0) V0).
    apply Rsqr_inj; [lra|lra|]. unfold Rsqr. rewrite D2, W, PZ, UU, VV.
    transitivity (N * u0 * v0 * (N * u0 * v0) * (sin lat * sin lat + cos lat * cos lat)); [ring|rewrite SC; ring]. }
  rewrite R. f_equal. rewrite UU, VV, DD, W, PX, PY, PZ.
  replace (N * v0 * sin lat * u0) with (N * u0 * v0 * sin lat) by ring. replace (N * u0 * cos lat * v0) with (N * u0 * v0 * cos lat) by ring.
  rewrite atan2_full by (try lra; exact (Rmult_lt_0_compat _ _ (Rmult_lt_0_compat _ _ N0 U0) V0)). rewrite atan2_full by (try lra; exact NC).
  unfold lat, lon, degrees, g_deg_to_rad. destruct lla as [x y z]. cbn [vx vy vz] in *. f_equal; [field; lra|field; lra|].
  replace (N * u0 * v0 / (u0 * v0)) with N by (field; split; lra). unfold u0, h. field. lra.
Qed.
