(** The quartic of [ecef_to_lla]. *)
From Coq Require Import Reals Lra Psatz.
From Verif Require Import Base.Res Base.RDec Base.Geom Model.GpsHelper Model.Geodetic.
Open Scope R_scope.

Lemma third_pos : forall x, 0 < x -> exists r, third_root x = OK r /\ 0 < r /\ r * r * r = x.
Proof.
  intros x X. exists (Rpower x (1 / 3)). split; [|split].
  - unfold third_root. rewrite Rltb_ff by lra. destruct (Reqb x 0) eqn:E; [apply Reqb_spec in E; lra|reflexivity].
  - apply exp_pos.
  - rewrite <- !Rpower_plus. replace (1 / 3 + 1 / 3 + 1 / 3) with 1 by lra. apply Rpower_1. exact X.
Qed.
Lemma sqrt_of_ok : forall x, 0 <= x -> sqrt_of x = OK (sqrt x).
Proof. intros x X. unfold sqrt_of. now rewrite Rltb_ff by exact X. Qed.
Lemma quotient_ok : forall x y, y <> 0 -> quotient x y = OK (x / y).
Proof. intros x y Y. unfold quotient. destruct (Reqb y 0) eqn:E; [apply Reqb_spec in E; congruence|reflexivity]. Qed.

(** The resolvent cubic: [y] is its root. *)
Lemma cubic_root : forall p g c3 C root, 0 < p -> 0 <= g -> 0 < C -> root * root = (2 * p * p * p + g) * g -> 0 <= root ->
  c3 = (2 * p * p * p + g + g + 2 * root) / 2 -> C * C * C = c3 ->
  let q := C + p * p / C - 2 * p in 0 <= q /\ q * ((q + 3 * p) * (q + 3 * p)) = 2 * g.
Proof.
  intros p g c3 C root P G CP R R0 E E3 q. set (D := p * p / C) in *.
  assert (CD : C * D = p * p) by (unfold D; field; lra).
  assert (DP : 0 < D) by (unfold D; apply Rdiv_lt_0_compat; nra).
  assert (D3 : D * D * D = 2 * p * p * p + 2 * g - c3).
  { apply (Rmult_eq_reg_l c3); [|rewrite <- E3; apply Rgt_not_eq; repeat apply Rmult_lt_0_compat; exact CP].
    rewrite <- E3 at 1. replace (C * C * C * (D * D * D)) with ((C * D) * (C * D) * (C * D)) by ring. rewrite CD.
    assert (X : (2 * c3 - (2 * p * p * p + 2 * g)) = 2 * root) by (rewrite E; field).
    assert (Y : (2 * c3 - (2 * p * p * p + 2 * g)) * (2 * c3 - (2 * p * p * p + 2 * g)) = 4 * ((2 * p * p * p + g) * g)).
    { rewrite X, <- R. ring. }
    lra. }
  split.
  - assert (Q : C * q = (C - p) * (C - p)) by (unfold q; replace (C * (C + D - 2 * p)) with (C * C + C * D - 2 * p * C) by ring; rewrite CD; ring).
    destruct (Rle_lt_dec 0 q) as [|N]; [assumption|]. exfalso. pose proof (Rle_0_sqr (C - p)). unfold Rsqr in *. nra.
  - replace (q * ((q + 3 * p) * (q + 3 * p))) with (C * C * C + D * D * D + 3 * (C * D) * (C + D) - 3 * (p * p) * (C + D) - 2 * p * p * p) by (unfold q; ring).
    rewrite CD, D3, E3. ring.
Qed.
(** Between 0 and [2 c]. *)
Lemma cubic_bound : forall p m n c q, 0 < p -> 0 < c -> 0 <= m -> 0 <= n -> m + n = 6 * p + 4 * c -> 0 <= q ->
  q * ((q + 3 * p) * (q + 3 * p)) = 2 * (m * n * c) -> q <= 2 * c.
Proof.
  intros p m n c q P C M N S Q E. destruct (Rle_lt_dec q (2 * c)) as [|L]; [assumption|]. exfalso.
  assert (A : (2 * c + 3 * p) * (2 * c + 3 * p) < (q + 3 * p) * (q + 3 * p)) by nra.
  assert (B : 2 * c * ((2 * c + 3 * p) * (2 * c + 3 * p)) < q * ((q + 3 * p) * (q + 3 * p))).
  { apply Rmult_gt_0_lt_compat; try lra. nra. }
  assert (D : m * n <= (2 * c + 3 * p) * (2 * c + 3 * p)).
  { replace (2 * c + 3 * p) with ((m + n) / 2) by lra. pose proof (Rle_0_sqr (m - n)). unfold Rsqr in *. nra. }
  assert (F : c * (m * n) <= c * ((2 * c + 3 * p) * (2 * c + 3 * p))) by (apply Rmult_le_compat_l; lra). lra.
Qed.

Section Quartic.
Variables p m n c f q : R.   (* f is half the squared eccentricity: f^2 = c *)
Hypothesis P : 0 < p.
Hypothesis F0 : 0 < f.
Hypothesis FC : f * f = c.
Hypothesis M : 0 <= m.
Hypothesis N : 0 <= n.
Hypothesis S : m + n = 6 * p + 4 * c.
Hypothesis Q0 : 0 <= q.
Hypothesis Q1 : q <= 2 * c.
Hypothesis Q2 : q * ((q + 3 * p) * (q + 3 * p)) = 2 * (m * n * c).
Let i := - c - 1 / 2 * (m + n).
Let beta := - (q + 3 * p + c).
Let k := c * (c - (m + n)).
Let j := f * (m - n).

Lemma q_c : 0 < c. Proof. rewrite <- FC. nra. Qed.
Lemma q_bi : beta - i = 2 * c - q. Proof. unfold beta, i. lra. Qed.
Lemma q_K : beta * beta - k = (q + 3 * p) * (q + 3 * p) + 2 * c * q + 12 * p * c + 4 * c * c.
Proof. unfold beta, k. rewrite S. ring. Qed.
Lemma q_K4 : 4 * c * c + 12 * p * c <= beta * beta - k.
Proof. rewrite q_K. pose proof q_c. pose proof (Rle_0_sqr (q + 3 * p)). unfold Rsqr in *. nra. Qed.
Lemma q_j : j * j = 2 * (beta - i) * (beta * beta - k).
Proof.
  rewrite q_bi, q_K. unfold j.
  replace (f * (m - n) * (f * (m - n))) with (f * f * ((m + n) * (m + n)) - f * f * (4 * (m * n))) by ring. rewrite FC, S.
  transitivity (c * ((6 * p + 4 * c) * (6 * p + 4 * c)) - 2 * (2 * (m * n * c))); [ring|]. rewrite <- Q2. ring.
Qed.

Definition quartic (t : R) : R := t * t * (t * t) + 2 * i * (t * t) + 2 * j * t + k.
(** ... is [(u v)^2 - m v^2 - n u^2] with [u = t + f], [v = t - f]. *)
Lemma quartic_uv : forall t, quartic t = ((t + f) * (t - f)) * ((t + f) * (t - f)) - m * ((t - f) * (t - f)) - n * ((t + f) * (t + f)).
Proof. intros t. unfold quartic, i, j, k. rewrite <- FC. field. Qed.

Lemma quartic_root : forall t2 t4 t6 t, 0 <= t2 -> t2 * t2 = beta * beta - k -> 0 <= t4 -> t4 * t4 = t2 - 1 / 2 * (beta + i) ->
  0 <= t6 -> t6 * t6 = 1 / 2 * (beta - i) -> t = t4 + (if Rltb m n then t6 else - t6) ->
  quartic t = 0 /\ f < t.
Proof.
  intros t2 t4 t6 t T2 E2 T4 E4 T6 E6 ->. pose proof q_c as CP. pose proof q_K4 as K4. pose proof q_j as J.
  assert (G2 : 2 * c < t2).
  { destruct (Rlt_le_dec (2 * c) t2) as [|L]; [assumption|]. exfalso. assert (t2 * t2 <= 2 * c * (2 * c)) by (apply Rmult_le_compat; lra). nra. }
  assert (J2 : j * j = (2 * t6 * t2) * (2 * t6 * t2)).
  { rewrite J, <- E2. replace (2 * t6 * t2 * (2 * t6 * t2)) with (4 * (t6 * t6) * (t2 * t2)) by ring. rewrite E6. field. }
  assert (E4' : t4 * t4 = t2 + q / 2 + 3 * p + c + c / 2 + q / 2 - q / 2 + (m + n) / 4 - 3 * p / 2 - c / 2 ) by (rewrite E4; unfold beta, i; lra).
  assert (R6 : t6 <= f).
  { destruct (Rle_lt_dec t6 f) as [|L]; [assumption|]. exfalso. assert (f * f < t6 * t6) by (apply Rmult_le_0_lt_compat; lra).
    rewrite q_bi in E6. lra. }
  destruct (Rltb m n) eqn:L.
  - apply Rltb_spec in L.
    assert (JJ : j = - (2 * t6 * t2)).
    { assert (J0 : j < 0) by (unfold j; nra). assert (0 <= 2 * t6 * t2) by (apply Rmult_le_pos; lra). nra. }
    split.
    + assert (V : (t4 + t6) * (t4 + t6) + beta = 2 * t6 * (t4 + t6) + t2).
      { transitivity (t4 * t4 + 2 * t4 * t6 + t6 * t6 + beta); [ring|]. rewrite E4.
        transitivity (2 * t4 * t6 + 2 * (t6 * t6) + t2); [rewrite E6; field|ring]. }
      assert (V2 : ((t4 + t6) * (t4 + t6) + beta) * ((t4 + t6) * (t4 + t6) + beta) = (2 * t6 * (t4 + t6) + t2) * (2 * t6 * (t4 + t6) + t2)) by (rewrite V; reflexivity).
      unfold quartic. rewrite JJ. set (t := t4 + t6) in *.
      assert (V3 : (2 * t6 * t + t2) * (2 * t6 * t + t2) = 4 * (t6 * t6) * (t * t) + 4 * t6 * t2 * t + t2 * t2) by ring.
      rewrite E6, E2 in V3. lra.
    + assert (f < t4); [|lra]. destruct (Rlt_le_dec f t4) as [|L4]; [assumption|]. exfalso.
      assert (t4 * t4 <= f * f) by (apply Rmult_le_compat; lra). lra.
  - apply Rltb_false in L.
    assert (JJ : j = 2 * t6 * t2).
    { assert (J0 : 0 <= j) by (unfold j; nra). assert (0 <= 2 * t6 * t2) by (apply Rmult_le_pos; lra). nra. }
    split.
    + assert (V : (t4 - t6) * (t4 - t6) + beta = - 2 * t6 * (t4 - t6) + t2).
      { transitivity (t4 * t4 - 2 * t4 * t6 + t6 * t6 + beta); [ring|]. rewrite E4.
        transitivity (- 2 * t4 * t6 + 2 * (t6 * t6) + t2); [rewrite E6; field|ring]. }
      replace (t4 + - t6) with (t4 - t6) by ring.
      assert (V2 : ((t4 - t6) * (t4 - t6) + beta) * ((t4 - t6) * (t4 - t6) + beta) = (- 2 * t6 * (t4 - t6) + t2) * (- 2 * t6 * (t4 - t6) + t2)) by (rewrite V; reflexivity).
      unfold quartic. rewrite JJ. set (t := t4 - t6) in *.
      assert (V3 : (- 2 * t6 * t + t2) * (- 2 * t6 * t + t2) = 4 * (t6 * t6) * (t * t) - 4 * t6 * t2 * t + t2 * t2) by ring.
      rewrite E6, E2 in V3. lra.
    + assert (f + t6 < t4); [|lra]. destruct (Rlt_le_dec (f + t6) t4) as [|L4]; [assumption|]. exfalso.
      assert (t4 * t4 <= (f + t6) * (f + t6)) by (apply Rmult_le_compat; lra).
      assert (f * t6 <= f * f) by (apply Rmult_le_compat_l; lra).
      rewrite q_bi in E6. assert ((f + t6) * (f + t6) = f * f + 2 * (f * t6) + t6 * t6) by ring. lra.
Qed.
Lemma quartic_slope : forall t, quartic t = 0 -> f < t -> 0 < 4 * (t * t * t) + 4 * i * t + 2 * j.
Proof.
  intros t E L. rewrite quartic_uv in E. set (u := t + f) in *. set (v := t - f) in *. assert (V : 0 < v) by (unfold v; lra). assert (U : 0 < u) by (unfold u; lra).
  assert (D : 4 * (t * t * t) + 4 * i * t + 2 * j = 2 * u * v * (u + v) - 2 * m * v - 2 * n * u) by (unfold u, v, i, j; rewrite <- FC; field).
  rewrite D. apply (Rmult_lt_reg_r v); [exact V|]. rewrite Rmult_0_l.
  replace ((2 * u * v * (u + v) - 2 * m * v - 2 * n * u) * v) with (2 * (u * v * (u * v) - m * (v * v) - n * (u * u)) + 2 * u * (v * v * v) + 2 * n * u * (u - v)) by ring.
  rewrite E. assert (0 < u * (v * v * v)) by (repeat apply Rmult_lt_0_compat; lra).
  assert (0 <= n * u * (u - v)) by (repeat apply Rmult_le_pos; unfold u, v; lra). lra.
Qed.
(** Only one root beyond [f]. *)
Lemma quartic_unique : forall t t', quartic t = 0 -> f < t -> quartic t' = 0 -> f < t' -> t = t'.
Proof.
  assert (W : forall t t', quartic t = 0 -> f < t -> quartic t' = 0 -> t < t' -> False).
  { intros t t' E L E' L'. rewrite quartic_uv in E, E'. 
    set (u := t + f) in *. set (v := t - f) in *. set (u' := t' + f) in *. set (v' := t' - f) in *.
    assert (V : 0 < v) by (unfold v; lra). assert (U : 0 < u) by (unfold u; lra). assert (VV : v < v') by (unfold v, v'; lra). assert (UU : u < u') by (unfold u, u'; lra).
    (* (u v)^2 = m v^2 + n u^2; times (u' v')^2 *)
    assert (A : u * u < u' * u') by (apply Rmult_le_0_lt_compat; lra). assert (B : v * v < v' * v') by (apply Rmult_le_0_lt_compat; lra).
    assert (E1 : u * u * (v * v) = m * (v * v) + n * (u * u)) by lra.
    assert (E2 : u' * u' * (v' * v') = m * (v' * v') + n * (u' * u')) by lra.
    set (a := u * u) in *. set (b := v * v) in *. set (a' := u' * u') in *. set (b' := v' * v') in *.
    assert (AP : 0 < a) by (unfold a; nra). assert (BP : 0 < b) by (unfold b; nra).
    (* m/a + n/b = 1 = m/a' + n/b' *)
    assert (X : m * (b * b') * (a' - a) + n * (a * a') * (b' - b) = 0).
    { transitivity (a' * b' * (m * b + n * a) - a * b * (m * b' + n * a')); [ring|]. rewrite <- E1, <- E2. ring. }
    assert (X1 : 0 <= m * (b * b') * (a' - a)) by (repeat apply Rmult_le_pos; lra).
    assert (X2 : 0 <= n * (a * a') * (b' - b)) by (repeat apply Rmult_le_pos; lra).
    assert (Z1 : m * (b * b') * (a' - a) = 0) by lra. assert (Z2 : n * (a * a') * (b' - b) = 0) by lra.
    assert (m = 0). { destruct (Req_dec m 0); [assumption|]. exfalso. assert (0 < m * (b * b') * (a' - a)) by (repeat apply Rmult_lt_0_compat; lra). lra. }
    assert (n = 0). { destruct (Req_dec n 0); [assumption|]. exfalso. assert (0 < n * (a * a') * (b' - b)) by (repeat apply Rmult_lt_0_compat; lra). lra. }
    pose proof q_c. lra. }
  intros t t' E L E' L'. destruct (Rtotal_order t t') as [H|[H|H]]; [destruct (W t t' E L E' H)|exact H|destruct (W t' t E' L' E H)].
Qed.
End Quartic.
