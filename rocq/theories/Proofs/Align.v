(** Averages and planar alignment. *)
From Coq Require Import Reals List Arith Bool Lia Lra.
From Verif Require Import Base.Res Base.Mat Base.RDec Base.LinAlg Base.Geom Model.TypeHelper Model.MathHelper
  Spec.Points Spec.Svd Proofs.Effects Proofs.Rotations.
Import ListNotations.
Open Scope R_scope.

Lemma wsum_ok : forall vs ws acc s, (length vs <= length ws)%nat ->
  weighted_sum vs ws acc s =
  OK (mkV3 (vx acc + total (map (fun p => snd p * vx (fst p)) (combine vs ws)))
           (vy acc + total (map (fun p => snd p * vy (fst p)) (combine vs ws)))
           (vz acc + total (map (fun p => snd p * vz (fst p)) (combine vs ws))),
      s + total (map snd (combine vs ws))).
Proof.
  induction vs as [|v vs IH]; intros ws acc s H.
  - cbn. rewrite !Rplus_0_r. destruct acc. reflexivity.
  - destruct ws as [|w ws]; [cbn in H; lia|]. cbn [weighted_sum]. rewrite IH by (cbn in H; lia).
    cbn [combine map total fold_right fst snd vadd vscale vx vy vz].
    f_equal. f_equal; [f_equal|]; unfold total; ring.
Qed.

Lemma combine_ones : forall (vs : list V3) (f : V3 -> R),
  map (fun p => snd p * f (fst p)) (combine vs (map (fun _ => 1) vs)) = map f vs /\
  total (map snd (combine vs (map (fun _ => 1) vs))) = INR (length vs).
Proof.
  induction vs as [|v vs IH]; intros f; [split; reflexivity|]. destruct (IH f) as [A B].
  cbn [map combine fst snd]. split.
  - rewrite A, Rmult_1_l. reflexivity.
  - cbn [total fold_right]. change (fold_right Rplus 0) with total. rewrite B.
    cbn [length]. rewrite S_INR. ring.
Qed.

Lemma INR_pos : forall A (l : list A), l <> [] -> 0 < INR (length l).
Proof. intros A [|a l] H; [congruence|]. apply lt_0_INR. cbn. lia. Qed.

Lemma average_ok : forall l, l <> [] -> average_vectors l = OK (mean l).
Proof.
  intros l H. unfold average_vectors, average_vectors_w. rewrite wsum_ok by (rewrite map_length; lia). cbn [bind].
  destruct (combine_ones l vx) as [X N]. destruct (combine_ones l vy) as [Y _]. destruct (combine_ones l vz) as [Z _].
  rewrite X, Y, Z, N, !Rplus_0_l. pose proof (INR_pos _ l H).
  rewrite (proj2 (Reqb_false _ _)) by lra. unfold mean, mean_of, vdiv. cbn [vx vy vz].
  reflexivity.
Qed.
Lemma average_empty : average_vectors [] = UB.
Proof. unfold average_vectors, average_vectors_w. cbn. rewrite (proj2 (Reqb_spec _ _)) by reflexivity. reflexivity. Qed.

Lemma average_weighted : forall vs ws, length ws = length vs -> total ws <> 0 ->
  average_vectors_w vs ws =
  OK (mkV3 (total (map (fun p => snd p * vx (fst p)) (combine vs ws)) / total ws)
           (total (map (fun p => snd p * vy (fst p)) (combine vs ws)) / total ws)
           (total (map (fun p => snd p * vz (fst p)) (combine vs ws)) / total ws)).
Proof.
  intros vs ws H T. unfold average_vectors_w. rewrite wsum_ok by lia. cbn [bind].
  assert (E : map snd (combine vs ws) = ws).
  { clear T. revert ws H. induction vs; intros [|w ws] H; try discriminate; [reflexivity|]. cbn. f_equal. apply IHvs. cbn in H. lia. }
  rewrite E, Rplus_0_l. rewrite (proj2 (Reqb_false _ _) T). unfold vdiv, v0. cbn [vx vy vz]. rewrite !Rplus_0_l. reflexivity.
Qed.

Lemma total_bounds : forall A (f : A -> R) l lo hi, (forall x, In x l -> lo <= f x <= hi) ->
  INR (length l) * lo <= total (map f l) <= INR (length l) * hi.
Proof.
  induction l as [|a l IH]; intros lo hi H; [cbn; lra|].
  cbn [map total fold_right]. change (fold_right Rplus 0) with total. cbn [length]. rewrite S_INR.
  specialize (IH lo hi). pose proof (H a (or_introl eq_refl)).
  assert (forall x, In x l -> lo <= f x <= hi) by (intros; apply H; right; auto). specialize (IH H1). lra.
Qed.
Lemma mean_bounds : forall A (f : A -> R) l lo hi, l <> [] -> (forall x, In x l -> lo <= f x <= hi) ->
  lo <= mean_of f l <= hi.
Proof.
  intros A f l lo hi N H. pose proof (INR_pos _ l N) as P. destruct (total_bounds A f l lo hi H) as [L U].
  unfold mean_of. split.
  - apply Rmult_le_reg_l with (INR (length l)); [exact P|]. replace (INR (length l) * (total (map f l) / INR (length l))) with (total (map f l)) by (field; lra). exact L.
  - apply Rmult_le_reg_l with (INR (length l)); [exact P|]. replace (INR (length l) * (total (map f l) / INR (length l))) with (total (map f l)) by (field; lra). exact U.
Qed.

(** Affine maps commute with the mean. *)
Lemma total_affine : forall A (l : list A) a b c (f g : A -> R),
  total (map (fun v => a * f v + b * g v + c) l) = a * total (map f l) + b * total (map g l) + c * INR (length l).
Proof.
  induction l as [|x l IH]; intros a b c f g; [cbn; ring|].
  cbn [map total fold_right]. change (fold_right Rplus 0) with total. rewrite IH. cbn [length]. rewrite S_INR. ring.
Qed.
Lemma mean_affine : forall A (l : list A) a b c (f g : A -> R), l <> [] ->
  mean_of (fun v => a * f v + b * g v + c) l = a * mean_of f l + b * mean_of g l + c.
Proof.
  intros A l a b c f g N. pose proof (INR_pos _ l N). unfold mean_of. rewrite total_affine. field. lra.
Qed.
Lemma mean_ext : forall A (f g : A -> R) l, (forall x, f x = g x) -> mean_of f l = mean_of g l.
Proof. intros A f g l H. unfold mean_of. f_equal. f_equal. apply map_ext. exact H. Qed.

Lemma mean_rigid : forall yaw t l, l <> [] -> mean (map (rigid yaw t) l) = rigid yaw t (mean l).
Proof.
  intros yaw t l N. unfold mean, rigid, yawed, vadd. cbn [vx vy vz].
  unfold mean_of at 1 2 3. rewrite map_length, !map_map. cbn [vx vy vz].
  f_equal.
  - change (mean_of (fun v => cos yaw * vx v - sin yaw * vy v + vx t) l = cos yaw * mean_of vx l - sin yaw * mean_of vy l + vx t).
    rewrite (mean_ext _ _ (fun v => cos yaw * vx v + - sin yaw * vy v + vx t)) by (intros; ring). rewrite mean_affine by exact N. ring.
  - change (mean_of (fun v => sin yaw * vx v + cos yaw * vy v + vy t) l = sin yaw * mean_of vx l + cos yaw * mean_of vy l + vy t).
    rewrite mean_affine by exact N. ring.
  - change (mean_of (fun v => vz v + vz t) l = mean_of vz l + vz t).
    rewrite (mean_ext _ _ (fun v => 1 * vz v + 0 * vz v + vz t)) by (intros; ring). rewrite mean_affine by exact N. ring.
Qed.
Lemma mean_translate : forall t l, l <> [] -> mean (map (fun v => vadd v t) l) = vadd (mean l) t.
Proof.
  intros t l N. pose proof (mean_rigid 0 t l N) as H.
  assert (E : forall v, rigid 0 t v = vadd v t).
  { intros [x y z]. unfold rigid, yawed. rewrite cos_0, sin_0. unfold vadd. cbn. f_equal; ring. }
  rewrite E in H. rewrite <- H. f_equal. apply map_ext. intros. symmetry. apply E.
Qed.

(** *** 2 x 2 algebra *)
Definition m2trace (a : m2) : R := m00 a + m11 a.
Lemma m2_assoc : forall a b c, m2mul (m2mul a b) c = m2mul a (m2mul b c).
Proof. intros. unfold m2mul. cbn. f_equal; ring. Qed.
Lemma m2_id_l : forall a, m2mul m2id a = a.
Proof. intros [a b c d]. unfold m2mul, m2id. cbn. f_equal; ring. Qed.
Lemma m2_id_r : forall a, m2mul a m2id = a.
Proof. intros [a b c d]. unfold m2mul, m2id. cbn. f_equal; ring. Qed.
Lemma m2_trace_comm : forall a b, m2trace (m2mul a b) = m2trace (m2mul b a).
Proof. intros. unfold m2trace, m2mul. cbn. ring. Qed.
Lemma m2_det_mul : forall a b, m2det (m2mul a b) = m2det a * m2det b.
Proof. intros. unfold m2det, m2mul. cbn. ring. Qed.
Lemma m2_tr_mul : forall a b, m2tr (m2mul a b) = m2mul (m2tr b) (m2tr a).
Proof. intros. unfold m2tr, m2mul. cbn. f_equal; ring. Qed.

Lemma orth_det : forall U, m2mul (m2tr U) U = m2id -> m2det U = 1 \/ m2det U = -1.
Proof.
  intros U H. assert (E : m2det U * m2det U = 1).
  { transitivity (m2det (m2mul (m2tr U) U)); [rewrite m2_det_mul; unfold m2det, m2tr; cbn; ring|rewrite H; unfold m2det, m2id; cbn; ring]. }
  assert (K : (m2det U - 1) * (m2det U + 1) = 0) by lra.
  apply Rmult_integral in K. destruct K; [left|right]; lra.
Qed.
Lemma sign_pm : forall x, x = 1 \/ x = -1 -> sign x = x.
Proof. intros x [->| ->]; unfold sign; rcases; lra. Qed.

Lemma kabsch_rot_orth : forall M U V, svd_of M U V ->
  let Q := kabsch_rot U V in m2mul (m2tr Q) Q = m2id /\ m2det Q = 1.
Proof.
  intros M U V (U1 & U2 & V1 & V2 & _). cbv zeta. unfold kabsch_rot.
  set (d := m2det (m2mul V (m2tr U))).
  assert (D : d = m2det V * m2det U) by (unfold d; rewrite m2_det_mul; f_equal; unfold m2det, m2tr; cbn; ring).
  assert (Pd : d = 1 \/ d = -1).
  { destruct (orth_det U U1) as [A|A], (orth_det V V1) as [B|B]; rewrite D, A, B; [left|right|right|left]; lra. }
  rewrite (sign_pm d Pd). assert (dd : d * d = 1) by (destruct Pd as [-> | ->]; lra).
  split.
  - rewrite !m2_tr_mul. rewrite !m2_assoc. rewrite <- (m2_assoc (m2tr V) V). rewrite V1, m2_id_l.
    rewrite <- (m2_assoc (m2tr (m2diag 1 d)) (m2diag 1 d)).
    replace (m2mul (m2tr (m2diag 1 d)) (m2diag 1 d)) with m2id.
    2:{ unfold m2mul, m2tr, m2diag, m2id. cbn. f_equal; [ring|ring|ring|]. rewrite <- dd. ring. }
    rewrite m2_id_l. change (m2tr (m2tr U)) with (mkM2 (m00 U) (m01 U) (m10 U) (m11 U)).
    destruct U. exact U2.
  - rewrite !m2_det_mul. replace (m2det (m2tr U)) with (m2det U) by (unfold m2det, m2tr; cbn; ring).
    replace (m2det (m2diag 1 d)) with d by (unfold m2det, m2diag; cbn; ring). rewrite D.
    destruct (orth_det U U1) as [-> | ->], (orth_det V V1) as [-> | ->]; ring.
Qed.

Lemma kabsch_rot_trace : forall M U V, svd_of M U V ->
  m2trace (m2mul (kabsch_rot U V) M) * m2trace (m2mul (kabsch_rot U V) M) =
    m2trace (m2mul M (m2tr M)) + 2 * m2det M /\
  0 <= m2trace (m2mul (kabsch_rot U V) M).
Proof.
  intros M U V (U1 & U2 & V1 & V2 & s1 & s2 & Hs & EM).
  set (d := m2det (m2mul V (m2tr U))).
  assert (D : d = m2det V * m2det U) by (unfold d; rewrite m2_det_mul; f_equal; unfold m2det, m2tr; cbn; ring).
  assert (Pd : d = 1 \/ d = -1).
  { destruct (orth_det U U1) as [A|A], (orth_det V V1) as [B|B]; rewrite D, A, B; [left|right|right|left]; lra. }
  assert (T : m2trace (m2mul (kabsch_rot U V) M) = s1 + d * s2).
  { unfold kabsch_rot. fold d. rewrite (sign_pm d Pd), EM. rewrite !m2_assoc.
    rewrite <- (m2_assoc (m2tr U) U), U1, m2_id_l. rewrite m2_trace_comm. rewrite !m2_assoc. rewrite V1, m2_id_r.
    unfold m2trace, m2mul, m2diag. cbn. ring. }
  assert (T2 : m2trace (m2mul M (m2tr M)) = s1 * s1 + s2 * s2).
  { rewrite EM, !m2_tr_mul. change (m2tr (m2tr V)) with (mkM2 (m00 V) (m01 V) (m10 V) (m11 V)).
    replace (mkM2 (m00 V) (m01 V) (m10 V) (m11 V)) with V by (destruct V; reflexivity).
    rewrite !m2_assoc. rewrite <- (m2_assoc (m2tr V) V), V1, m2_id_l.
    rewrite m2_trace_comm. rewrite !m2_assoc. rewrite U1, m2_id_r. unfold m2trace, m2mul, m2diag, m2tr. cbn. ring. }
  assert (T3 : m2det M = d * (s1 * s2)).
  { rewrite EM, !m2_det_mul. replace (m2det (m2tr V)) with (m2det V) by (unfold m2det, m2tr; cbn; ring).
    replace (m2det (m2diag s1 s2)) with (s1 * s2) by (unfold m2det, m2diag; cbn; ring). rewrite D. ring. }
  rewrite T, T2, T3. destruct Pd as [-> | ->]; split; try lra; ring.
Qed.

(** If M = C R^T with C symmetric positive semidefinite and not zero, the
    rotation computed from the factors of M is R. *)
Lemma kabsch_exact : forall a b d yaw U V, 0 <= a * d - b * b -> 0 < a + d ->
  let M := m2mul (mkM2 a b b d) (m2tr (m2rot yaw)) in
  svd_of M U V -> kabsch_rot U V = m2rot yaw.
Proof.
  intros a b d yaw U V HC Hp M HS.
  destruct (kabsch_rot_orth M U V HS) as [O1 O2]. destruct (kabsch_rot_trace M U V HS) as [T1 T2].
  set (Q := kabsch_rot U V) in *.
  pose proof (sin2_cos2 yaw) as SC. unfold Rsqr in SC. set (s := sin yaw) in *. set (c := cos yaw) in *.
  assert (EM : m2trace (m2mul M (m2tr M)) + 2 * m2det M = (a + d) * (a + d)).
  { unfold M, m2trace, m2mul, m2tr, m2det, m2rot. cbn. fold s c. assert (E : s * s = 1 - c * c) by lra. ring [E]. }
  rewrite EM in T1.
  assert (T : m2trace (m2mul Q M) = a + d) by (clear - T1 T2 Hp; nra).
  destruct Q as [q00 q01 q10 q11]. unfold m2mul, m2tr, m2id, m2det in O1, O2. cbn in O1, O2.
  injection O1 as E1 E2 E3 E4.
  (* q11 = q00, q10 = - q01 *)
  assert (F1 : q11 = q00).
  { transitivity (q11 * 1); [ring|]. rewrite <- E1 at 1. transitivity (q00 * (q00 * q11 - q01 * q10) + q10 * (q00 * q01 + q10 * q11)); [ring|].
    rewrite O2. replace (q00 * q01 + q10 * q11) with 0 by lra. ring. }
  assert (F2 : q10 = - q01).
  { transitivity (q10 * 1); [ring|]. rewrite <- E4 at 1.
    transitivity (q11 * (q00 * q01 + q10 * q11) - q01 * (q00 * q11 - q01 * q10)); [ring|].
    rewrite O2. replace (q00 * q01 + q10 * q11) with 0 by lra. ring. }
  subst q11 q10.
  assert (TT : m2trace (m2mul (mkM2 q00 q01 (- q01) q00) M) = (q00 * c - q01 * s) * (a + d)).
  { unfold m2trace, M, m2mul, m2tr, m2rot. cbn. fold s c. ring. }
  rewrite TT in T. assert (W : q00 * c - q01 * s = 1).
  { apply Rmult_eq_reg_r with (a + d); lra. }
  assert (Z : (q00 - c) * (q00 - c) + (q01 + s) * (q01 + s) = 0) by nra.
  assert (Z1 : q00 - c = 0).
  { apply Rsqr_0_uniq. unfold Rsqr. pose proof (Rle_0_sqr (q00 - c)). pose proof (Rle_0_sqr (q01 + s)). unfold Rsqr in *. lra. }
  assert (Z2 : q01 + s = 0).
  { apply Rsqr_0_uniq. unfold Rsqr. pose proof (Rle_0_sqr (q00 - c)). pose proof (Rle_0_sqr (q01 + s)). unfold Rsqr in *. lra. }
  unfold m2rot. fold s c. f_equal; lra.
Qed.

(** *** Sums over point lists *)
Lemma lsum_ext : forall A (f g : A -> R) l, (forall x, In x l -> f x = g x) -> lsum f l = lsum g l.
Proof. induction l as [|x l IH]; intros H; [reflexivity|]. cbn [lsum fold_right]. rewrite (H x) by (left; auto). f_equal. apply IH. intros; apply H; right; auto. Qed.
Lemma lsum_lin : forall A (l : list A) a b (f g : A -> R), lsum (fun x => a * f x + b * g x) l = a * lsum f l + b * lsum g l.
Proof. induction l as [|x l IH]; intros; [cbn; ring|]. cbn. unfold lsum in IH. rewrite IH. ring. Qed.
Lemma lsum_nonneg : forall A (f : A -> R) l, (forall x, In x l -> 0 <= f x) -> 0 <= lsum f l.
Proof.
  induction l as [|x l IH]; intros H; [cbn; lra|]. cbn. pose proof (H x (or_introl eq_refl)).
  assert (0 <= lsum f l) by (apply IH; intros; apply H; right; auto). unfold lsum in *. lra.
Qed.
Lemma lsum_pos : forall A (f : A -> R) l x, (forall y, In y l -> 0 <= f y) -> In x l -> 0 < f x -> 0 < lsum f l.
Proof.
  induction l as [|y l IH]; intros x H Hx P; [destruct Hx|]. cbn.
  assert (0 <= lsum f l) by (apply lsum_nonneg; intros; apply H; right; auto).
  destruct Hx as [->|Hx].
  - unfold lsum in *. lra.
  - pose proof (H y (or_introl eq_refl)). specialize (IH x (fun z Hz => H z (or_intror Hz)) Hx P). unfold lsum in *. lra.
Qed.
Lemma lsum_map : forall A B (g : A -> B) f l, lsum f (map g l) = lsum (fun x => f (g x)) l.
Proof. induction l as [|x l IH]; [reflexivity|]. cbn. unfold lsum in IH. rewrite IH. reflexivity. Qed.

Lemma cauchy : forall l, let a := lsum (fun v => vx v * vx v) l in let b := lsum (fun v => vx v * vy v) l in
  let d := lsum (fun v => vy v * vy v) l in 0 <= a * d - b * b.
Proof.
  induction l as [|v l IH]; cbv zeta in *; [cbn; lra|].
  set (a := lsum (fun v => vx v * vx v) l) in *. set (b := lsum (fun v => vx v * vy v) l) in *. set (d := lsum (fun v => vy v * vy v) l) in *.
  change (lsum (fun v => vx v * vx v) (v :: l)) with (vx v * vx v + a).
  change (lsum (fun v => vx v * vy v) (v :: l)) with (vx v * vy v + b).
  change (lsum (fun v => vy v * vy v) (v :: l)) with (vy v * vy v + d).
  assert (K : 0 <= a * (vy v * vy v) - 2 * b * (vx v * vy v) + d * (vx v * vx v)).
  { replace (a * (vy v * vy v) - 2 * b * (vx v * vy v) + d * (vx v * vx v)) with (lsum (fun w => Rsqr (vx w * vy v - vy w * vx v)) l).
    - apply lsum_nonneg. intros. apply Rle_0_sqr.
    - unfold a, b, d.
      rewrite (lsum_ext _ _ (fun w => 1 * ((vy v * vy v) * (vx w * vx w) + (- 2 * (vx v * vy v)) * (vx w * vy w)) + (vx v * vx v) * (vy w * vy w))).
      + rewrite !lsum_lin. ring.
      + intros w _. unfold Rsqr. ring. }
  nra.
Qed.

Lemma combine_map_r : forall A B (g : A -> B) l, combine l (map g l) = map (fun x => (x, g x)) l.
Proof. induction l as [|x l IH]; [reflexivity|]. cbn. f_equal. exact IH. Qed.
Lemma combine_map_l : forall A B (g : A -> B) l, combine (map g l) l = map (fun x => (g x, x)) l.
Proof. induction l as [|x l IH]; [reflexivity|]. cbn. f_equal. exact IH. Qed.

Lemma cross_rigid : forall yaw l, cross_cov l (map (yawed yaw) l) =
  m2mul (mkM2 (lsum (fun v => vx v * vx v) l) (lsum (fun v => vx v * vy v) l)
              (lsum (fun v => vx v * vy v) l) (lsum (fun v => vy v * vy v) l)) (m2tr (m2rot yaw)).
Proof.
  intros yaw l. unfold cross_cov. rewrite combine_map_r, !lsum_map. unfold m2mul, m2tr, m2rot, yawed. cbn.
  f_equal.
  - rewrite (lsum_ext _ _ (fun v => cos yaw * (vx v * vx v) + (- sin yaw) * (vx v * vy v))) by (intros; ring). rewrite lsum_lin. ring.
  - rewrite (lsum_ext _ _ (fun v => sin yaw * (vx v * vx v) + cos yaw * (vx v * vy v))) by (intros; ring). rewrite lsum_lin. ring.
  - rewrite (lsum_ext _ _ (fun v => cos yaw * (vx v * vy v) + (- sin yaw) * (vy v * vy v))) by (intros; ring). rewrite lsum_lin. ring.
  - rewrite (lsum_ext _ _ (fun v => sin yaw * (vx v * vy v) + cos yaw * (vy v * vy v))) by (intros; ring). rewrite lsum_lin. ring.
Qed.

Lemma lift_yaw : forall yaw v, mat_vec (lift_rot (m2rot yaw)) v = yawed yaw v.
Proof. intros yaw [x y z]. unfold mat_vec, lift_rot, m2rot, of_list, yawed. cbn. f_equal; ring. Qed.

Lemma vnorm_v0 : vnorm v0 = 0.
Proof. unfold vnorm, vnorm2, vdot, v0. cbn. replace (0 * 0 + 0 * 0 + 0 * 0) with 0 by ring. apply sqrt_0. Qed.

Lemma mean_const0 : forall A (l : list A), l <> [] -> mean (map (fun _ => v0) l) = v0.
Proof.
  intros A l N. unfold mean, mean_of. rewrite map_length, !map_map. cbn [vx vy vz v0].
  assert (Z : total (map (fun _ : A => 0) l) = 0).
  { clear N. induction l as [|x l IH]; [reflexivity|]. cbn [map total fold_right]. change (fold_right Rplus 0) with total. rewrite IH. ring. }
  unfold v0. cbn [vx vy vz]. rewrite Z. unfold Rdiv. rewrite !Rmult_0_l. reflexivity.
Qed.
Lemma stddev_const0 : forall A (l : list A), l <> [] -> mean_standard_deviation (map (fun _ => v0) l) = OK 0.
Proof.
  intros A l N. unfold mean_standard_deviation. rewrite average_ok by (destruct l; [congruence|discriminate]).
  cbn [bind]. rewrite mean_const0 by exact N. f_equal. rewrite lsum_map.
  rewrite (lsum_ext _ _ (fun _ => 0)).
  - assert (Z : lsum (fun _ : A => 0) l = 0) by (clear N; induction l as [|x l IH]; [reflexivity|]; cbn; unfold lsum in IH; rewrite IH; ring).
    rewrite Z, sqrt_0. unfold Rdiv. ring.
  - intros x _. replace (vsub v0 v0) with v0 by (unfold vsub, v0; cbn; f_equal; ring). rewrite vnorm_v0. ring.
Qed.

Lemma spread_mean : forall l, spread l ->
  exists p, In p l /\ (vx p <> vx (mean l) \/ vy p <> vy (mean l)).
Proof.
  intros l [p [q [Hp [Hq D]]]].
  destruct (Req_dec (vx p) (vx (mean l))) as [A|A]; [|exists p; auto].
  destruct (Req_dec (vy p) (vy (mean l))) as [B|B]; [|exists p; auto].
  exists q. split; [exact Hq|]. rewrite <- A, <- B. destruct D; [left|right]; congruence.
Qed.

Lemma kabsch_refuses : forall svd tgt src,
  (length tgt <> length src \/ (length tgt < 4)%nat) -> kabsch_2d svd tgt src = OK None.
Proof.
  intros svd tgt src H. unfold kabsch_2d. destruct (Nat.eqb_spec (length tgt) (length src)) as [E|E].
  - destruct H as [H|H]; [contradiction|]. rewrite (proj2 (Nat.ltb_lt _ _) H). reflexivity.
  - reflexivity.
Qed.

Lemma kabsch_recovers : forall svd yaw t src, (4 <= length src)%nat -> spread src ->
  (forall M, let '(U, V) := svd M in svd_of M U V) ->
  exists T, kabsch_2d svd (map (rigid yaw t) src) src = OK (Some (T, 0, Some 0)) /\
    (forall v, aff_apply T v = rigid yaw t v) /\ af_tr T = t /\ af_lin T = lift_rot (m2rot yaw).
Proof.
  intros svd yaw t src HL HS Hsvd.
  assert (N : src <> []) by (intros ->; cbn in HL; lia).
  assert (N2 : map (rigid yaw t) src <> []) by (destruct src; [congruence|discriminate]).
  unfold kabsch_2d. rewrite map_length, Nat.eqb_refl. rewrite (proj2 (Nat.ltb_ge _ _)) by exact HL. cbn [negb orb].
  rewrite !average_ok by assumption. cbn [bind]. rewrite mean_rigid by exact N.
  set (cs := mean src).
  assert (EV : vectors_minus (map (rigid yaw t) src) (rigid yaw t cs) = map (yawed yaw) (vectors_minus src cs)).
  { unfold vectors_minus. rewrite !map_map. apply map_ext. intros v. unfold rigid, yawed, vsub, vadd. cbn. f_equal; ring. }
  rewrite EV, cross_rigid.
  set (c := vectors_minus src cs). pose proof (cauchy c) as HC. cbv zeta in HC.
  assert (HP : 0 < lsum (fun v => vx v * vx v) c + lsum (fun v => vy v * vy v) c).
  { destruct (spread_mean src HS) as [p [Hp D]]. fold cs in D.
    replace (lsum (fun v => vx v * vx v) c + lsum (fun v => vy v * vy v) c) with (lsum (fun v => 1 * (vx v * vx v) + 1 * (vy v * vy v)) c) by (rewrite lsum_lin; ring).
    apply lsum_pos with (vsub p cs).
    - intros y _. nra.
    - unfold c, vectors_minus. apply in_map_iff. exists p. auto.
    - unfold vsub. cbn [vx vy vz]. pose proof (Rle_0_sqr (vx p - vx cs)) as Q1. pose proof (Rle_0_sqr (vy p - vy cs)) as Q2. unfold Rsqr in Q1, Q2.
      destruct D as [D|D].
      + assert (0 < (vx p - vx cs) * (vx p - vx cs)) by (apply Rsqr_pos_lt; lra). lra.
      + assert (0 < (vy p - vy cs) * (vy p - vy cs)) by (apply Rsqr_pos_lt; lra). lra. }
  specialize (Hsvd (m2mul (mkM2 (lsum (fun v => vx v * vx v) c) (lsum (fun v => vx v * vy v) c)
              (lsum (fun v => vx v * vy v) c) (lsum (fun v => vy v * vy v) c)) (m2tr (m2rot yaw)))).
  destruct (svd _) as [U V]. rewrite (kabsch_exact _ _ _ yaw U V HC HP Hsvd).
  rewrite lift_yaw.
  assert (ET : vsub (rigid yaw t cs) (yawed yaw cs) = t).
  { destruct t as [tx ty tz]. unfold rigid, vsub, vadd. cbn. f_equal; ring. }
  rewrite ET. set (T := mkAff (lift_rot (m2rot yaw)) t).
  assert (EA : forall v, aff_apply T v = rigid yaw t v) by (intros v; unfold aff_apply, T; cbn [af_lin af_tr]; rewrite lift_yaw; reflexivity).
  rewrite combine_map_l, map_map. cbn [fst snd].
  assert (EZ : forall v, vsub (rigid yaw t v) (aff_apply T v) = v0).
  { intros v. rewrite EA. unfold vsub, v0. f_equal; ring. }
  rewrite (map_ext _ (fun _ => v0)) by (intros v; apply EZ).
  rewrite stddev_const0 by exact N. cbn [bind].
  set (used := filter _ _).
  assert (HU : used <> []).
  { destruct HS as [p [q [Hp [Hq D]]]].
    assert (K : exists r, In r src /\ rigid yaw t r <> cs).
    { destruct (Req_dec (vx (rigid yaw t p)) (vx cs)) as [A|A]; [|exists p; split; [auto|congruence]].
      destruct (Req_dec (vy (rigid yaw t p)) (vy cs)) as [B|B]; [|exists p; split; [auto|congruence]].
      exists q. split; [exact Hq|]. intros F. rewrite <- F in A, B. unfold rigid, yawed, vadd in A, B. cbn in A, B.
      pose proof (sin2_cos2 yaw) as SC. unfold Rsqr in SC. set (s := sin yaw) in *. set (k := cos yaw) in *.
      assert (A' : k * (vx p - vx q) - s * (vy p - vy q) = 0) by lra.
      assert (B' : s * (vx p - vx q) + k * (vy p - vy q) = 0) by lra.
      assert (X : vx p - vx q = 0).
      { transitivity ((s * s + k * k) * (vx p - vx q)); [rewrite SC; ring|].
        transitivity (k * (k * (vx p - vx q) - s * (vy p - vy q)) + s * (s * (vx p - vx q) + k * (vy p - vy q))); [ring|].
        rewrite A', B'. ring. }
      assert (Y : vy p - vy q = 0).
      { transitivity ((s * s + k * k) * (vy p - vy q)); [rewrite SC; ring|].
        transitivity (k * (s * (vx p - vx q) + k * (vy p - vy q)) - s * (k * (vx p - vx q) - s * (vy p - vy q))); [ring|].
        rewrite A', B'. ring. }
      destruct D; lra. }
    destruct K as [r [Hr D']]. intros F.
    assert (I : In (rigid yaw t r, r) used).
    { unfold used. apply filter_In. split; [apply in_map_iff; exists r; auto|]. cbn [fst snd].
      rewrite EZ, vnorm_v0. apply Rltb_true. pose proof (vnorm_nonneg (vsub (rigid yaw t r) cs)) as V0.
      destruct (Req_dec (vnorm (vsub (rigid yaw t r) cs)) 0) as [Z|Z]; [|lra]. exfalso. apply D'.
      apply vnorm_zero in Z. unfold vsub, v0 in Z. injection Z as Z1 Z2 Z3. apply v3_eq; apply Rminus_diag_uniq; [exact Z1|exact Z2|exact Z3]. }
    rewrite F in I. destruct I. }
  pose proof (INR_pos _ used HU) as PU. rewrite (proj2 (Reqb_false _ _)) by lra.
  replace (lsum (fun p => (vnorm (vsub (fst p) (aff_apply T (snd p))) / vnorm (vsub (fst p) cs)) ^ 2) used) with 0.
  - rewrite sqrt_0. replace (0 / INR (length used)) with 0 by (unfold Rdiv; ring).
    exists T. split; [reflexivity|]. split; [exact EA|]. split; reflexivity.
  - symmetry. rewrite (lsum_ext _ _ (fun _ => 0)).
    + clear. induction used as [|x l IH]; [reflexivity|]. cbn. unfold lsum in IH. rewrite IH. ring.
    + intros x Hx. unfold used in Hx. apply filter_In in Hx. destruct Hx as [Hx _]. apply in_map_iff in Hx.
      destruct Hx as [v [<- _]]. cbn [fst snd]. rewrite EZ, vnorm_v0. unfold Rdiv. ring.
Qed.

(** The reported heading. *)
Lemma heading : forall yaw T, af_lin T = lift_rot (m2rot yaw) ->
  (0 <= yaw <= PI -> affine_angle T = OK yaw) /\ (- PI <= yaw <= 0 -> affine_angle T = OK (- yaw)).
Proof.
  intros yaw T H. unfold affine_angle. rewrite H. unfold lift_rot, m2rot, of_list. cbn.
  replace ((cos yaw + cos yaw + 1 - 1) / 2) with (cos yaw) by field.
  pose proof (COS_bound yaw) as [B1 B2].
  rewrite (proj2 (Rleb_spec (-1) (cos yaw))) by exact B1. rewrite (proj2 (Rleb_spec (cos yaw) 1)) by exact B2. cbn [andb].
  split; intros Y.
  - f_equal. apply acos_cos. lra.
  - f_equal. rewrite <- cos_neg. apply acos_cos. lra.
Qed.
