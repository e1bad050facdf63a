(** Rotation vectors, quaternions, rotation matrices. *)
From Coq Require Import Reals List Arith Bool Lia Lra.
From Verif Require Import Base.Res Base.Mat Base.RDec Base.RSum Base.LinAlg Base.Geom
  Model.TypeHelper Model.MathHelper Spec.Rotation Proofs.Effects.
Import ListNotations.
Open Scope R_scope.

Lemma v3_eq : forall a b, vx a = vx b -> vy a = vy b -> vz a = vz b -> a = b.
Proof. intros [a b c] [d e f]. cbn. congruence. Qed.
Lemma q_eq : forall a b, qw a = qw b -> qx a = qx b -> qy a = qy b -> qz a = qz b -> a = b.
Proof. intros [a b c d] [e f g h]. cbn. congruence. Qed.

Lemma vnorm_nonneg : forall v, 0 <= vnorm v.
Proof. intros. apply sqrt_pos. Qed.
Lemma vnorm_zero : forall v, vnorm v = 0 -> v = v0.
Proof.
  intros [x y z] H. assert (E : vnorm2 (mkV3 x y z) = 0) by (rewrite <- vnorm_sq, H; ring).
  unfold vnorm2, vdot in E. cbn in E.
  pose proof (Rle_0_sqr x). pose proof (Rle_0_sqr y). pose proof (Rle_0_sqr z). unfold Rsqr in *.
  assert (x * x = 0) by lra. assert (y * y = 0) by lra. assert (z * z = 0) by lra.
  unfold v0. f_equal; nra.
Qed.
Lemma vnorm_scale : forall k v, vnorm (vscale k v) = Rabs k * vnorm v.
Proof.
  intros k [x y z]. unfold vnorm, vnorm2, vdot, vscale. cbn.
  replace (k * x * (k * x) + k * y * (k * y) + k * z * (k * z)) with (Rsqr k * (x * x + y * y + z * z)) by (unfold Rsqr; ring).
  rewrite sqrt_mult_alt by apply Rle_0_sqr. rewrite sqrt_Rsqr_abs. reflexivity.
Qed.
Lemma vdiv_scale : forall v k, vdiv v k = vscale (/ k) v.
Proof. intros v k. apply v3_eq; cbn; unfold Rdiv; ring. Qed.
Lemma vnorm_unit : forall v, 0 < vnorm v -> vnorm2 (vdiv v (vnorm v)) = 1.
Proof. intros v H. rewrite vnorm2_div by lra. rewrite vnorm_sq. rewrite <- vnorm_sq. field. lra. Qed.

(** *** atan2 on the first quadrant *)
Lemma atan2_polar : forall t r, 0 <= t <= PI / 2 -> 0 < r ->
  atan2_nn (r * sin t) (r * cos t) = t.
Proof.
  intros t r [H1 H2] Hr. unfold atan2_nn. destruct (Req_dec t (PI / 2)) as [E|E].
  - subst t. rewrite cos_PI2, sin_PI2. rewrite Rmult_0_r, Rltb_ff by lra.
    rewrite Rltb_true by lra. reflexivity.
  - assert (C : 0 < cos t) by (apply cos_gt_0; lra).
    assert (RC : 0 < r * cos t) by (apply Rmult_lt_0_compat; auto).
    rewrite Rltb_true by exact RC.
    replace (r * sin t / (r * cos t)) with (tan t) by (unfold tan; field; lra).
    apply atan_tan. lra.
Qed.

Lemma vnorm_qvec_aaq : forall a v, vnorm2 v = 1 -> vnorm (qvec (angle_axis_quat a v)) = Rabs (sin (/ 2 * a)).
Proof.
  intros a v H. unfold qvec, angle_axis_quat. cbn [qx qy qz].
  change (mkV3 (sin (/ 2 * a) * vx v) (sin (/ 2 * a) * vy v) (sin (/ 2 * a) * vz v)) with (vscale (sin (/ 2 * a)) v).
  rewrite vnorm_scale. unfold vnorm. rewrite H, sqrt_1. ring.
Qed.

Lemma RotVec_big : forall v, 1 / 1000000000 < vnorm v ->
  RotVecToQuat v = angle_axis_quat (vnorm v) (vdiv v (vnorm v)).
Proof. intros v H. unfold RotVecToQuat. rewrite Rltb_true by exact H. reflexivity. Qed.
Lemma RotVec_small : forall v, vnorm v <= 1 / 1000000000 -> RotVecToQuat v = qid.
Proof. intros v H. unfold RotVecToQuat. rewrite Rltb_ff by exact H. reflexivity. Qed.

(** The angle/axis pair of a quaternion built from angle and axis. *)
Lemma aaq_roundtrip : forall a v, 0 < a <= PI -> vnorm2 v = 1 ->
  quat_angle_axis (angle_axis_quat a v) = (a, v).
Proof.
  intros a v [H1 H2] Hv. pose proof PI_RGT_0 as HPI.
  assert (S : 0 < sin (/ 2 * a)) by (apply sin_gt_0; lra).
  assert (C : 0 <= cos (/ 2 * a)) by (apply cos_ge_0; lra).
  unfold quat_angle_axis. rewrite vnorm_qvec_aaq by exact Hv. rewrite Rabs_right by lra.
  rewrite (proj2 (Reqb_false _ _)) by lra.
  unfold angle_axis_quat at 1 2. cbn [qw]. rewrite Rltb_ff by exact C. rewrite Rabs_right by lra.
  f_equal.
  - rewrite <- (Rmult_1_l (sin (/ 2 * a))). rewrite <- (Rmult_1_l (cos (/ 2 * a))).
    rewrite atan2_polar by lra. field.
  - destruct v as [x y z]. unfold vdiv, qvec, angle_axis_quat. cbn. f_equal; field; lra.
Qed.

Lemma rotvec_roundtrip : forall v, 1 / 1000000000 < vnorm v <= PI -> QuatToRotVec (RotVecToQuat v) = v.
Proof.
  intros v [H1 H2]. rewrite RotVec_big by exact H1. unfold QuatToRotVec.
  rewrite aaq_roundtrip; [|lra|apply vnorm_unit; lra].
  destruct v as [x y z]. unfold vdiv. cbn [vx vy vz]. f_equal; field; lra.
Qed.
Lemma quat_rotvec_id : QuatToRotVec qid = v0.
Proof.
  unfold QuatToRotVec, quat_angle_axis. replace (vnorm (qvec qid)) with 0.
  - rewrite (proj2 (Reqb_spec _ _)) by reflexivity. unfold v0. cbn. f_equal; ring.
  - unfold vnorm, vnorm2, vdot, qvec, qid. cbn. rewrite <- sqrt_0 at 1. f_equal. ring.
Qed.
Lemma rotvec_small_roundtrip : forall v, vnorm v <= 1 / 1000000000 ->
  RotVecToQuat v = qid /\ QuatToRotVec (RotVecToQuat v) = v0.
Proof. intros v H. rewrite RotVec_small by exact H. split; [reflexivity|apply quat_rotvec_id]. Qed.

(** Rodrigues' formula. *)
Lemma rodrigues : forall a k u, vnorm2 k = 1 ->
  qrot (angle_axis_quat a k) u = turn a k u.
Proof.
  intros a [x y z] [p q r] H. unfold turn. unfold vnorm2, vdot in H. cbn in H.
  replace a with (2 * (/ 2 * a)) at 2 3 4 by field. rewrite sin_2a, cos_2a_sin.
  pose proof (sin2_cos2 (/ 2 * a)) as SC. unfold Rsqr in SC.
  unfold qrot, angle_axis_quat, vadd, vscale, vcross, vdot, qvec.
  cbn [qw qx qy qz vx vy vz].
  set (s := sin (/ 2 * a)) in *. set (c := cos (/ 2 * a)) in *.
  clearbody s c. clear SC a.
  assert (E : x * x = 1 - y * y - z * z) by lra. clear H.
  apply v3_eq; cbn [vx vy vz]; ring [E].
Qed.

Lemma rotvec_fixes : forall v, qrot (RotVecToQuat v) v = v.
Proof.
  intros v. unfold RotVecToQuat. destruct (Rltb _ _) eqn:E.
  - apply Rltb_spec in E. destruct v as [x y z]. set (n := vnorm (mkV3 x y z)) in *.
    unfold qrot, angle_axis_quat, vadd, vcross, vscale, vdiv, qvec. cbn. f_equal; field; lra.
  - destruct v as [x y z]. unfold qrot, qid, qvec, vadd, vcross, vscale. cbn. f_equal; ring.
Qed.

(** *** Back: a unit quaternion and its rotation vector *)
Lemma qrot_neg : forall q v, qrot (opposite q) v = qrot q v.
Proof. intros [a b c d] [x y z]. unfold qrot, opposite, qvec, vadd, vcross, vscale. cbn [qw qx qy qz vx vy vz]. f_equal; ring. Qed.

Lemma atan2_range : forall y x, 0 <= x -> 0 <= y -> 0 <= atan2_nn y x <= PI / 2.
Proof.
  intros y x Hx Hy. pose proof PI_RGT_0. unfold atan2_nn. rcases; try lra.
  pose proof (atan_bound (y / x)). split; [|lra].
  assert (0 <= y / x) by (apply Rmult_le_pos; [lra|]; apply Rlt_le, Rinv_0_lt_compat; lra).
  destruct (Req_dec (y / x) 0) as [E0|E0]; [rewrite E0, atan_0; lra|].
  rewrite <- atan_0. left. apply atan_increasing. lra.
Qed.

Lemma cos_atan_eq : forall x, cos (atan x) = / sqrt (1 + x * x).
Proof.
  intros x. pose proof (atan_bound x). assert (0 < cos (atan x)) by (apply cos_gt_0; lra).
  assert (T : sin (atan x) / cos (atan x) = x) by (exact (tan_atan x)).
  assert (S : sin (atan x) = x * cos (atan x)) by (rewrite <- T at 2; field; lra).
  pose proof (sin2_cos2 (atan x)) as E. unfold Rsqr in E. rewrite S in E.
  assert (E2 : (1 + x * x) * (cos (atan x) * cos (atan x)) = 1) by lra.
  assert (0 < 1 + x * x) by nra.
  apply Rmult_eq_reg_l with (sqrt (1 + x * x)); [|apply Rgt_not_eq, sqrt_lt_R0; lra].
  rewrite Rinv_r by (apply Rgt_not_eq, sqrt_lt_R0; lra).
  apply Rsqr_inj; [|lra|].
  - apply Rmult_le_pos; [apply sqrt_pos|lra].
  - unfold Rsqr. rewrite Rmult_1_l.
    transitivity (sqrt (1 + x * x) * sqrt (1 + x * x) * (cos (atan x) * cos (atan x))); [ring|].
    rewrite sqrt_sqrt by lra. exact E2.
Qed.

Lemma atan2_cos_sin : forall y x, 0 <= x -> 0 <= y -> x * x + y * y = 1 ->
  cos (atan2_nn y x) = x /\ sin (atan2_nn y x) = y.
Proof.
  intros y x Hx Hy H. unfold atan2_nn. rcases.
  - assert (1 + y / x * (y / x) = / (x * x)).
    { transitivity ((x * x + y * y) / (x * x)); [field; lra|]. rewrite H. field. lra. }
    assert (C : cos (atan (y / x)) = x).
    { rewrite cos_atan_eq, H0. rewrite sqrt_inv, sqrt_square by lra. rewrite Rinv_inv. reflexivity. }
    split; [exact C|].
    assert (T : tan (atan (y / x)) = y / x) by apply tan_atan. unfold tan in T. rewrite C in T.
    apply Rmult_eq_reg_r with (/ x); [exact T|]. apply Rinv_neq_0_compat. lra.
  - assert (x = 0) by lra. subst x. rewrite cos_PI2, sin_PI2. split; [reflexivity|].
    assert (y * y = 1) by lra. nra.
  - exfalso. assert (x = 0) by lra. assert (y = 0) by lra. subst. lra.
Qed.

(** The quaternion of the rotation vector of a unit quaternion is that
    quaternion, up to the sign that makes the scalar part non-negative. *)
Lemma quat_roundtrip : forall q, qnorm2 q = 1 -> 1 / 1000000000 < vnorm (QuatToRotVec q) ->
  RotVecToQuat (QuatToRotVec q) = (if Rltb (qw q) 0 then opposite q else q) /\ vnorm (QuatToRotVec q) <= PI.
Proof.
  intros q Hq Hn. rewrite RotVec_big by exact Hn.
  destruct (Req_dec (vnorm (qvec q)) 0) as [E0|E0].
  { exfalso. unfold QuatToRotVec, quat_angle_axis in Hn. rewrite (proj2 (Reqb_spec _ _) E0) in Hn.
    cbn [vx vy vz] in Hn. unfold vnorm, vnorm2, vdot in Hn. cbn in Hn.
    replace (1 * 0 * (1 * 0) + 0 * 0 * (0 * 0) + 0 * 0 * (0 * 0)) with 0 in Hn by ring. rewrite sqrt_0 in Hn. lra. }
  assert (P0 : 0 < vnorm (qvec q)) by (pose proof (vnorm_nonneg (qvec q)); lra).
  set (n := vnorm (qvec q)) in *.
  assert (U : Rabs (qw q) * Rabs (qw q) + n * n = 1).
  { unfold n. rewrite vnorm_sq. unfold vnorm2, vdot, qvec. cbn [vx vy vz].
    rewrite <- Rabs_mult, Rabs_right by nra. unfold qnorm2 in Hq. lra. }
  destruct (atan2_cos_sin n (Rabs (qw q)) (Rabs_pos _) (Rlt_le _ _ P0) U) as [C S].
  pose proof (atan2_range n (Rabs (qw q)) (Rabs_pos _) (Rlt_le _ _ P0)) as B.
  set (h := atan2_nn n (Rabs (qw q))) in *.
  set (n' := if Rltb (qw q) 0 then - n else n).
  assert (N' : n' * n' = n * n /\ n' <> 0) by (unfold n'; destruct (Rltb (qw q) 0); split; nra).
  assert (E : QuatToRotVec q = vscale (2 * h) (vdiv (qvec q) n')).
  { unfold QuatToRotVec, quat_angle_axis. fold n. rewrite (proj2 (Reqb_false _ _) E0).
    cbv zeta. fold h. fold n'. unfold vscale. f_equal; ring. }
  assert (U1 : vnorm (vdiv (qvec q) n') = 1).
  { unfold vnorm. rewrite vnorm2_div by tauto. rewrite (proj1 N'). unfold n. rewrite vnorm_sq.
    replace (vnorm2 (qvec q) / vnorm2 (qvec q)) with 1; [apply sqrt_1|].
    rewrite <- vnorm_sq. fold n. field. lra. }
  assert (L : vnorm (QuatToRotVec q) = 2 * h).
  { rewrite E, vnorm_scale, U1, Rmult_1_r. apply Rabs_right. lra. }
  split; [|lra].
  rewrite L. rewrite L in Hn. rewrite E.
  unfold angle_axis_quat. replace (/ 2 * (2 * h)) with h by field. rewrite C, S.
  assert (Hp : h <> 0) by lra. destruct N' as [N1 N2].
  unfold n' in *. destruct (Rltb (qw q) 0) eqn:Es.
  - apply Rltb_spec in Es. rewrite Rabs_left by lra. unfold opposite, vscale, vdiv, qvec. cbn. f_equal; field; lra.
  - apply Rltb_false in Es. rewrite Rabs_right by lra. destruct q as [w x y z]. cbn [qw qx qy qz] in *.
    unfold vscale, vdiv, qvec. cbn. f_equal; field; lra.
Qed.

(** *** Matrices *)
Definition mv3 (M : mat R) (v : V3) : V3 := mat_vec M v.

Lemma skew_cross : forall a b, mat_vec (SkewSymmetric a) b = vcross a b.
Proof. intros [a b c] [x y z]. unfold mat_vec, SkewSymmetric, of_list, vcross. cbn. f_equal; ring. Qed.
Lemma skew_anti : forall a, eqm 3 3 (tr (ent (SkewSymmetric a))) (mopp (ent (SkewSymmetric a))).
Proof.
  intros [a b c] i j Hi Hj. unfold tr, mopp, SkewSymmetric, of_list.
  destruct i as [|[|[|i]]]; [..|exfalso; lia]; (destruct j as [|[|[|j]]]; [..|exfalso; lia]); cbn; ring.
Qed.
Lemma skew_shape : forall a, nr (SkewSymmetric a) = 3%nat /\ nc (SkewSymmetric a) = 3%nat.
Proof. intros. split; reflexivity. Qed.

Ltac ij i j Hi Hj := destruct i as [|[|[|i]]]; [..|exfalso; lia]; (destruct j as [|[|[|j]]]; [..|exfalso; lia]).

Lemma qmat_vec : forall q v, qnorm2 q = 1 -> mat_vec (qmat q) v = qrot q v.
Proof.
  intros [w x y z] [a b c] H. unfold qnorm2 in H. cbn in H.
  unfold mat_vec, qmat, of_list, qrot, qvec, vadd, vcross, vscale. cbn. f_equal; ring.
Qed.
Lemma qmat_orthogonal : forall q, qnorm2 q = 1 ->
  eqm 3 3 (mm 3 (ent (qmat q)) (tr (ent (qmat q)))) idm /\
  eqm 3 3 (mm 3 (tr (ent (qmat q))) (ent (qmat q))) idm.
Proof.
  intros [w x y z] H. unfold qnorm2 in H. cbn in H.
  assert (E : w * w = 1 - x * x - y * y - z * z) by lra.
  split; intros i j Hi Hj; ij i j Hi Hj; unfold mm, tr, qmat, of_list, idm, rsum; cbn; ring [E].
Qed.
Lemma qmat_mul : forall p q, qnorm2 p = 1 -> qnorm2 q = 1 ->
  eqm 3 3 (ent (qmat (qmul p q))) (mm 3 (ent (qmat p)) (ent (qmat q))).
Proof.
  intros [w x y z] [a b c d] H K. unfold qnorm2 in *. cbn in *.
  assert (E : w * w = 1 - x * x - y * y - z * z) by lra.
  assert (F : a * a = 1 - b * b - c * c - d * d) by lra.
  intros i j Hi Hj; ij i j Hi Hj; unfold mm, tr, qmat, qmul, of_list, idm, rsum; cbn; ring [E F].
Qed.
Lemma skew_conj : forall q a, qnorm2 q = 1 ->
  eqm 3 3 (mm 3 (mm 3 (ent (qmat q)) (ent (SkewSymmetric a))) (tr (ent (qmat q)))) (ent (SkewSymmetric (qrot q a))).
Proof.
  intros [w x y z] [a b c] H. unfold qnorm2 in *. cbn in *.
  assert (E : w * w = 1 - x * x - y * y - z * z) by lra.
  intros i j Hi Hj; ij i j Hi Hj;
  unfold mm, tr, qmat, SkewSymmetric, qrot, qvec, vadd, vcross, vscale, of_list, rsum; cbn; ring [E].
Qed.
Lemma qmat_det : forall q, qnorm2 q = 1 -> det3 (ent (qmat q)) = 1.
Proof.
  intros [w x y z] H. unfold qnorm2 in *. cbn in *.
  assert (E : w * w = 1 - x * x - y * y - z * z) by lra.
  unfold det3, qmat, of_list. cbn. ring [E].
Qed.
Lemma qmat_inv : forall q, qnorm2 q = 1 -> eqm 3 3 (ent (qmat (qinv q))) (tr (ent (qmat q))).
Proof.
  intros [w x y z] H i j Hi Hj. unfold qinv. rewrite H. rewrite Rltb_true by lra.
  ij i j Hi Hj; unfold tr, qmat, of_list; cbn; field.
Qed.
Lemma qinv_conj : forall q, qnorm2 q = 1 -> qinv q = qconj q.
Proof.
  intros [w x y z] H. unfold qinv. rewrite H. rewrite Rltb_true by lra. unfold qconj. cbn. f_equal; field.
Qed.
Lemma qinv_unit : forall q, qnorm2 q = 1 -> qnorm2 (qinv q) = 1.
Proof. intros q H. rewrite qinv_conj by exact H. rewrite <- H. unfold qnorm2, qconj. cbn [qw qx qy qz]. ring. Qed.
(** Homogeneous form of the rotation. *)
Definition hrot (q : quat) (v : V3) : V3 :=
  let u := qvec q in
  vadd (vadd (vscale (qw q * qw q - vdot u u) v) (vscale (2 * vdot u v) u)) (vscale (2 * qw q) (vcross u v)).
Lemma qrot_hrot : forall q v, qnorm2 q = 1 -> qrot q v = hrot q v.
Proof.
  intros [w x y z] [a b c] H. unfold qnorm2 in H. cbn [qw qx qy qz] in H.
  assert (E : w * w = 1 - x * x - y * y - z * z) by lra. clear H.
  unfold qrot, hrot, qvec, vadd, vcross, vscale, vdot. cbn [qw qx qy qz vx vy vz]. f_equal; ring [E].
Qed.
Lemma hrot_mul : forall p q v, hrot (qmul p q) v = hrot p (hrot q v).
Proof.
  intros [w x y z] [a b c d] [e f g].
  unfold hrot, qmul, qvec, vadd, vcross, vscale, vdot. cbn [qw qx qy qz vx vy vz]. f_equal; ring.
Qed.
Lemma qrot_mul : forall p q v, qnorm2 p = 1 -> qnorm2 q = 1 -> qrot (qmul p q) v = qrot p (qrot q v).
Proof.
  intros p q v Hp Hq. rewrite !qrot_hrot; try assumption; [apply hrot_mul|apply unit_mul; assumption].
Qed.
Lemma hrot_scalar : forall w v, w * w = 1 -> hrot (mkQ w 0 0 0) v = v.
Proof.
  intros w [a b c] H. unfold hrot, qvec, vadd, vcross, vscale, vdot. cbn [qw qx qy qz vx vy vz]. f_equal; ring [H].
Qed.
Lemma qmul_conj : forall q, qmul (qconj q) q = mkQ (qnorm2 q) 0 0 0 /\ qmul q (qconj q) = mkQ (qnorm2 q) 0 0 0.
Proof. intros [w x y z]. unfold qmul, qconj, qnorm2. cbn [qw qx qy qz]. split; f_equal; ring. Qed.
Lemma qrot_inv : forall q v, qnorm2 q = 1 -> qrot (qinv q) (qrot q v) = v /\ qrot q (qrot (qinv q) v) = v.
Proof.
  intros q v H. pose proof (qinv_unit q H) as K. rewrite !(qrot_hrot q), !(qrot_hrot (qinv q)) by assumption.
  rewrite <- !hrot_mul, qinv_conj by exact H. destruct (qmul_conj q) as [-> ->]. rewrite H.
  split; apply hrot_scalar; ring.
Qed.

Lemma rotvec_turns : forall v u, 1 / 1000000000 < vnorm v ->
  qrot (RotVecToQuat v) u = turn (vnorm v) (vdiv v (vnorm v)) u.
Proof. intros v u H. rewrite RotVec_big by exact H. apply rodrigues. apply vnorm_unit. lra. Qed.
Lemma quat_rotvec_same_rotation : forall q u, qnorm2 q = 1 -> 1 / 1000000000 < vnorm (QuatToRotVec q) ->
  qrot (RotVecToQuat (QuatToRotVec q)) u = qrot q u.
Proof.
  intros q u H Hn. destruct (quat_roundtrip q H Hn) as [-> _]. destruct (Rltb (qw q) 0); [apply qrot_neg|reflexivity].
Qed.
