(** Curves meeting the hypotheses of the inertial Jacobian theorems, and
    curves along which the Jacobians are wrong. *)
From Coq Require Import Reals List Arith Bool Lia Lra.
From Verif Require Import Base.Res Base.Mat Base.RDec Base.RSum Base.LinAlg Base.Geom Base.AMap Base.RMat
  Model.TypeHelper Model.Types Model.MathHelper Model.Matrix3 Model.Ekf Model.Updater Model.ImuUpdater
  Spec.Rotation Spec.Deriv Spec.DerivImu Spec.Correct
  Proofs.Effects Proofs.Rotations Proofs.Deriv Proofs.RotDeriv Proofs.Jacobians Proofs.JacWrong Proofs.ImuJacobians
  Proofs.Demo Proofs.ImuCallback.
Import ListNotations.
Open Scope R_scope.

Definition imu_filter (b : BodyState) (s : ImuState) : ekf :=
  with_imu_sizes (with_state (EKF_init (demo_par AAll false) demo_noise v0 0)
    (mkState b [(1%nat, s)] [] [] [] [])) 30 12.
(** A sensor at [p], [q] with biases [ba], [bo]; biases from 18 and pose from
    24 on. *)
Definition sensor (p : V3) (q : quat) (ba bo : V3) : ImuState := mkImu e9 e9 e9 e9 p q ba bo 12 18 18 24 true true.

Ltac sbs := match goal with |- context [set_block ?m ?i ?j 3 3 ?b] =>
  let m' := fresh "m" in let E := fresh "E" in let N1 := fresh "N" in let N2 := fresh "N" in
  destruct (sb m i j 3 3 b) as [m' [E [N1 N2]]]; [lia|lia|reflexivity|reflexivity|]; rewrite E; cbn [bind]; clear E end.
Lemma imu_filter_jac : forall ext int b p q ba bo,
  exists jac e', imu_GetMeasurementJacobian (imu_updater_init 1 ext int) (imu_filter b (sensor p q ba bo)) = OK (jac, e').
Proof.
  intros ext int b p q ba bo. unfold imu_GetMeasurementJacobian, GetImuState.
  change (mget default_imu (iu_id (imu_updater_init 1 ext int)) (s_imu (e_state (imu_filter b (sensor p q ba bo))))) with (sensor p q ba bo).
  cbn [iu_ext iu_int imu_updater_init]. change (i_index_ext (sensor p q ba bo)) with 24%nat. change (i_index_int (sensor p q ba bo)) with 18%nat.
  match goal with |- context [mzero 6 ?n] => change n with 30%nat end.
  assert (X : nr (mzero 6 30) = 6%nat /\ nc (mzero 6 30) = 30%nat) by (split; reflexivity).
  revert X. generalize (mzero 6 30). intros m0 [X1 X2].
  destruct ext, int; repeat sbs; eexists; eexists; reflexivity.
Qed.
Lemma imu_filter_zero : forall ext int b p q ba bo,
  exists jac e', GetZeroAccelerationJacobian (imu_updater_init 1 ext int) (imu_filter b (sensor p q ba bo)) = OK (jac, e').
Proof.
  intros ext int b p q ba bo. unfold GetZeroAccelerationJacobian, GetImuState.
  change (mget default_imu (iu_id (imu_updater_init 1 ext int)) (s_imu (e_state (imu_filter b (sensor p q ba bo))))) with (sensor p q ba bo).
  cbn [iu_ext iu_int imu_updater_init]. change (i_index_ext (sensor p q ba bo)) with 24%nat. change (i_index_int (sensor p q ba bo)) with 18%nat.
  match goal with |- context [mzero ?k ?n] => change n with 30%nat; set (rws := k) end.
  assert (X : nr (mzero rws 30) = rws /\ nc (mzero rws 30) = 30%nat) by (split; reflexivity).
  revert X. generalize (mzero rws 30). intros m0 [X1 X2]. unfold rws in X1. clear rws.
  destruct ext, int; repeat sbs; eexists; eexists; reflexivity.
Qed.
Lemma sensor_apart : forall ext int b p q ba bo,
  imu_apart (imu_updater_init 1 ext int) (imu_of (imu_filter b (sensor p q ba bo)) 1).
Proof.
  intros. split; [|split]; intros; cbn; lia.
Qed.

Lemma const_turned : forall q, qnorm2 q = 1 -> turned_at (fun _ => q) v0.
Proof.
  intros q Hq. split; [exact Hq|]. exists e_z, 0. split; [unfold vnorm2, vdot, e_z; cbn; ring|].
  split; [unfold vscale, e_z, v0; cbn; f_equal; ring|]. intros t. unfold angle_axis_quat. rewrite Rmult_0_l, Rmult_0_r, cos_0, sin_0.
  apply q_eq; unfold qmul; cbn [qw qx qy qz]; ring.
Qed.
Lemma spun_turned : forall q k, qnorm2 q = 1 -> vnorm2 k = 1 -> turned_at (fun t => qmul q (angle_axis_quat t k)) k.
Proof.
  intros q k Hq Hk.
  assert (E0 : qmul q (angle_axis_quat 0 k) = q).
  { unfold angle_axis_quat. rewrite Rmult_0_r, cos_0, sin_0. apply q_eq; unfold qmul; cbn [qw qx qy qz]; ring. }
  split; [rewrite E0; exact Hq|]. exists k, 1. split; [exact Hk|].
  split; [destruct k as [a b c]; unfold vscale; cbn; f_equal; ring|]. intros t. rewrite E0, Rmult_1_l. reflexivity.
Qed.
Lemma line_moves : forall a d, vmoves (fun t => vadd a (vscale t d)) d.
Proof.
  intros a d. eapply vmoves_eq; [|apply vmoves_add; [apply vmoves_const|apply (vmoves_scale (fun t => t)); [apply dl_id|apply vmoves_const]]].
  destruct d as [d1 d2 d3]. unfold vadd, vscale, v0. cbn [vx vy vz]. f_equal; ring.
Qed.

(** Entries of [x] given by vectors at positions. *)
Fixpoint entries (l : list (nat * V3)) (i : nat) : R :=
  match l with
  | [] => 0
  | (k, v) :: l => if andb (Nat.leb k i) (Nat.ltb i (k + 3)) then vget v (i - k) else entries l i
  end.

Definition spot : V3 := mkV3 1 2 3.
(** Everything moves but the attitude and the velocity of the body. *)
Definition imu_moving (t : R) : ekf :=
  imu_filter (mkBody v0 v0 (vadd g_gravity (vscale t e_x)) qid (vadd e_z (vscale t e_x)) (vadd v0 (vscale t e_z)) 0)
    (sensor (vadd spot (vscale t e_x)) (qmul half_turn (angle_axis_quat t e_x)) (vadd v0 (vscale t e_x)) (vadd v0 (vscale t e_z))).
Definition imu_moving_dir : nat -> R := entries [(6, e_x); (12, e_x); (15, e_z); (18, e_x); (21, e_z); (24, e_x); (27, e_x)]%nat.

Lemma half_unit : qnorm2 half_turn = 1.
Proof. unfold qnorm2, half_turn. cbn. ring. Qed.
Lemma ex_unit : vnorm2 e_x = 1.
Proof. unfold vnorm2, vdot, e_x. cbn. ring. Qed.
Lemma ez_unit : vnorm2 e_z = 1.
Proof. unfold vnorm2, vdot, e_z. cbn. ring. Qed.
Lemma id_inv : qinv qid = qid.
Proof. rewrite qinv_conj by apply qnorm2_id. unfold qconj, qid. cbn. f_equal; ring. Qed.

Lemma imu_case : exists c jac jac2 e' e'' x,
  let u := imu_updater_init 1 true true in
  imu_GetMeasurementJacobian u (c 0) = OK (jac, e') /\ GetZeroAccelerationJacobian u (c 0) = OK (jac2, e'') /\
  imu_apart u (imu_of (c 0) 1) /\ imu_rates u c x /\
  (forall i, In i [6; 12; 15; 18; 21; 24; 27]%nat -> slice x i <> v0) /\
  accel_gap u (c 0) x = v0 /\ gyro_gap u (c 0) x = v0.
Proof.
  destruct (imu_filter_jac true true (s_body (e_state (imu_moving 0))) (vadd spot (vscale 0 e_x)) (qmul half_turn (angle_axis_quat 0 e_x)) (vadd v0 (vscale 0 e_x)) (vadd v0 (vscale 0 e_z))) as (jac & e' & HJ).
  destruct (imu_filter_zero true true (s_body (e_state (imu_moving 0))) (vadd spot (vscale 0 e_x)) (qmul half_turn (angle_axis_quat 0 e_x)) (vadd v0 (vscale 0 e_x)) (vadd v0 (vscale 0 e_z))) as (jac2 & e'' & HZ).
  exists imu_moving, jac, jac2, e', e'', imu_moving_dir. intros u.
  split; [exact HJ|]. split; [exact HZ|]. split; [apply sensor_apart|].
  split; [|split; [|split]].
  - unfold imu_rates. cbv zeta. unfold if_on. cbn [iu_ext iu_int u imu_updater_init].
    split; [apply (vmoves_const v0)|]. split; [apply line_moves|]. split; [apply const_turned, qnorm2_id|].
    split; [apply line_moves|]. split; [apply line_moves|]. split; [apply line_moves|].
    split; [apply (spun_turned half_turn e_x half_unit ex_unit)|]. split; [apply line_moves|apply line_moves].
  - intros i Hi. repeat (destruct Hi as [<-|Hi]; [intros E; apply (f_equal (fun v => vx v + vz v)) in E; cbn in E; lra|]). destruct Hi.
  - unfold accel_gap. cbv zeta.
    change (b_ang (s_body (e_state (imu_moving 0)))) with qid. rewrite id_inv, !qrot_id.
    change (b_vel (s_body (e_state (imu_moving 0)))) with v0. change (slice imu_moving_dir 3) with v0.
    rewrite !cross_0.
    assert (Z : forall v, vadd (vsub v v) (vscale 2 v0) = v0).
    { intros [a b c]. unfold vadd, vsub, vscale, v0. cbn [vx vy vz]. f_equal; ring. }
    rewrite Z, vadd_0_l, Z.
    rewrite <- !qmat_vec by (apply qinv_unit; cbn; rewrite qnorm2_mul, half_unit, aaq_unit by apply ex_unit; ring).
    rewrite !mv_0, vadd_0_l. unfold vcross, v0. cbn [vx vy vz]. f_equal; ring.
  - unfold gyro_gap. cbv zeta. change (slice imu_moving_dir 9) with v0. rewrite cross_0.
    rewrite <- qmat_vec by (apply qinv_unit; cbn; rewrite qnorm2_mul, half_unit, aaq_unit by apply ex_unit; ring).
    apply mv_0.
Qed.

(** *** Wrong columns *)
Definition plain : ImuState := sensor v0 qid v0 v0.
Lemma line0 : forall (f : R -> V3) d, (forall t, f t = vadd (f 0) (vscale t d)) -> vmoves f d.
Proof.
  intros f d E. eapply vmoves_loc; [|apply (line_moves (f 0) d)]. exists 1. split; [lra|]. intros t _. symmetry. apply E.
Qed.
Lemma half_back : forall v, qrot (qinv half_turn) v = mkV3 (- vx v) (- vy v) (vz v).
Proof.
  intros [a b c]. rewrite (qinv_conj half_turn half_unit). unfold half_turn, qconj, qrot, qvec, vadd, vscale, vcross.
  cbn [vx vy vz qw qx qy qz]. f_equal; ring.
Qed.
Ltac still := apply (vmoves_const v0).

(** The acceleration is taken to be seen through the attitude: a body at a
    half turn. *)
Lemma accel_attitude : exists u c jac e' x,
  imu_GetMeasurementJacobian u (c 0) = OK (jac, e') /\ imu_apart u (imu_of (c 0) (iu_id u)) /\ imu_rates u c x /\
  (forall t, b_vel (s_body (e_state (c t))) = v0) /\
  (forall t, b_ang (s_body (e_state (c t))) = b_ang (s_body (e_state (c 0)))) /\
  ~ vmoves (fun t => segv (fst (imu_PredictMeasurement u (c t))) 0) (rows3 jac x 0).
Proof.
  set (c := fun t => imu_filter (mkBody v0 v0 (vadd v0 (vscale t e_x)) half_turn v0 v0 0) plain).
  destruct (imu_filter_jac false false (s_body (e_state (c 0))) v0 qid v0 v0) as (jac & e' & HJ).
  set (u := imu_updater_init 1 false false) in *. set (x := entries [(6%nat, e_x)]).
  assert (HR : imu_rates u c x).
  { unfold imu_rates. cbv zeta. unfold if_on. cbn [iu_ext iu_int u imu_updater_init].
    split; [still|]. split; [apply line_moves|]. split; [apply const_turned, half_unit|].
    split; [still|]. split; [still|]. split; [still|].
    split; [apply const_turned, qnorm2_id|]. split; still. }
  exists u, c, jac, e', x. split; [exact HJ|]. split; [apply sensor_apart|]. split; [exact HR|].
  split; [reflexivity|]. split; [reflexivity|]. intros W.
  apply (proj1 (imu_right u c jac e' x HJ (sensor_apart _ _ _ _ _ _ _) HR)) in W.
  unfold accel_gap in W. cbv zeta in W.
  change (i_ang (imu_of (c 0) (iu_id u))) with qid in W. change (b_ang (s_body (e_state (c 0)))) with half_turn in W.
  change (slice x 6) with e_x in W. change (b_vel (s_body (e_state (c 0)))) with v0 in W.
  change (b_ang_vel (s_body (e_state (c 0)))) with v0 in W. change (slice x 12) with v0 in W. change (slice x 3) with v0 in W.
  change (if_on (iu_ext u) x (i_index_ext (imu_of (c 0) (iu_id u)) + 3)) with v0 in W.
  rewrite id_inv, !half_back, !qrot_id, !cross_0 in W.
  apply (f_equal vx) in W. unfold vadd, vsub, vscale, e_x, v0 in W. cbn [vx vy vz] in W. lra.
Qed.

(** The velocity has no columns. *)
Lemma accel_velocity : exists u c jac e' x,
  imu_GetMeasurementJacobian u (c 0) = OK (jac, e') /\ imu_apart u (imu_of (c 0) (iu_id u)) /\ imu_rates u c x /\
  (forall t, b_ang (s_body (e_state (c t))) = qid) /\
  (forall i, i <> 3%nat -> x i = 0) /\
  ~ vmoves (fun t => segv (fst (imu_PredictMeasurement u (c t))) 0) (rows3 jac x 0).
Proof.
  set (c := fun t => imu_filter (mkBody v0 (vadd v0 (vscale t e_x)) v0 qid e_z v0 0) plain).
  destruct (imu_filter_jac false false (s_body (e_state (c 0))) v0 qid v0 v0) as (jac & e' & HJ).
  set (u := imu_updater_init 1 false false) in *. set (x := entries [(3%nat, e_x)]).
  assert (HR : imu_rates u c x).
  { unfold imu_rates. cbv zeta. unfold if_on. cbn [iu_ext iu_int u imu_updater_init].
    split; [apply line_moves|]. split; [still|]. split; [apply const_turned, qnorm2_id|].
    split; [apply (vmoves_const e_z)|]. split; [still|]. split; [still|].
    split; [apply const_turned, qnorm2_id|]. split; still. }
  exists u, c, jac, e', x. split; [exact HJ|]. split; [apply sensor_apart|]. split; [exact HR|].
  split; [reflexivity|]. split.
  { intros i Hi. unfold x. cbn [entries]. destruct (Nat.leb_spec 3 i), (Nat.ltb_spec i (3 + 3)); cbn [andb]; try reflexivity.
    assert (i = 4 \/ i = 5)%nat as [-> | ->] by lia; reflexivity. }
  intros W.
  apply (proj1 (imu_right u c jac e' x HJ (sensor_apart _ _ _ _ _ _ _) HR)) in W.
  unfold accel_gap in W. cbv zeta in W.
  change (i_ang (imu_of (c 0) (iu_id u))) with qid in W. change (b_ang (s_body (e_state (c 0)))) with qid in W.
  change (slice x 6) with v0 in W.
  change (b_ang_vel (s_body (e_state (c 0)))) with e_z in W. change (slice x 12) with v0 in W. change (slice x 3) with e_x in W.
  change (if_on (iu_ext u) x (i_index_ext (imu_of (c 0) (iu_id u)) + 3)) with v0 in W.
  rewrite id_inv, !qrot_id, !cross_0 in W.
  apply (f_equal vy) in W. unfold vadd, vsub, vscale, vcross, e_x, e_z, v0 in W. cbn [vx vy vz b_vel] in W. lra.
Qed.

(** The attitude has no columns in the gyroscope rows. *)
Lemma gyro_attitude : exists u c jac e' x,
  imu_GetMeasurementJacobian u (c 0) = OK (jac, e') /\ imu_apart u (imu_of (c 0) (iu_id u)) /\ imu_rates u c x /\
  b_ang (s_body (e_state (c 0))) = qid /\
  (forall i, i <> 11%nat -> x i = 0) /\
  ~ vmoves (fun t => segv (fst (imu_PredictMeasurement u (c t))) 3) (rows3 jac x 3).
Proof.
  set (c := fun t => imu_filter (mkBody v0 v0 v0 (qmul qid (angle_axis_quat t e_z)) e_x v0 0) plain).
  destruct (imu_filter_jac false false (s_body (e_state (c 0))) v0 qid v0 v0) as (jac & e' & HJ).
  set (u := imu_updater_init 1 false false) in *. set (x := entries [(9%nat, e_z)]).
  assert (HR : imu_rates u c x).
  { unfold imu_rates. cbv zeta. unfold if_on. cbn [iu_ext iu_int u imu_updater_init].
    split; [still|]. split; [still|]. split; [apply (spun_turned qid e_z qnorm2_id ez_unit)|].
    split; [apply (vmoves_const e_x)|]. split; [still|]. split; [still|].
    split; [apply const_turned, qnorm2_id|]. split; still. }
  assert (A0 : b_ang (s_body (e_state (c 0))) = qid).
  { cbn. unfold angle_axis_quat. rewrite Rmult_0_r, cos_0, sin_0. apply q_eq; unfold qmul, qid; cbn [qw qx qy qz]; ring. }
  exists u, c, jac, e', x. split; [exact HJ|]. split; [apply sensor_apart|]. split; [exact HR|].
  split; [exact A0|]. split.
  { intros i Hi. unfold x. cbn [entries]. destruct (Nat.leb_spec 9 i), (Nat.ltb_spec i (9 + 3)); cbn [andb]; try reflexivity.
    assert (i = 9 \/ i = 10)%nat as [-> | ->] by lia; reflexivity. }
  intros W.
  apply (proj2 (imu_right u c jac e' x HJ (sensor_apart _ _ _ _ _ _ _) HR)) in W.
  unfold gyro_gap in W. cbv zeta in W. rewrite A0 in W.
  change (i_ang (imu_of (c 0) (iu_id u))) with qid in W.
  change (b_ang_vel (s_body (e_state (c 0)))) with e_x in W. change (slice x 9) with e_z in W.
  rewrite id_inv, !qrot_id in W.
  apply (f_equal vy) in W. unfold vcross, e_x, e_z, v0 in W. cbn [vx vy vz] in W. lra.
Qed.

(** At rest: the position of a calibrated sensor is taken for its
    orientation. *)
Lemma rest_position : forall acc omg, exists u c jac e' x,
  GetZeroAccelerationJacobian u (c 0) = OK (jac, e') /\ imu_apart u (imu_of (c 0) (iu_id u)) /\ imu_rates u c x /\
  (forall i, i <> i_index_ext (imu_of (c 0) (iu_id u)) -> x i = 0) /\
  ~ vmoves (fun t => vopp (segv (zero_resid u (c t) (imu_of (c t) (iu_id u)) acc omg) 0)) (rows3 jac x 0).
Proof.
  intros acc omg.
  set (c := fun t => imu_filter (mkBody v0 v0 v0 qid v0 v0 0) (sensor (vadd v0 (vscale t e_x)) qid v0 v0)).
  destruct (imu_filter_zero true false (s_body (e_state (c 0))) (vadd v0 (vscale 0 e_x)) qid v0 v0) as (jac & e' & HJ).
  set (u := imu_updater_init 1 true false) in *. set (x := entries [(24%nat, e_x)]).
  assert (HR : imu_rates u c x).
  { unfold imu_rates. cbv zeta. unfold if_on. cbn [iu_ext iu_int u imu_updater_init].
    split; [still|]. split; [still|]. split; [apply const_turned, qnorm2_id|].
    split; [still|]. split; [still|]. split; [apply line_moves|].
    split; [apply const_turned, qnorm2_id|]. split; still. }
  exists u, c, jac, e', x. split; [exact HJ|]. split; [apply sensor_apart|]. split; [exact HR|].
  split.
  { intros i Hi. change (i_index_ext (imu_of (c 0) (iu_id u))) with 24%nat in Hi.
    unfold x. cbn [entries]. destruct (Nat.leb_spec 24 i), (Nat.ltb_spec i (24 + 3)); cbn [andb]; try reflexivity.
    assert (i = 25 \/ i = 26)%nat as [-> | ->] by lia; reflexivity. }
  intros W.
  apply (proj1 (rest_right u c jac e' x acc omg HJ (sensor_apart _ _ _ _ _ _ _) HR)) in W.
  unfold rest_gap in W. cbv zeta in W.
  change (i_ang (imu_of (c 0) (iu_id u))) with qid in W. change (b_ang (s_body (e_state (c 0)))) with qid in W.
  change (slice x 9) with v0 in W.
  change (if_on (iu_ext u) x (i_index_ext (imu_of (c 0) (iu_id u)))) with e_x in W.
  change (if_on (iu_ext u) x (i_index_ext (imu_of (c 0) (iu_id u)) + 3)) with v0 in W.
  rewrite id_inv, !qrot_id, mv_0 in W.
  apply (f_equal vy) in W. unfold vadd, vsub, vcross, e_x, v0, g_gravity in W. cbn [vx vy vz] in W. lra.
Qed.

Lemma qjac_id_tr : forall x, mat_vec (mtrans (QuaternionJacobian qid)) x = x.
Proof.
  intros [x y z]. unfold QuaternionJacobian. rewrite quat_rotvec_id.
  unfold mat_vec, mtrans, madd, msub, mscal, idm, mm, SkewSymmetric, of_list, rsum, v0. cbn. f_equal; ring.
Qed.

(** At rest: the turn of the body is not turned into the sensor frame. *)
Lemma rest_mounted : forall acc omg, exists u c jac e' x,
  GetZeroAccelerationJacobian u (c 0) = OK (jac, e') /\ imu_apart u (imu_of (c 0) (iu_id u)) /\ imu_rates u c x /\
  iu_ext u = false /\ b_ang (s_body (e_state (c 0))) = qid /\
  ~ vmoves (fun t => vopp (segv (zero_resid u (c t) (imu_of (c t) (iu_id u)) acc omg) 0)) (rows3 jac x 0).
Proof.
  intros acc omg.
  set (c := fun t => imu_filter (mkBody v0 v0 v0 (qmul qid (angle_axis_quat t e_x)) v0 v0 0) (sensor v0 half_turn v0 v0)).
  destruct (imu_filter_zero false false (s_body (e_state (c 0))) v0 half_turn v0 v0) as (jac & e' & HJ).
  set (u := imu_updater_init 1 false false) in *. set (x := entries [(9%nat, e_x)]).
  assert (HR : imu_rates u c x).
  { unfold imu_rates. cbv zeta. unfold if_on. cbn [iu_ext iu_int u imu_updater_init].
    split; [still|]. split; [still|]. split; [apply (spun_turned qid e_x qnorm2_id ex_unit)|].
    split; [still|]. split; [still|]. split; [still|].
    split; [apply const_turned, half_unit|]. split; still. }
  assert (A0 : b_ang (s_body (e_state (c 0))) = qid).
  { cbn. unfold angle_axis_quat. rewrite Rmult_0_r, cos_0, sin_0. apply q_eq; unfold qmul, qid; cbn [qw qx qy qz]; ring. }
  exists u, c, jac, e', x. split; [exact HJ|]. split; [apply sensor_apart|]. split; [exact HR|].
  split; [reflexivity|]. split; [exact A0|]. intros W.
  apply (proj1 (rest_right u c jac e' x acc omg HJ (sensor_apart _ _ _ _ _ _ _) HR)) in W.
  unfold rest_gap in W. cbv zeta in W. rewrite A0 in W.
  change (i_ang (imu_of (c 0) (iu_id u))) with half_turn in W.
  change (slice x 9) with e_x in W.
  change (if_on (iu_ext u) x (i_index_ext (imu_of (c 0) (iu_id u)))) with v0 in W.
  change (if_on (iu_ext u) x (i_index_ext (imu_of (c 0) (iu_id u)) + 3)) with v0 in W.
  rewrite id_inv, !half_back, !qrot_id, qjac_id_tr in W.
  apply (f_equal vy) in W. unfold vadd, vsub, vcross, e_x, v0, g_gravity in W. cbn [vx vy vz] in W. lra.
Qed.

(** Where the gaps close. *)
Lemma level_right : forall u c x, imu_rates u c x ->
  b_ang (s_body (e_state (c 0))) = qid -> b_vel (s_body (e_state (c 0))) = v0 -> slice x 3 = v0 ->
  accel_gap u (c 0) x = v0.
Proof.
  intros u c x (_ & _ & _ & _ & _ & _ & (U & _) & _) Hb Hv H3. unfold accel_gap. cbv zeta. rewrite Hb, Hv, H3, id_inv, !qrot_id, !cross_0.
  assert (Z : forall v, vadd (vsub v v) (vscale 2 v0) = v0).
  { intros [a b d]. unfold vadd, vsub, vscale, v0. cbn [vx vy vz]. f_equal; ring. }
  rewrite Z, vadd_0_l, Z. rewrite <- !qmat_vec by (apply qinv_unit; exact U).
  rewrite !mv_0, vadd_0_l. unfold vcross, v0. cbn [vx vy vz]. f_equal; ring.
Qed.
Lemma fixed_right : forall u c x, imu_rates u c x -> slice x 9 = v0 -> gyro_gap u (c 0) x = v0.
Proof.
  intros u c x (_ & _ & _ & _ & _ & _ & (U & _) & _) H9. unfold gyro_gap. cbv zeta. rewrite H9, cross_0.
  rewrite <- qmat_vec by (apply qinv_unit; exact U). apply mv_0.
Qed.
Lemma rest_level : forall u c x, b_ang (s_body (e_state (c 0))) = qid -> i_ang (imu_of (c 0) (iu_id u)) = qid ->
  iu_ext u = false -> rest_gap u (c 0) x = v0.
Proof.
  intros u c x Hb Hi He. unfold rest_gap, if_on. cbv zeta. rewrite Hb, Hi, He, id_inv, !qrot_id, qjac_id_tr.
  destruct (slice x 9) as [a b d]. unfold vadd, vsub, vcross, v0, g_gravity. cbn [vx vy vz]. f_equal; ring.
Qed.
