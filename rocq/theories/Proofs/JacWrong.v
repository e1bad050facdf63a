(** Corrections turn the body from the right; what the orientation columns
    of the GPS Jacobian say about that; wrong Jacobians. *)
From Coq Require Import Reals List Arith Bool Lia Lra.
From Verif Require Import Base.Res Base.Mat Base.RDec Base.RSum Base.LinAlg Base.Geom Base.AMap Base.RMat
  Model.TypeHelper Model.Types Model.MathHelper Model.Matrix3 Model.Ekf Model.Updater Model.GpsUpdater
  Model.ImuUpdater Model.FiducialUpdater Model.MsckfUpdater Spec.Rotation Spec.Deriv
  Proofs.Effects Proofs.Rotations Proofs.Deriv Proofs.RotDeriv Proofs.Jacobians Proofs.CamJacobians Proofs.FidJacobians
  Proofs.Demo.
Import ListNotations.
Open Scope R_scope.

Lemma turn_moves : forall k u, vmoves (fun t => turn t k u) (vcross k u).
Proof.
  intros k u. unfold turn.
  assert (C : moves (fun t => cos t) 0).
  { eapply dl_eq; [|apply (dl_cos (fun t => t) 0 1 (dl_id 0))]. rewrite sin_0. ring. }
  assert (S : moves (fun t => sin t) 1).
  { eapply dl_eq; [|apply (dl_sin (fun t => t) 0 1 (dl_id 0))]. rewrite cos_0. ring. }
  assert (K : moves (fun t => (1 - cos t) * vdot k u) 0).
  { eapply dl_eq; [|apply dl_mult; [apply dl_minus; [apply dl_const|exact C]|apply dl_const]]. ring. }
  eapply vmoves_eq; [|apply vmoves_add; [apply vmoves_add; [apply vmoves_scale; [exact C|apply vmoves_const]|apply vmoves_scale; [exact S|apply vmoves_const]]|apply vmoves_scale; [exact K|apply vmoves_const]]].
  cbv beta. rewrite cos_0, sin_0. unfold vadd, vscale, vcross, v0. cbn [vx vy vz]. f_equal; ring.
Qed.

(** The rate of the predicted position when the body is turned about [k]. *)
Lemma gps_turn : forall u c q k a dp,
  (forall t, p_fej (e_par (c t)) = false) -> qnorm2 q = 1 -> vnorm2 k = 1 ->
  vmoves (fun t => b_pos (s_body (e_state (c t)))) dp ->
  (forall t, b_ang (s_body (e_state (c t))) = qmul q (angle_axis_quat t k)) ->
  (forall t, g_pos (mget default_gps (gu_id u) (s_gps (e_state (c t)))) = a) ->
  vmoves (fun t => fst (fst (gps_PredictMeasurement u (c t)))) (vadd dp (qrot q (vcross k a))).
Proof.
  intros u c q k a dp Hf Hq Hk Hp Ha Hg.
  pose proof (vmoves_add _ _ _ _ Hp (vmoves_mat (qmat q) _ _ (turn_moves k a))) as D.
  eapply vmoves_loc; [|eapply vmoves_eq; [|exact D]].
  - exists 1. split; [lra|]. intros t _. cbv beta. rewrite gps_predict by apply Hf.
    rewrite Ha, Hg, qrot_mul, rodrigues, qmat_vec by (first [assumption|apply aaq_unit; exact Hk]). reflexivity.
  - rewrite qmat_vec by exact Hq. reflexivity.
Qed.

(** At the identity attitude the orientation columns are right. *)
Lemma qjac_id : forall x, mat_vec (QuaternionJacobian qid) x = x.
Proof.
  intros [x y z]. unfold QuaternionJacobian. rewrite quat_rotvec_id.
  unfold mat_vec, madd, msub, mscal, idm, mm, SkewSymmetric, of_list, rsum, v0. cbn. f_equal; ring.
Qed.
Lemma qrot_id : forall x, qrot qid x = x.
Proof. intros [x y z]. unfold qrot, qid, qvec, vadd, vcross, vscale. cbn. f_equal; ring. Qed.

Lemma gps_identity : forall u c jac u' e' x k,
  (forall t, p_fej (e_par (c t)) = false) ->
  gps_GetMeasurementJacobian u (c 0) = OK (jac, u', e') -> gu_ext u = false ->
  (forall t, b_ang (s_body (e_state (c t))) = angle_axis_quat t k) -> vnorm2 k = 1 -> slice x 9 = k ->
  vmoves (fun t => b_pos (s_body (e_state (c t)))) (slice x 0) ->
  (forall t, g_pos (mget default_gps (gu_id u) (s_gps (e_state (c t)))) =
             g_pos (mget default_gps (gu_id u) (s_gps (e_state (c 0))))) ->
  vmoves (fun t => fst (fst (gps_PredictMeasurement u (c t)))) (rows3 jac x 0).
Proof.
  intros u c jac u' e' x k Hf HJ He Ha Hk Hx Hp Hg.
  rewrite (gps_rows _ _ _ _ _ x _ HJ eq_refl) by congruence. cbv zeta. rewrite He, vadd_0_r, gps_ant by apply Hf.
  assert (Q0 : b_ang (s_body (e_state (c 0))) = qid).
  { rewrite Ha. unfold angle_axis_quat. rewrite Rmult_0_r, cos_0, sin_0. unfold qid. f_equal; ring. }
  rewrite Q0. rewrite !m3mul_vec, qjac_id, m3neg_vec, qmat_vec by apply qnorm2_id. rewrite qrot_id, skew_cross, Hx.
  assert (Ha2 : forall t, b_ang (s_body (e_state (c t))) = qmul qid (angle_axis_quat t k)).
  { intros t. rewrite Ha. apply q_eq; unfold qmul, qid; cbn [qw qx qy qz]; ring. }
  eapply vmoves_eq; [|apply (gps_turn u c qid k _ _ Hf qnorm2_id Hk Hp Ha2 Hg)].
  rewrite qrot_id. f_equal. unfold vcross, vopp. cbn [vx vy vz]. f_equal; ring.
Qed.

Lemma moves_unique : forall f a b, moves f a -> moves f b -> a = b.
Proof. intros f a b A B. exact (uniqueness_limite f 0 a b A B). Qed.

(** *** A half turn about z, antenna one metre up *)
Definition half_turn : quat := mkQ 0 0 0 1.
Definition e_x : V3 := mkV3 1 0 0.
Definition e_z : V3 := mkV3 0 0 1.
Definition body_at (p : V3) (q : quat) : BodyState := mkBody p v0 v0 q v0 v0 0.
Definition gps_filter (q : quat) (a : V3) : ekf :=
  with_state (EKF_init (demo_par AAll false) demo_noise v0 0)
    (mkState (body_at v0 q) [] [(1%nat, mkGps a 1 3 0 false)] [] [] []).

Lemma half_turn_vec : QuatToRotVec half_turn = mkV3 0 0 PI.
Proof.
  assert (N : vnorm (qvec half_turn) = 1).
  { unfold vnorm, vnorm2, vdot, qvec, half_turn. cbn. replace (0 * 0 + 0 * 0 + 1 * 1) with 1 by ring. apply sqrt_1. }
  unfold QuatToRotVec, quat_angle_axis. rewrite N.
  assert (E : Reqb 1 0 = false) by (apply Reqb_false; lra). rewrite E.
  unfold atan2_nn, half_turn. cbn [qw]. rewrite Rabs_R0.
  assert (E2 : Rltb 0 0 = false) by (apply Rltb_false; lra). rewrite E2.
  assert (E3 : Rltb 0 1 = true) by (apply Rltb_true; lra). rewrite E3.
  unfold vdiv, vscale, qvec. cbn. f_equal; field.
Qed.

Lemma half_turn_jac : mat_vec (QuaternionJacobian half_turn) e_x = mkV3 0 (- (2 / PI)) 0.
Proof.
  pose proof PI_RGT_0 as P. pose proof PI2_1 as P2.
  assert (N : vnorm (mkV3 0 0 PI) = PI).
  { unfold vnorm, vnorm2, vdot. cbn. replace (0 * 0 + 0 * 0 + PI * PI) with (PI * PI) by ring. apply sqrt_square; lra. }
  rewrite qjac_right; rewrite half_turn_vec; [|rewrite N; lra].
  unfold right_jac. rewrite N, cos_PI, sin_PI.
  unfold vadd, vsub, vscale, vcross, e_x. cbn [vx vy vz]. f_equal; field; lra.
Qed.

Lemma gps_wrong : exists u c jac u' e' x k,
  (forall t, p_fej (e_par (c t)) = false) /\
  gps_GetMeasurementJacobian u (c 0) = OK (jac, u', e') /\ gu_ext u = false /\
  (forall t, b_ang (s_body (e_state (c t))) = qmul (b_ang (s_body (e_state (c 0)))) (angle_axis_quat t k)) /\
  vnorm2 k = 1 /\ slice x 9 = k /\ slice x 0 = v0 /\
  (forall t, b_pos (s_body (e_state (c t))) = v0) /\
  (forall t, s_gps (e_state (c t)) = s_gps (e_state (c 0))) /\
  ~ vmoves (fun t => fst (fst (gps_PredictMeasurement u (c t)))) (rows3 jac x 0).
Proof.
  set (u := gps_updater_init 1 false).
  set (c := fun t => gps_filter (qmul half_turn (angle_axis_quat t e_x)) e_z).
  assert (Hj : exists jac u' e', gps_GetMeasurementJacobian u (c 0) = OK (jac, u', e')).
  { eexists. eexists. eexists. reflexivity. }
  destruct Hj as (jac & u' & e' & HJ).
  assert (A0 : qmul half_turn (angle_axis_quat 0 e_x) = half_turn).
  { unfold angle_axis_quat. rewrite Rmult_0_r, cos_0, sin_0. unfold qmul, half_turn, e_x. cbn. f_equal; ring. }
  assert (Hn : qnorm2 half_turn = 1) by (unfold qnorm2, half_turn; cbn; ring).
  assert (Hk : vnorm2 e_x = 1) by (unfold vnorm2, vdot, e_x; cbn; ring).
  exists u, c, jac, u', e', (fun i => if Nat.eqb i 9 then 1 else 0), e_x.
  split; [reflexivity|]. split; [exact HJ|]. split; [reflexivity|].
  split. { intros t. cbn [c gps_filter e_state with_state s_body body_at b_ang]. rewrite A0. reflexivity. }
  split; [exact Hk|]. split; [reflexivity|]. split; [reflexivity|]. split; [reflexivity|]. split; [reflexivity|].
  intros W.
  pose proof (gps_turn u c half_turn e_x e_z v0 (fun _ => eq_refl) Hn Hk (vmoves_const v0) (fun _ => eq_refl) (fun _ => eq_refl)) as T.
  destruct W as (_ & W & _). destruct T as (_ & T & _).
  pose proof (moves_unique _ _ _ T W) as E. revert E.
  rewrite (gps_rows u (c 0) jac u' e' _ _ HJ eq_refl) by discriminate.
  assert (Q0 : b_ang (s_body (e_state (c 0))) = half_turn) by exact A0. rewrite Q0.
  change (gu_pos (fst (gps_refresh u (c 0)))) with e_z. cbv zeta. cbn [gu_ext u gps_updater_init].
  rewrite !m3mul_vec.
  change (slice (fun i => if (i =? 9)%nat then 1 else 0) 9) with e_x.
  change (slice (fun i => if (i =? 9)%nat then 1 else 0) 0) with v0.
  rewrite half_turn_jac, m3neg_vec, skew_cross, qmat_vec by exact Hn.
  rewrite vadd_0_r. unfold vadd, vopp, qrot, qvec, half_turn, vcross, vscale, vadd, e_x, e_z, v0. cbn [vx vy vz qw qx qy qz].
  intros E. ring_simplify in E. lra.
Qed.

(** *** A calibrated board moving sideways, seen by a body at a half turn *)
Definition board_filter (p : V3) : ekf :=
  with_fid_sizes (with_state (EKF_init (demo_par AAll false) demo_noise v0 0)
    (mkState (body_at v0 half_turn) [] [] [(1%nat, default_cam)] [(4%nat, mkFid p qid 1 1 6 18 4 true)] [])) 24 6.

Lemma half_turn_rotvec : RotVecToQuat (mkV3 0 0 PI) = half_turn.
Proof.
  pose proof PI_RGT_0 as P. pose proof PI2_1 as P2.
  assert (N : vnorm (mkV3 0 0 PI) = PI).
  { unfold vnorm, vnorm2, vdot. cbn. replace (0 * 0 + 0 * 0 + PI * PI) with (PI * PI) by ring. apply sqrt_square; lra. }
  rewrite RotVec_big by (rewrite N; lra). rewrite N. unfold angle_axis_quat, half_turn, vdiv. cbn [vx vy vz].
  replace (/ 2 * PI) with (PI / 2) by field. rewrite cos_PI2, sin_PI2. f_equal; field; lra.
Qed.
Lemma half_turn_norm : vnorm (mkV3 0 0 PI) = PI.
Proof.
  pose proof PI_RGT_0 as P. unfold vnorm, vnorm2, vdot. cbn.
  replace (0 * 0 + 0 * 0 + PI * PI) with (PI * PI) by ring. apply sqrt_square; lra.
Qed.

Definition board_pos (t : R) : V3 := mkV3 t 0 1.
Definition board_updater : fid_updater := fid_updater_init 4 1 true false.
Lemma board_jac : forall p, exists jac u' e', fid_GetMeasurementJacobian board_updater (board_filter p) = OK (jac, u', e').
Proof.
  intros p.
  assert (E : match fid_GetMeasurementJacobian board_updater (board_filter p) with OK _ => true | UB => false end = true)
    by (vm_compute; reflexivity).
  destruct (fid_GetMeasurementJacobian board_updater (board_filter p)) as [[[jac u'] e']|]; [eauto|discriminate].
Qed.
Lemma board_cam : forall p, cam_of (board_filter p) (fu_cam board_updater) = default_cam.
Proof. reflexivity. Qed.
Lemma board_pred : forall mq p, exists a v e, fid_PredictMeasurement mq board_updater (board_filter p) =
  OK (in_camera p v0 half_turn v0 qid, a, v, e).
Proof.
  intros mq p. destruct (fid_predict mq board_updater (board_filter p) (mkFid p qid 1 1 6 18 4 true) eq_refl eq_refl) as (a & v & e & E).
  rewrite board_cam in E. exists a, v, e. exact E.
Qed.

Lemma board_wrong : forall mq, exists u c jac u' e' x pos f,
  (forall t, p_fej (e_par (c t)) = false) /\
  fid_GetMeasurementJacobian u (c 0) = OK (jac, u', e') /\
  (forall t, mfind (fu_id u) (s_fid (e_state (c t))) = Some (f t)) /\
  (forall t, exists a v e, fid_PredictMeasurement mq u (c t) = OK (pos t, a, v, e)) /\
  fu_ext u = true /\ fu_cam_ext u = false /\
  (forall t, s_body (e_state (c t)) = s_body (e_state (c 0))) /\
  (forall t, s_cam (e_state (c t)) = s_cam (e_state (c 0))) /\
  (forall i, (i < 18)%nat -> x i = 0) /\ f_index (f 0) = 18%nat /\
  vmoves (fun t => f_pos (f t)) (slice x 18) /\
  ~ vmoves pos (rows3 jac x 0).
Proof.
  intros mq.
  set (p := board_pos).
  set (u := board_updater).
  set (c := fun t => board_filter (p t)).
  set (f := fun t => mkFid (p t) qid 1 1 6 18 4 true).
  set (x := fun i => if Nat.eqb i 18 then 1 else 0).
  set (pos := fun t => in_camera (p t) v0 half_turn v0 qid).
  assert (Hj : exists jac u' e', fid_GetMeasurementJacobian u (c 0) = OK (jac, u', e')).
  { apply board_jac. }
  destruct Hj as (jac & u' & e' & HJ).
  assert (Hb : forall t, mfind (fu_id u) (s_fid (e_state (c t))) = Some (f t)) by reflexivity.
  assert (Hf : forall t, p_fej (e_par (c t)) = false) by reflexivity.
  assert (Hp : forall t, exists a v e, fid_PredictMeasurement mq u (c t) = OK (pos t, a, v, e)).
  { intros t. apply board_pred. }
  assert (Hm : vmoves (fun t => f_pos (f t)) (slice x 18)).
  { repeat split; cbn [f f_pos p board_pos vx vy vz slice x]; [apply dl_id|apply dl_const|apply dl_const]. }
  exists u, c, jac, u', e', x, pos, f.
  split; [exact Hf|]. split; [exact HJ|]. split; [exact Hb|]. split; [exact Hp|].
  split; [reflexivity|]. split; [reflexivity|]. split; [reflexivity|]. split; [reflexivity|].
  split. { intros i Hi. unfold x. destruct (Nat.eqb_spec i 18); [lia|reflexivity]. }
  split; [reflexivity|]. split; [exact Hm|]. intros W.
  pose proof PI_RGT_0 as P. pose proof PI2_1 as P2.
  pose proof (fid_jacobian_board mq u u' c e' jac x pos (fun _ => mkV3 0 0 PI) f Hf HJ Hb Hp
    (fun _ => eq_sym half_turn_rotvec)) as D.
  assert (Z9 : slice x 9 = v0) by reflexivity. assert (Z0 : slice x 0 = v0) by reflexivity.
  rewrite Z9, Z0 in D.
  specialize (D ltac:(cbv beta; rewrite half_turn_norm; lra) (vmoves_const _) (vmoves_const _) eq_refl eq_refl).
  assert (Hc : forall t, cam_of (c t) (fu_cam u) = cam_of (c 0) (fu_cam u)).
  { intros t. unfold c, u. rewrite !board_cam. reflexivity. }
  specialize (D ltac:(apply Nat.le_refl) (fun t => conj (f_equal c_pos (Hc t)) (f_equal c_ang (Hc t))) Hm).
  cbv zeta in D. destruct D as (D & _ & _). destruct W as (W & _ & _).
  pose proof (moves_unique _ _ _ W D) as E. clear - E. revert E.
  generalize (rows3 jac x 0). intros V.
  change (slice x (f_index (f 0))) with e_x.
  unfold c at 1, u. rewrite board_cam. change (c_ang default_cam) with qid. change (b_ang (s_body (e_state (c 0)))) with half_turn.
  rewrite m3mul_vec. unfold mat_vec, m3tr, qmat, half_turn, qid, e_x, of_list. cbn. intros E. lra.
Qed.
