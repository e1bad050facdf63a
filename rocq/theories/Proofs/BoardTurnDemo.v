(** A curve of filters that meets the hypotheses of the theorems about the
    orientation rows of the fiducial Jacobian. *)
From Coq Require Import Reals List Arith Bool Lia Lra.
From Verif Require Import Base.Res Base.Mat Base.RDec Base.RSum Base.LinAlg Base.Geom Base.AMap Base.RMat
  Model.TypeHelper Model.Types Model.MathHelper Model.Matrix3 Model.Ekf Model.Updater Model.ImuUpdater Model.FiducialUpdater
  Spec.Rotation Spec.Deriv Spec.DerivImu Spec.AtRest Spec.Towards Spec.DerivBoard
  Proofs.Rotations Proofs.Deriv Proofs.Jacobians Proofs.JacWrong Proofs.FidJacobians Proofs.ImuJacobians
  Proofs.Demo Proofs.RestLookup Proofs.EigenQuat Model.EigenQuat Proofs.ImuJacDemo Proofs.JacDemo Proofs.Effects Proofs.BoardTurn.
Import ListNotations.
Open Scope R_scope.

Definition spin (q : quat) (t : R) : quat := qmul q (angle_axis_quat t e_x).
Definition tb_cam (t : R) : CamState := mkCam 1 1 v0 (spin qid t) default_intrinsics 1 6 18 true.
Definition tb_fid (t : R) : FidState := mkFid demo_feature (spin half_turn t) 1 1 6 24 4 true.
Definition tb_filter (t : R) : ekf :=
  with_fid_sizes (with_cam_sizes (with_state (EKF_init (demo_par AAll false) demo_noise v0 0)
    (mkState (body_at v0 (spin qid t)) [] [] [(1%nat, tb_cam t)] [(4%nat, tb_fid t)] [])) 30 6) 30 6.
Definition tb_up : fid_updater := fid_updater_init 4 1 true true.
Definition tb_dir : nat -> R := entries [(9, e_x); (21, e_x); (27, e_x)]%nat.

Lemma spin_0 : forall q, spin q 0 = q.
Proof. intros q. unfold spin, angle_axis_quat. rewrite Rmult_0_r, cos_0, sin_0. apply q_eq; unfold qmul; cbn [qw qx qy qz]; ring. Qed.
Lemma tb_jac : exists jac u' e', fid_GetMeasurementJacobian tb_up (tb_filter 0) = OK (jac, u', e').
Proof.
  assert (E : match fid_GetMeasurementJacobian tb_up (tb_filter 0) with OK _ => true | UB => false end = true) by (vm_compute; reflexivity).
  destruct (fid_GetMeasurementJacobian tb_up (tb_filter 0)) as [[[jac u'] e']|]; [eauto|discriminate].
Qed.
Lemma tb_turn : board_turn (tb_filter 0) (tb_cam 0) (tb_fid 0) = half_turn.
Proof.
  unfold board_turn. change (c_ang (tb_cam 0)) with (spin qid 0). change (b_ang (s_body (e_state (tb_filter 0)))) with (spin qid 0).
  change (f_ang (tb_fid 0)) with (spin half_turn 0). rewrite !spin_0, inv_qid. unfold half_turn. apply q_eq; unfold qmul, qid; cbn [qw qx qy qz]; ring.
Qed.
Lemma half_flips : qrot half_turn e_x = vopp e_x.
Proof. unfold half_turn, qrot, qvec, vadd, vscale, vcross, vopp, e_x. cbn [vx vy vz qw qx qy qz]. f_equal; ring. Qed.

Lemma board_turn_case : exists mq u c jac u' e' x k f ang meas,
  reads_rotations mq /\ (forall t, p_fej (e_par (c t)) = false) /\
  fid_GetMeasurementJacobian u (c 0) = OK (jac, u', e') /\
  (forall t, mfind (fu_cam u) (s_cam (e_state (c t))) = Some (k t)) /\
  (forall t, mfind (fu_id u) (s_fid (e_state (c t))) = Some (f t)) /\
  (forall t, exists p v e, fid_PredictMeasurement mq u (c t) = OK (p, ang t, v, e)) /\
  board_apart u (k 0) (f 0) /\ board_rates u c k f x /\ seen_turned (c 0) (k 0) (f 0) /\
  same_turn meas (board_turn (c 0) (k 0) (f 0)) /\
  fu_cam_ext u = true /\ fu_ext u = true /\ slice x 9 = e_x /\ slice x (c_index (k 0) + 3) = e_x /\ slice x (f_index (f 0) + 3) = e_x /\
  turn_gap u (c 0) (k 0) (f 0) x = v0.
Proof.
  destruct tb_jac as (jac & u' & e' & HJ).
  exists eigen_mat_quat, tb_up, tb_filter, jac, u', e', tb_dir, tb_cam, tb_fid,
    (fun t => QuatToRotVec (qmul (eigen_mat_quat (m3mul (m3tr (qmat (spin qid t))) (m3tr (qmat (spin qid t))))) (spin half_turn t))), half_turn.
  split; [exact eigen_reads|]. split; [reflexivity|]. split; [exact HJ|]. split; [reflexivity|]. split; [reflexivity|].
  split; [|split; [|split; [|split; [|split]]]].
  - intros t. unfold fid_PredictMeasurement, fid_RefreshStates.
    change (p_fej (e_par (tb_filter t))) with false. cbn [negb orb].
    rewrite (get_cam_known (tb_filter t) (fu_cam tb_up) (tb_cam t) eq_refl). unfold fid_at.
    change (mfind (fu_id tb_up) (s_fid (e_state (tb_filter t)))) with (Some (tb_fid t)). cbn [bind]. eexists. eexists. eexists. reflexivity.
  - split; [|split]; intros; cbn; lia.
  - unfold board_rates. split; [|split].
    + apply (spun_turned qid e_x qnorm2_id ex_unit).
    + apply (spun_turned qid e_x qnorm2_id ex_unit).
    + apply (spun_turned half_turn e_x half_unit ex_unit).
  - unfold seen_turned. rewrite tb_turn, half_turn_vec. unfold vnorm, vnorm2, vdot. cbn [vx vy vz].
    replace (0 * 0 + 0 * 0 + PI * PI) with (Rsqr PI) by (unfold Rsqr; ring). pose proof PI2_3_2. rewrite sqrt_Rsqr by lra. lra.
  - left. symmetry. exact tb_turn.
  - split; [reflexivity|]. split; [reflexivity|]. split; [reflexivity|]. split; [reflexivity|]. split; [reflexivity|].
    unfold turn_gap, body_turn_gap, cam_turn_gap, board_turn_gap. rewrite tb_turn.
    change (slice tb_dir 9) with e_x. change (if_on (fu_cam_ext tb_up) tb_dir (c_index (tb_cam 0) + 3)) with e_x.
    change (if_on (fu_ext tb_up) tb_dir (f_index (tb_fid 0) + 3)) with e_x.
    change (c_ang (tb_cam 0)) with (spin qid 0). change (b_ang (s_body (e_state (tb_filter 0)))) with (spin qid 0).
    change (f_ang (tb_fid 0)) with (spin half_turn 0). rewrite !spin_0, !inv_qid, !mtrans_m3tr, !jac_qid, !qrot_id, !half_flips.
    unfold vadd, vopp, v0, e_x. cbn [vx vy vz]. f_equal; ring.
Qed.

(** A level body turning under a level board, seen by a camera mounted at a
    half turn. *)
Definition tl_cam : CamState := mkCam 1 1 v0 half_turn default_intrinsics 1 0 0 false.
Definition tl_fid : FidState := mkFid demo_feature qid 1 1 0 0 4 false.
Definition tl_filter (t : R) : ekf :=
  with_state (EKF_init (demo_par AAll false) demo_noise v0 0)
    (mkState (body_at v0 (spin qid t)) [] [] [(1%nat, tl_cam)] [(4%nat, tl_fid)] []).
Definition tl_up : fid_updater := fid_updater_init 4 1 false false.
Definition tl_dir : nat -> R := entries [(9, e_x)]%nat.
Lemma tl_jac : exists jac u' e', fid_GetMeasurementJacobian tl_up (tl_filter 0) = OK (jac, u', e').
Proof.
  assert (E : match fid_GetMeasurementJacobian tl_up (tl_filter 0) with OK _ => true | UB => false end = true) by (vm_compute; reflexivity).
  destruct (fid_GetMeasurementJacobian tl_up (tl_filter 0)) as [[[jac u'] e']|]; [eauto|discriminate].
Qed.
Lemma board_opposite_case : exists mq u c jac u' e' x k f ang meas,
  reads_rotations mq /\ (forall t, p_fej (e_par (c t)) = false) /\
  fid_GetMeasurementJacobian u (c 0) = OK (jac, u', e') /\
  (forall t, mfind (fu_cam u) (s_cam (e_state (c t))) = Some (k t)) /\
  (forall t, mfind (fu_id u) (s_fid (e_state (c t))) = Some (f t)) /\
  (forall t, exists p v e, fid_PredictMeasurement mq u (c t) = OK (p, ang t, v, e)) /\
  board_apart u (k 0) (f 0) /\ board_rates u c k f x /\ seen_turned (c 0) (k 0) (f 0) /\
  same_turn meas (board_turn (c 0) (k 0) (f 0)) /\
  b_ang (s_body (e_state (c 0))) = qid /\ f_ang (f 0) = qid /\ slice x 9 = e_x /\
  if_on (fu_cam_ext u) x (c_index (k 0) + 3) = v0 /\ if_on (fu_ext u) x (f_index (f 0) + 3) = v0.
Proof.
  destruct tl_jac as (jac & u' & e' & HJ).
  exists eigen_mat_quat, tl_up, tl_filter, jac, u', e', tl_dir, (fun _ => tl_cam), (fun _ => tl_fid),
    (fun t => QuatToRotVec (qmul (eigen_mat_quat (m3mul (m3tr (qmat half_turn)) (m3tr (qmat (spin qid t))))) qid)),
    (board_turn (tl_filter 0) tl_cam tl_fid).
  split; [exact eigen_reads|]. split; [reflexivity|]. split; [exact HJ|]. split; [reflexivity|]. split; [reflexivity|].
  split; [|split; [|split; [|split; [|split]]]].
  - intros t. unfold fid_PredictMeasurement, fid_RefreshStates.
    change (p_fej (e_par (tl_filter t))) with false. cbn [negb orb].
    rewrite (get_cam_known (tl_filter t) (fu_cam tl_up) tl_cam eq_refl). unfold fid_at.
    change (mfind (fu_id tl_up) (s_fid (e_state (tl_filter t)))) with (Some tl_fid). cbn [bind]. eexists. eexists. eexists. reflexivity.
  - split; [|split]; intros H; discriminate.
  - unfold board_rates. split; [|split].
    + apply (spun_turned qid e_x qnorm2_id ex_unit).
    + apply const_turned, half_unit.
    + apply const_turned, qnorm2_id.
  - unfold seen_turned, board_turn. change (c_ang tl_cam) with half_turn. change (b_ang (s_body (e_state (tl_filter 0)))) with (spin qid 0).
    change (f_ang tl_fid) with qid. rewrite spin_0, inv_qid.
    assert (E : qmul (qmul (qinv half_turn) qid) qid = opposite half_turn).
    { rewrite (qinv_conj half_turn half_unit). apply q_eq; unfold qmul, qconj, qid, half_turn, opposite; cbn [qw qx qy qz]; ring. }
    rewrite E. rewrite AtRest.rotvec_len.
    + assert (N : vnorm (qvec (opposite half_turn)) = 1).
      { unfold vnorm, vnorm2, vdot, qvec, opposite, half_turn. cbn. transitivity (sqrt 1); [f_equal; ring|apply sqrt_1]. }
      rewrite N. unfold opposite, half_turn. cbn [qw]. rewrite Ropp_0, Rabs_R0. unfold atan2_nn.
      replace (Rltb 0 0) with false by (symmetry; apply Rltb_ff; lra). replace (Rltb 0 1) with true by (symmetry; apply Rltb_spec; lra).
      pose proof PI2_3_2. lra.
    + unfold qnorm2, opposite, half_turn. cbn. ring.
  - left. reflexivity.
  - split; [exact (spin_0 qid)|]. repeat split.
Qed.
