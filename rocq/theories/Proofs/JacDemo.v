(** Concrete cases for the Jacobian theorems. *)
From Coq Require Import Reals List Arith Bool Lia Lra.
From Verif Require Import Base.Res Base.Mat Base.RDec Base.RSum Base.LinAlg Base.Geom Base.AMap Base.RMat
  Model.TypeHelper Model.Types Model.MathHelper Model.Matrix3 Model.Ekf Model.Updater Model.GpsUpdater
  Model.ImuUpdater Model.FiducialUpdater Model.MsckfUpdater Spec.Rotation Spec.Deriv
  Proofs.Effects Proofs.Rotations Proofs.Deriv Proofs.RotDeriv Proofs.Jacobians Proofs.CamJacobians Proofs.FidJacobians
  Proofs.JacWrong Proofs.Demo.
Import ListNotations.
Open Scope R_scope.

Definition yaw (t : R) : V3 := mkV3 0 0 (1 + t).
Lemma yaw_moves : vmoves yaw e_z.
Proof.
  repeat split; cbn [yaw vx vy vz e_z]; [apply dl_const|apply dl_const|].
  eapply dl_eq; [|apply dl_plus; [apply dl_const|apply dl_id]]. ring.
Qed.
Lemma yaw_norm : vnorm (yaw 0) = 1.
Proof.
  unfold vnorm, vnorm2, vdot, yaw. cbn [vx vy vz].
  replace (0 * 0 + 0 * 0 + (1 + 0) * (1 + 0)) with 1 by ring. apply sqrt_1.
Qed.
Lemma yaw_turn : proper_turn (yaw 0).
Proof. unfold proper_turn. rewrite yaw_norm. pose proof PI2_1. lra. Qed.

(** GPS, antenna one metre ahead, body turning and moving up. *)
Definition gps_demo (t : R) : ekf :=
  with_state (gps_filter qid e_x)
    (mkState (body_at (mkV3 0 0 t) (RotVecToQuat (yaw t))) [] [(1%nat, mkGps e_x 1 3 0 false)] [] [] []).
Definition gps_dir (i : nat) : R := if Nat.eqb i 2 then 1 else if Nat.eqb i 11 then 1 else 0.
Lemma gps_demo_jac : exists jac u' e', gps_GetMeasurementJacobian (gps_updater_init 1 false) (gps_demo 0) = OK (jac, u', e').
Proof.
  assert (E : match gps_GetMeasurementJacobian (gps_updater_init 1 false) (gps_demo 0) with OK _ => true | UB => false end = true)
    by (vm_compute; reflexivity).
  destruct (gps_GetMeasurementJacobian (gps_updater_init 1 false) (gps_demo 0)) as [[[jac u'] e']|]; [eauto|discriminate].
Qed.
Lemma up_moves : vmoves (fun t => mkV3 0 0 t) e_z.
Proof. repeat split; cbn [vx vy vz e_z]; [apply dl_const|apply dl_const|apply dl_id]. Qed.
Lemma gps_case : exists c jac u' e' x phi,
  let u := gps_updater_init 1 false in
  (forall t, p_fej (e_par (c t)) = false) /\
  gps_GetMeasurementJacobian u (c 0) = OK (jac, u', e') /\
  (forall t, b_ang (s_body (e_state (c t))) = RotVecToQuat (phi t)) /\ proper_turn (phi 0) /\
  vmoves (fun t => b_pos (s_body (e_state (c t)))) (slice x 0) /\ vmoves phi (slice x 9) /\
  vmoves (fun t => g_pos (mget default_gps (gu_id u) (s_gps (e_state (c t))))) v0 /\
  slice x 0 = e_z /\ slice x 9 = e_z /\ g_pos (mget default_gps (gu_id u) (s_gps (e_state (c 0)))) = e_x.
Proof.
  destruct gps_demo_jac as (jac & u' & e' & HJ).
  exists gps_demo, jac, u', e', gps_dir, yaw. cbv zeta.
  split; [reflexivity|]. split; [exact HJ|]. split; [reflexivity|]. split; [exact yaw_turn|].
  split; [exact up_moves|]. split; [exact yaw_moves|]. split; [apply (vmoves_const e_x)|]. repeat split.
Qed.

(** One clone at the origin, a feature five metres away along z. *)
Definition clone_filter : ekf :=
  with_aug_sizes (with_state (EKF_init (demo_par AAll false) demo_noise v0 0)
    (mkState (body_at v0 qid) [] [] [(1%nat, default_cam)] [] [(1%nat, [mkAug 7 0 v0 (RotVecToQuat (yaw 0)) 24 0])])) 30 6.
Definition demo_feature : V3 := mkV3 1 0 5.
Definition demo_point : FeaturePoint := mkFP 7 0 (mkKP 900 500 3).

Lemma yaw_quat : exists a b, RotVecToQuat (yaw 0) = mkQ a 0 0 b /\ a * a + b * b = 1.
Proof.
  rewrite RotVec_big by (rewrite yaw_norm; lra). rewrite yaw_norm. unfold angle_axis_quat, vdiv, yaw. cbn [vx vy vz].
  exists (cos (/ 2 * 1)), (sin (/ 2 * 1)). split.
  - f_equal; field.
  - pose proof (sin2_cos2 (/ 2 * 1)) as P. unfold Rsqr in P. lra.
Qed.

Lemma demo_depth : forall q, (q = qid \/ q = RotVecToQuat (yaw 0)) ->
  vz (in_camera demo_feature v0 (RotVecToQuat (yaw 0)) v0 q) = 5.
Proof.
  intros q Hq. destruct yaw_quat as (a & b & E & _). rewrite E in *.
  destruct Hq as [-> | ->]; unfold in_camera, mat_vec, m3tr, qmat, of_list, vsub, demo_feature, v0, qid; cbn; ring.
Qed.

Lemma demo_point_undone : exists mx my, undo_pixel default_intrinsics (fp_kp demo_point) = OK (mx, my).
Proof.
  unfold undo_pixel, demo_point, default_intrinsics. cbn [fp_kp in_f_x in_f_y in_pixel_size kp_x kp_y in_width in_height].
  rewrite !rdiv_ok by lra. cbn [bind]. rewrite !rdiv_ok by lra. cbn [bind]. eauto.
Qed.

Lemma demo_row : forall ext q, (q = qid \/ q = RotVecToQuat (yaw 0)) ->
  exists R1 F1 C1 e1, feature_row (msckf_updater_init 1 ext 1) default_intrinsics v0 q 30 18 demo_feature
    clone_filter 0 demo_point (mzero 2 1) (mzero 2 3) (mzero 2 30) = OK (R1, F1, C1, e1).
Proof.
  intros ext q Hq. unfold feature_row.
  change (GetAugState clone_filter (mu_id (msckf_updater_init 1 ext 1)) (fp_frame demo_point) (fp_time demo_point))
    with (OK (mkAug 7 0 v0 (RotVecToQuat (yaw 0)) 24 0, touch_aug clone_filter 1)).
  cbn [bind a_ang a_pos a_index a_alpha].
  fold (in_camera demo_feature v0 (RotVecToQuat (yaw 0)) v0 q).
  pose proof (demo_depth q Hq) as D. set (p := in_camera demo_feature v0 (RotVecToQuat (yaw 0)) v0 q) in *.
  assert (P : Project p = OK (vx p / vz p, vy p / vz p)).
  { unfold Project. rewrite !rdiv_ok by lra. reflexivity. }
  rewrite P. cbn [bind]. destruct demo_point_undone as (mx & my & U). rewrite U. cbn [bind].
  destruct (ProjectionJacobian p) as [H|] eqn:EH.
  2: { unfold ProjectionJacobian in EH. rewrite !rdiv_ok in EH by nra. discriminate. }
  assert (Z : Reqb 0 0 = true) by (apply Reqb_spec; reflexivity). rewrite Z. cbn [negb].
  clearbody p. clear. destruct ext; cbn [mu_ext msckf_updater_init];
  unfold g_aug_state_size;
  repeat (rewrite set_block_ok by (cbn; lia); cbn [bind]); do 4 eexists; reflexivity.
Qed.

Lemma camera_case : forall ext, exists q a e0 R1 F1 C1 e1,
  let u := msckf_updater_init 1 ext 1 in
  no_distortion default_intrinsics /\ (18 + 6 <= a_index a)%nat /\ proper_turn (yaw 0) /\ q = RotVecToQuat (yaw 0) /\
  GetAugState clone_filter (mu_id u) (fp_frame demo_point) (fp_time demo_point) = OK (a, e0) /\ a_alpha a = 0 /\
  feature_row u default_intrinsics v0 q 30 18 demo_feature clone_filter 0 demo_point
    (mzero 2 1) (mzero 2 3) (mzero 2 30) = OK (R1, F1, C1, e1) /\
  a_pos a = v0 /\ a_ang a = RotVecToQuat (yaw 0) /\ qnorm2 q = 1.
Proof.
  intros ext. destruct (demo_row ext (RotVecToQuat (yaw 0)) (or_intror eq_refl)) as (R1 & F1 & C1 & e1 & E).
  exists (RotVecToQuat (yaw 0)), (mkAug 7 0 v0 (RotVecToQuat (yaw 0)) 24 0), (touch_aug clone_filter 1), R1, F1, C1, e1.
  cbv zeta. split; [repeat split|]. split; [apply Nat.le_refl|]. split; [exact yaw_turn|]. split; [reflexivity|].
  split; [reflexivity|]. split; [reflexivity|]. split; [exact E|]. split; [reflexivity|]. split; [reflexivity|]. apply RotVec_unit.
Qed.

Lemma project_case : exists p v jac, vmoves p v /\ ProjectionJacobian (p 0) = OK jac /\ v <> v0.
Proof.
  destruct (ProjectionJacobian (mkV3 0 0 (1 + 0))) as [jac|] eqn:E.
  - exists yaw, e_z, jac. split; [exact yaw_moves|]. split; [exact E|]. unfold e_z, v0. intros H. injection H as H. lra.
  - exfalso. unfold ProjectionJacobian in E. cbn [vz vx vy] in E. rewrite !rdiv_ok in E by lra. discriminate.
Qed.

Lemma distortion_wrong : exists x y k, ~ plane_derivative (fun a b => Distort a b k) (DistortionJacobian x y k) x y.
Proof.
  exists 1, 0, (mkIntrinsics 1 1 1 0 0 0 1 1 1). intros H. apply distortion_iff in H.
  cbn [in_k_1 in_k_2] in H. destruct H as [H|[H _]]; lra.
Qed.

(** Turning from the identity attitude. *)
Definition gps_turning (t : R) : ekf := gps_filter (angle_axis_quat t e_x) e_z.
Lemma gps_turning_jac : exists jac u' e', gps_GetMeasurementJacobian (gps_updater_init 1 false) (gps_turning 0) = OK (jac, u', e').
Proof.
  assert (E : match gps_GetMeasurementJacobian (gps_updater_init 1 false) (gps_turning 0) with OK _ => true | UB => false end = true)
    by (vm_compute; reflexivity).
  destruct (gps_GetMeasurementJacobian (gps_updater_init 1 false) (gps_turning 0)) as [[[jac u'] e']|]; [eauto|discriminate].
Qed.
Lemma gps_correction_case : exists c jac u' e' x,
  let u := gps_updater_init 1 false in
  (forall t, p_fej (e_par (c t)) = false) /\
  gps_GetMeasurementJacobian u (c 0) = OK (jac, u', e') /\
  (forall t, b_ang (s_body (e_state (c t))) = angle_axis_quat t e_x) /\ vnorm2 e_x = 1 /\ slice x 9 = e_x /\
  vmoves (fun t => b_pos (s_body (e_state (c t)))) (slice x 0) /\
  (forall t, g_pos (mget default_gps (gu_id u) (s_gps (e_state (c t)))) = e_z).
Proof.
  destruct gps_turning_jac as (jac & u' & e' & HJ).
  exists gps_turning, jac, u', e', (fun i => if Nat.eqb i 9 then 1 else 0). cbv zeta.
  split; [reflexivity|]. split; [exact HJ|]. split; [reflexivity|].
  split; [unfold vnorm2, vdot, e_x; cbn; ring|]. split; [reflexivity|]. split; [apply (vmoves_const v0)|]. reflexivity.
Qed.

(** A known board seen by a turning, climbing body. *)
Definition fid_filter (t : R) : ekf :=
  with_cam_sizes (with_state (EKF_init (demo_par AAll false) demo_noise v0 0)
    (mkState (body_at (mkV3 0 0 t) (RotVecToQuat (yaw t))) [] []
       [(1%nat, mkCam 1 1 v0 (RotVecToQuat (yaw 0)) default_intrinsics 1 6 18 true)]
       [(4%nat, mkFid demo_feature qid 1 1 0 0 4 false)] [])) 24 6.
Lemma fid_filter_jac : forall b, exists jac u' e',
  fid_GetMeasurementJacobian (fid_updater_init 4 1 false b) (fid_filter 0) = OK (jac, u', e').
Proof.
  intros b.
  assert (E : match fid_GetMeasurementJacobian (fid_updater_init 4 1 false b) (fid_filter 0) with OK _ => true | UB => false end = true)
    by (destruct b; vm_compute; reflexivity).
  destruct (fid_GetMeasurementJacobian (fid_updater_init 4 1 false b) (fid_filter 0)) as [[[jac u'] e']|]; [eauto|discriminate].
Qed.
Lemma fid_filter_cam : forall t, cam_of (fid_filter t) 1 = mkCam 1 1 v0 (RotVecToQuat (yaw 0)) default_intrinsics 1 6 18 true.
Proof. reflexivity. Qed.
Lemma fid_filter_pred : forall mq b t, exists a v e, fid_PredictMeasurement mq (fid_updater_init 4 1 false b) (fid_filter t) =
  OK (in_camera demo_feature (mkV3 0 0 t) (RotVecToQuat (yaw t)) v0 (RotVecToQuat (yaw 0)), a, v, e).
Proof.
  intros mq b t. destruct (fid_predict mq (fid_updater_init 4 1 false b) (fid_filter t) (mkFid demo_feature qid 1 1 0 0 4 false) eq_refl eq_refl) as (a & v & e & E).
  cbn [fu_cam fid_updater_init] in E. rewrite fid_filter_cam in E. exists a, v, e. exact E.
Qed.
Lemma fiducial_case : forall mq cam_ext, exists c u jac u' e' pos f x,
  fu_ext u = false /\ fu_cam_ext u = cam_ext /\ (forall t, p_fej (e_par (c t)) = false) /\
  fid_GetMeasurementJacobian u (c 0) = OK (jac, u', e') /\
  (forall t, mfind (fu_id u) (s_fid (e_state (c t))) = Some (f t)) /\
  (forall t, exists a v e, fid_PredictMeasurement mq u (c t) = OK (pos t, a, v, e)) /\
  (forall t, b_ang (s_body (e_state (c t))) = RotVecToQuat (yaw t)) /\ proper_turn (yaw 0) /\
  vmoves (fun t => b_pos (s_body (e_state (c t)))) (slice x 0) /\ vmoves yaw (slice x 9) /\
  c_index (cam_of (c 0) (fu_cam u)) = 18%nat /\
  (forall t, c_ang (cam_of (c t) (fu_cam u)) = RotVecToQuat (yaw 0)) /\
  (forall t, f_pos (f t) = demo_feature).
Proof.
  intros mq b. destruct (fid_filter_jac b) as (jac & u' & e' & HJ).
  exists fid_filter, (fid_updater_init 4 1 false b), jac, u', e',
    (fun t => in_camera demo_feature (mkV3 0 0 t) (RotVecToQuat (yaw t)) v0 (RotVecToQuat (yaw 0))),
    (fun _ => mkFid demo_feature qid 1 1 0 0 4 false), gps_dir.
  split; [reflexivity|]. split; [reflexivity|]. split; [reflexivity|]. split; [exact HJ|]. split; [reflexivity|].
  split; [intros t; apply fid_filter_pred|]. split; [reflexivity|]. split; [exact yaw_turn|].
  split; [exact up_moves|]. split; [exact yaw_moves|]. split; [rewrite fid_filter_cam; reflexivity|].
  split; [intros t; cbn [fu_cam fid_updater_init]; rewrite fid_filter_cam; reflexivity|]. reflexivity.
Qed.
