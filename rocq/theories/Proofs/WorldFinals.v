(** Histories of callbacks: final statements and a concrete history. *)
From Coq Require Import Reals List Arith Bool Lia Lra ZArith Permutation.
From Verif Require Import Base.Res Base.Mat Base.LinAlg Base.Geom Base.AMap Base.RMat
  Model.TypeHelper Model.Types Model.MathHelper Model.GpsHelper Model.Ekf Model.Updater Model.Ops
  Model.ImuUpdater Model.GpsUpdater Model.FiducialUpdater Model.MsckfUpdater Model.Sensors Model.Simulation
  Spec.Layout Spec.History Spec.Contract Spec.Callback Spec.World Spec.Ids Spec.Replay
  Proofs.Invariant Proofs.Named Proofs.LayoutNoDup Proofs.Sizes Proofs.Demo Proofs.DemoFilter Proofs.Effects Proofs.Follows Proofs.BlockDiag Proofs.World Proofs.Ids Proofs.Sim Proofs.Finals.
Import ListNotations.
Open Scope nat_scope.

Lemma reachable_dims : forall e, reachable e ->
  nr (e_cov e) = e_size e /\ nc (e_cov e) = e_size e /\ nr (e_Q e) = e_size e /\ nc (e_Q e) = e_size e /\
  e_size e = count_states (e_state e).
Proof.
  intros e (p & q & pe & a & l & H1 & H2 & H3). destruct (run_dims p q pe a l H1 H2) as [e' [E D]]. congruence.
Qed.

Lemma callback_history : forall svd hull ecef_to_lla mat_quat solve p q pe a l w, noise_arg q ->
  events_ok svd hull ecef_to_lla mat_quat solve (world_init (EKF_init p q pe a)) l ->
  wrun svd hull ecef_to_lla mat_quat solve (world_init (EKF_init p q pe a)) l = OK w ->
  (nr (e_cov (w_ekf w)) = e_size (w_ekf w) /\ nc (e_cov (w_ekf w)) = e_size (w_ekf w) /\
   nr (e_Q (w_ekf w)) = e_size (w_ekf w) /\ nc (e_Q (w_ekf w)) = e_size (w_ekf w) /\
   e_size (w_ekf w) = count_states (e_state (w_ekf w))) /\
  index_fields_correct (e_state (w_ekf w)) /\ NoDup (layout (e_state (w_ekf w))) /\
  length (layout (e_state (w_ekf w))) = e_size (w_ekf w).
Proof.
  intros svd hull ecef mq solve p q pe a l w HQ HO E.
  pose proof (wrun_sound svd hull ecef mq solve l _ w (init_winv p q pe a HQ) HO E) as W.
  split; [apply reachable_dims; apply W|apply partition_ok; apply W].
Qed.

Lemma callback_message : forall svd hull ecef_to_lla mat_quat solve p q pe a l w m w', noise_arg q ->
  events_ok svd hull ecef_to_lla mat_quat solve (world_init (EKF_init p q pe a)) l ->
  wrun svd hull ecef_to_lla mat_quat solve (world_init (EKF_init p q pe a)) l = OK w ->
  message_ok (p_root (e_par (w_ekf w))) m ->
  wstep svd hull ecef_to_lla mat_quat solve w (EMsg m) = OK w' ->
  (addressed w m -> brought (w_ekf w) (msg_time m) (w_ekf w') /\ follows (w_ekf w) (w_ekf w')) /\
  (~ addressed w m -> w' = w).
Proof.
  intros svd hull ecef mq solve p q pe a l w m w' HQ HO E HM E'.
  pose proof (wrun_sound svd hull ecef mq solve l _ w (init_winv p q pe a HQ) HO E) as W.
  destruct (deliver_sound svd hull ecef mq solve w m w' W HM E') as [W' [G [B N]]]. split; [|exact N].
  intros A. split; [apply B; exact A|apply (w_follows _ _ G)].
Qed.

Lemma callback_image : forall svd hull ecef_to_lla mat_quat solve p q pe a l w id trs fids t image seen board w', noise_arg q ->
  events_ok svd hull ecef_to_lla mat_quat solve (world_init (EKF_init p q pe a)) l ->
  wrun svd hull ecef_to_lla mat_quat solve (world_init (EKF_init p q pe a)) l = OK w ->
  mfind id (w_sensors w) = Some (SCam trs fids) ->
  (forall k d, board k = Some d -> errors_positive d) ->
  wstep svd hull ecef_to_lla mat_quat solve w (EImage id t image seen board) = OK w' ->
  if image && negb (Nat.eqb (length trs + length fids) 0)
  then brought (w_ekf w) t (w_ekf w') /\ follows (w_ekf w) (w_ekf w') /\ n_frames (w_cnt w') = S (n_frames (w_cnt w))
  else w_ekf w' = w_ekf w /\ w_cnt w' = w_cnt w.
Proof.
  intros svd hull ecef mq solve p q pe a l w id trs fids t image seen board w' HQ HO E F HB E'.
  pose proof (wrun_sound svd hull ecef mq solve l _ w (init_winv p q pe a HQ) HO E) as W.
  cbn [wstep] in E'. rewrite F in E'.
  destruct (camera_Callback mq solve (w_cnt w) trs fids (w_ekf w) id t image seen board) as [[[[x y] c] e']|] eqn:C; cbn [bind] in E'; [|discriminate].
  destruct (camera_sound mq solve _ _ _ _ _ _ _ _ _ _ _ _ _ (wi_reach _ W) (wi_known _ W _ _ F) HB C) as [G [_ [_ H]]].
  injection E' as <-. cbn [w_ekf w_cnt]. destruct (image && negb _).
  - destruct H as [H1 H2]. split; [exact H1|]. split; [apply (w_follows _ _ G)|exact H2].
  - destruct H as [-> [-> _]]. auto.
Qed.

Lemma callback_total : forall svd hull ecef_to_lla mat_quat solve p q pe a l, noise_arg q ->
  p_root p = false -> (0 < p_imu_scale p)%R ->
  events_ok svd hull ecef_to_lla mat_quat solve (world_init (EKF_init p q pe a)) l ->
  events_plain svd hull ecef_to_lla mat_quat solve (world_init (EKF_init p q pe a)) l ->
  exists w, wrun svd hull ecef_to_lla mat_quat solve (world_init (EKF_init p q pe a)) l = OK w.
Proof.
  intros svd hull ecef mq solve p q pe a l HQ HR HS HO HP. apply wrun_total; auto. apply init_winv. exact HQ.
Qed.

(** *** A concrete history *)
Definition ten : list R := [1; 1; 1; 1; 1; 1; 1; 1; 1; 1; 1; 1]%R.
Definition ex_imu : ImuParams := mkIP true true 1 1 1 1 v0 qid v0 v0 ten.
Definition ex_intr : Intrinsics := c_intr default_cam.
Definition ex_cam : CamParams := mkCP true 10 1 1 v0 qid ex_intr ten.
Definition ex_fid : FidParams := mkFidP 0 true true v0 qid ten.
Definition ex_tr : TrackerParams := mkTP true 1 1.
Definition one3 : mat R := mkmat 3 3 (diagm (fun _ => 1%R)).
Definition ex_board : BoardDetection := mkBoard (mkV3 1 0 0) qid (mkV3 1 1 1) (mkV3 1 1 1).
Definition ex_events : list event :=
  [ENewImu ex_imu; ENewCam ex_cam [ex_tr] [ex_fid];
   EMsg (MCam 2 1 0 [] [(2, Some ex_board)]); EMsg (MImu 1 2 v0 one3 v0 one3); EImage 2 3 true (fun _ => []) (fun _ => Some ex_board)].

Lemma one3_ok : forall root, noise_ok root 3 one3.
Proof.
  intros root. apply (diag_noise_ok root 3 one3 (fun _ => 1%R)); auto; [intros; lra|]. intros i j _ _. reflexivity.
Qed.
Lemma ex_board_ok : errors_positive ex_board.
Proof. unfold errors_positive. cbn. lra. Qed.

Section Ex.
Variable svd : m2 -> m2 * m2.
Variable hull : list (Z * Z) -> list (Z * Z).
Variable ecef_to_lla : V3 -> V3.
Variable mat_quat : mat R -> quat.
Variable solve : mat R -> V3 -> V3.
Variable a : AugType.
Variable root : bool.
Let w0 := world_init (demo0 a root).

Lemma ten_ok : Forall (fun x => (0 <= x)%R) ten.
Proof. repeat constructor; lra. Qed.

Lemma ex_imu_ok : imu_params_ok ex_imu.
Proof. unfold imu_params_ok. cbn. repeat split; intros; try lra; lia. Qed.
Lemma ex_cam_ok : cam_params_ok ex_cam.
Proof. unfold cam_params_ok. cbn. split; [lra|]. intros _. split; [lra|]. split; [lra|lia]. Qed.
Lemma w0_inv : winv w0.
Proof. apply init_winv. apply demo_noise_arg. Qed.

(** After the constructors. *)
Lemma ex_nofid : forall w1, wstep svd hull ecef_to_lla mat_quat solve w0 (ENewImu ex_imu) = OK w1 -> s_fid (e_state (w_ekf w1)) = [].
Proof.
  intros w1 E1. cbn [wstep] in E1.
  unfold imu_new in E1. cbn [new_sensor_id] in E1.
  destruct (imu_params_arg root ex_imu ex_imu_ok) as [cov [E A]]. rewrite E in E1. cbn [bind] in E1.
  destruct (RegisterIMU _ _ _ _) as [e1|] eqn:R; cbn [bind] in E1; [|discriminate]. injection E1 as <-. cbn [w_ekf install].
  destruct (reg_state (demo0 a root) (ORegImu 1 (imu_state_of ex_imu) cov) e1) as [-> | ->].
  - apply (reachable_inv _ (wi_reach _ w0_inv)).
  - intros _. exact A.
  - exact R.
  - exact I.
  - reflexivity.
  - reflexivity.
Qed.
Lemma ex_sensors : forall w1 w2, wstep svd hull ecef_to_lla mat_quat solve w0 (ENewImu ex_imu) = OK w1 ->
  wstep svd hull ecef_to_lla mat_quat solve w1 (ENewCam ex_cam [ex_tr] [ex_fid]) = OK w2 ->
  exists u trs f, mfind 1 (w_sensors w2) = Some (SImu u) /\ mfind 2 (w_sensors w2) = Some (SCam trs [(2, f)]).
Proof.
  intros w1 w2 E1 E2. cbn [wstep] in E1, E2.
  unfold imu_new in E1. cbn [new_sensor_id] in E1. destruct (imu_cov_of ex_imu) as [cov|]; cbn [bind] in E1; [|discriminate].
  destruct (RegisterIMU _ _ _ _) as [e1|]; cbn [bind] in E1; [|discriminate]. injection E1 as <-.
  unfold camera_new, cam_new in E2. cbn [new_sensor_id install w_cnt w_ekf] in E2.
  destruct (RegisterCamera _ _ _ _) as [e2|]; cbn [bind] in E2; [|discriminate].
  cbn [add_trackers tracker_new new_tracker_id add_fiducials] in E2. unfold fid_new in E2. cbn [new_tracker_id] in E2.
  destruct (guard _) as [g|]; cbn [bind] in E2; [|discriminate].
  destruct (RegisterFiducial _ _ _) as [e3|]; cbn [bind] in E2; [|discriminate]. injection E2 as <-.
  eexists. eexists. eexists. split; reflexivity.
Qed.

Lemma ex_fid_ok : forall w1, wstep svd hull ecef_to_lla mat_quat solve w0 (ENewImu ex_imu) = OK w1 ->
  fid_params_ok (w_ekf w1) (cp_ext ex_cam) [ex_fid] ex_fid.
Proof.
  intros w1 E1. unfold fid_params_ok. rewrite (ex_nofid w1 E1). split; [cbn; lia|]. split; [apply ten_ok|].
  split; [intros Z; exact Z|]. split; [discriminate|]. intros q [<-|[]] _. reflexivity.
Qed.

Lemma ex_ok : events_ok svd hull ecef_to_lla mat_quat solve w0 ex_events.
Proof.
  unfold ex_events. cbn [events_ok event_ok].
  split; [apply ex_imu_ok|]. intros w1 E1.
  split. { split; [apply ex_cam_ok|]. split; apply Forall_cons; [intros Z; exact Z|apply Forall_nil|apply ex_fid_ok; exact E1|apply Forall_nil]. }
  intros w2 E2. split. { constructor; [|constructor]. cbn. intros d H. injection H as <-. apply ex_board_ok. }
  intros w3 E3. split. { cbn. split; apply one3_ok. }
  intros w4 E4. split; [|auto]. intros k d H. injection H as <-. apply ex_board_ok.
Qed.

Lemma wstep_msg_kinds : forall w m w', wstep svd hull ecef_to_lla mat_quat solve w (EMsg m) = OK w' ->
  forall k, option_map kind (mfind k (w_sensors w')) = option_map kind (mfind k (w_sensors w)).
Proof. intros w m w' E. apply (deliver_kinds svd hull ecef_to_lla mat_quat solve w m w' E). Qed.

Lemma ex_plain : events_plain svd hull ecef_to_lla mat_quat solve w0 ex_events.
Proof.
  unfold ex_events. cbn [events_plain plain_event msg_id].
  split; [exact I|]. intros w1 E1. split; [exact I|]. intros w2 E2.
  destruct (ex_sensors w1 w2 E1 E2) as [u [trs [f [F1 F2]]]]. rewrite F2.
  split. { split; [constructor|]. constructor; [|constructor]. cbn. discriminate. }
  intros w3 E3. pose proof (wstep_msg_kinds _ _ _ E3) as K3.
  split.
  { specialize (K3 1). rewrite F1 in K3. destruct (mfind 1 (w_sensors w3)) as [[x|x|x y]|]; try discriminate. exact I. }
  intros w4 E4. pose proof (wstep_msg_kinds _ _ _ E4 2) as K4. rewrite (K3 2), F2 in K4.
  split; [|auto]. destruct (mfind 2 (w_sensors w4)) as [[x|x|x y]|]; try discriminate. auto.
Qed.
End Ex.

(** *** A concrete simulation *)
Definition ex_gps : GpsParams := mkGP true 1 v0 (mkV3 1 1 1).
Definition ex_specs : list simspec :=
  [SimImu ex_imu [0; 1]%R (fun _ => v0) one3 (fun _ => v0) one3;
   SimCam ex_cam [ex_tr] [] [0; 1 / 2]%R (fun _ _ _ => []) (fun _ _ => None);
   SimGps ex_gps [1]%R (fun _ => v0) one3].
Lemma ex_specs_ok : forall w, simspecs_ok w ex_specs.
Proof.
  intros w. unfold ex_specs. cbn [simspecs_ok simspec_ok].
  split; [split; [apply ex_imu_ok|split; apply one3_ok]|]. intros ms1 w1 _.
  split. { split; [apply ex_cam_ok|]. split; [apply Forall_cons; [intros Z; exact Z|apply Forall_nil]|]. split; [apply Forall_nil|]. discriminate. }
  intros ms2 w2 _. split; [|auto]. split; [|apply one3_ok]. intros _. cbn. lra.
Qed.
