(** Simulated runs of a body at rest: the whole program, and concrete runs. *)
From Coq Require Import Reals List Arith Bool Lia Lra ZArith.
From Verif Require Import Base.Res Base.Mat Base.RDec Base.RSum Base.LinAlg Base.Geom Base.AMap Base.RMat
  Model.TypeHelper Model.Types Model.MathHelperMat Model.MathHelper Model.Matrix3 Model.Ekf Model.Updater Model.Ops
  Model.GpsHelper Model.ImuUpdater Model.GpsUpdater Model.FiducialUpdater Model.MsckfUpdater
  Model.Sensors Model.Trackers Model.TruthEngine Model.SimSensors Model.EigenQuat
  Spec.History Spec.Same Spec.Lookup Spec.Rotation Spec.AtRest Spec.Contract Spec.Callback Spec.World
  Proofs.Effects Proofs.Update Proofs.Rotations Proofs.Same Proofs.Lookup Proofs.Follows Proofs.BlockDiag
  Proofs.ZeroStep Proofs.RestLookup Proofs.AtRest Proofs.AtRestBuild Proofs.EigenQuat
  Proofs.Demo Proofs.DemoFilter Proofs.World Proofs.WorldFinals.
Import ListNotations.
Open Scope nat_scope.

Section Whole.
Variable svd : m2 -> m2 * m2.
Variable hull : list (BinNums.Z * BinNums.Z) -> list (BinNums.Z * BinNums.Z).
Variable ecef_to_lla : V3 -> V3.
Variable mat_quat : mat R -> quat.
Variable solve : mat R -> V3 -> V3.

Lemma simulated_rest : forall t p q par Q pe a t0 b l w ms w', reads_rotations mat_quat -> still t p q ->
  at_rest p q b -> (0 <= p_chi2 par)%R ->
  all_told t (world_init (Initialize (EKF_init par Q pe a) t0 b)) l ->
  wrun svd hull ecef_to_lla mat_quat solve (world_init (Initialize (EKF_init par Q pe a) t0 b)) l = OK w ->
  exact_run ecef_to_lla svd hull mat_quat solve t p q w ms ->
  wrun svd hull ecef_to_lla mat_quat solve w (map EMsg ms) = OK w' ->
  holds t p q w' /\ same_but_clones (e_state (w_ekf w)) (e_state (w_ekf w')).
Proof.
  intros t p q par Q pe a t0 b l w ms w' RR St AR X T E EX E'.
  eapply run_still; eauto. eapply built_holds; eauto.
Qed.
End Whole.

(** *** An engine that stands still *)
Lemma cyc_zero : forall f r, (cyc 0 f r = 0 /\ dcyc 0 f r = 0 /\ ddcyc 0 f r = 0)%R.
Proof. intros f r. unfold cyc, dcyc, ddcyc. repeat split; [field|ring|ring]. Qed.
Lemma cyclic_still : forall c t, tr_body t = cyclic_body c -> cy_pos_amplitude c = 0%R -> cy_ang_amplitude c = 0%R ->
  cy_ang_offset c = v0 -> still t (cy_pos_offset c) qid.
Proof.
  intros c t E A1 A2 O. split; [unfold qnorm2; cbn; ring|]. intros time. rewrite E. cbn [bt_pos bt_acc bt_ang bt_rate bt_ang_acc cyclic_body].
  unfold cy_GetBodyPosition, cy_GetBodyAcceleration, cy_GetBodyAngularPosition, cy_GetBodyAngularRate, cy_GetBodyAngularAcceleration, cy_GetBodyRollPitchYaw.
  cbv zeta. rewrite A1, A2, O. unfold each.
  rewrite !(fun f r => proj1 (cyc_zero f r)), !(fun f r => proj1 (proj2 (cyc_zero f r))), !(fun f r => proj2 (proj2 (cyc_zero f r))).
  assert (Q : EigVecToQuat v0 = qid).
  { unfold EigVecToQuat, angle_axis_quat, qmul, v0, qid. cbn. rewrite Rmult_0_r, cos_0, sin_0. f_equal; ring. }
  assert (Z : vadd (mkV3 0 0 0) v0 = v0) by (unfold vadd, v0; cbn; f_equal; ring).
  destruct (Rltb _ _).
  - rewrite Q. auto.
  - rewrite Z. repeat split; f_equal; auto.
    + destruct (cy_pos_offset c). unfold vadd. cbn. f_equal; ring.
    + unfold mat_vec, v0. cbn. f_equal; ring.
    + unfold mat_vec, v0. cbn. f_equal; ring.
Qed.

(** *** A concrete run *)
Definition rest_engine : cyclic := mkCyclic v0 v0 v0 v0 0 0 1.
Definition rest_truth : truth :=
  sim_board_new (sim_cam_new (sim_imu_new (truth_new (cyclic_body rest_engine) 10) 1 true ex_imu v0 v0 v0 (fun a _ => a) v0)
    2 true ex_cam v0 (fun a _ => a) v0) 2 true ex_fid v0 (fun a _ => a) v0.
Definition ones : V3 := mkV3 1 1 1.
Lemma rest_still : still rest_truth v0 qid.
Proof. apply (cyclic_still rest_engine); reflexivity. Qed.
Lemma ones_ok : forall root, noise_ok root 3 (square_diag ones).
Proof.
  intros root. apply (diag_noise_ok root 3 _ (fun _ => 1%R)); auto; [intros; lra|]. intros i j Hi Hj.
  unfold square_diag, ones, mdiag, v3mat, diagm. cbn. destruct (Nat.eqb_spec i j); [|reflexivity].
  do 3 (destruct i as [|i]; [cbn; ring|]). lia.
Qed.
Lemma rest_imu : forall time, exists acc omg,
  sim_imu_message rest_truth 1 true ones ones (fun a _ => a) time = OK (MImu 1 time acc (square_diag ones) omg (square_diag ones)).
Proof. intros time. eexists. eexists. reflexivity. Qed.
Lemma qid_inv : qinv qid = qid.
Proof. rewrite qinv_conj by (unfold qnorm2; cbn; ring). unfold qid, qconj. cbn. f_equal; ring. Qed.
Lemma qid_mul : qmul qid qid = qid.
Proof. unfold qmul, qid. cbn. f_equal; ring. Qed.
Lemma rest_board : forall time, exists d,
  sim_board_message rest_truth 2 2 true ones ones (fun a _ => a) v0 time = OK d /\ representable (bd_ang d) /\ errors_positive d.
Proof.
  intros time. destruct rest_still as [_ St]. destruct (St time) as [T1 [_ [T2 _]]].
  unfold sim_board_message. rewrite T1, T2. cbn [bind]. eexists. split; [reflexivity|]. split.
  - cbn [bd_ang]. change (cp_ang ex_cam) with qid. change (fp_ang ex_fid) with qid. rewrite qid_inv, qid_mul, qid_mul. left.
    rewrite quat_rotvec_id. apply vnorm_0.
  - unfold errors_positive. cbn. lra.
Qed.

Lemma reg_imu_fid : forall e id st cov e' k, mfind id (s_imu (e_state e)) = None -> RegisterIMU e id st cov = OK e' ->
  mfind k (s_fid (e_state e)) = None -> mfind k (s_fid (e_state e')) = None.
Proof.
  intros e id st cov e' k N H F. unfold RegisterIMU in H. rewrite N in H. cbv zeta in H. opn H.
  match type of H with RefreshIndices ?x = _ => set (e2 := x) in * end.
  eapply refresh_fid; [exact H|]. assert (X : s_fid (e_state e2) = s_fid (e_state e)); [|rewrite X; exact F].
  assert (Y : s_fid (e_state x) = s_fid (e_state e)).
  { destruct (i_ext st || i_int st); [opn B; opn B|]; injection B as <-; reflexivity. }
  rewrite <- Y. unfold e2. destruct (i_int st), (i_ext st); reflexivity.
Qed.

Lemma imu_first : forall e sv hu el mq so w1, (forall k, mfind k (s_imu (e_state e)) = None) ->
  (forall k, mfind k (s_fid (e_state e)) = None) -> wstep sv hu el mq so (world_init e) (ENewImu ex_imu) = OK w1 ->
  n_sensors (w_cnt w1) = 1 /\ n_trackers (w_cnt w1) = 0 /\ s_fid (e_state (w_ekf w1)) = [] /\
  exists u, w_sensors w1 = [(1, SImu u)].
Proof.
  intros e sv hu el mq so w1 N1 N2 E. cbn [wstep] in E. opn E. injection E as <-. unfold imu_new in B.
  cbn [new_sensor_id w_cnt world_init counters_init w_ekf] in B.
  opn B. opn B. injection B as <-. cbn [install w_cnt w_ekf w_sensors]. split; [reflexivity|]. split; [reflexivity|].
  split; [|eexists; reflexivity].
  assert (F : forall k, mfind k (s_fid (e_state x1)) = None).
  { intros k. eapply reg_imu_fid; [apply N1|exact B1|apply N2]. }
  destruct (s_fid (e_state x1)) as [|[k f] l]; [reflexivity|]. specialize (F k). cbn in F. rewrite Nat.eqb_refl in F. discriminate.
Qed.
Lemma cam_second : forall w sv hu el mq so u w2, n_sensors (w_cnt w) = 1 -> n_trackers (w_cnt w) = 0 -> w_sensors w = [(1, SImu u)] ->
  wstep sv hu el mq so w (ENewCam ex_cam [ex_tr] [ex_fid]) = OK w2 ->
  mfind 1 (w_sensors w2) = Some (SImu u) /\ exists trs f, mfind 2 (w_sensors w2) = Some (SCam trs [(2, f)]).
Proof.
  intros w sv hu el mq so u w2 C1 C2 C4 E2. cbn [wstep] in E2. unfold camera_new, cam_new in E2. cbn [new_sensor_id] in E2.
  destruct (RegisterCamera _ _ _ _) as [e2|]; cbn [bind] in E2; [|discriminate].
  cbn [add_trackers tracker_new new_tracker_id add_fiducials] in E2. unfold fid_new in E2. cbn [new_tracker_id] in E2.
  destruct (guard _) as [g|]; cbn [bind] in E2; [|discriminate].
  destruct (RegisterFiducial _ _ _) as [e3|]; cbn [bind] in E2; [|discriminate]. injection E2 as <-.
  cbn [install w_sensors n_sensors n_trackers]. rewrite C1, C2, C4. split; [reflexivity|]. eexists. eexists. reflexivity.
Qed.

Definition rest_build : list event := [ENewImu ex_imu; ENewCam ex_cam [ex_tr] [ex_fid]].
Section Ex.
Variable svd : m2 -> m2 * m2.
Variable hull : list (BinNums.Z * BinNums.Z) -> list (BinNums.Z * BinNums.Z).
Variable ecef_to_lla : V3 -> V3.
Variable solve : mat R -> V3 -> V3.

Section Any.
Variable e : ekf.
Hypothesis start_inv : winv (world_init e).
Hypothesis start_root : p_root (e_par e) = false.
Hypothesis start_scale : (0 < p_imu_scale (e_par e))%R.
Hypothesis no_imu : forall k, mfind k (s_imu (e_state e)) = None.
Hypothesis no_fid : forall k, mfind k (s_fid (e_state e)) = None.

Lemma rest_told : all_told rest_truth (world_init e) rest_build.
Proof.
  cbn [all_told rest_build told]. split.
  - split; [reflexivity|]. split; [unfold qnorm2; cbn; ring|]. split; reflexivity.
  - intros sv hu el mq so w1 E. destruct (imu_first _ _ _ _ _ _ _ no_imu no_fid E) as [C1 [C2 [C3 _]]]. rewrite C1, C2, C3. split; [|auto].
    split; [reflexivity|]. split; [reflexivity|]. split; [unfold qnorm2; cbn; ring|]. split; [reflexivity|]. split.
    + intros i p H. destruct i as [|i]; [|destruct i; discriminate H]. injection H as <-.
      split; [reflexivity|]. split; [reflexivity|]. unfold qnorm2; cbn; ring.
    + split; [repeat constructor; intros []|]. intros f _. reflexivity.
Qed.

Definition rest_msgs (acc omg : V3) (d : BoardDetection) (acc' omg' : V3) : list message :=
  [MCam 2 1 0 [] [(2, Some d)]; MImu 1 2 acc (square_diag ones) omg (square_diag ones);
   MImu 1 3 acc' (square_diag ones) omg' (square_diag ones)].

Lemma rest_total : forall acc omg d acc' omg', errors_positive d ->
  exists w', wrun svd hull ecef_to_lla eigen_mat_quat solve (world_init e) (rest_build ++ map EMsg (rest_msgs acc omg d acc' omg')) = OK w'.
Proof.
  intros acc omg d acc' omg' Pd. apply wrun_total; [exact start_inv| | |exact start_root|exact start_scale].
  - cbn [events_ok event_ok rest_build app map rest_msgs].
    split; [apply ex_imu_ok|]. intros w1 E1. destruct (imu_first _ _ _ _ _ _ _ no_imu no_fid E1) as [C1 [C2 [C3 _]]].
    split.
    { split; [apply ex_cam_ok|]. split; apply Forall_cons; [intros Z; exact Z|apply Forall_nil| |apply Forall_nil].
      unfold fid_params_ok. rewrite C3. split; [cbn; lia|]. split; [apply ten_ok|].
      split; [intros Z; exact Z|]. split; [discriminate|]. intros q [<-|[]] _. reflexivity. }
    intros w2 _. split. { constructor; [|constructor]. cbn. intros d' H. injection H as <-. exact Pd. }
    intros w3 _. split; [split; apply ones_ok|]. intros w4 _. split; [split; apply ones_ok|auto].
  - cbn [events_plain plain_event rest_build app map rest_msgs msg_id].
    split; [exact I|]. intros w1 E1. destruct (imu_first _ _ _ _ _ _ _ no_imu no_fid E1) as [C1 [C2 [C3 [u C4]]]]. split; [exact I|].
    intros w2 E2. destruct (cam_second _ _ _ _ _ _ _ _ C1 C2 C4 E2) as [K1 [trs [f K2]]].
    rewrite K2. split. { split; [constructor|]. constructor; [|constructor]. cbn. discriminate. }
    intros w3 E3. pose proof (wstep_msg_kinds _ _ _ _ _ _ _ _ E3) as K3. pose proof (K3 1) as K31. rewrite K1 in K31.
    destruct (mfind 1 (w_sensors w3)) as [[y|y|y z]|] eqn:F2; try (discriminate K31). split; [exact I|].
    intros w4 E4. pose proof (wstep_msg_kinds _ _ _ _ _ _ _ _ E4 1) as K4. rewrite F2 in K4.
    destruct (mfind 1 (w_sensors w4)) as [[y1|y1|y1 z1]|]; try (discriminate K4). auto.
Qed.

Lemma rest_any : exists w acc omg d acc' omg' w',
  all_told rest_truth (world_init e) rest_build /\
  wrun svd hull ecef_to_lla eigen_mat_quat solve (world_init e) rest_build = OK w /\
  exact_run ecef_to_lla svd hull eigen_mat_quat solve rest_truth v0 qid w (rest_msgs acc omg d acc' omg') /\
  wrun svd hull ecef_to_lla eigen_mat_quat solve w (map EMsg (rest_msgs acc omg d acc' omg')) = OK w'.
Proof.
  destruct (rest_imu 2) as [acc [omg M1]]. destruct (rest_board 1) as [d [M2 [Rd Pd]]]. destruct (rest_imu 3) as [acc' [omg' M3]].
  destruct (rest_total acc omg d acc' omg' Pd) as [w' T].
  assert (X : exists w, wrun svd hull ecef_to_lla eigen_mat_quat solve (world_init e) rest_build = OK w /\ wrun svd hull ecef_to_lla eigen_mat_quat solve w (map EMsg (rest_msgs acc omg d acc' omg')) = OK w').
  { unfold rest_build in *. cbn [app wrun] in T |- *. opn T. opn T. rewrite B. cbn [bind]. rewrite B0. cbn [bind]. exists x0. split; [reflexivity|exact T]. }
  destruct X as [w [E1 E2]]. exists w, acc, omg, d, acc', omg', w'.
  split; [apply rest_told|]. split; [exact E1|]. split; [|exact E2].
  cbn [exact_run exact_msg rest_msgs]. split.
  { split; [intros k l tr []|]. intros x [<-|[]] d' H. injection H as <-. split; [exact Rd|]. exists ones, ones, (fun a _ => a), v0. exact M2. }
  intros w1 _. split; [exists ones, ones, (fun a _ => a); exact M1|].
  intros w2 _. split; [exists ones, ones, (fun a _ => a); exact M3|]. auto.
Qed.
End Any.

(** Three messages: a board, and twice accelerometer and gyroscope. *)
Lemma rest_run : forall a, exists w acc omg d acc' omg' w',
  let start := world_init (Initialize (demo0 a false) 0 default_body) in
  let ms := rest_msgs acc omg d acc' omg' in
  still rest_truth v0 qid /\ at_rest v0 qid default_body /\ all_told rest_truth start rest_build /\
  wrun svd hull ecef_to_lla eigen_mat_quat solve start rest_build = OK w /\
  exact_run ecef_to_lla svd hull eigen_mat_quat solve rest_truth v0 qid w ms /\
  wrun svd hull ecef_to_lla eigen_mat_quat solve w (map EMsg ms) = OK w'.
Proof.
  intros a. destruct (rest_any (Initialize (demo0 a false) 0 default_body)) as (w & acc & omg & d & acc' & omg' & w' & H1 & H2 & H3 & H4).
  - apply (wrun_sound svd hull ecef_to_lla eigen_mat_quat solve [EConf (OInit 0 default_body)] (world_init (demo0 a false))).
    + apply init_winv. apply demo_noise_arg.
    + cbn [events_ok event_ok]. split; [split; [exact I|reflexivity]|auto].
    + reflexivity.
  - reflexivity.
  - cbn. lra.
  - intros k. reflexivity.
  - intros k. reflexivity.
  - exists w, acc, omg, d, acc', omg', w'. split; [apply rest_still|]. split; [repeat split|]. auto.
Qed.
End Ex.

(** A track of one pixel. *)
Lemma rest_track : forall e frame, exists tr, length (ft_track tr) = 1 /\ exact_track rest_truth e 2 frame tr.
Proof.
  intros e frame. destruct rest_still as [_ St]. destruct (St 1%R) as [T1 [_ [T2 _]]].
  set (f := mkV3 0 0 1).
  assert (V : exists v, sim_view pinhole rest_truth 2 (fun _ => []) 1 = OK v).
  { unfold sim_view. rewrite T1, T2. eexists. reflexivity. }
  destruct V as [v V].
  exists (mkFT [mkFP frame 1 (mkKP (fst (vw_project v f)) (snd (vw_project v f)) 0%Z)] (Some f)). split; [reflexivity|].
  exists f. split; [reflexivity|]. intros pt [<-|[]]. cbn [fp_time fp_kp kp_x kp_y fp_frame]. split.
  - exists v. split; [exact V|]. destruct (vw_project v f); reflexivity.
  - intros _. left. reflexivity.
Qed.

Lemma arrived_quiet : forall e time, p_aug (e_par e) = ANone -> e_gravity e = false -> rests v0 qid (e_state e) ->
  exists e1, arrived rest_truth e time e1.
Proof.
  intros e time P G R. unfold arrived. destruct (CalculateLocalTime e time) as [lt e0] eqn:EL.
  assert (X0 : e_state e0 = e_state e /\ p_aug (e_par e0) = ANone /\ e_gravity e0 = false).
  { unfold CalculateLocalTime in EL. destruct (e_time_init e); injection EL as <- <-; auto. }
  destruct X0 as [S0 [P0 G0]]. rewrite <- S0 in R.
  assert (PM : exists e', PredictModel e0 lt = OK e').
  { unfold PredictModel. destruct (Rltb lt (e_time e0)); [eauto|]. rewrite G0. cbn [bind].
    unfold AugmentStateIfNeeded. cbn [with_time e_par]. rewrite P0. eauto. }
  destruct PM as [e' PM]. exists e'. split; [exact PM|]. destruct (predict_quiet v0 qid _ _ _ R PM) as [R' _].
  destruct R' as [-> [_ [_ [-> _]]]]. destruct rest_still as [U St]. destruct (St time) as [T1 [_ [T2 _]]]. auto.
Qed.
Lemma rest_arrived : exists e1, arrived rest_truth (Initialize (demo0 ANone false) 0 default_body) 1 e1.
Proof.
  apply arrived_quiet; [reflexivity|reflexivity|]. unfold rests. repeat (split; [reflexivity|]). intros k l a [].
Qed.
