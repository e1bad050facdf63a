(** Programs with IMUs, and cameras that see nothing. *)
From Coq Require Import Reals List Arith Bool Lia Lra ZArith.
From Verif Require Import Base.Res Base.Mat Base.RDec Base.LinAlg Base.Geom Base.AMap Base.RMat
  Model.TypeHelper Model.Types Model.MathHelperMat Model.MathHelper Model.GpsHelper Model.Ekf Model.Updater Model.Ops
  Model.Matrix3 Model.ImuUpdater Model.GpsUpdater Model.FiducialUpdater Model.MsckfUpdater Model.Sensors
  Spec.Layout Spec.History Spec.Contract Spec.Correct Spec.Named Spec.Same Spec.Callback Spec.World Spec.ByName Spec.Unsure Spec.Apart
  Proofs.Invariant Proofs.Named Proofs.Follows Proofs.ImuCallback Proofs.ByName Proofs.ByNameRun
  Proofs.World Proofs.Demo Proofs.WorldFinals Proofs.Unsure Proofs.UnsureRun Proofs.UnsureFinal Proofs.UnsureImu.
Import ListNotations.
Open Scope nat_scope.

Section Run.
Variable svd : m2 -> m2 * m2.
Variable hull : list (BinNums.Z * BinNums.Z) -> list (BinNums.Z * BinNums.Z).
Variable ecef_to_lla : V3 -> V3.
Variable mat_quat : mat R -> quat.
Variable solve : mat R -> V3 -> V3.

Lemma board_none : forall l fids e t q, Forall (fun x => snd x = None) l -> board_all mat_quat fids e t l = OK q -> snd q = e.
Proof.
  induction l as [|[k b] l IH]; intros fids e t q H E; cbn [board_all] in E; [injection E as <-; reflexivity|].
  inversion H as [|? ? H1 H2]; subst. cbn in H1. subst b. destruct (mfind k fids); [|discriminate]. apply (IH fids e t q H2 E).
Qed.
Lemma good_frame : forall e id t frame tracks boards trs fids q, good e -> Forall (fun x => snd x = []) tracks -> Forall (fun x => snd x = None) boards ->
  sim_camera_Callback mat_quat solve trs fids e id t frame tracks boards = OK q -> good (snd q).
Proof.
  intros e id t frame tracks boards trs fids q G HT HB E. unfold sim_camera_Callback in E. rewrite local_of_split in E.
  destruct (PredictModel _ _) as [e1|] eqn:E1; cbn [bind] in E; [|discriminate].
  apply good_predict in E1; [|apply good_local; exact G].
  destruct (AugmentStateFrame e1 id frame) as [e2|] eqn:E2; cbn [bind] in E; [|discriminate].
  apply (good_step e1 (OFrame id frame) e2 E1 Logic.I Logic.I) in E2.
  rewrite track_none in E by exact HT. cbn [bind] in E.
  destruct (board_all mat_quat fids e2 t boards) as [[f3 e3]|] eqn:E3; cbn [bind] in E; [|discriminate].
  apply board_none in E3; [|exact HB]. cbn in E3. subst e3. injection E as <-. exact E2.
Qed.
Lemma good_image : forall c e id t image seen board trs fids q, good e -> (forall k, seen k = []) -> (forall k, board k = None) ->
  camera_Callback mat_quat solve c trs fids e id t image seen board = OK q -> good (snd q).
Proof.
  intros c e id t image seen board trs fids q G HT HB E. unfold camera_Callback in E.
  destruct (image && negb (Nat.eqb (length trs + length fids) 0)); [|injection E as <-; exact G].
  rewrite local_of_split in E. destruct (PredictModel _ _) as [e1|] eqn:E1; cbn [bind] in E; [|discriminate].
  apply good_predict in E1; [|apply good_local; exact G]. cbn [GenerateFrameID] in E.
  destruct (AugmentStateFrame e1 id _) as [e2|] eqn:E2; cbn [bind] in E; [|discriminate].
  apply (good_step e1 (OFrame id _) e2 E1 Logic.I Logic.I) in E2.
  rewrite track_none in E. 2:{ apply Forall_forall. intros x Hx. apply in_map_iff in Hx. destruct Hx as [k [<- _]]. apply HT. }
  cbn [bind] in E. destruct (board_all mat_quat fids e2 t _) as [[f3 e3]|] eqn:E3; cbn [bind] in E; [|discriminate].
  apply board_none in E3. 2:{ apply Forall_forall. intros x Hx. apply in_map_iff in Hx. destruct Hx as [k [<- _]]. apply HB. }
  cbn in E3. subst e3. injection E as <-. exact E2.
Qed.

Lemma good_wstep : forall w v w', winv w -> event_ok w v -> apart v -> good (w_ekf w) ->
  wstep svd hull ecef_to_lla mat_quat solve w v = OK w' -> good (w_ekf w').
Proof.
  intros w v w' HW HO HA G E. pose proof HW as [R W K]. destruct W as [W1 [W2 W3]].
  destruct v as [p|p|p ts fs|m|id t image seen board|o]; cbn [wstep event_ok apart] in *.
  - unfold imu_new in E. cbn [new_sensor_id] in E. destruct (imu_params_arg (p_root (e_par (w_ekf w))) p HO) as [cov [EC A]]. rewrite EC in E. cbn [bind] in E.
    destruct (RegisterIMU _ _ _ _) as [e1|] eqn:E1; cbn [bind] in E; [|discriminate]. injection E as <-. cbn [install w_ekf].
    apply (good_step (w_ekf w) (ORegImu (S (n_sensors (w_cnt w))) (imu_state_of p) cov) e1 G); [intros _; exact A| |exact E1].
    intros k Hk. apply W1 in Hk. lia.
  - unfold gps_new in E. cbn [new_sensor_id] in E.
    destruct (RegisterGPS _ _ _ _) as [e1|] eqn:E1; cbn [bind] in E; [|discriminate]. injection E as <-. cbn [install w_ekf].
    apply (good_step (w_ekf w) (ORegGps (S (n_sensors (w_cnt w))) (gps_state_of p) (mdiag (v3mat (gp_var p)))) e1 G); [intros _; apply gps_params_arg; exact HO| |exact E1].
    intros k Hk. apply W2 in Hk. lia.
  - subst fs. unfold camera_new, cam_new in E. cbn [new_sensor_id] in E. destruct HO as [HC _].
    destruct (RegisterCamera _ _ _ _) as [e1|] eqn:E1; cbn [bind] in E; [|discriminate].
    destruct (add_trackers _ _ ts []) as [trs c2]. cbn [add_fiducials bind] in E. injection E as <-. cbn [install w_ekf].
    apply (good_step (w_ekf w) (ORegCam (S (n_sensors (w_cnt w))) (cam_state_of p) (diag_of (MinBoundVector (cp_var p) (1 / 1000000)))) e1 G); [intros _; apply cam_params_arg; exact HC| |exact E1].
    intros k Hk. apply W3 in Hk. lia.
  - unfold deliver in E. destruct (mfind (msg_id m) (w_sensors w)) as [s|] eqn:F; [|injection E as <-; exact G].
    pose proof (K _ _ F) as HK. destruct m as [id t acc A omg V|id t lla N|id t frame tracks boards|id t]; cbn [msg_id] in *.
    + destruct s as [u|u|trs fids]; try discriminate. destruct HK as [H1 H2]. destruct HO as [O1 O2].
      destruct (imu_UpdateEKF u (w_ekf w) t acc A omg V) as [[u' e']|] eqn:E'; cbn [bind] in E; [|discriminate]. injection E as <-. cbn [w_ekf].
      apply (good_imu u (w_ekf w) t acc A omg V u' e' G); auto. rewrite H1. exact H2.
    + contradiction.
    + destruct s as [u|u|trs fids]; try discriminate. destruct HA as [A1 A2].
      destruct (sim_camera_Callback mat_quat solve trs fids (w_ekf w) id t frame tracks boards) as [[[a b] e']|] eqn:E'; cbn [bind] in E; [|discriminate].
      injection E as <-. apply (good_frame _ _ _ _ _ _ _ _ _ G A1 A2 E').
    + injection E as <-. exact G.
  - destruct HA as [A1 A2]. destruct (mfind id (w_sensors w)) as [s|] eqn:F; [|injection E as <-; exact G]. destruct s as [u|u|trs fids]; try discriminate.
    destruct (camera_Callback mat_quat solve (w_cnt w) trs fids (w_ekf w) id t image seen board) as [[[[a b] c] e']|] eqn:E'; cbn [bind] in E; [|discriminate].
    injection E as <-. apply (good_image _ _ _ _ _ _ _ _ _ _ G A1 A2 E').
  - destruct HO as [O1 O2]. destruct (step (w_ekf w) o) as [e'|] eqn:E'; cbn [bind] in E; [|discriminate]. injection E as <-. cbn [w_ekf].
    apply (good_step (w_ekf w) o e' G O2); [|exact E']. destruct o; try exact Logic.I; contradiction.
Qed.
Lemma good_wrun : forall l w w', winv w -> events_ok svd hull ecef_to_lla mat_quat solve w l -> Forall apart l -> good (w_ekf w) ->
  wrun svd hull ecef_to_lla mat_quat solve w l = OK w' -> good (w_ekf w').
Proof.
  induction l as [|v l IH]; intros w w' HW HO HA G E; cbn [wrun events_ok] in *; [injection E as <-; exact G|].
  inversion HA as [|? ? A1 A2]; subst. destruct HO as [O1 O2].
  destruct (wstep svd hull ecef_to_lla mat_quat solve w v) as [w1|] eqn:E1; cbn [bind] in E; [|discriminate].
  apply (IH w1 w'); auto; [apply (wstep_sound _ _ _ _ _ w v w1 HW O1 E1)|apply (good_wstep w v w1 HW O1 A1 G E1)].
Qed.
Theorem alone_unsure : forall p q pe a l w, noise_arg q -> p_root p = false ->
  events_ok svd hull ecef_to_lla mat_quat solve (world_init (EKF_init p q pe a)) l -> Forall apart l ->
  wrun svd hull ecef_to_lla mat_quat solve (world_init (EKF_init p q pe a)) l = OK w ->
  unsure (w_ekf w) (1 / 100) /\ (forall k, k < 3 -> (1 / 100 <= covariance (w_ekf w) k k)%R) /\
  (forall cam c k, In c (aug_at (w_ekf w) cam) -> k < 3 -> (1 / 100 <= covariance (w_ekf w) (a_index c + k)%nat (a_index c + k)%nat)%R).
Proof.
  intros p q pe a l w Hq RT HO HA E.
  assert (G : good (w_ekf w)).
  { apply (good_wrun l (world_init (EKF_init p q pe a)) w); auto; [apply init_winv; exact Hq|apply good_init; assumption]. }
  destruct G as [_ [b [T M]]]. split; [apply (more_unsure _ b T M)|apply (variances_twin _ b T M)].
Qed.

(** Two IMUs and a camera. *)
Definition alone_events : list event :=
  [ENewImu ex_imu; ENewImu ex_imu; ENewCam ex_cam [ex_tr] []; EMsg (MImu 1 1 v0 one3 v0 one3); EMsg (MCam 3 2 0 [] []);
   EMsg (MImu 2 3 v0 one3 v0 one3); EMsg (MImu 1 4 v0 one3 v0 one3); EImage 3 5 true (fun _ => []) (fun _ => None)].
Lemma alone_ok : events_ok svd hull ecef_to_lla mat_quat solve (world_init (demo0 AAll false)) alone_events.
Proof.
  unfold alone_events. cbn [events_ok event_ok message_ok].
  split; [apply ex_imu_ok|]. intros w1 _. split; [apply ex_imu_ok|]. intros w2 _.
  split. { split; [apply ex_cam_ok|]. split; [apply Forall_cons; [intros Z; exact Z|apply Forall_nil]|apply Forall_nil]. }
  intros w3 _. split; [split; apply one3_ok|]. intros w4 _. split; [apply Forall_nil|]. intros w5 _.
  split; [split; apply one3_ok|]. intros w6 _. split; [split; apply one3_ok|]. intros w7 _. split; [discriminate|]. auto.
Qed.
Lemma alone_apart : Forall apart alone_events.
Proof. unfold alone_events. repeat (apply Forall_cons; [cbn; auto|]). apply Forall_nil. Qed.
Lemma two_imus : forall w p p' pc ts w1 w2 w3, w_cnt w = counters_init -> w_sensors w = [] ->
  wstep svd hull ecef_to_lla mat_quat solve w (ENewImu p) = OK w1 ->
  wstep svd hull ecef_to_lla mat_quat solve w1 (ENewImu p') = OK w2 ->
  wstep svd hull ecef_to_lla mat_quat solve w2 (ENewCam pc ts []) = OK w3 ->
  exists u u' trs, mfind 1 (w_sensors w3) = Some (SImu u) /\ mfind 2 (w_sensors w3) = Some (SImu u') /\ mfind 3 (w_sensors w3) = Some (SCam trs []).
Proof.
  intros w p p' pc ts w1 w2 w3 HC HS E1 E2 E3. cbn [wstep] in E1, E2, E3.
  unfold imu_new in E1. rewrite HC in E1. cbn [new_sensor_id counters_init] in E1. destruct (imu_cov_of p) as [cov|]; cbn [bind] in E1; [|discriminate].
  destruct (RegisterIMU _ _ _ _) as [e1|]; cbn [bind] in E1; [|discriminate]. injection E1 as <-. unfold install in E2. rewrite HS in E2. cbn [w_cnt w_ekf w_sensors] in E2.
  unfold imu_new in E2. cbn [new_sensor_id] in E2. destruct (imu_cov_of p') as [cov2|]; cbn [bind] in E2; [|discriminate].
  destruct (RegisterIMU _ _ _ _) as [e2|]; cbn [bind] in E2; [|discriminate]. injection E2 as <-.
  unfold camera_new, cam_new in E3. cbn [new_sensor_id install w_cnt w_ekf w_sensors] in E3.
  destruct (RegisterCamera _ _ _ _) as [e3|]; cbn [bind] in E3; [|discriminate].
  destruct (add_trackers _ _ ts []) as [trs c2]. cbn [add_fiducials bind] in E3. injection E3 as <-.
  eexists. eexists. eexists. repeat split; reflexivity.
Qed.
Lemma two_plain : forall w, w_cnt w = counters_init -> w_sensors w = [] -> events_plain svd hull ecef_to_lla mat_quat solve w alone_events.
Proof.
  intros w HC HS. unfold alone_events. generalize ex_imu, ex_cam, [ex_tr], one3. intros p pc ts N. cbn [events_plain plain_event msg_id].
  split; [exact I|]. intros w1 E1. split; [exact I|]. intros w2 E2. split; [exact I|]. intros w3 E3.
  destruct (two_imus w p p pc ts w1 w2 w3 HC HS E1 E2 E3) as [u [u' [trs [F1 [F2 F3]]]]]. clear E1 E2 E3. rewrite F1.
  split; [exact I|]. intros w4 E4. pose proof (wstep_msg_kinds _ _ _ _ _ _ _ _ E4) as K4. clear E4.
  split.
  { specialize (K4 3). rewrite F3 in K4. destruct (mfind 3 (w_sensors w4)) as [[x|x|x y]|]; try discriminate. split; apply Forall_nil. }
  intros w5 E5. pose proof (wstep_msg_kinds _ _ _ _ _ _ _ _ E5) as K5. clear E5.
  split.
  { specialize (K5 2). rewrite (K4 2), F2 in K5. destruct (mfind 2 (w_sensors w5)) as [[x|x|x y]|]; try discriminate. exact I. }
  intros w6 E6. pose proof (wstep_msg_kinds _ _ _ _ _ _ _ _ E6) as K6. clear E6.
  split.
  { specialize (K6 1). rewrite (K5 1), (K4 1), F1 in K6. destruct (mfind 1 (w_sensors w6)) as [[x|x|x y]|]; try discriminate. exact I. }
  intros w7 E7. pose proof (wstep_msg_kinds _ _ _ _ _ _ _ _ E7 3) as K7. clear E7. rewrite (K6 3), (K5 3), (K4 3), F3 in K7.
  split; [|intros w8 _; exact I]. destruct (mfind 3 (w_sensors w7)) as [[x|x|x y]|]; try discriminate. intros k. reflexivity.
Qed.
Lemma alone_runs : exists w, wrun svd hull ecef_to_lla mat_quat solve (world_init (demo0 AAll false)) alone_events = OK w.
Proof.
  apply (callback_total svd hull ecef_to_lla mat_quat solve (demo_par AAll false) demo_noise v0 0 alone_events demo_noise_arg eq_refl);
    [cbn; lra|apply alone_ok|apply two_plain; reflexivity].
Qed.
End Run.
