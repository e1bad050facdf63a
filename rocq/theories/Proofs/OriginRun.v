(** Whole programs do the same wherever the origins are. *)
From Coq Require Import Reals List Arith Bool ZArith Lia Lra.
From Verif Require Import Base.Res Base.Mat Base.RDec Base.Geom Base.AMap Base.RMat Base.LinAlg
  Model.TypeHelper Model.Types Model.MathHelper Model.Ekf Model.Updater Model.Ops Model.ImuUpdater
  Model.GpsHelper Model.GpsUpdater Model.FiducialUpdater Model.MsckfUpdater Model.Matrix3 Model.Sensors
  Spec.Origin Proofs.Origin Proofs.OriginWorld.
Import ListNotations.
Open Scope R_scope.

Section Origin.
Variable v : V3.
Variables c d : R.
Notation F := (filter' v c d).
Notation U' := (fid_updater' v).
Variable svd : m2 -> m2 * m2.
Variable hull : list (Z * Z) -> list (Z * Z).
Variable ecef_to_lla : V3 -> V3.
Variable mat_quat : mat R -> quat.
Variable solve : mat R -> V3 -> V3.

Lemma clocked_keeps : forall e e', keeps e e' -> clocked c e -> clocked c e'.
Proof. intros e e' [_ K] [H|H]; [left; apply K, H|right; exact H]. Qed.

(** The trackers of a camera see only frames in the window. *)
Definition all_shown (e : ekf) (trs : amap tracker) (l : list (nat * list FeatureTrack)) : Prop :=
  forall k ts tr x p, In (k, ts) l -> mfind k trs = Some tr -> In x ts -> In p (ft_track x) ->
    found v c e (mu_id (tk_upd tr)) (fp_frame p).
Lemma track_all' : forall l trs e t, clocked c e -> all_shown e trs l ->
  track_all solve trs (F e) (t + (c + d)) (tracks' v c l) = rmap (with' v c d) (track_all solve trs e t l).
Proof.
  induction l as [|[k ts] l IH]; intros trs e t Hk Hs; [reflexivity|].
  cbn [tracks' over map fst snd track_all]. destruct ts as [|x ts].
  - cbn [map]. apply IH; [exact Hk|]. intros k1 ts1 tr y p H. apply (Hs k1 ts1 tr y p (or_intror H)).
  - cbn [map]. change (track' v c x :: map (track' v c) ts) with (map (track' v c) (x :: ts)).
    remember (x :: ts) as ts0 eqn:Ets. clear Ets x ts.
    destruct (mfind k trs) as [tr|] eqn:Etr; [|reflexivity].
    apply (bothp v c d).
    + apply msckf'; [exact Hk|]. intros x Hx p Hp. apply (Hs k ts0 tr x p (or_introl eq_refl) Etr Hx Hp).
    + intros u1 e1 He. apply keeps_msckf in He. destruct He as [K Hid]. apply IH.
      * eapply clocked_keeps; eassumption.
      * intros k1 ts1 tr1 y p H Hm Hy Hp. destruct (Nat.eq_dec k1 k) as [->|Hn].
        -- rewrite mfind_mset_eq in Hm. injection Hm as <-. cbn [tk_upd]. rewrite Hid. apply (found_keeps v c _ _ _ _ K).
           apply (Hs k ts1 tr y p (or_intror H) Etr Hy Hp).
        -- rewrite mfind_mset_neq in Hm by exact Hn. apply (found_keeps v c _ _ _ _ K).
           apply (Hs k1 ts1 tr1 y p (or_intror H) Hm Hy Hp).
Qed.
Lemma keeps_track_all : forall l trs e t trs' e', track_all solve trs e t l = OK (trs', e') -> keeps e e'.
Proof.
  induction l as [|[k ts] l IH]; intros trs e t trs' e' H; cbn [track_all] in H.
  - injection H as _ <-. apply keeps_refl.
  - destruct ts as [|x ts]; [eapply IH; exact H|]. destruct (mfind k trs) as [tr|]; [|discriminate].
    apply bind_OK in H. destruct H as ([u1 e1] & He & H). apply keeps_msckf in He.
    eapply keeps_trans; [exact (proj1 He)|eapply IH; exact H].
Qed.

Lemma clocked_fid : forall mq u e t b u' e', fid_UpdateEKF mq u e t b = OK (u', e') -> clocked c e -> clocked c e'.
Proof.
  intros mq u e t b u' e' H Hk. unfold fid_UpdateEKF in H.
  pose proof (keeps_local e t) as K0. destruct (CalculateLocalTime e t) as [lt e0]. cbn [snd] in K0.
  apply bind_OK in H. destruct H as (e1 & He1 & H). apply keeps_predict in He1.
  apply bind_OK in H. destruct H as ([[[pp ap] u1] e2] & Hp & H). cbv zeta in H.
  apply bind_OK in H. destruct H as ([[jac u2] e3] & Hj & H). apply bind_OK in H. destruct H as (n & _ & H).
  apply bind_OK in H. destruct H as (e4 & He4 & H). injection H as _ <-.
  apply keeps_kalman in He4.
  assert (Hr : forall u e p u' e', fid_RefreshStates u e = OK (p, u', e') -> keeps e e').
  { clear. intros u e p u' e' H. unfold fid_RefreshStates in H. destruct (negb (p_fej (e_par e)) || fu_first u).
    - destruct (GetCamState e (fu_cam u)) as [cs e1] eqn:E. apply bind_OK in H. destruct H as (f & _ & H).
      injection H as _ _ <-. injection E as _ <-. apply keeps_same; try reflexivity. intros Hi; exact Hi.
    - destruct (fu_poses u); [|discriminate]. injection H as _ _ <-. apply keeps_refl. }
  assert (K2 : keeps e1 e2).
  { unfold fid_PredictMeasurement in Hp. apply bind_OK in Hp. destruct Hp as ([[q u3] e5] & Hq & Hp).
    destruct q as [[[pc qc] pf] qf]. cbv zeta in Hp. injection Hp as _ _ _ <-. eapply Hr. exact Hq. }
  assert (K3 : keeps e2 e3).
  { unfold fid_GetMeasurementJacobian in Hj. apply bind_OK in Hj. destruct Hj as ([[q u3] e5] & Hq & Hj).
    destruct q as [[[pc qc] pf] qf]. cbv zeta in Hj. do 3 (apply bind_OK in Hj; destruct Hj as (? & _ & Hj)).
    apply bind_OK in Hj. destruct Hj as ([j e6] & Hj6 & Hj). apply bind_OK in Hj. destruct Hj as (? & _ & Hj).
    injection Hj as _ _ <-. eapply keeps_trans; [eapply Hr; exact Hq|].
    destruct (fu_cam_ext u3).
    - destruct (GetCamState e5 (fu_cam u3)) as [cs e7] eqn:E. cbv zeta in Hj6.
      do 3 (apply bind_OK in Hj6; destruct Hj6 as (? & _ & Hj6)). injection Hj6 as _ <-. injection E as _ <-.
      apply keeps_same; try reflexivity. intros Hi; exact Hi.
    - injection Hj6 as _ <-. apply keeps_refl. }
  revert Hk. apply clocked_keeps. eapply keeps_trans; [exact K0|]. eapply keeps_trans; [exact He1|].
  eapply keeps_trans; [exact K2|]. eapply keeps_trans; [exact K3|exact He4].
Qed.
Lemma board_all' : forall l fids e t, clocked c e ->
  board_all mat_quat (over U' fids) (F e) (t + (c + d)) l
  = rmap (fun x => (over U' (fst x), F (snd x))) (board_all mat_quat fids e t l).
Proof.
  induction l as [|[k b] l IH]; intros fids e t Hk; [reflexivity|].
  cbn [board_all]. rewrite over_find. destruct (mfind k fids) as [u|]; [|reflexivity]. cbn [option_map].
  destruct b as [b|]; [|apply IH; exact Hk].
  rewrite fid' by exact Hk. rewrite bind_rmap. apply same'. intros [u1 e1] He. cbn [fst snd].
  rewrite over_set. apply IH. eapply clocked_fid; eassumption.
Qed.

(** *** Cameras *)
Definition cam' (x : amap tracker * amap fid_updater * ekf) : amap tracker * amap fid_updater * ekf :=
  (fst (fst x), over U' (snd (fst x)), F (snd x)).
Lemma callback_tail : forall trs fids e1 t tracks boards, clocked c e1 -> all_shown e1 trs tracks ->
  (let* (trs, e) := track_all solve trs (F e1) (t + (c + d)) (tracks' v c tracks) in
   let* (fids, e) := board_all mat_quat (over U' fids) e (t + (c + d)) boards in OK (trs, fids, e))
  = rmap cam' (let* (trs, e) := track_all solve trs e1 t tracks in
   let* (fids, e) := board_all mat_quat fids e t boards in OK (trs, fids, e)).
Proof.
  intros trs fids e1 t tracks boards Hk Hs.
  apply (bothp v c d); [apply track_all'; assumption|]. intros trs1 e2 He2. apply keeps_track_all in He2.
  rewrite board_all' by (eapply clocked_keeps; eassumption). rewrite bind_rmap.
  apply same'. intros [fids1 e3] _. reflexivity.
Qed.
Lemma camera_pre : forall e id t frame e2, clocked c e ->
  (let* e1 := PredictModel (snd (CalculateLocalTime e t)) (fst (CalculateLocalTime e t)) in
   AugmentStateFrame e1 id frame) = OK e2 -> clocked c e2.
Proof.
  intros e id t frame e2 Hk H. apply bind_OK in H. destruct H as (e1 & He1 & H).
  apply keeps_predict in He1. apply frame_par in H. destruct H as [_ Ht].
  assert (K : clocked c e1) by (revert Hk; apply clocked_keeps; eapply keeps_trans; [apply keeps_local|exact He1]).
  unfold clocked in *. rewrite Ht. exact K.
Qed.
Lemma callback' : forall trs fids e id t frame tracks boards, clocked c e ->
  tracks_shown v c e id t frame trs tracks ->
  sim_camera_Callback mat_quat solve trs (over U' fids) (F e) id (t + (c + d)) frame (tracks' v c tracks) boards
  = rmap cam' (sim_camera_Callback mat_quat solve trs fids e id t frame tracks boards).
Proof.
  intros trs fids e id t frame tracks boards Hk Hs. unfold sim_camera_Callback. rewrite local' by exact Hk.
  pose proof (camera_pre e id t frame) as Hpre. unfold tracks_shown in Hs. cbn [run step] in Hs.
  destruct (CalculateLocalTime e t) as [lt e0]. cbn [fst snd bind] in *.
  apply (both' v c d); [apply predict'|]. intros e1 He1. apply (both' v c d); [apply frame'|]. intros e2 He2.
  apply callback_tail.
  - apply Hpre; [exact Hk|]. rewrite He1. exact He2.
  - intros k ts tr x p. apply Hs. rewrite He1. cbn [bind]. rewrite He2. reflexivity.
Qed.
Lemma image' : forall cn trs fids e id t image seen board, clocked c e ->
  tracks_shown v c e id t (n_frames cn) trs (map (fun k => (k, seen k)) (keys trs)) ->
  camera_Callback mat_quat solve cn trs (over U' fids) (F e) id (t + (c + d)) image (fun k => map (track' v c) (seen k)) board
  = rmap (fun x => let '(trs, fids, cn, e) := x in (trs, over U' fids, cn, F e))
      (camera_Callback mat_quat solve cn trs fids e id t image seen board).
Proof.
  intros cn trs fids e id t image seen board Hk Hs. unfold camera_Callback. rewrite over_length, over_keys.
  destruct (image && negb (Nat.eqb (length trs + length fids) 0)); [|reflexivity].
  rewrite local' by exact Hk.
  pose proof (camera_pre e id t (n_frames cn)) as Hpre. unfold tracks_shown in Hs. cbn [run step] in Hs.
  destruct (CalculateLocalTime e t) as [lt e0]. cbn [fst snd bind] in *.
  apply (both' v c d); [apply predict'|]. intros e1 He1. cbn [GenerateFrameID]. unfold GenerateFrameID.
  apply (both' v c d); [apply frame'|]. intros e2 He2.
  assert (Hc : clocked c e2) by (apply Hpre; [exact Hk|]; rewrite He1; exact He2).
  assert (Ha : all_shown e2 trs (map (fun k => (k, seen k)) (keys trs))).
  { intros k ts tr x p. apply Hs. rewrite He1. cbn [bind]. rewrite He2. reflexivity. }
  assert (map (fun k => (k, map (track' v c) (seen k))) (keys trs)
    = tracks' v c (map (fun k => (k, seen k)) (keys trs))) as ->.
  { unfold tracks', over. rewrite map_map. reflexivity. }
  apply (bothp v c d); [apply track_all'; assumption|]. intros trs1 e3 He3. apply keeps_track_all in He3.
  rewrite board_all' by (eapply clocked_keeps; eassumption). rewrite bind_rmap.
  apply same'. intros [fids1 e4] _. reflexivity.
Qed.

(** *** Construction *)
Definition inst' (q : nat * sensor * counters * ekf) : nat * sensor * counters * ekf :=
  let '(id, s, cn, e) := q in (id, sensor' v s, cn, F e).
Lemma install' : forall w q, install (world' v c d w) (inst' q) = world' v c d (install w q).
Proof.
  intros w [[[id s] cn] e]. unfold install, inst', world'. cbn [w_ekf w_cnt w_sensors]. rewrite over_set. reflexivity.
Qed.
Lemma add_fids' : forall ps cn e cam m,
  add_fiducials cn (F e) cam (map (fid_params' v) ps) (over U' m)
  = rmap (fun x => let '(m, cn, e) := x in (over U' m, cn, F e)) (add_fiducials cn e cam ps m).
Proof.
  induction ps as [|p ps IH]; intros cn e cam m; [reflexivity|].
  cbn [map add_fiducials].
  assert (fid_new cn (F e) cam (fid_params' v p)
    = rmap (fun x => let '(id, u, cn, e) := x in (id, U' u, cn, F e)) (fid_new cn e cam p)) as ->.
  { unfold fid_new. destruct (new_tracker_id cn) as [id cn1]. apply same'. intros _ _.
    change (fid_state_of (fid_params' v p)) with (board' v (fid_state_of p)).
    apply (both' v c d); [apply reg_fid'|]. intros e1 _. reflexivity. }
  rewrite bind_rmap. apply same'. intros [[[id u] cn1] e1] _. rewrite over_set. apply IH.
Qed.

Lemma wstep' : forall w x, clocked c (w_ekf w) -> free_event v c d w x ->
  wstep svd hull ecef_to_lla mat_quat solve (world' v c d w) (event' v c d x)
  = rmap (world' v c d) (wstep svd hull ecef_to_lla mat_quat solve w x).
Proof.
  intros w x Hk Hfree. destruct x as [p|p|p ts fs|m|id t image seen board|o]; cbn [event' wstep].
  - assert (imu_new (w_cnt (world' v c d w)) (w_ekf (world' v c d w)) p
      = rmap inst' (imu_new (w_cnt w) (w_ekf w) p)) as ->.
    { unfold imu_new. cbn [world' w_cnt w_ekf]. destruct (new_sensor_id (w_cnt w)) as [id cn]. apply same'. intros K _.
      apply (both' v c d); [apply reg_imu'|]. intros e1 _. reflexivity. }
    rewrite bind_rmap. apply same'. intros q _. rewrite install'. reflexivity.
  - assert (gps_new (w_cnt (world' v c d w)) (w_ekf (world' v c d w)) p
      = rmap inst' (gps_new (w_cnt w) (w_ekf w) p)) as ->.
    { unfold gps_new. cbn [world' w_cnt w_ekf]. destruct (new_sensor_id (w_cnt w)) as [id cn].
      apply (both' v c d); [apply reg_gps'|]. intros e1 _. reflexivity. }
    rewrite bind_rmap. apply same'. intros q _. rewrite install'. reflexivity.
  - assert (camera_new (w_cnt (world' v c d w)) (w_ekf (world' v c d w)) p ts (map (fid_params' v) fs)
      = rmap inst' (camera_new (w_cnt w) (w_ekf w) p ts fs)) as ->.
    { unfold camera_new, cam_new. cbn [world' w_cnt w_ekf]. destruct (new_sensor_id (w_cnt w)) as [id cn].
      rewrite reg_cam'. destruct (RegisterCamera (w_ekf w) id (cam_state_of p)
        (diag_of (MinBoundVector (cp_var p) (1 / 1000000)))) as [e1|]; [|reflexivity]. cbn [rmap bind].
      destruct (add_trackers cn id ts []) as [trs cn1].
      change (@nil (nat * fid_updater)) with (over U' []) at 1. rewrite add_fids', bind_rmap.
      apply same'. intros [[fids cn2] e2] _. reflexivity. }
    rewrite bind_rmap. apply same'. intros q _. rewrite install'. reflexivity.
  - unfold deliver. assert (msg_id (message' v c d m) = msg_id m) as -> by (destruct m; reflexivity).
    change (w_sensors (world' v c d w)) with (over (sensor' v) (w_sensors w)). rewrite over_find.
    destruct (mfind (msg_id m) (w_sensors w)) as [s|] eqn:Es; [|reflexivity]. cbn [option_map].
    destruct m as [id t acc A omg W|id t lla N|id t frame tracks boards|id t]; destruct s as [u|u|trs fids];
      cbn [message' sensor']; try reflexivity; cbn [free_event] in Hfree; cbn [msg_id] in Es.
    + change (w_ekf (world' v c d w)) with (F (w_ekf w)).
      apply (bothp v c d); [apply imu'; exact Hk|]. intros u1 e1 _. cbn [rmap]. f_equal.
      unfold world'. cbn [w_ekf w_cnt w_sensors]. rewrite <- over_set. reflexivity.
    + change (w_ekf (world' v c d w)) with (F (w_ekf w)). rename Hfree into Hv.
      apply (bothp v c d); [apply gps'; assumption|]. intros u1 e1 _. cbn [rmap]. f_equal.
      unfold world'. cbn [w_ekf w_cnt w_sensors]. rewrite <- over_set. reflexivity.
    + change (w_ekf (world' v c d w)) with (F (w_ekf w)). rename Hfree into Hs.
      rewrite callback'; [|exact Hk|apply (Hs trs fids); exact Es]. rewrite bind_rmap.
      apply same'. intros [[trs1 fids1] e1] _. cbn [rmap cam' fst snd]. f_equal.
      unfold world'. cbn [w_ekf w_cnt w_sensors]. rewrite <- over_set. reflexivity.
  - change (w_sensors (world' v c d w)) with (over (sensor' v) (w_sensors w)). rewrite over_find.
    destruct (mfind id (w_sensors w)) as [s|] eqn:Es; [|reflexivity]. cbn [option_map].
    destruct s as [u|u|trs fids]; cbn [sensor']; try reflexivity.
    cbn [free_event] in Hfree. rename Hfree into Hs.
    change (w_ekf (world' v c d w)) with (F (w_ekf w)). change (w_cnt (world' v c d w)) with (w_cnt w).
    rewrite image'; [|exact Hk|apply (Hs trs fids); exact Es]. rewrite bind_rmap.
    apply same'. intros [[[trs1 fids1] cn1] e1] _. cbn [rmap]. f_equal.
    unfold world'. cbn [w_ekf w_cnt w_sensors]. rewrite <- over_set. reflexivity.
  - change (w_ekf (world' v c d w)) with (F (w_ekf w)). apply (both' v c d); [apply step'; assumption|].
    intros e1 _. reflexivity.
Qed.


(** *** Once set, the clock stays set *)
Lemma reg_clock : forall e o e', match o with ORegImu _ _ _ | ORegGps _ _ _ | ORegCam _ _ _ | ORegFid _ _ => True | _ => False end ->
  step e o = OK e' -> ctl e e'.
Proof.
  intros e o e' Ho H. destruct o; try contradiction; clear Ho; cbn [step] in H.
  - unfold RegisterIMU in H. destruct (mfind id (s_imu (e_state e))); [injection H as <-; split; reflexivity|].
    cbv zeta in H. binv H. apply refresh_par in Hc. eapply ctl_trans; [|exact Hc].
    assert (Ha : ctl e a).
    { destruct (i_ext st || i_int st); [binv Hb; binv Hc0; injection Hc1 as <-; split; reflexivity|].
      injection Hb as <-. split; reflexivity. }
    destruct (i_ext st), (i_int st); exact Ha.
  - unfold RegisterGPS in H. destruct (mfind id (s_gps (e_state e))); [injection H as <-; split; reflexivity|].
    cbv zeta in H. binv H. apply refresh_par in Hc. eapply ctl_trans; [|exact Hc].
    destruct (g_ext st); [binv Hb; binv Hc0; injection Hc1 as <-; split; reflexivity|injection Hb as <-; split; reflexivity].
  - unfold RegisterCamera in H. destruct (mfind id (s_cam (e_state e))); [injection H as <-; split; reflexivity|].
    binv H. cbv zeta in Hc. binv Hc. apply refresh_par in Hc0. eapply ctl_trans; [|exact Hc0].
    destruct (Nat.eqb _ 0) in Hb0;
      (destruct (c_ext st); [binv Hb0; binv Hc; injection Hc1 as <-; split; reflexivity|injection Hb0 as <-; split; reflexivity]).
  - unfold RegisterFiducial in H. destruct (mfind (f_id st) (s_fid (e_state e))); [injection H as <-; split; reflexivity|].
    cbv zeta in H. binv H. apply refresh_par in Hc. eapply ctl_trans; [|exact Hc].
    destruct (f_ext st); [binv Hb; binv Hc0; injection Hc1 as <-; split; reflexivity|injection Hb as <-; split; reflexivity].
Qed.
Lemma ctl_clocked : forall e e', ctl e e' -> clocked c e -> clocked c e'.
Proof. intros e e' [_ H] K. unfold clocked in *. rewrite H. exact K. Qed.
Lemma step_clock : forall e o e', step e o = OK e' -> clocked c e -> clocked c e'.
Proof.
  intros e o e' H K. destruct o; try (revert K; apply ctl_clocked; eapply reg_clock; [|exact H]; exact I);
    cbn [step] in H.
  - revert K. apply ctl_clocked. eapply predict_par. exact H.
  - revert K. apply ctl_clocked. eapply frame_par. exact H.
  - revert K. apply ctl_clocked. apply augment_par. exact H.
  - revert K. apply ctl_clocked. apply refresh_par. exact H.
  - revert K. apply clocked_keeps. eapply keeps_kalman. exact H.
  - injection H as <-. exact K.
  - injection H as <-. exact K.
  - injection H as <-. exact K.
  - binv H. destruct a as [a e1]. injection Hc as <-. revert K. apply clocked_keeps. eapply keeps_get. exact Hb.
  - injection H as <-. left. reflexivity.
  - injection H as <-. exact K.
  - injection H as <-. exact K.
  - injection H as <-. exact K.
  - injection H as <-. exact K.
  - injection H as <-. exact K.
  - injection H as <-. exact K.
  - injection H as <-. revert K. apply clocked_keeps. apply keeps_local.
  - injection H as <-. unfold AttemptGpsInitialization. cbv zeta. destruct (Nat.leb 4 _); [|exact K].
    destruct (align _ _) as [[p a]|]; exact K.
Qed.
Lemma run' : forall l e, clocked c e -> all_free v c d e l -> run (F e) (map (op' v c d) l) = rmap F (run e l).
Proof.
  induction l as [|o l IH]; intros e Hk H; [reflexivity|]. destruct H as [Ho H].
  cbn [map run]. apply (both' v c d); [apply step'; assumption|]. intros e1 He.
  apply IH; [eapply step_clock; eassumption|apply H; exact He].
Qed.

Lemma zero_jac_keeps : forall u e j e', GetZeroAccelerationJacobian u e = OK (j, e') -> keeps e e'.
Proof.
  intros u e j e' H. unfold GetZeroAccelerationJacobian in H. destruct (GetImuState e (iu_id u)) as [s e1] eqn:E.
  cbv zeta in H. do 3 (apply bind_OK in H; destruct H as (? & _ & H)). injection H as _ <-. injection E as _ <-.
  apply keeps_same; try reflexivity. intros Hi; exact Hi.
Qed.
Lemma imu_clock : forall u e t acc A omg W u' e', imu_UpdateEKF u e t acc A omg W = OK (u', e') -> keeps e e'.
Proof.
  intros u e t acc A omg W u' e' H. unfold imu_UpdateEKF in H.
  pose proof (keeps_local e t) as K0. destruct (CalculateLocalTime e t) as [lt e0]. cbn [snd] in K0.
  apply bind_OK in H. destruct H as ([[app u1] e1] & Hz & H).
  assert (K1 : keeps e0 e1).
  { unfold ZeroAccelerationUpdate in Hz. destruct (iu_moved u); [injection Hz as _ _ <-; apply keeps_refl|].
    destruct (GetImuState e0 (iu_id u)) as [s e2] eqn:E. injection E as _ E.
    assert (K2 : keeps e0 e2) by (subst e2; apply keeps_same; try reflexivity; intros Hi; exact Hi).
    apply bind_OK in Hz. destruct Hz as ([j e3] & Hj & Hz). apply zero_jac_keeps in Hj.
    do 2 (apply bind_OK in Hz; destruct Hz as (? & _ & Hz)).
    assert (K3 : keeps e0 e3) by (eapply keeps_trans; eassumption).
    destruct (Rltb _ _ && e_gravity e3) in Hz; [injection Hz as _ _ <-; exact K3|]. cbv zeta in Hz.
    apply bind_OK in Hz. destruct Hz as (e4 & Hp & Hz). apply keeps_predict in Hp.
    apply bind_OK in Hz. destruct Hz as ([j2 e5] & Hj2 & Hz). apply zero_jac_keeps in Hj2.
    apply bind_OK in Hz. destruct Hz as (e6 & Hk & Hz). apply keeps_kalman in Hk. injection Hz as _ _ <-.
    eapply keeps_trans; [exact K3|]. eapply keeps_trans; [|eapply keeps_trans; [exact Hp|]].
    - destruct (Rltb _ _); [apply keeps_same; try reflexivity; intros Hi; exact Hi|apply keeps_refl].
    - eapply keeps_trans; [exact Hj2|]. eapply keeps_trans; [exact Hk|].
      apply keeps_same; try reflexivity. intros Hi; exact Hi. }
  assert (K01 : keeps e e1) by (eapply keeps_trans; eassumption).
  destruct app.
  { injection H as _ <-. eapply keeps_trans; [exact K01|]. apply keeps_same; try reflexivity. intros Hi; exact Hi. }
  cbv zeta in H. destruct (GetImuState (SetZeroAcceleration e1 false) (iu_id u1)) as [s e2] eqn:E. injection E as _ E.
  assert (K2 : keeps e1 e2) by (subst e2; apply keeps_same; try reflexivity; intros Hi; exact Hi).
  apply bind_OK in H. destruct H as (e3 & H3 & H). apply bind_OK in H. destruct H as (e4 & H4 & H).
  apply keeps_predict in H4. injection H as _ <-.
  eapply keeps_trans; [exact K01|]. eapply keeps_trans; [exact K2|]. eapply keeps_trans; [|exact H4].
  destruct (Nat.eqb (length (s_imu (e_state e2))) 1).
  - injection H3 as <-. apply keeps_same; try reflexivity. intros Hi; exact Hi.
  - destruct (imu_PredictMeasurement u1 e2) as [pred e5] eqn:E5. injection E5 as _ E5.
    apply bind_OK in H3. destruct H3 as (r & _ & H3). apply bind_OK in H3. destruct H3 as ([j e6] & Hj & H3).
    apply bind_OK in H3. destruct H3 as (n & _ & H3). apply keeps_kalman in H3.
    eapply keeps_trans; [|exact H3]. eapply keeps_trans with (b := e5).
    + subst e5. apply keeps_same; try reflexivity; intros Hi; exact Hi.
    + unfold imu_GetMeasurementJacobian in Hj. destruct (GetImuState e5 (iu_id u1)) as [s7 e7] eqn:E7. injection E7 as _ E7.
      cbv zeta in Hj. do 6 (apply bind_OK in Hj; destruct Hj as (? & _ & Hj)). injection Hj as _ <-. subst e7.
      apply keeps_same; try reflexivity; intros Hi; exact Hi.
Qed.
Lemma gps_jac_keeps : forall u e x e', gps_GetMeasurementJacobian u e = OK (x, e') -> keeps e e'.
Proof.
  intros u e x e' H. unfold gps_GetMeasurementJacobian in H.
  destruct (gps_refresh u e) as [u1 e1] eqn:E. cbv zeta in H. do 2 (apply bind_OK in H; destruct H as (? & _ & H)).
  assert (K1 : keeps e e1).
  { unfold gps_refresh in E. destruct (negb (p_fej (e_par e)) || gu_first u).
    - destruct (GetGpsState e (gu_id u)) as [s e2] eqn:E2. injection E as _ <-. injection E2 as _ <-.
      apply keeps_same; try reflexivity; intros Hi; exact Hi.
    - injection E as _ <-. apply keeps_refl. }
  destruct (gu_ext u1).
  - destruct (GetGpsState e1 (gu_id u1)) as [s e2] eqn:E2. apply bind_OK in H. destruct H as (? & _ & H).
    injection H as _ <-. injection E2 as _ <-. eapply keeps_trans; [exact K1|].
    apply keeps_same; try reflexivity; intros Hi; exact Hi.
  - injection H as _ <-. exact K1.
Qed.
Lemma multi_keeps : forall ecef xyz u e ref h i jac r x e',
  multi_rows u e ref h ecef xyz i jac r = OK (x, e') -> keeps e e'.
Proof.
  induction ecef as [|p ecef IH]; intros [|y xyz] u e ref h i jac r x e' H; cbn [multi_rows] in H; try discriminate;
    try (injection H as _ <-; apply keeps_refl).
  apply bind_OK in H. destruct H as (enu & _ & H). cbv zeta in H. apply bind_OK in H. destruct H as ([[j u1] e1] & Hj & H).
  do 2 (apply bind_OK in H; destruct H as (? & _ & H)). apply gps_jac_keeps in Hj.
  eapply keeps_trans; [exact Hj|eapply IH; exact H].
Qed.
Lemma gps_clock : forall u e t lla N u' e', gps_UpdateEKF svd hull ecef_to_lla u e t lla N = OK (u', e') -> keeps e e'.
Proof.
  intros u e t lla N u' e' H. unfold gps_UpdateEKF in H.
  pose proof (keeps_local e t) as K0. destruct (CalculateLocalTime e t) as [lt e0]. cbn [snd] in K0.
  apply bind_OK in H. destruct H as (e1 & Hp & H). apply keeps_predict in Hp. cbv zeta in H.
  assert (K1 : keeps e e1) by (eapply keeps_trans; eassumption).
  destruct (negb (e_lla_init e1)).
  - apply bind_OK in H. destruct H as (e2 & Ha & H).
    assert (K2 : keeps e1 e2).
    { unfold AttemptGps in Ha. do 2 (apply bind_OK in Ha; destruct Ha as (? & _ & Ha)). injection Ha as <-.
      unfold AttemptGpsInitialization. cbv zeta. destruct (Nat.leb 4 _);
        [|apply keeps_same; try reflexivity; intros Hi; exact Hi].
      match goal with |- keeps _ (match ?x with _ => _ end) => destruct x as [[p a]|] end;
        apply keeps_same; try reflexivity; intros Hi; exact Hi. }
    destruct (e_lla_init e2); [|injection H as _ <-; eapply keeps_trans; eassumption].
    unfold MultiUpdateEKF in H. cbv zeta in H. apply bind_OK in H. destruct H as ([[[jac r] u1] e3] & Hm & H).
    apply multi_keeps in Hm. apply bind_OK in H. destruct H as ([jac1 r1] & _ & H).
    assert (K3 : keeps e e3) by (eapply keeps_trans; [exact K1|]; eapply keeps_trans; eassumption).
    destruct (Nat.leb (nr r1) 1); [injection H as _ <-; exact K3|].
    apply bind_OK in H. destruct H as (e4 & Hk & H). injection H as _ <-. apply keeps_kalman in Hk.
    eapply keeps_trans; eassumption.
  - apply bind_OK in H. destruct H as (enu & _ & H).
    destruct (gps_PredictMeasurement u e1) as [[hat u1] e2] eqn:E.
    assert (K2 : keeps e1 e2).
    { unfold gps_PredictMeasurement, gps_refresh in E. destruct (negb (p_fej (e_par e1)) || gu_first u).
      - destruct (GetGpsState e1 (gu_id u)) as [s e3] eqn:E2. injection E as _ _ <-. injection E2 as _ <-.
        apply keeps_same; try reflexivity; intros Hi; exact Hi.
      - injection E as _ _ <-. apply keeps_refl. }
    apply bind_OK in H. destruct H as ([[jac u2] e3] & Hj & H). apply gps_jac_keeps in Hj.
    apply bind_OK in H. destruct H as (e4 & Hk & H). injection H as _ <-. apply keeps_kalman in Hk.
    eapply keeps_trans; [exact K1|]. eapply keeps_trans; [exact K2|]. eapply keeps_trans; eassumption.
Qed.
Lemma board_clock : forall l fids e t x, board_all mat_quat fids e t l = OK x -> clocked c e -> clocked c (snd x).
Proof.
  induction l as [|[k b] l IH]; intros fids e t x H K; cbn [board_all] in H.
  - injection H as <-. exact K.
  - destruct (mfind k fids) as [u|]; [|discriminate]. destruct b as [b|]; [|eapply IH; eassumption].
    apply bind_OK in H. destruct H as ([u1 e1] & He & H). eapply IH; [exact H|]. eapply clocked_fid; eassumption.
Qed.
Lemma camera_clock : forall trs fids e2 t tracks boards x,
  (let* (trs, e) := track_all solve trs e2 t tracks in
   let* (fids, e) := board_all mat_quat fids e t boards in OK (trs, fids, e)) = OK x -> clocked c e2 -> clocked c (snd x).
Proof.
  intros trs fids e2 t tracks boards x H K. apply bind_OK in H. destruct H as ([trs1 e3] & Ht & H).
  apply keeps_track_all in Ht. apply bind_OK in H. destruct H as ([fids1 e4] & Hb & H). injection H as <-.
  apply (board_clock _ _ _ _ _ Hb). eapply clocked_keeps; eassumption.
Qed.
Lemma add_fids_clock : forall ps cn e cam m x, add_fiducials cn e cam ps m = OK x -> ctl e (snd x).
Proof.
  induction ps as [|p ps IH]; intros cn e cam m x H; cbn [add_fiducials] in H.
  - injection H as <-. split; reflexivity.
  - apply bind_OK in H. destruct H as ([[[id u] cn1] e1] & Hf & H). apply IH in H. eapply ctl_trans; [|exact H].
    unfold fid_new in Hf. destruct (new_tracker_id cn) as [id2 cn2]. binv Hf. binv Hc. injection Hc0 as _ _ _ <-.
    apply (reg_clock e (ORegFid (fid_state_of p) (diag_of (fp_var p)))); [exact I|exact Hb0].
Qed.
Lemma wstep_clock : forall w x w', wstep svd hull ecef_to_lla mat_quat solve w x = OK w' ->
  clocked c (w_ekf w) -> clocked c (w_ekf w').
Proof.
  intros w x w' H K. destruct x as [p|p|p ts fs|m|id t image seen board|o]; cbn [wstep] in H.
  - apply bind_OK in H. destruct H as ([[[id s] cn] e] & Hn & H). injection H as <-. cbn [w_ekf].
    unfold imu_new in Hn. destruct (new_sensor_id (w_cnt w)) as [id2 cn2]. binv Hn. binv Hc. injection Hc0 as _ _ _ <-.
    revert K. apply ctl_clocked. apply (reg_clock _ (ORegImu id2 (imu_state_of p) a)); [exact I|exact Hb0].
  - apply bind_OK in H. destruct H as ([[[id s] cn] e] & Hn & H). injection H as <-. cbn [w_ekf].
    unfold gps_new in Hn. destruct (new_sensor_id (w_cnt w)) as [id2 cn2]. binv Hn. injection Hc as _ _ _ <-.
    revert K. apply ctl_clocked. apply (reg_clock _ (ORegGps id2 (gps_state_of p) (mdiag (v3mat (gp_var p))))); [exact I|exact Hb].
  - apply bind_OK in H. destruct H as ([[[id s] cn] e] & Hn & H). injection H as <-. cbn [w_ekf].
    unfold camera_new, cam_new in Hn. destruct (new_sensor_id (w_cnt w)) as [id2 cn2].
    apply bind_OK in Hn. destruct Hn as ([[id3 cn3] e3] & Hr & Hn). binv Hr. injection Hc as <- <- <-.
    destruct (add_trackers cn2 id2 ts []) as [trs cn4]. apply bind_OK in Hn. destruct Hn as ([[fids cn5] e5] & Hf & Hn).
    injection Hn as _ _ _ <-. apply add_fids_clock in Hf. cbn [snd] in Hf. revert K. apply ctl_clocked.
    eapply ctl_trans; [|exact Hf].
    apply (reg_clock _ (ORegCam id2 (cam_state_of p) (diag_of (MinBoundVector (cp_var p) (1 / 1000000))))); [exact I|exact Hb].
  - unfold deliver in H. destruct (mfind (msg_id m) (w_sensors w)) as [s|]; [|injection H as <-; exact K].
    destruct m as [id t acc A omg W|id t lla N|id t frame tracks boards|id t]; destruct s as [u|u|trs fids]; try discriminate;
      try (injection H as <-; exact K).
    + apply bind_OK in H. destruct H as ([u1 e1] & Hu & H). injection H as <-. cbn [w_ekf].
      revert K. apply clocked_keeps. eapply imu_clock. exact Hu.
    + apply bind_OK in H. destruct H as ([u1 e1] & Hu & H). injection H as <-. cbn [w_ekf].
      revert K. apply clocked_keeps. eapply gps_clock. exact Hu.
    + apply bind_OK in H. destruct H as ([[trs1 fids1] e1] & Hu & H). injection H as <-. cbn [w_ekf].
      unfold sim_camera_Callback in Hu. pose proof (camera_pre (w_ekf w) id t frame) as Hpre.
      destruct (CalculateLocalTime (w_ekf w) t) as [lt e0]. cbn [fst snd] in Hpre.
      apply bind_OK in Hu. destruct Hu as (e2 & H2 & Hu). apply bind_OK in Hu. destruct Hu as (e3 & H3 & Hu).
      apply (camera_clock _ _ _ _ _ _ _ Hu). apply Hpre; [exact K|]. rewrite H2. exact H3.
  - destruct (mfind id (w_sensors w)) as [s|]; [|injection H as <-; exact K]. destruct s as [u|u|trs fids]; try discriminate.
    apply bind_OK in H. destruct H as ([[[trs1 fids1] cn1] e1] & Hu & H). injection H as <-. cbn [w_ekf].
    unfold camera_Callback in Hu.
    destruct (image && negb (Nat.eqb (length trs + length fids) 0)); [|injection Hu as _ _ _ <-; exact K].
    pose proof (camera_pre (w_ekf w) id t (n_frames (w_cnt w))) as Hpre.
    destruct (CalculateLocalTime (w_ekf w) t) as [lt e0]. cbn [fst snd] in Hpre.
    apply bind_OK in Hu. destruct Hu as (e2 & H2 & Hu). unfold GenerateFrameID in Hu.
    apply bind_OK in Hu. destruct Hu as (e3 & H3 & Hu).
    apply bind_OK in Hu. destruct Hu as ([trs2 e4] & H4 & Hu). apply keeps_track_all in H4.
    apply bind_OK in Hu. destruct Hu as ([fids2 e5] & H5 & Hu). injection Hu as _ _ _ <-.
    apply (board_clock _ _ _ _ _ H5). eapply clocked_keeps; [exact H4|]. apply Hpre; [exact K|]. rewrite H2. exact H3.
  - apply bind_OK in H. destruct H as (e1 & He & H). injection H as <-. cbn [w_ekf]. eapply step_clock; eassumption.
Qed.

Lemma wrun' : forall l w, clocked c (w_ekf w) -> all_free_events v c d svd hull ecef_to_lla mat_quat solve w l ->
  wrun svd hull ecef_to_lla mat_quat solve (world' v c d w) (map (event' v c d) l)
  = rmap (world' v c d) (wrun svd hull ecef_to_lla mat_quat solve w l).
Proof.
  induction l as [|x l IH]; intros w Hk H; [reflexivity|]. destruct H as [Hx H].
  cbn [map wrun]. rewrite wstep' by assumption.
  destruct (wstep svd hull ecef_to_lla mat_quat solve w x) as [w1|] eqn:E; [|reflexivity].
  cbn [rmap bind]. apply IH; [eapply wstep_clock; eassumption|]. apply H. reflexivity.
Qed.
End Origin.
