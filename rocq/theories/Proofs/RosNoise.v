(** What a ROS node never sets: process noise, window length, initial pose. *)
From Coq Require Import Reals List Arith Bool Lia Lra ZArith String.
From Verif Require Import Base.Res Base.Mat Base.RDec Base.LinAlg Base.Geom Base.AMap Base.RMat
  Model.TypeHelper Model.Types Model.MathHelper Model.Ekf Model.Ops Model.Matrix3
  Model.ImuUpdater Model.GpsUpdater Model.FiducialUpdater Model.MsckfUpdater Model.Sensors Model.RosNode
  Spec.Layout Spec.Contract Spec.Same Spec.Noise Spec.Callback Spec.World Spec.Ros
  Proofs.Wf Proofs.Invariant Proofs.Named Proofs.Scalars Proofs.Noise Proofs.Follows Proofs.World Proofs.Ids Proofs.ZeroStep
  Proofs.StationaryFinals Proofs.RosLoad Proofs.RosFinals.
Import ListNotations.
Open Scope nat_scope.

Definition consts (e e' : ekf) : Prop := e_max_len e' = e_max_len e /\ e_bodyQ e' = e_bodyQ e.
Lemma consts_trans : forall a b c, consts a b -> consts b c -> consts a c.
Proof. unfold consts. intros a b c [A B] [C D]. split; congruence. Qed.

Lemma refresh_consts : forall e e', RefreshIndices e = OK e' -> consts e e'.
Proof. intros e e' H. apply refresh_bare in H. destruct H as [_ (Q & s & a & b & c & d & f & ->)]. split; reflexivity. Qed.

Lemma reg_imu_consts : forall e id st c e', RegisterIMU e id st c = OK e' -> consts e e'.
Proof.
  intros e id st c e' H. unfold RegisterIMU in H. destruct (mfind id (s_imu (e_state e))); [injection H as <-; split; reflexivity|].
  opn H. apply refresh_consts in H.
  assert (X : consts e x) by (destruct (i_ext st || i_int st); [opn B; opn B|]; injection B as <-; split; reflexivity).
  apply (consts_trans _ _ _ X). destruct (i_ext st), (i_int st); exact H.
Qed.
Lemma reg_gps_consts : forall e id st c e', RegisterGPS e id st c = OK e' -> consts e e'.
Proof.
  intros e id st c e' H. unfold RegisterGPS in H. destruct (mfind id (s_gps (e_state e))); [injection H as <-; split; reflexivity|].
  opn H. apply refresh_consts in H.
  assert (X : consts e x) by (destruct (g_ext st); [opn B; opn B|]; injection B as <-; split; reflexivity).
  apply (consts_trans _ _ _ X). exact H.
Qed.
Lemma reg_cam_consts : forall e id st c e', RegisterCamera e id st c = OK e' -> consts e e'.
Proof.
  intros e id st c e' H. unfold RegisterCamera in H. destruct (mfind id (s_cam (e_state e))); [injection H as <-; split; reflexivity|].
  opn H. opn H. apply refresh_consts in H.
  assert (X : consts e x0).
  { destruct (c_ext st); [opn B0; opn B0|]; injection B0 as <-; destruct (Nat.eqb _ 0); split; reflexivity. }
  apply (consts_trans _ _ _ X). exact H.
Qed.
Lemma reg_fid_consts : forall e st c e', RegisterFiducial e st c = OK e' -> consts e e'.
Proof.
  intros e st c e' H. unfold RegisterFiducial in H. destruct (mfind (f_id st) (s_fid (e_state e))); [injection H as <-; split; reflexivity|].
  opn H. apply refresh_consts in H.
  assert (X : consts e x) by (destruct (f_ext st); [opn B; opn B|]; injection B as <-; split; reflexivity).
  apply (consts_trans _ _ _ X). exact H.
Qed.
Lemma add_fids_kept : forall fs c e cam m m' c' e', add_fiducials c e cam fs m = OK (m', c', e') ->
  consts e e' /\ (refreshed e -> refreshed e').
Proof.
  induction fs as [|f fs IH]; intros c e cam m m' c' e' H; cbn [add_fiducials] in H; [injection H as <- <- <-; split; [split; reflexivity|auto]|].
  opn H. unfold fid_new in B. cbn [new_tracker_id] in B. opn B. opn B. injection B as <-. apply IH in H. destruct H as [H1 H2].
  split; [apply (consts_trans _ _ _ (reg_fid_consts _ _ _ _ B1)); exact H1|].
  intros R. apply H2. destruct (mfind (f_id (fid_state_of f)) (s_fid (e_state e))) eqn:F.
  - unfold RegisterFiducial in B1. rewrite F in B1. injection B1 as <-. exact R.
  - apply (reg_refreshed e (ORegFid (fid_state_of f) (diag_of (fp_var f)))); assumption.
Qed.

(** A constructor leaves the filter with the noise as configured. *)
Lemma new_kept : forall svd hull ecef mq solve w v w', winv w ->
  match v with ENewImu _ | ENewGps _ | ENewCam _ _ _ => True | _ => False end ->
  wstep svd hull ecef mq solve w v = OK w' -> consts (w_ekf w) (w_ekf w') /\ refreshed (w_ekf w').
Proof.
  intros svd hull ecef mq solve w v w' HW HV H. pose proof (within_new _ _ (wi_within _ HW)) as [N1 [N2 N3]].
  destruct v as [p|p|p ts fs|m|id t image seen board|o]; try contradiction; cbn [wstep] in H; opn H; injection H as <-.
  - unfold imu_new in B. cbn [new_sensor_id] in B. opn B. opn B. injection B as <-. cbn [install w_ekf].
    split; [eapply reg_imu_consts; eauto|]. apply (reg_refreshed (w_ekf w) (ORegImu _ _ _) x1 N1 B1).
  - unfold gps_new in B. cbn [new_sensor_id] in B. opn B. injection B as <-. cbn [install w_ekf].
    split; [eapply reg_gps_consts; eauto|]. apply (reg_refreshed (w_ekf w) (ORegGps _ _ _) x0 N2 B0).
  - unfold camera_new, cam_new in B. cbn [new_sensor_id] in B. opn B. opn B0. injection B0 as <-.
    destruct (add_trackers _ _ ts []) as [trs c1]. opn B. destruct x0 as [[m2 c2] e2]. injection B as <-. cbn [install w_ekf].
    destruct (add_fids_kept _ _ _ _ _ _ _ _ B0) as [K1 K2]. split; [apply (consts_trans _ _ _ (reg_cam_consts _ _ _ _ _ B1)); exact K1|].
    apply K2. apply (reg_refreshed (w_ekf w) (ORegCam _ _ _) x1 N3 B1).
Qed.

(** Callbacks. *)
Lemma callback_keeps : forall o, callback_op o -> keeps_noise o.
Proof. intros o H. destruct o; cbn in *; auto. Qed.
Lemma follows_kept : forall e e', reachable e -> follows e e' -> consts e e' /\ (configured e -> configured e').
Proof.
  intros e e' Hr [l [F [R E]]]. split.
  - clear - Hr F R E. revert e Hr R E. induction F as [|o l Fo F IH]; intros e Hr R E; cbn [run respects] in *; [injection E as <-; split; reflexivity|].
    destruct R as [C R]. destruct (step e o) as [e1|] eqn:S; cbn [bind] in E; [|discriminate].
    assert (X : consts e e1).
    { pose proof (step_frame' e o e1 (reachable_inv e Hr) C S) as Y.
      destruct o; cbn [callback_op] in Fo; try contradiction;
        try (unfold frame' in Y; cbn [with_time e_max_len e_bodyQ] in Y; split; apply Y);
        rewrite Y; try (split; reflexivity).
      - unfold CalculateLocalTime. destruct (e_time_init e); split; reflexivity.
      - unfold AttemptGpsInitialization. destruct (4 <=? _); [destruct (align _ _) as [[? ?]|]|]; split; reflexivity. }
    apply (consts_trans _ _ _ X). apply IH; auto. eapply reachable_step; eauto.
  - intros G. apply (configured_run l e e'); auto. rewrite Forall_forall in *. intros o O. apply callback_keeps. auto.
Qed.
Lemma msg_kept : forall svd hull ecef mq solve c w v w' root, winv w -> p_root (e_par (w_ekf w)) = root -> ros_event_ok root v ->
  wrun svd hull ecef mq solve w (node_event c v) = OK w' ->
  consts (w_ekf w) (w_ekf w') /\ (configured (w_ekf w) -> configured (w_ekf w')).
Proof.
  intros svd hull ecef mq solve c w v w' root HW HR O E. pose proof (node_event_ok c w v root HR O) as EO.
  assert (T : forall a, consts a a /\ (configured a -> configured a)) by (intros a; split; [split; reflexivity|auto]).
  destruct v as [k m|k s image seen board|k m junk]; cbn [node_event] in *; (destruct (Nat.ltb _ _); [|cbn [wrun] in E; injection E as <-; apply T]);
    specialize (EO _ (or_introl eq_refl)); cbn [wrun] in E; opn E; injection E as <-; cbn [wstep event_ok] in *.
  - destruct (deliver_sound svd hull ecef mq solve w _ x HW EO B) as [_ [G _]]. apply follows_kept; [apply HW|apply (w_follows _ _ G)].
  - destruct (mfind _ (w_sensors w)) as [s'|] eqn:F; [|injection B as <-; apply T]. destruct s' as [u|u|trs fids]; try discriminate B.
    destruct (camera_Callback mq solve (w_cnt w) trs fids (w_ekf w) _ _ image seen board) as [[[[a b] d] e']|] eqn:C; cbn [bind] in B; [|discriminate B].
    destruct (camera_sound mq solve _ _ _ _ _ _ _ _ _ _ _ _ _ (wi_reach _ HW) (wi_known _ HW _ _ F) EO C) as [G _].
    injection B as <-. apply follows_kept; [apply HW|apply (w_follows _ _ G)].
  - destruct (deliver_sound svd hull ecef mq solve w _ x HW EO B) as [_ [G _]]. apply follows_kept; [apply HW|apply (w_follows _ _ G)].
Qed.

Section Hist.
Variable svd : m2 -> m2 * m2.
Variable hull : list (Z * Z) -> list (Z * Z).
Variable ecef_to_lla : V3 -> V3.
Variable mat_quat : mat R -> quat.
Variable solve : mat R -> V3 -> V3.
Notation wstep' := (wstep svd hull ecef_to_lla mat_quat solve).
Notation wrun' := (wrun svd hull ecef_to_lla mat_quat solve).
Notation lived' := (lived svd hull ecef_to_lla mat_quat solve).

Definition news (v : event) : Prop := match v with ENewImu _ | ENewGps _ | ENewCam _ _ _ => True | _ => False end.
Lemma run_kept : forall (A : Type) (c : RosConfig) (Q : A -> event -> Prop),
  (forall x v w w', Q x v -> wstep' w v = OK w' -> fids_from (src c) (w_ekf w) -> event_ok w v /\ fids_from (src c) (w_ekf w')) ->
  (forall x v, Q x v -> news v) ->
  forall l vs w w', Forall2 Q l vs -> wrun' w vs = OK w' -> lived' w -> fids_from (src c) (w_ekf w) ->
  consts (w_ekf w) (w_ekf w') /\ (refreshed (w_ekf w) \/ l <> [] -> refreshed (w_ekf w')).
Proof.
  intros A c Q HQ HN l vs w w' F. revert w. induction F as [|x v l vs q F IH]; intros w H L FF; cbn [wrun] in H.
  - injection H as <-. split; [split; reflexivity|]. intros [R|R]; [exact R|congruence].
  - opn H. destruct (HQ _ _ _ _ q B FF) as [O1 O2].
    destruct (new_kept svd hull ecef_to_lla mat_quat solve w v x0 (proj1 (lived_winv _ _ _ _ _ _ L)) (HN _ _ q) B) as [K1 K2].
    destruct (IH x0 H (lived_step _ _ _ _ _ _ _ _ L O1 B) O2) as [I1 I2]. split; [apply (consts_trans _ _ _ K1); exact I1|].
    intros _. apply I2. left. exact K2.
Qed.

Lemma start_kept : forall asserts junk c n, config_ok c -> (forall i, 9 <= i < 18 -> (0 <= junk i)%R) ->
  ros_start asserts junk c = OK n -> e_max_len (nd_ekf n) = 20 /\ e_bodyQ (nd_ekf n) = LoadProcessNoise junk c /\
    (rc_imus c <> [] \/ rc_cams c <> [] \/ rc_gps c <> [] -> configured (nd_ekf n)).
Proof.
  intros asserts junk c n HC HJ H.
  destruct (start_inv svd hull ecef_to_lla mat_quat solve _ _ _ _ H) as (pe & li & lc & lg & w & Hp & F1 & F2 & F3 & E & R).
  rewrite (rl_ekf _ _ _ _ _ R). pose proof HC as (_ & _ & _ & _ & _ & _ & _ & CI & CC & _ & _).
  rewrite wrun_cat in E. opn E. rewrite wrun_cat in E. opn E.
  set (e0 := EKF_init _ _ _ _) in B.
  assert (L0 : lived' (world_init e0)) by (apply lived_init, noise_loaded; assumption).
  assert (G0 : fids_from (src c) (w_ekf (world_init e0))) by (intros k s K; discriminate K).
  set (Q1 := fun (x : string * RawImu) v => In x (rc_imus c) /\ exists p, GetImuParameters asserts (snd x) = OK p /\ v = ENewImu p).
  set (Q2 := fun (x : string * RawCam) v => In x (rc_cams c) /\ exists p ts fs, cam_of asserts c (snd x) p ts fs /\ v = ENewCam p ts fs).
  set (Q3 := fun (x : string * RawGps) v => exists p, GetGpsParameters asserts (snd x) = OK p /\ v = ENewGps p) in F3.
  assert (H1 : forall x v w w', Q1 x v -> wstep' w v = OK w' -> fids_from (src c) (w_ekf w) -> event_ok w v /\ fids_from (src c) (w_ekf w')).
  { intros y v u u' [Y [p [P1 ->]]]; apply (imu_live svd hull ecef_to_lla mat_quat solve c asserts (snd y)); auto. }
  assert (H2 : forall x v w w', Q2 x v -> wstep' w v = OK w' -> fids_from (src c) (w_ekf w) -> event_ok w v /\ fids_from (src c) (w_ekf w')).
  { intros y v u u' [Y [p [ts [fs [P1 ->]]]]]; apply (cam_live svd hull ecef_to_lla mat_quat solve c asserts (snd y)); auto. }
  assert (H3 : forall x v w w', Q3 x v -> wstep' w v = OK w' -> fids_from (src c) (w_ekf w) -> event_ok w v /\ fids_from (src c) (w_ekf w')).
  { intros y v u u' [p [P1 ->]]; apply (gps_live svd hull ecef_to_lla mat_quat solve c asserts (snd y)); auto. }
  assert (N1 : forall x v, Q1 x v -> news v) by (intros y v [_ [p [_ ->]]]; exact Logic.I).
  assert (N2 : forall x v, Q2 x v -> news v) by (intros y v [_ [p [ts [fs [_ ->]]]]]; exact Logic.I).
  assert (N3 : forall x v, Q3 x v -> news v) by (intros y v [p [_ ->]]; exact Logic.I).
  pose proof (forall2_in _ _ _ _ _ F1 : Forall2 Q1 _ _) as F1'. pose proof (forall2_in _ _ _ _ _ F2 : Forall2 Q2 _ _) as F2'.
  destruct (run_live svd hull ecef_to_lla mat_quat solve _ c Q1 H1 _ _ _ _ F1' B L0 G0) as [L1 [G1 _]].
  destruct (run_live svd hull ecef_to_lla mat_quat solve _ c Q2 H2 _ _ _ _ F2' B0 L1 G1) as [L2 [G2 _]].
  destruct (run_live svd hull ecef_to_lla mat_quat solve _ c Q3 H3 _ _ _ _ F3 E L2 G2) as [L3 [G3 _]].
  destruct (run_kept _ c Q1 H1 N1 _ _ _ _ F1' B L0 G0) as [K1 T1].
  destruct (run_kept _ c Q2 H2 N2 _ _ _ _ F2' B0 L1 G1) as [K2 T2].
  destruct (run_kept _ c Q3 H3 N3 _ _ _ _ F3 E L2 G2) as [K3 T3].
  destruct (consts_trans _ _ _ K1 (consts_trans _ _ _ K2 K3)) as [M1 M2].
  split; [rewrite M1; reflexivity|]. split; [rewrite M2; reflexivity|]. intros Z.
  pose proof (reachable_inv _ (wi_reach _ (proj1 (lived_winv _ _ _ _ _ _ L3)))) as I.
  apply tuned_configured; [apply I|]. apply refreshed_tuned; [apply I|].
  apply T3. destruct Z as [Z|[Z|Z]]; [left; apply T2; left; apply T1; right; exact Z|left; apply T2; right; exact Z|right; exact Z].
Qed.

(** The whole history. *)
Lemma ros_kept : forall asserts junk c n evs n', config_ok c -> (forall i, 9 <= i < 18 -> (0 <= junk i)%R) ->
  ros_start asserts junk c = OK n -> Forall (ros_event_ok (dflt true (rc_root c))) evs ->
  node_run svd hull ecef_to_lla mat_quat solve n evs = OK n' ->
  e_max_len (nd_ekf n') = 20 /\ e_bodyQ (nd_ekf n') = LoadProcessNoise junk c /\ p_root (e_par (nd_ekf n')) = dflt true (rc_root c) /\
  (rc_imus c <> [] \/ rc_cams c <> [] \/ rc_gps c <> [] -> configured (nd_ekf n')).
Proof.
  intros asserts junk c n evs n' HC HJ H O E. destruct (start_kept _ _ _ _ HC HJ H) as [S1 [S2 S3]].
  destruct (start_lived svd hull ecef_to_lla mat_quat solve _ _ _ _ HC HJ H) as [w [L [P1 [_ R]]]].
  set (ti := map (fun x : string * RawImu => dflt ""%string (rwi_topic (snd x))) (rc_imus c)) in *.
  set (tc := map (fun x : string * RawCam => dflt ""%string (rwc_topic (snd x))) (rc_cams c)) in *.
  set (tg := map (fun x : string * RawGps => dflt ""%string (rwg_topic (snd x))) (rc_gps c)) in *.
  assert (Li : List.length ti = List.length (rc_imus c)) by apply map_length.
  assert (Lc : List.length tc = List.length (rc_cams c)) by apply map_length.
  assert (Lg : List.length tg = List.length (rc_gps c)) by apply map_length.
  assert (X : consts (nd_ekf n) (nd_ekf n') /\ (configured (nd_ekf n) -> configured (nd_ekf n')) /\ p_root (e_par (nd_ekf n')) = dflt true (rc_root c)).
  { clear S1 S2 S3 H HJ. clearbody ti tc tg. revert n w L P1 R E. induction O as [|v evs O1 O IH]; intros n w L P1 R E; cbn [node_run] in E.
    - injection E as <-. split; [split; reflexivity|]. split; [auto|]. rewrite (rl_ekf _ _ _ _ _ R). exact P1.
    - opn E. pose proof (step_agree svd hull ecef_to_lla mat_quat solve c ti tc tg n w v R Li Lc Lg) as A. rewrite B in A. unfold agree in A.
      destruct (wrun' w (node_event c v)) as [w1|] eqn:W; [|contradiction].
      destruct (step_lived svd hull ecef_to_lla mat_quat solve c w v w1 _ P1 O1 L W) as [L1 PP].
      destruct (msg_kept _ _ _ _ _ _ _ _ _ _ (proj1 (lived_winv _ _ _ _ _ _ L)) P1 O1 W) as [K1 K2].
      rewrite <- (rl_ekf _ _ _ _ _ R), <- (rl_ekf _ _ _ _ _ A) in K1, K2.
      destruct (IH x w1 L1) as [I1 [I2 I3]]; auto; [congruence|].
      split; [apply (consts_trans _ _ _ K1); exact I1|]. auto. }
  destruct X as [[X1 X2] [X3 X4]]. split; [congruence|]. split; [congruence|]. auto.
Qed.
End Hist.

(** Entry by entry. *)
Lemma body_label : forall s i, i < 18 -> nth_error (layout s) i = Some (LBody i).
Proof.
  intros s i H. unfold layout. rewrite nth_error_app1 by (rewrite map_length, seq_length; exact H).
  rewrite (map_nth_error LBody i (seq 0 18) (d := i)); [reflexivity|].
  rewrite (nth_error_nth' (seq 0 18) 0) by (rewrite seq_length; exact H). rewrite seq_nth by exact H. reflexivity.
Qed.
Lemma ros_noise : forall svd hull ecef_to_lla mat_quat solve asserts junk c n evs n', config_ok c ->
  (forall i, 9 <= i < 18 -> (0 <= junk i)%R) -> rc_imus c <> [] \/ rc_cams c <> [] \/ rc_gps c <> [] ->
  ros_start asserts junk c = OK n -> Forall (ros_event_ok (dflt true (rc_root c))) evs ->
  node_run svd hull ecef_to_lla mat_quat solve n evs = OK n' ->
  forall i j, i < 18 -> j < 18 -> ent (e_Q (nd_ekf n')) i j =
    if Nat.eqb i j then (if dflt true (rc_root c) then sqrt (rate_of junk c i) else rate_of junk c i) else 0%R.
Proof.
  intros svd hull ecef mq solve asserts junk c n evs n' HC HJ HN H O E i j Hi Hj.
  destruct (ros_kept svd hull ecef mq solve _ _ _ _ _ _ HC HJ H O E) as [_ [K2 [K3 K4]]]. destruct (K4 HN) as [_ [_ K5]].
  rewrite (K5 i j (LBody i) (LBody j) (body_label _ i Hi) (body_label _ j Hj)). cbn [own_rate]. rewrite K2, K3.
  unfold LoadProcessNoise, rate_of. cbn [ent]. rewrite !get_dflt. reflexivity.
Qed.
