(** Which ROS configurations start, and what their histories are. *)
From Coq Require Import Reals List Arith Bool Lia Lra ZArith String.
From Verif Require Import Base.Res Base.Mat Base.RDec Base.LinAlg Base.Geom Base.AMap Base.RMat
  Model.TypeHelper Model.Types Model.MathHelper Model.Ekf Model.Ops Model.Matrix3
  Model.ImuUpdater Model.GpsUpdater Model.FiducialUpdater Model.MsckfUpdater Model.Sensors Model.RosNode
  Spec.Layout Spec.Contract Spec.Same Spec.Callback Spec.World Spec.Ros Proofs.Follows Proofs.World Proofs.Ids Proofs.ZeroStep
  Proofs.StationaryFinals Proofs.RosLoad.
Import ListNotations.
Open Scope nat_scope.

(** *** What registrations leave alone, whatever their arguments *)
Lemma with_parts : forall a b, bare a = bare b -> on_map bare_cam (s_cam a) = on_map bare_cam (s_cam b) /\
  on_map bare_fid (s_fid a) = on_map bare_fid (s_fid b).
Proof. intros a b H. unfold bare in H. split; [apply (f_equal s_cam) in H|apply (f_equal s_fid) in H]; exact H. Qed.

Lemma reg_imu_parts : forall e id st c e', RegisterIMU e id st c = OK e' ->
  on_map bare_cam (s_cam (e_state e')) = on_map bare_cam (s_cam (e_state e)) /\
  on_map bare_fid (s_fid (e_state e')) = on_map bare_fid (s_fid (e_state e)).
Proof.
  intros e id st c e' H. unfold RegisterIMU in H. destruct (mfind id (s_imu (e_state e))); [injection H as <-; auto|].
  opn H. apply refresh_bare in H. destruct H as [H _]. apply with_parts in H.
  assert (X : e_state x = state_with_imu (e_state e) (mset id st (s_imu (e_state e)))).
  { destruct (i_ext st || i_int st); [opn B; opn B|]; injection B as <-; reflexivity. }
  destruct (i_ext st), (i_int st); cbn [with_imu_sizes e_state] in H; rewrite X in H; exact H.
Qed.
Lemma reg_gps_parts : forall e id st c e', RegisterGPS e id st c = OK e' ->
  on_map bare_cam (s_cam (e_state e')) = on_map bare_cam (s_cam (e_state e)) /\
  on_map bare_fid (s_fid (e_state e')) = on_map bare_fid (s_fid (e_state e)).
Proof.
  intros e id st c e' H. unfold RegisterGPS in H. destruct (mfind id (s_gps (e_state e))); [injection H as <-; auto|].
  opn H. apply refresh_bare in H. destruct H as [H _]. apply with_parts in H.
  assert (X : e_state x = state_with_gps (e_state e) (mset id st (s_gps (e_state e)))).
  { destruct (g_ext st); [opn B; opn B|]; injection B as <-; reflexivity. }
  rewrite X in H. exact H.
Qed.
Lemma reg_cam_parts : forall e id st c e', RegisterCamera e id st c = OK e' ->
  (mfind id (s_cam (e_state e)) = None ->
   on_map bare_cam (s_cam (e_state e')) = on_map bare_cam (mset id st (s_cam (e_state e))) /\
   (c_ext st = true -> c_size st <= nr c)) /\
  on_map bare_fid (s_fid (e_state e')) = on_map bare_fid (s_fid (e_state e)).
Proof.
  intros e id st c e' H. unfold RegisterCamera in H.
  destruct (mfind id (s_cam (e_state e))); [injection H as <-; split; [discriminate|reflexivity]|].
  opn H. opn H. apply refresh_bare in H. destruct H as [H _]. apply with_parts in H.
  assert (X : e_state x0 = state_with_cam (e_state e) (mset id st (s_cam (e_state e))) /\ (c_ext st = true -> c_size st <= nr c)).
  { destruct (c_ext st); [opn B0; opn B0; injection B0 as <-|injection B0 as <-].
    - split; [destruct (Nat.eqb _ 0); reflexivity|]. intros _. unfold block in B1. destruct (_ && _) eqn:Z; [|discriminate].
      apply andb_true_iff in Z. destruct Z as [Z _]. apply Nat.leb_le in Z. exact Z.
    - split; [destruct (Nat.eqb _ 0); reflexivity|discriminate]. }
  destruct X as [X Y]. rewrite X in H. cbn [state_with_cam s_cam s_fid] in H. destruct H. auto.
Qed.
Lemma reg_fid_parts : forall e st c e', RegisterFiducial e st c = OK e' ->
  on_map bare_cam (s_cam (e_state e')) = on_map bare_cam (s_cam (e_state e)) /\
  (on_map bare_fid (s_fid (e_state e')) = on_map bare_fid (s_fid (e_state e)) \/
   on_map bare_fid (s_fid (e_state e')) = on_map bare_fid (mset (f_id st) st (s_fid (e_state e)))).
Proof.
  intros e st c e' H. unfold RegisterFiducial in H. destruct (mfind (f_id st) (s_fid (e_state e))); [injection H as <-; auto|].
  opn H. apply refresh_bare in H. destruct H as [H _]. apply with_parts in H.
  assert (X : e_state x = state_with_fid (e_state e) (mset (f_id st) st (s_fid (e_state e)))).
  { destruct (f_ext st); [opn B; opn B|]; injection B as <-; reflexivity. }
  rewrite X in H. cbn [state_with_fid s_cam s_fid] in H. destruct H. auto.
Qed.
Lemma on_map_keys : forall A (f : A -> A) m m', on_map f m = on_map f m' -> keys m = keys m'.
Proof.
  intros A f m m' H. apply (f_equal (map fst)) in H. unfold on_map in H. rewrite !map_map in H. cbn in H. exact H.
Qed.

(** Boards known to the filter. *)
Definition fids_from (P : nat -> bool -> Prop) (e : ekf) : Prop :=
  forall k s, mfind k (s_fid (e_state e)) = Some s -> P k (f_ext s).
Lemma fids_same : forall P m m', on_map bare_fid m' = on_map bare_fid m ->
  (forall k s, mfind k m = Some s -> P k (f_ext s)) -> forall k s, mfind k m' = Some s -> P k (f_ext s).
Proof.
  intros P m m' H F k s K. pose proof (mfind_bare _ _ k _ _ H) as B. rewrite K in B.
  destruct (mfind k m) as [s'|] eqn:E; [|discriminate B]. cbn [option_map] in B. injection B as B1 B2 B3 B4 B5 B6 B7.
  rewrite B7. apply F. exact E.
Qed.

(** Ids of cameras known to the filter. *)
Definition cams_within (n : nat) (e : ekf) : Prop := forall k, In k (keys (s_cam (e_state e))) -> k <= n.

Section Loading.
Variable P : nat -> bool -> Prop.
Lemma imu_new_parts : forall c e p id s c' e', imu_new c e p = OK (id, s, c', e') ->
  n_sensors c' = S (n_sensors c) /\ (cams_within (n_sensors c) e -> cams_within (n_sensors c') e') /\ (fids_from P e -> fids_from P e').
Proof.
  intros c e p id s c' e' H. unfold imu_new in H. cbn [new_sensor_id] in H. opn H. opn H. injection H as <- <- <- <-.
  apply reg_imu_parts in B0. destruct B0 as [A1 A2]. cbn [n_sensors]. split; [reflexivity|]. split; intros F.
  - intros k K. rewrite (on_map_keys _ _ _ _ A1) in K. apply F in K. lia.
  - intros k q. apply (fids_same P _ _ A2 F).
Qed.
Lemma gps_new_parts : forall c e p id s c' e', gps_new c e p = OK (id, s, c', e') ->
  n_sensors c' = S (n_sensors c) /\ (cams_within (n_sensors c) e -> cams_within (n_sensors c') e') /\ (fids_from P e -> fids_from P e').
Proof.
  intros c e p id s c' e' H. unfold gps_new in H. cbn [new_sensor_id] in H. opn H. injection H as <- <- <- <-.
  apply reg_gps_parts in B. destruct B as [A1 A2]. cbn [n_sensors]. split; [reflexivity|]. split; intros F.
  - intros k K. rewrite (on_map_keys _ _ _ _ A1) in K. apply F in K. lia.
  - intros k q. apply (fids_same P _ _ A2 F).
Qed.
Lemma add_fids_parts : forall fs c e cam m m' c' e', add_fiducials c e cam fs m = OK (m', c', e') ->
  keys (s_cam (e_state e')) = keys (s_cam (e_state e)) /\ n_sensors c' = n_sensors c /\
  Forall (fun f => 6 <= List.length (fp_var f)) fs /\
  (fids_from P e -> Forall (fun f => P (fp_id f) (fp_ext f)) fs -> fids_from P e').
Proof.
  induction fs as [|f fs IH]; intros c e cam m m' c' e' H; cbn [add_fiducials] in H; [injection H as <- <- <-; auto|].
  opn H. unfold fid_new in B. cbn [new_tracker_id] in B. opn B. opn B. injection B as <-. apply guard_inv in B0. apply Nat.leb_le in B0.
  apply IH in H. destruct H as [H1 [H2 [H3 H4]]]. apply reg_fid_parts in B1. destruct B1 as [A1 A2].
  split; [rewrite H1; exact (on_map_keys _ _ _ _ A1)|]. split; [exact H2|]. split; [constructor; assumption|].
  intros F G. inversion G as [|? ? G1 G2]; subst. apply H4; [|exact G2]. intros k s. destruct A2 as [A2|A2].
  - apply (fids_same P _ _ A2 F).
  - revert k s. apply (fids_same P _ _ A2). intros k s K. destruct (Nat.eq_dec k (fp_id f)) as [->|D].
    + change (f_id (fid_state_of f)) with (fp_id f) in K. rewrite mfind_mset_eq in K. injection K as <-. exact G1.
    + change (f_id (fid_state_of f)) with (fp_id f) in K. rewrite mfind_mset_neq in K by exact D. apply F. exact K.
Qed.
Lemma camera_new_parts : forall c e p ts fs id s c' e', camera_new c e p ts fs = OK (id, s, c', e') ->
  n_sensors c' = S (n_sensors c) /\ Forall (fun f => 6 <= List.length (fp_var f)) fs /\
  (cams_within (n_sensors c) e -> cams_within (n_sensors c') e' /\ (cp_ext p = true -> 6 <= List.length (cp_var p))) /\
  (fids_from P e -> Forall (fun f => P (fp_id f) (fp_ext f)) fs -> fids_from P e').
Proof.
  intros c e p ts fs id s c' e' H. pose proof (camera_new_ids _ _ _ _ _ _ _ _ _ H) as [_ [N _]]. split; [exact N|].
  unfold camera_new, cam_new in H. cbn [new_sensor_id] in H. opn H. opn B. injection B as <-.
  destruct (add_trackers _ _ ts []) as [trs c1]. opn H. destruct x as [[m2 c2] e2]. injection H as <- <- <- <-.
  apply reg_cam_parts in B0. destruct B0 as [A1 A2]. apply add_fids_parts in B. destruct B as [D1 [D2 [D3 D4]]].
  split; [exact D3|]. split; intros F.
  - assert (X : mfind (S (n_sensors c)) (s_cam (e_state e)) = None) by (apply mfind_none; intros K; apply F in K; lia).
    destruct (A1 X) as [A3 A4]. split.
    + intros k K. rewrite D1, (on_map_keys _ _ _ _ A3) in K. rewrite N. apply mset_keys_in in K. destruct K as [->|K]; [lia|]. apply F in K. lia.
    + intros Z. unfold cam_state_of, cam_SetIsExtrinsic, diag_of in A4. rewrite Z in A4. cbn [c_ext c_size nr] in A4. unfold MinBoundVector in A4. rewrite map_length in A4.
      apply A4. reflexivity.
  - apply D4. intros k s. apply (fids_same P _ _ A2 F).
Qed.
End Loading.

(** *** The assertion in [StdToEigVec] *)
Lemma cov_of_len : forall p cov, imu_cov_of p = OK cov -> List.length (ip_var p) = 3 -> ip_ext p = false /\ ip_int p = false.
Proof.
  intros p cov H L. unfold imu_cov_of, head_segment in H.
  assert (X : List.length (MinBoundVector (ip_var p) (1 / 1000000)) = 3) by (unfold MinBoundVector; rewrite map_length; exact L).
  rewrite X in H. destruct (ip_ext p), (ip_int p); cbn in H; try discriminate. auto.
Qed.
Section Wr.
Variable svd : m2 -> m2 * m2.
Variable hull : list (Z * Z) -> list (Z * Z).
Variable ecef_to_lla : V3 -> V3.
Variable mat_quat : mat R -> quat.
Variable solve : mat R -> V3 -> V3.
Notation wstep' := (wstep svd hull ecef_to_lla mat_quat solve).
Notation wrun' := (wrun svd hull ecef_to_lla mat_quat solve).
Notation events_ok' := (events_ok svd hull ecef_to_lla mat_quat solve).

Lemma assert_imus : forall l vs w w',
  Forall2 (fun x v => exists p, GetImuParameters true (snd x) = OK p /\ v = ENewImu p) l vs -> wrun' w vs = OK w' ->
  cams_within (n_sensors (w_cnt w)) (w_ekf w) ->
  cams_within (n_sensors (w_cnt w')) (w_ekf w') /\ forall x : string * RawImu, In x l ->
    List.length (dflt (repeat 1%R 12) (rwi_var (snd x))) = 3 /\ dflt false (rwi_ext (snd x)) = false /\ dflt false (rwi_int (snd x)) = false.
Proof.
  intros l vs w w' F. revert w. induction F as [|x v l vs [p [E ->]] F IH]; intros w H W; cbn [wrun] in H.
  - injection H as <-. split; [exact W|intros x []].
  - opn H. cbn [wstep] in B. opn B. injection B as <-. destruct x1 as [[[id s] c] e].
    destruct (imu_new_parts (fun _ _ => True) _ _ _ _ _ _ _ B0) as [N [K _]]. destruct (IH _ H (K W)) as [I1 I2]. split; [exact I1|].
    intros y [<-|Y]; [|exact (I2 y Y)].
    pose proof (imu_params_inv _ _ _ E) as (C1 & C2 & _ & _ & _ & _ & _ & _ & _ & _ & C3).
    assert (L : List.length (ip_var p) = 3).
    { unfold GetImuParameters in E. opn E. pose proof (vecx_inv _ _ _ B) as [-> Z]. rewrite C3, <- (get_dflt _ _ (repeat 1%R 12)). apply Z. reflexivity. }
    unfold imu_new in B0. cbn [new_sensor_id] in B0. opn B0. destruct (cov_of_len _ _ B L). rewrite <- C1, <- C2, <- C3. auto.
Qed.
Lemma assert_cams : forall c l vs w w',
  Forall2 (fun x v => exists p ts fs, cam_of true c (snd x) p ts fs /\ v = ENewCam p ts fs) l vs -> wrun' w vs = OK w' ->
  cams_within (n_sensors (w_cnt w)) (w_ekf w) ->
  forall x : string * RawCam, In x l ->
    List.length (dflt (repeat 1%R 6) (rwc_var (snd x))) = 3 /\ dflt false (rwc_ext (snd x)) = false /\
    dflt ""%string (rwc_fiducial (snd x)) = ""%string.
Proof.
  intros c l vs w w' F. revert w. induction F as [|x v l vs [p [ts [fs [[E [_ Ef]] ->]]]] F IH]; intros w H W; cbn [wrun] in H.
  - intros x [].
  - opn H. cbn [wstep] in B. opn B. injection B as <-. destruct x1 as [[[id s] cn] e].
    destruct (camera_new_parts (fun _ _ => True) _ _ _ _ _ _ _ _ _ B0) as [N [V [K _]]]. destruct (K W) as [K1 K2]. specialize (IH _ H K1).
    intros y [<-|Y]; [|exact (IH y Y)].
    pose proof (cam_params_inv _ _ _ E) as (C1 & _ & _ & _ & _ & _ & _ & C3).
    assert (L : List.length (cp_var p) = 3).
    { unfold GetCameraParameters in E. opn E. opn E. pose proof (vecx_inv _ _ _ B1) as [-> Z]. rewrite C3, <- (get_dflt _ _ (repeat 1%R 6)). apply Z. reflexivity. }
    rewrite <- C1, <- C3. split; [exact L|]. split.
    + destruct (cp_ext p); [|reflexivity]. specialize (K2 eq_refl). lia.
    + destruct Ef as [[Ef _]|[_ [f [z [_ [Ef ->]]]]]]; [exact Ef|]. exfalso. inversion V as [|? ? V1 _]; subst.
      unfold GetFiducialParameters in Ef. opn Ef. opn Ef. injection Ef as <-. cbn [fp_var] in V1.
      pose proof (vecx_inv _ _ _ B1) as [-> Z]. specialize (Z eq_refl). lia.
Qed.
End Wr.

Lemma ros_asserts : forall junk c n, ros_start true junk c = OK n ->
  (forall x, In x (rc_imus c) -> List.length (dflt (repeat 1%R 12) (rwi_var (snd x))) = 3 /\
     dflt false (rwi_ext (snd x)) = false /\ dflt false (rwi_int (snd x)) = false) /\
  (forall x, In x (rc_cams c) -> List.length (dflt (repeat 1%R 6) (rwc_var (snd x))) = 3 /\
     dflt false (rwc_ext (snd x)) = false /\ dflt ""%string (rwc_fiducial (snd x)) = ""%string).
Proof.
  intros junk c n H. set (svd := fun m : m2 => (m, m)). set (hull := fun l : list (Z * Z) => l). set (id3 := fun v : V3 => v).
  set (mq := fun _ : mat R => qid). set (so := fun (_ : mat R) (v : V3) => v).
  destruct (start_inv svd hull id3 mq so _ _ _ _ H) as (pe & li & lc & lg & w & Hp & F1 & F2 & F3 & E & R).
  rewrite wrun_cat in E. opn E. rewrite wrun_cat in E. opn E.
  destruct (assert_imus svd hull id3 mq so _ _ _ _ F1 B) as [W1 A1]; [intros k []|]. split; [exact A1|].
  exact (assert_cams svd hull id3 mq so _ _ _ _ _ F2 B0 W1).
Qed.

(** *** Acceptable configurations *)
Definition src (c : RosConfig) (k : nat) (b : bool) : Prop :=
  exists x, In x (rc_fids c) /\ dflt 0 (rwf_id (snd x)) = k /\ dflt false (rwf_ext (snd x)) = b.

Lemma raw_imu_params : forall asserts r p, raw_imu_ok r -> GetImuParameters asserts r = OK p -> imu_params_ok p.
Proof.
  intros asserts r p (_ & _ & _ & _ & O1 & O2 & O3 & O4 & O5) E.
  destruct (imu_params_inv _ _ _ E) as (C1 & C2 & _ & _ & _ & _ & C3 & C4 & C5 & C6 & C7). unfold nonneg in *.
  unfold imu_params_ok. rewrite C1, C2, C3, C4, C5, C6, C7. auto.
Qed.
Lemma gps_params_any : forall asserts r p, GetGpsParameters asserts r = OK p -> gps_params_ok p.
Proof. intros asserts r p E. destruct (gps_params_inv _ _ _ E) as (_ & _ & _ & Z). unfold gps_params_ok. rewrite Z. discriminate. Qed.
Lemma raw_cam_event : forall asserts c r p ts fs w, config_ok c -> raw_cam_ok c r -> cam_of asserts c r p ts fs ->
  fids_from (src c) (w_ekf w) -> event_ok w (ENewCam p ts fs) /\ Forall (fun f => src c (fp_id f) (fp_ext f)) fs.
Proof.
  intros asserts c r p ts fs w HC (_ & _ & O1 & O2 & O3 & O4 & _ & _) [E [Et Ef]] F. cbn [event_ok].
  destruct (cam_params_inv _ _ _ E) as (C1 & C2 & _ & _ & C3 & C4 & _ & C5).
  destruct HC as (_ & _ & _ & _ & _ & _ & _ & _ & _ & HF & _ & HA & _).
  split; [split; [|split]|].
  - unfold cam_params_ok. rewrite C1, C2, C3, C4, C5. split; [exact O3|]. intros Z. split; [exact O1|]. split; [exact O2|exact (O4 Z)].
  - destruct Et as [[_ ->]|[_ [t [_ ->]]]]; [constructor|]. constructor; [|constructor]. intros Z. discriminate Z.
  - destruct Ef as [[_ ->]|[_ [f [y [I [G ->]]]]]]; [constructor|]. constructor; [|constructor].
    destruct (fid_params_inv _ _ _ G) as (D1 & D2 & _ & _ & D3 & D4). destruct (HF _ I) as (_ & D5 & D6). cbn [snd] in *.
    unfold fid_params_ok. rewrite D3. split; [exact D5|]. split; [exact D6|]. split; [rewrite D4; intros Z; discriminate Z|]. split.
    + intros s K. destruct (F _ _ K) as [x [X1 [X2 X3]]]. rewrite <- X3, D2. apply HA with (y := (dflt ""%string (rwc_fiducial r), f)); auto.
      rewrite X2, D1. reflexivity.
    + intros q [<-|[]] _. reflexivity.
  - destruct Ef as [[_ ->]|[_ [f [y [I [G ->]]]]]]; constructor; [|constructor].
    destruct (fid_params_inv _ _ _ G) as (D1 & D2 & _). exists (dflt ""%string (rwc_fiducial r), f). cbn [snd]. auto.
Qed.

Lemma noise_loaded : forall junk c, config_ok c -> (forall i, 9 <= i < 18 -> (0 <= junk i)%R) -> noise_arg (LoadProcessNoise junk c).
Proof.
  intros junk c HC HJ. destruct HC as (_ & _ & _ & _ & _ & _ & _ & _ & _ & _ & _ & _ & N1 & N2 & N3). unfold nonneg in *.
  split; [reflexivity|]. intros i K. unfold LoadProcessNoise. cbn [ent]. rewrite !get_dflt.
  destruct (Nat.ltb_spec i 3); [exact N1|]. destruct (Nat.ltb_spec i 6); [exact N2|]. destruct (Nat.ltb_spec i 9); [exact N3|]. apply HJ. lia.
Qed.

Section Wl.
Variable svd : m2 -> m2 * m2.
Variable hull : list (Z * Z) -> list (Z * Z).
Variable ecef_to_lla : V3 -> V3.
Variable mat_quat : mat R -> quat.
Variable solve : mat R -> V3 -> V3.
Notation wstep' := (wstep svd hull ecef_to_lla mat_quat solve).
Notation wrun' := (wrun svd hull ecef_to_lla mat_quat solve).
Notation events_ok' := (events_ok svd hull ecef_to_lla mat_quat solve).
Notation lived' := (lived svd hull ecef_to_lla mat_quat solve).
Notation nstep' := (node_step svd hull ecef_to_lla mat_quat solve).
Notation nrun' := (node_run svd hull ecef_to_lla mat_quat solve).

(** One constructor. *)
Lemma imu_live : forall c asserts r p w w', raw_imu_ok r -> GetImuParameters asserts r = OK p -> wstep' w (ENewImu p) = OK w' ->
  fids_from (src c) (w_ekf w) -> event_ok w (ENewImu p) /\ fids_from (src c) (w_ekf w').
Proof.
  intros c asserts r p w w' O E H F. split; [eapply raw_imu_params; eauto|]. cbn [wstep] in H. opn H. injection H as <-.
  destruct x as [[[id s] cn] e]. apply (imu_new_parts (src c) _ _ _ _ _ _ _ B). exact F.
Qed.
Lemma gps_live : forall c asserts r p w w', GetGpsParameters asserts r = OK p -> wstep' w (ENewGps p) = OK w' ->
  fids_from (src c) (w_ekf w) -> event_ok w (ENewGps p) /\ fids_from (src c) (w_ekf w').
Proof.
  intros c asserts r p w w' E H F. split; [eapply gps_params_any; eauto|]. cbn [wstep] in H. opn H. injection H as <-.
  destruct x as [[[id s] cn] e]. apply (gps_new_parts (src c) _ _ _ _ _ _ _ B). exact F.
Qed.
Lemma cam_live : forall c asserts r p ts fs w w', config_ok c -> raw_cam_ok c r -> cam_of asserts c r p ts fs ->
  wstep' w (ENewCam p ts fs) = OK w' -> fids_from (src c) (w_ekf w) ->
  event_ok w (ENewCam p ts fs) /\ fids_from (src c) (w_ekf w').
Proof.
  intros c asserts r p ts fs w w' HC O E H F. destruct (raw_cam_event _ _ _ _ _ _ w HC O E F) as [A1 A2]. split; [exact A1|].
  cbn [wstep] in H. opn H. injection H as <-. destruct x as [[[id s] cn] e].
  apply (proj2 (proj2 (proj2 (camera_new_parts (src c) _ _ _ _ _ _ _ _ _ B)))); assumption.
Qed.

(** Lists of constructors. *)
Lemma run_live : forall (A : Type) (c : RosConfig) (Q : A -> event -> Prop),
  (forall x v w w', Q x v -> wstep' w v = OK w' -> fids_from (src c) (w_ekf w) -> event_ok w v /\ fids_from (src c) (w_ekf w')) ->
  forall l vs w w', Forall2 Q l vs -> wrun' w vs = OK w' -> lived' w -> fids_from (src c) (w_ekf w) ->
  lived' w' /\ fids_from (src c) (w_ekf w') /\ e_par (w_ekf w') = e_par (w_ekf w).
Proof.
  intros A c Q HQ l vs w w' F. revert w. induction F as [|x v l vs q F IH]; intros w H L FF; cbn [wrun] in H.
  - injection H as <-. auto.
  - opn H. destruct (HQ _ _ _ _ q B FF) as [O1 O2].
    pose proof (wstep_par svd hull ecef_to_lla mat_quat solve w v x0 (proj1 (lived_winv _ _ _ _ _ _ L)) O1 B) as PP.
    destruct (IH x0 H (lived_step _ _ _ _ _ _ _ _ L O1 B) O2) as [I1 [I2 I3]]. split; [exact I1|]. split; [exact I2|]. congruence.
Qed.
Lemma lived_init : forall p q pe a, noise_arg q -> lived' (world_init (EKF_init p q pe a)).
Proof. intros p q pe a H. exists p, q, pe, a, []. split; [exact H|]. split; [exact Logic.I|reflexivity]. Qed.
Lemma f2_mono : forall A B (Q Q' : A -> B -> Prop) l l', Forall2 Q l l' -> (forall x y, Q x y -> Q' x y) -> Forall2 Q' l l'.
Proof. intros A B Q Q' l l' F H. induction F; constructor; auto. Qed.
Lemma forall2_in : forall A B (Q : A -> B -> Prop) l l', Forall2 Q l l' -> Forall2 (fun x y => In x l /\ Q x y) l l'.
Proof.
  intros A B Q l l' F. induction F as [|x y l l' q F IH]; constructor.
  - split; [left; reflexivity|exact q].
  - apply (f2_mono _ _ _ _ _ _ IH). intros a b [H1 H2]. split; [right; exact H1|exact H2].
Qed.

Lemma start_lived : forall asserts junk c n, config_ok c -> (forall i, 9 <= i < 18 -> (0 <= junk i)%R) ->
  ros_start asserts junk c = OK n -> exists w, lived' w /\ p_root (e_par (w_ekf w)) = dflt true (rc_root c) /\
    p_imu_scale (e_par (w_ekf w)) = dflt 100%R (rc_imu_scale c) /\
    rel (map (fun x => dflt ""%string (rwi_topic (snd x))) (rc_imus c)) (map (fun x => dflt ""%string (rwc_topic (snd x))) (rc_cams c))
      (map (fun x => dflt ""%string (rwg_topic (snd x))) (rc_gps c)) n w.
Proof.
  intros asserts junk c n HC HJ H.
  destruct (start_inv svd hull ecef_to_lla mat_quat solve _ _ _ _ H) as (pe & li & lc & lg & w & Hp & F1 & F2 & F3 & E & R).
  exists w. pose proof HC as (_ & _ & _ & _ & _ & _ & _ & CI & CC & _ & _).
  rewrite wrun_cat in E. opn E. rewrite wrun_cat in E. opn E.
  set (e0 := EKF_init _ _ _ _) in B.
  assert (L0 : lived' (world_init e0)) by (apply lived_init, noise_loaded; assumption).
  assert (G0 : fids_from (src c) (w_ekf (world_init e0))) by (intros k s K; discriminate K).
  destruct (run_live _ c (fun (x : string * RawImu) v => In x (rc_imus c) /\ exists p, GetImuParameters asserts (snd x) = OK p /\ v = ENewImu p)
    ltac:(intros y v u u' [Y [p [P1 ->]]]; apply (imu_live c asserts (snd y)); auto) _ _ _ _ (forall2_in _ _ _ _ _ F1) B L0 G0) as [L1 [G1 P1]].
  destruct (run_live _ c (fun (x : string * RawCam) v => In x (rc_cams c) /\ exists p ts fs, cam_of asserts c (snd x) p ts fs /\ v = ENewCam p ts fs)
    ltac:(intros y v u u' [Y [p [ts [fs [Q1 ->]]]]]; apply (cam_live c asserts (snd y)); auto) _ _ _ _ (forall2_in _ _ _ _ _ F2) B0 L1 G1) as [L2 [G2 P2]].
  destruct (run_live _ c (fun (x : string * RawGps) v => exists p, GetGpsParameters asserts (snd x) = OK p /\ v = ENewGps p)
    ltac:(intros y v u u' [p [Q1 ->]]; apply (gps_live c asserts (snd y)); auto) _ _ _ _ F3 E L2 G2) as [L3 [G3 P3]].
  assert (PP : e_par (w_ekf w) = LoadFilterParameters c) by (rewrite P3, P2, P1; reflexivity).
  split; [exact L3|]. rewrite PP. unfold LoadFilterParameters. cbn [p_root p_imu_scale]. rewrite !get_dflt. auto.
Qed.

(** One message. *)
Lemma node_event_ok : forall c w v root, p_root (e_par (w_ekf w)) = root -> ros_event_ok root v ->
  forall x, In x (node_event c v) -> event_ok w x.
Proof.
  intros c w v root HR O x I. destruct v as [k m|k s image seen board|k m junk]; cbn [node_event ros_event_ok] in *;
    (destruct (Nat.ltb _ _); [|contradiction]); destruct I as [<-|[]]; cbn [event_ok message_ok]; rewrite ?HR; auto.
Qed.
Lemma node_event_one : forall c v, node_event c v = [] \/ exists x, node_event c v = [x].
Proof. intros c [k m|k s image seen board|k m junk]; cbn [node_event]; destruct (Nat.ltb _ _); eauto. Qed.

Lemma step_lived : forall c w v w' root, p_root (e_par (w_ekf w)) = root -> ros_event_ok root v -> lived' w ->
  wrun' w (node_event c v) = OK w' -> lived' w' /\ e_par (w_ekf w') = e_par (w_ekf w).
Proof.
  intros c w v w' root HR O L E. pose proof (node_event_ok c w v root HR O) as OK'.
  destruct (node_event_one c v) as [Z|[x Z]]; rewrite Z in *; cbn [wrun] in E.
  - injection E as <-. auto.
  - opn E. injection E as <-. specialize (OK' x (or_introl eq_refl)). split; [eapply lived_step; eauto|].
    eapply wstep_par; eauto. apply (lived_winv _ _ _ _ _ _ L).
Qed.
Lemma run_lived : forall c l w w' root, p_root (e_par (w_ekf w)) = root -> Forall (ros_event_ok root) l -> lived' w ->
  wrun' w (flat_map (node_event c) l) = OK w' -> lived' w'.
Proof.
  intros c l. induction l as [|v l IH]; intros w w' root HR O L E; cbn [flat_map] in E.
  - injection E as <-. exact L.
  - inversion O as [|? ? O1 O2]; subst. rewrite wrun_cat in E. opn E. destruct (step_lived c w v x _ eq_refl O1 L B) as [L1 P1].
    eapply IH; [|exact O2|exact L1|exact E]. rewrite P1. reflexivity.
Qed.

Lemma ros_lived : forall asserts junk c n evs n', config_ok c -> (forall i, 9 <= i < 18 -> (0 <= junk i)%R) ->
  ros_start asserts junk c = OK n -> Forall (ros_event_ok (dflt true (rc_root c))) evs -> nrun' n evs = OK n' ->
  exists w, lived' w /\ same_program n' w.
Proof.
  intros asserts junk c n evs n' HC HJ H O E. destruct (start_lived _ _ _ _ HC HJ H) as [w [L [P1 [P2 R]]]].
  pose proof (run_agree svd hull ecef_to_lla mat_quat solve c _ _ _ evs n w R) as A. rewrite !map_length in A.
  specialize (A eq_refl eq_refl eq_refl). rewrite E in A. unfold agree in A.
  destruct (wrun' w (flat_map (node_event c) evs)) as [w'|] eqn:W; [|contradiction].
  exists w'. split; [eapply run_lived; eauto|eapply rel_same; eauto].
Qed.

(** *** Definedness *)
Lemma subscribe_ok : forall o id l, topic_ok o -> exists l', subscribe (dflt ""%string o) id l = OK l'.
Proof.
  intros o id l H. unfold subscribe, topic_ok in *. apply String.eqb_neq in H. rewrite H. cbn. eauto.
Qed.
Lemma imu_params_defined : forall r, raw_imu_ok r -> exists p, GetImuParameters false r = OK p.
Proof.
  intros r (_ & O1 & O2 & O3 & _). unfold GetImuParameters, triad in *. rewrite !get_dflt. cbn [StdToEigVecX negb orb guard bind].
  destruct (to_V3_ok false _ O1) as [a ->], (to_V3_ok false _ O2) as [b ->], (to_V3_ok false _ O3) as [d ->]. cbn [bind]. eauto.
Qed.
Lemma gps_params_defined : forall r, raw_gps_ok r -> exists p, GetGpsParameters false r = OK p.
Proof.
  intros r (_ & O1 & O2). unfold GetGpsParameters, triad in *. rewrite !get_dflt.
  destruct (to_V3_ok false _ O1) as [a ->], (to_V3_ok false _ O2) as [b ->]. cbn [bind]. eauto.
Qed.

Lemma load_imu_ok : forall c ti n w x, rel ti [] [] n w -> lived' w -> fids_from (src c) (w_ekf w) -> raw_imu_ok (snd x) ->
  exists n' w', LoadImu false n x = OK n' /\ lived' w' /\ fids_from (src c) (w_ekf w') /\
    rel (ti ++ [dflt ""%string (rwi_topic (snd x))]) [] [] n' w'.
Proof.
  intros c ti n w x R L F O. destruct (imu_params_defined _ O) as [p E].
  destruct (imu_new_inv w p (proj1 (lived_winv _ _ _ _ _ _ L)) (raw_imu_params _ _ _ O E)) as [q [Eq _]].
  assert (X : exists n', LoadImu false n x = OK n').
  { unfold LoadImu. rewrite E. cbn [bind]. rewrite (rl_ekf _ _ _ _ _ R), (rl_cnt _ _ _ _ _ R), Eq. cbn [bind].
    unfold imu_new in Eq. cbn [new_sensor_id] in Eq. opn Eq. opn Eq. injection Eq as <-. rewrite get_dflt.
    destruct O as [O _]. destruct (subscribe_ok _ (S (n_sensors (w_cnt w))) (nd_imu_subs n) O) as [l' ->]. cbn [bind]. eauto. }
  destruct X as [n' E']. destruct (load_imu svd hull ecef_to_lla mat_quat solve _ _ _ _ _ _ R E') as [p' [w' [A1 [A2 A3]]]].
  destruct (imu_live c _ _ _ _ _ O A1 A2 F) as [O1 O2]. exists n', w'. split; [exact E'|]. split; [eapply lived_step; eauto|]. auto.
Qed.
Lemma load_gps_ok : forall c ti tc tg n w x, rel ti tc tg n w -> lived' w -> fids_from (src c) (w_ekf w) -> raw_gps_ok (snd x) ->
  exists n' w', LoadGps false n x = OK n' /\ lived' w' /\ fids_from (src c) (w_ekf w') /\
    rel ti tc (tg ++ [dflt ""%string (rwg_topic (snd x))]) n' w'.
Proof.
  intros c ti tc tg n w x R L F O. destruct (gps_params_defined _ O) as [p E].
  destruct (gps_new_inv w p (proj1 (lived_winv _ _ _ _ _ _ L)) (gps_params_any _ _ _ E)) as [q [Eq _]].
  assert (X : exists n', LoadGps false n x = OK n').
  { unfold LoadGps. rewrite E. cbn [bind]. rewrite (rl_ekf _ _ _ _ _ R), (rl_cnt _ _ _ _ _ R), Eq. cbn [bind].
    unfold gps_new in Eq. cbn [new_sensor_id] in Eq. opn Eq. injection Eq as <-. rewrite get_dflt.
    destruct O as [O _]. destruct (subscribe_ok _ (S (n_sensors (w_cnt w))) (nd_gps_subs n) O) as [l' ->]. cbn [bind]. eauto. }
  destruct X as [n' E']. destruct (load_gps svd hull ecef_to_lla mat_quat solve _ _ _ _ _ _ _ _ R E') as [p' [w' [A1 [A2 A3]]]].
  destruct (gps_live c _ _ _ _ _ A1 A2 F) as [O1 O2]. exists n', w'. split; [exact E'|]. split; [eapply lived_step; eauto|]. auto.
Qed.
Lemma cam_of_defined : forall c r, config_ok c -> raw_cam_ok c r -> exists p ts fs, cam_of false c r p ts fs /\
  (if String.eqb (dflt ""%string (rwc_tracker r)) "" then OK []
   else let* r := named (dflt ""%string (rwc_tracker r)) (rc_trackers c) in OK [GetTrackerParameters r]) = OK ts /\
  (if String.eqb (dflt ""%string (rwc_fiducial r)) "" then OK []
   else let* r := named (dflt ""%string (rwc_fiducial r)) (rc_fids c) in let* f := GetFiducialParameters false r in OK [f]) = OK fs.
Proof.
  intros c r HC (_ & O1 & _ & _ & _ & _ & O2 & O3).
  assert (P : exists p, GetCameraParameters false r = OK p).
  { unfold GetCameraParameters, triad in *. rewrite !get_dflt. destruct (to_V3_ok false _ O1) as [a ->]. cbn. eauto. }
  destruct P as [p P].
  assert (T : exists ts, (if String.eqb (dflt ""%string (rwc_tracker r)) "" then OK []
   else let* r := named (dflt ""%string (rwc_tracker r)) (rc_trackers c) in OK [GetTrackerParameters r]) = OK ts /\
   ((dflt ""%string (rwc_tracker r) = ""%string /\ ts = []) \/
   (dflt ""%string (rwc_tracker r) <> ""%string /\ exists t, In (dflt ""%string (rwc_tracker r), t) (rc_trackers c) /\ ts = [GetTrackerParameters t]))).
  { destruct (String.eqb _ "") eqn:Z.
    - apply String.eqb_eq in Z. exists []. auto.
    - apply String.eqb_neq in Z. destruct O2 as [O2|O2]; [contradiction|]. destruct (named_ok _ _ _ O2) as [t [T1 T2]]. rewrite T1. cbn [bind].
      eexists. split; [reflexivity|]. right. eauto. }
  destruct T as [ts [T1 T2]].
  assert (G : exists fs, (if String.eqb (dflt ""%string (rwc_fiducial r)) "" then OK []
   else let* r := named (dflt ""%string (rwc_fiducial r)) (rc_fids c) in let* f := GetFiducialParameters false r in OK [f]) = OK fs /\
   ((dflt ""%string (rwc_fiducial r) = ""%string /\ fs = []) \/
   (dflt ""%string (rwc_fiducial r) <> ""%string /\ exists f y, In (dflt ""%string (rwc_fiducial r), f) (rc_fids c) /\
      GetFiducialParameters false f = OK y /\ fs = [y]))).
  { destruct (String.eqb (dflt ""%string (rwc_fiducial r)) "") eqn:Z.
    - apply String.eqb_eq in Z. exists []. auto.
    - apply String.eqb_neq in Z. destruct O3 as [O3|O3]; [contradiction|]. destruct (named_ok _ _ _ O3) as [t [G1 G2]]. rewrite G1. cbn [bind].
      destruct HC as (_ & _ & _ & _ & _ & _ & _ & _ & _ & HF & _). destruct (HF _ G2) as [K _]. cbn [snd] in K. unfold triad in K.
      assert (Y : exists y, GetFiducialParameters false t = OK y).
      { unfold GetFiducialParameters. rewrite !get_dflt. destruct (to_V3_ok false _ K) as [a ->]. cbn. eauto. }
      destruct Y as [y Y]. rewrite Y. cbn [bind]. eexists. split; [reflexivity|]. right. eauto 6. }
  destruct G as [fs [G1 G2]]. exists p, ts, fs. split; [split; [exact P|split; assumption]|]. auto.
Qed.
Lemma load_cam_ok : forall c ti tc n w x, config_ok c -> rel ti tc [] n w -> lived' w -> fids_from (src c) (w_ekf w) -> raw_cam_ok c (snd x) ->
  exists n' w', LoadCamera false c n x = OK n' /\ lived' w' /\ fids_from (src c) (w_ekf w') /\
    rel ti (tc ++ [dflt ""%string (rwc_topic (snd x))]) [] n' w'.
Proof.
  intros c ti tc n w x HC R L F O. destruct (cam_of_defined c _ HC O) as [p [ts [fs [E [Et Ef]]]]].
  destruct (raw_cam_event _ _ _ _ _ _ w HC O E F) as [[V1 [V2 V3']] _].
  destruct (cam_new_inv w p ts fs (proj1 (lived_winv _ _ _ _ _ _ L)) V1 V2 V3') as [q [Eq _]].
  assert (X : exists n', LoadCamera false c n x = OK n').
  { unfold LoadCamera. rewrite !get_dflt. destruct E as [E _]. rewrite E. cbn [bind]. rewrite Et. cbn [bind]. rewrite Ef. cbn [bind].
    rewrite (rl_ekf _ _ _ _ _ R), (rl_cnt _ _ _ _ _ R), Eq. cbn [bind]. destruct q as [[[id s] cn] e].
    destruct (camera_new_ids _ _ _ _ _ _ _ _ _ Eq) as [_ [_ [_ [_ [_ [trs [fids ->]]]]]]].
    destruct O as [O _]. destruct (subscribe_ok _ id (nd_cam_subs n) O) as [l' ->]. cbn [bind]. eauto. }
  destruct X as [n' E']. destruct (load_cam svd hull ecef_to_lla mat_quat solve _ _ _ _ _ _ _ _ R E') as [p' [ts' [fs' [w' [A1 [A2 A3]]]]]].
  destruct (cam_live c _ _ _ _ _ _ _ HC O A1 A2 F) as [O1 O2]. exists n', w'. split; [exact E'|]. split; [eapply lived_step; eauto|]. auto.
Qed.

Lemma load_all : forall (A : Type) (c : RosConfig) (load : node -> A -> res node) (ok : A -> Prop) (J : list A -> node -> world -> Prop),
  (forall d n w x, J d n w -> lived' w -> fids_from (src c) (w_ekf w) -> ok x ->
    exists n' w', load n x = OK n' /\ lived' w' /\ fids_from (src c) (w_ekf w') /\ J (d ++ [x]) n' w') ->
  forall l d n w, (forall x, In x l -> ok x) -> J d n w -> lived' w -> fids_from (src c) (w_ekf w) ->
  exists n' w', foldM load n l = OK n' /\ lived' w' /\ fids_from (src c) (w_ekf w') /\ J (d ++ l) n' w'.
Proof.
  intros A c load ok J HJ l. induction l as [|x l IH]; intros d n w O H L F; cbn [foldM].
  - exists n, w. rewrite app_nil_r. auto.
  - destruct (HJ d n w x H L F (O x (or_introl eq_refl))) as [n1 [w1 [E1 [L1 [F1 J1]]]]]. rewrite E1. cbn [bind].
    destruct (IH _ _ _ (fun y Y => O y (or_intror Y)) J1 L1 F1) as [n2 [w2 [E2 [L2 [F2 J2]]]]]. rewrite <- app_assoc in J2. eauto 8.
Qed.

Lemma distinct_ok : forall l, NoDup l -> distinct l = true.
Proof.
  intros l H. induction H as [|x l N H IH]; [reflexivity|]. cbn [distinct]. rewrite IH, Bool.andb_true_r. apply negb_true_iff.
  destruct (existsb (String.eqb x) l) eqn:E; [|reflexivity]. apply existsb_exists in E. destruct E as [y [Y1 Y2]].
  apply String.eqb_eq in Y2. subst. contradiction.
Qed.

Lemma ros_starts : forall junk c, config_ok c -> (forall i, 9 <= i < 18 -> (0 <= junk i)%R) -> exists n, ros_start false junk c = OK n.
Proof.
  intros junk c HC HJ. pose proof HC as (H1 & H2 & D1 & D2 & D3 & D4 & D5 & CI & CC & _ & CG & _).
  unfold ros_start, ros_Initialize, DeclareSensors, LoadSensors, triad in *. rewrite !get_dflt.
  destruct (to_V3_ok false _ H1) as [a ->]. cbn [bind]. destruct (to_V3_ok false _ H2) as [pe ->]. cbn [bind].
  rewrite !distinct_ok by assumption. cbn [guard bind].
  set (e0 := EKF_init _ _ _ _).
  assert (L0 : lived' (world_init e0)) by (apply lived_init, noise_loaded; assumption).
  assert (G0 : fids_from (src c) (w_ekf (world_init e0))) by (intros k s K; discriminate K).
  destruct (load_all _ c (LoadImu false) (fun x => raw_imu_ok (snd x))
    (fun d => rel (map (fun x : string * RawImu => dflt ""%string (rwi_topic (snd x))) d) [] [])
    ltac:(intros d n w x R L F O; cbv beta in *; rewrite map_app; apply (load_imu_ok c _ n w); assumption)
    (rc_imus c) [] _ _ CI (rel_init e0) L0 G0) as [n1 [w1 [E1 [L1 [G1 R1]]]]]. rewrite E1. cbn [bind].
  destruct (load_all _ c (LoadCamera false c) (fun x => raw_cam_ok c (snd x))
    (fun d n w => rel (map (fun x : string * RawImu => dflt ""%string (rwi_topic (snd x))) ([] ++ rc_imus c))
      (map (fun x : string * RawCam => dflt ""%string (rwc_topic (snd x))) d) [] n w)
    ltac:(intros d n w x R L F O; cbv beta in *; rewrite (map_app _ d); apply (load_cam_ok c _ _ n w); assumption)
    (rc_cams c) [] _ _ CC R1 L1 G1) as [n2 [w2 [E2 [L2 [G2 R2]]]]]. rewrite E2. cbn [bind].
  destruct (load_all _ c (LoadGps false) (fun x => raw_gps_ok (snd x))
    (fun d n w => exists ti tc, rel ti tc (map (fun x : string * RawGps => dflt ""%string (rwg_topic (snd x))) d) n w)
    ltac:(intros d n w x [ti [tc R]] L F O; destruct (load_gps_ok c ti tc _ n w x R L F O) as [n' [w' [Q1 [Q2 [Q3 Q4]]]]];
          exists n', w'; cbv beta; rewrite map_app; eauto 8)
    (rc_gps c) [] _ _ CG (ex_intro _ _ (ex_intro _ _ R2)) L2 G2) as [n3 [w3 [E3 _]]]. eauto.
Qed.

Lemma ros_defined : forall junk c evs, config_ok c -> (forall i, 9 <= i < 18 -> (0 <= junk i)%R) ->
  dflt true (rc_root c) = false -> (0 < dflt 100 (rc_imu_scale c))%R ->
  Forall (fun v => ros_event_ok false v /\ ros_event_plain v) evs ->
  exists n n', ros_start false junk c = OK n /\ nrun' n evs = OK n'.
Proof.
  intros junk c evs HC HJ HR HS O. destruct (ros_starts junk c HC HJ) as [n E]. exists n.
  destruct (start_lived _ _ _ _ HC HJ E) as [w [L [P1 [P2 R]]]].
  set (ti := map (fun x : string * RawImu => dflt ""%string (rwi_topic (snd x))) (rc_imus c)) in *.
  set (tc := map (fun x : string * RawCam => dflt ""%string (rwc_topic (snd x))) (rc_cams c)) in *.
  set (tg := map (fun x : string * RawGps => dflt ""%string (rwg_topic (snd x))) (rc_gps c)) in *.
  assert (Li : List.length ti = List.length (rc_imus c)) by apply map_length.
  assert (Lc : List.length tc = List.length (rc_cams c)) by apply map_length.
  assert (Lg : List.length tg = List.length (rc_gps c)) by apply map_length.
  rewrite HR in P1. assert (P2' : (0 < p_imu_scale (e_par (w_ekf w)))%R) by (rewrite P2; exact HS). clear P2.
  assert (X : exists n', nrun' n evs = OK n'); [|destruct X as [n' X]; eauto].
  clearbody ti tc tg. clear E HS HJ. revert n w L P1 P2' R. induction O as [|v evs [O1 O2] O IH]; intros n w L P1 P2 R; cbn [node_run]; [eauto|].
  pose proof (step_agree svd hull ecef_to_lla mat_quat solve c ti tc tg n w v R Li Lc Lg) as A.
  assert (W : exists w', wrun' w (node_event c v) = OK w').
  { pose proof (node_event_ok c w v false P1 O1) as EO. destruct (node_event_one c v) as [Z|[x Z]]; rewrite Z in *; cbn [wrun]; [eauto|].
    destruct (wstep_total svd hull ecef_to_lla mat_quat solve w x (proj1 (lived_winv _ _ _ _ _ _ L)) (EO x (or_introl eq_refl))) as [w' E]; auto.
    - destruct R as [R1 R2 R3 R4 R5 R6 R7 R8 R9 K1 K2 K3 M P].
      destruct v as [k m|k s image seen board|k m junk']; cbn [node_event ros_event_plain] in *; [| |contradiction].
      + destruct (Nat.ltb_spec k (List.length (rc_imus c))) as [H|H]; [|discriminate Z]. injection Z as <-. cbn [plain_event msg_id].
        rewrite <- M. unfold member. destruct (mfind (S k) (nd_imus n)) as [u|] eqn:Fi; [exact Logic.I|].
        exfalso. apply (proj2 (K1 (S k))); [lia|exact Fi].
      + destruct (Nat.ltb_spec k (List.length (rc_cams c))) as [H|H]; [|discriminate Z]. injection Z as <-. cbn [plain_event].
        rewrite <- M. unfold member. rewrite (none_of _ _ _ (K1 _)) by lia.
        destruct (mfind (S (List.length (rc_imus c) + k)) (nd_cams n)) as [[a b]|] eqn:Fi; [exact O2|].
        exfalso. apply (proj2 (K2 (S (List.length (rc_imus c) + k)))); [lia|exact Fi].
    - rewrite E. cbn [bind]. eauto. }
  destruct W as [w' W]. rewrite W in A. unfold agree in A. destruct (nstep' n v) as [n1|]; [|contradiction]. cbn [bind].
  destruct (step_lived c w v w' false P1 O1 L W) as [L1 PP]. apply (IH n1 w'); auto; congruence.
Qed.
End Wl.
