(** The ROS node runs the program its configuration describes. *)
From Coq Require Import Reals List Arith Bool Lia Lra ZArith String.
From Verif Require Import Base.Res Base.Mat Base.RDec Base.LinAlg Base.Geom Base.AMap Base.RMat
  Model.TypeHelper Model.Types Model.MathHelper Model.Ekf Model.Ops Model.Matrix3
  Model.ImuUpdater Model.GpsUpdater Model.FiducialUpdater Model.MsckfUpdater Model.Sensors Model.RosNode
  Spec.Layout Spec.Contract Spec.Callback Spec.World Spec.Ros Proofs.Ids Proofs.ZeroStep.
Import ListNotations.
Open Scope nat_scope.

(** *** Parameters *)
Lemma get_dflt : forall A (o : option A) d, get o d = dflt d o.
Proof. intros A [x|] d; reflexivity. Qed.
Lemma vecx_inv : forall asserts v w, StdToEigVecX asserts v = OK w -> w = v /\ (asserts = true -> List.length v = 3).
Proof.
  intros asserts v w H. unfold StdToEigVecX in H. opn H. injection H as <-. apply guard_inv in B. split; [reflexivity|].
  intros ->. cbn in B. apply Nat.eqb_eq. exact B.
Qed.
Lemma to_V3_inv : forall asserts v x, to_V3 asserts v = OK x -> triple x = v.
Proof.
  intros asserts v x H. unfold to_V3 in H. opn H. apply vecx_inv in B. destruct B as [-> _].
  destruct v as [|a [|b [|c [|d v]]]]; try discriminate. injection H as <-. reflexivity.
Qed.
Lemma to_V3_ok : forall asserts v, List.length v = 3 -> exists x, to_V3 asserts v = OK x.
Proof.
  intros asserts v H. unfold to_V3, StdToEigVecX. rewrite H, Bool.orb_true_r. cbn [guard bind].
  destruct v as [|a [|b [|c [|d v]]]]; try discriminate. eauto.
Qed.
Lemma quat_oriented : forall l, oriented l (StdToEigQuat l).
Proof.
  intros l w x y z -> H. cbn [StdToEigQuat]. unfold qnormalize, qnorm2. cbn [qw qx qy qz].
  set (s := (w * w + x * x + y * y + z * z)%R) in *.
  rewrite (proj2 (Rltb_spec 0 s) H). pose proof (sqrt_lt_R0 s H) as P. exists (/ sqrt s)%R.
  split; [apply Rinv_0_lt_compat; exact P|]. split.
  - unfold Rdiv. f_equal; ring.
  - cbn [qw qx qy qz].
    assert (Q : (sqrt s * sqrt s = s)%R) by (apply sqrt_sqrt; lra).
    transitivity (s / (sqrt s * sqrt s))%R; [unfold s; field; apply Rgt_not_eq; exact P|rewrite Q; field; apply Rgt_not_eq; exact H].
Qed.
Lemma nano_e9 : e9 = nano.
Proof. unfold e9, nano. lra. Qed.

Lemma imu_params_inv : forall asserts r p, GetImuParameters asserts r = OK p -> imu_configured r p.
Proof.
  intros asserts r p H. unfold GetImuParameters in H. opn H. opn H. opn H. opn H. injection H as <-.
  apply vecx_inv in B. destruct B as [-> _]. apply to_V3_inv in B0, B1, B2.
  unfold imu_configured. cbn [ip_ext ip_int ip_pos ip_ang ip_acc_bias ip_omg_bias ip_pos_stab ip_ang_stab ip_acc_stab ip_omg_stab ip_var].
  rewrite !get_dflt in *. rewrite nano_e9. repeat (split; [first [reflexivity|assumption|apply quat_oriented]|]). reflexivity.
Qed.
Lemma cam_params_inv : forall asserts r p, GetCameraParameters asserts r = OK p -> cam_configured r p.
Proof.
  intros asserts r p H. unfold GetCameraParameters in H. opn H. opn H. injection H as <-.
  apply vecx_inv in B0. destruct B0 as [-> _]. apply to_V3_inv in B.
  unfold cam_configured, lens_configured, GetIntrinsicParameters. cbn [cp_ext cp_rate cp_pos cp_ang cp_pos_stab cp_ang_stab cp_intr cp_var
    in_f_x in_f_y in_k_1 in_k_2 in_p_1 in_p_2 in_width in_height in_pixel_size].
  rewrite !get_dflt in *. rewrite nano_e9. repeat (split; [first [reflexivity|assumption|apply quat_oriented|repeat split; reflexivity]|]). reflexivity.
Qed.
Lemma tracker_params_inv : forall r, tracker_configured r (GetTrackerParameters r).
Proof. intros r. unfold tracker_configured, GetTrackerParameters. cbn. rewrite !get_dflt. auto. Qed.
Lemma fid_params_inv : forall asserts r p, GetFiducialParameters asserts r = OK p -> fid_configured r p.
Proof.
  intros asserts r p H. unfold GetFiducialParameters in H. opn H. opn H. injection H as <-.
  apply vecx_inv in B0. destruct B0 as [-> _]. apply to_V3_inv in B.
  unfold fid_configured. cbn [fp_id fp_ext fp_pos fp_ang fp_var fp_cam_ext].
  rewrite !get_dflt in *. repeat (split; [first [reflexivity|assumption|apply quat_oriented]|]). reflexivity.
Qed.
Lemma gps_params_inv : forall asserts r p, GetGpsParameters asserts r = OK p -> gps_configured r p.
Proof.
  intros asserts r p H. unfold GetGpsParameters in H. opn H. opn H. injection H as <-. apply to_V3_inv in B, B0.
  unfold gps_configured. cbn [gp_pos gp_var gp_pos_stab gp_ext]. rewrite !get_dflt in *. rewrite nano_e9. auto.
Qed.
Lemma named_in : forall A x (l : list (string * A)) v, named x l = OK v -> In (x, v) l.
Proof.
  induction l as [|[y w] l IH]; intros v H; cbn in H; [discriminate|].
  destruct (String.eqb x y) eqn:E.
  - apply String.eqb_eq in E. injection H as <-. subst. left. reflexivity.
  - right. auto.
Qed.
Lemma named_ok : forall A x (l : list (string * A)), In x (map fst l) -> exists v, named x l = OK v /\ In (x, v) l.
Proof.
  induction l as [|[y w] l IH]; intros H; cbn in *; [contradiction|].
  destruct (String.eqb x y) eqn:E.
  - apply String.eqb_eq in E. subst. eauto.
  - apply String.eqb_neq in E. destruct H as [H|H]; [congruence|]. destruct (IH H) as [v [V1 V2]]. eauto.
Qed.
Lemma by_name_none : forall A B (t : list (string * A)) (P : A -> B -> Prop) o, dflt ""%string o = ""%string -> by_name t P o [].
Proof. intros A B t P o H. unfold by_name. rewrite H. reflexivity. Qed.
Lemma by_name_some : forall A B (t : list (string * A)) (P : A -> B -> Prop) o r y, dflt ""%string o <> ""%string ->
  In (dflt ""%string o, r) t -> P r y -> by_name t P o [y].
Proof.
  intros A B t P o r y H I Q. unfold by_name. destruct (dflt ""%string o) as [|a s]; [congruence|]. eauto.
Qed.

(** *** The node and the program side by side *)
Record rel (ti tc tg : list string) (n : node) (w : world) : Prop := mkRel {
  rl_ekf : nd_ekf n = w_ekf w;
  rl_cnt : nd_cnt n = w_cnt w;
  rl_num : n_sensors (w_cnt w) = List.length ti + List.length tc + List.length tg;
  rl_ti : map fst (nd_imu_subs n) = ti;
  rl_tc : map fst (nd_cam_subs n) = tc;
  rl_tg : map fst (nd_gps_subs n) = tg;
  rl_si : map snd (nd_imu_subs n) = seq 1 (List.length ti);
  rl_sc : map snd (nd_cam_subs n) = seq (1 + List.length ti) (List.length tc);
  rl_sg : map snd (nd_gps_subs n) = seq (1 + List.length ti + List.length tc) (List.length tg);
  rl_ki : forall id, mfind id (nd_imus n) <> None <-> 1 <= id <= List.length ti;
  rl_kc : forall id, mfind id (nd_cams n) <> None <-> 1 + List.length ti <= id <= List.length ti + List.length tc;
  rl_kg : forall id, mfind id (nd_gps n) <> None <->
    1 + List.length ti + List.length tc <= id <= List.length ti + List.length tc + List.length tg;
  rl_mem : forall id, member n id = mfind id (w_sensors w);
  rl_pub : forall id, mfind id (nd_cams n) <> None -> mfind id (nd_pubs n) <> None }.

Lemma rel_init : forall e, rel [] [] [] (mkNode e counters_init [] [] [] [] [] [] []) (world_init e).
Proof. intros e. constructor; cbn; auto; try (intros id; split; [congruence|lia]). Qed.
Lemma rel_same : forall ti tc tg n w, rel ti tc tg n w -> same_program n w.
Proof. intros ti tc tg n w [A B _ _ _ _ _ _ _ _ _ _ M _]. repeat split; assumption. Qed.

Lemma some_mset : forall A id k (v : A) m, mfind id (mset k v m) <> None <-> id = k \/ mfind id m <> None.
Proof.
  intros A id k v m. destruct (Nat.eq_dec id k) as [->|D].
  - rewrite mfind_mset_eq. split; [auto|congruence].
  - rewrite mfind_mset_neq by exact D. tauto.
Qed.
Lemma none_of : forall A (o : option A) (P : Prop), (o <> None <-> P) -> ~ P -> o = None.
Proof. intros A [x|] P H N; [|reflexivity]. exfalso. apply N, H. discriminate. Qed.
Lemma subscribe_inv : forall t id l l', subscribe t id l = OK l' -> l' = l ++ [(t, id)] /\ t <> ""%string.
Proof.
  intros t id l l' H. unfold subscribe in H. opn H. injection H as <-. apply guard_inv in B. split; [reflexivity|].
  intros ->. discriminate B.
Qed.

Section Program.
Variable svd : m2 -> m2 * m2.
Variable hull : list (Z * Z) -> list (Z * Z).
Variable ecef_to_lla : V3 -> V3.
Variable mat_quat : mat R -> quat.
Variable solve : mat R -> V3 -> V3.
Notation wstep' := (wstep svd hull ecef_to_lla mat_quat solve).
Notation wrun' := (wrun svd hull ecef_to_lla mat_quat solve).
Notation nstep' := (node_step svd hull ecef_to_lla mat_quat solve).
Notation nrun' := (node_run svd hull ecef_to_lla mat_quat solve).

Lemma wrun_cat : forall l l' w, wrun' w (l ++ l') = (let* w' := wrun' w l in wrun' w' l').
Proof.
  induction l as [|x l IH]; intros l' w; cbn [app wrun]; [reflexivity|].
  destruct (wstep' w x) as [w1|]; cbn [bind]; [apply IH|reflexivity].
Qed.

Lemma load_imu : forall asserts ti n w x n', rel ti [] [] n w -> LoadImu asserts n x = OK n' ->
  exists p w', GetImuParameters asserts (snd x) = OK p /\ wstep' w (ENewImu p) = OK w' /\
    rel (ti ++ [dflt ""%string (rwi_topic (snd x))]) [] [] n' w'.
Proof.
  intros asserts ti n w x n' [R1 R2 R3 R4 R5 R6 R7 R8 R9 K1 K2 K3 M P] H. unfold LoadImu in H. opn H.
  exists x0. unfold imu_new in H. cbn [new_sensor_id] in H. opn H. opn B0. opn B0. injection B0 as <-.
  rewrite get_dflt in H. opn H. injection H as <-. apply subscribe_inv in B0. destruct B0 as [-> _].
  cbn [wstep]. unfold imu_new. cbn [new_sensor_id]. rewrite <- R1, <- R2. rewrite B1. cbn [bind]. rewrite B2. cbn [bind].
  eexists. split; [exact B|]. split; [reflexivity|]. rewrite R2, R3. cbn [List.length] in *. rewrite !Nat.add_0_r in *.
  constructor; cbn [install nd_ekf nd_cnt nd_imus nd_cams nd_gps nd_imu_subs nd_cam_subs nd_gps_subs nd_pubs w_ekf w_cnt w_sensors n_sensors];
    rewrite ?app_length; cbn [List.length]; rewrite ?Nat.add_0_r, ?Nat.add_1_r; auto.
  - rewrite map_app, R4. reflexivity.
  - rewrite map_app, R7, seq_S. reflexivity.
  - intros id. rewrite some_mset, K1. lia.
  - intros id. rewrite K2. lia.
  - intros id. rewrite K3. lia.
  - intros id. specialize (M id). unfold member in *. cbn [nd_imus nd_cams nd_gps]. destruct (Nat.eq_dec id (S (List.length ti))) as [->|D].
    + rewrite !mfind_mset_eq. reflexivity.
    + rewrite !mfind_mset_neq by exact D. exact M.
Qed.
Lemma load_gps : forall asserts ti tc tg n w x n', rel ti tc tg n w -> LoadGps asserts n x = OK n' ->
  exists p w', GetGpsParameters asserts (snd x) = OK p /\ wstep' w (ENewGps p) = OK w' /\
    rel ti tc (tg ++ [dflt ""%string (rwg_topic (snd x))]) n' w'.
Proof.
  intros asserts ti tc tg n w x n' [R1 R2 R3 R4 R5 R6 R7 R8 R9 K1 K2 K3 M P] H. unfold LoadGps in H. opn H.
  exists x0. unfold gps_new in H. cbn [new_sensor_id] in H. opn H. opn B0. injection B0 as <-.
  rewrite get_dflt in H. opn H. injection H as <-. apply subscribe_inv in B0. destruct B0 as [-> _].
  cbn [wstep]. unfold gps_new. cbn [new_sensor_id]. rewrite <- R1, <- R2. rewrite B1. cbn [bind].
  eexists. split; [exact B|]. split; [reflexivity|]. rewrite R2, R3.
  constructor; cbn [install nd_ekf nd_cnt nd_imus nd_cams nd_gps nd_imu_subs nd_cam_subs nd_gps_subs nd_pubs w_ekf w_cnt w_sensors n_sensors];
    rewrite ?app_length; cbn [List.length]; rewrite ?Nat.add_1_r, ?Nat.add_succ_r; auto.
  - rewrite map_app, R6. reflexivity.
  - rewrite map_app, R9, seq_S. reflexivity.
  - intros id. rewrite some_mset, K3. lia.
  - intros id. specialize (M id). unfold member in *. cbn [nd_imus nd_cams nd_gps].
    destruct (Nat.eq_dec id (S (List.length ti + List.length tc + List.length tg))) as [->|D].
    + rewrite !mfind_mset_eq. rewrite (none_of _ _ _ (K1 _)) by lia. rewrite (none_of _ _ _ (K2 _)) by lia. reflexivity.
    + rewrite !mfind_mset_neq by exact D. exact M.
Qed.

(** What [LoadCamera] reads from the configuration. *)
Definition cam_of (asserts : bool) (c : RosConfig) (r : RawCam) (p : CamParams) (ts : list TrackerParams) (fs : list FidParams) : Prop :=
  GetCameraParameters asserts r = OK p /\
  ((dflt ""%string (rwc_tracker r) = ""%string /\ ts = []) \/
   (dflt ""%string (rwc_tracker r) <> ""%string /\ exists t, In (dflt ""%string (rwc_tracker r), t) (rc_trackers c) /\ ts = [GetTrackerParameters t])) /\
  ((dflt ""%string (rwc_fiducial r) = ""%string /\ fs = []) \/
   (dflt ""%string (rwc_fiducial r) <> ""%string /\ exists f y, In (dflt ""%string (rwc_fiducial r), f) (rc_fids c) /\
      GetFiducialParameters asserts f = OK y /\ fs = [y])).
Lemma cam_of_event : forall asserts c x p ts fs, cam_of asserts c (snd x) p ts fs -> cam_event c x (ENewCam p ts fs).
Proof.
  intros asserts c x p ts fs [H1 [H2 H3]]. exists p, ts, fs. split; [eapply cam_params_inv; eauto|]. split; [|split; [|reflexivity]].
  - destruct H2 as [[H2 ->]|[H2 [t [I ->]]]]; [apply by_name_none; exact H2|]. eapply by_name_some; eauto using tracker_params_inv.
  - destruct H3 as [[H3 ->]|[H3 [f [y [I [E ->]]]]]]; [apply by_name_none; exact H3|]. eapply by_name_some; eauto using fid_params_inv.
Qed.

Lemma load_cam : forall asserts c ti tc n w x n', rel ti tc [] n w -> LoadCamera asserts c n x = OK n' ->
  exists p ts fs w', cam_of asserts c (snd x) p ts fs /\ wstep' w (ENewCam p ts fs) = OK w' /\
    rel ti (tc ++ [dflt ""%string (rwc_topic (snd x))]) [] n' w'.
Proof.
  intros asserts c ti tc n w x n' [R1 R2 R3 R4 R5 R6 R7 R8 R9 K1 K2 K3 M P] H. unfold LoadCamera in H. rewrite !get_dflt in H.
  opn H. opn H. opn H. rename x0 into p, x1 into ts, x2 into fs, B into Bp, B0 into Bt, B1 into Bf. opn H. rename B into Bn.
  destruct x0 as [[[id s] cn] en].
  assert (X : id = S (n_sensors (nd_cnt n)) /\ n_sensors cn = S (n_sensors (nd_cnt n)) /\ exists a b, s = SCam a b).
  { destruct (camera_new_ids _ _ _ _ _ _ _ _ _ Bn) as [Y1 [Y2 [_ [_ [_ Y3]]]]]. auto. }
  destruct X as [-> [Xn [trs [fids ->]]]]. opn H. injection H as <-. apply subscribe_inv in B. destruct B as [-> _].
  exists p, ts, fs. cbn [wstep]. rewrite <- R1, <- R2, Bn. cbn [bind]. eexists. split; [|split; [reflexivity|]].
  - split; [exact Bp|]. split.
    + destruct (String.eqb _ "") eqn:Z.
      * apply String.eqb_eq in Z. injection Bt as <-. left. auto.
      * apply String.eqb_neq in Z. opn Bt. injection Bt as <-. apply named_in in B. right. eauto.
    + destruct (String.eqb (dflt ""%string (rwc_fiducial (snd x))) "") eqn:Z.
      * apply String.eqb_eq in Z. injection Bf as <-. left. auto.
      * apply String.eqb_neq in Z. opn Bf. opn Bf. injection Bf as <-. apply named_in in B. right. eauto 8.
  - rewrite R2, R3 in *. cbn [List.length] in *. rewrite !Nat.add_0_r in *.
  constructor; cbn [install nd_ekf nd_cnt nd_imus nd_cams nd_gps nd_imu_subs nd_cam_subs nd_gps_subs nd_pubs w_ekf w_cnt w_sensors n_sensors];
    rewrite ?app_length; cbn [List.length]; rewrite ?Nat.add_0_r, ?Nat.add_1_r, ?Nat.add_succ_r; auto.
  + rewrite map_app, R5. reflexivity.
  + rewrite map_app, R8, seq_S. reflexivity.
  + intros i. rewrite some_mset, K2. lia.
  + intros i. rewrite K3. lia.
  + intros i. specialize (M i). unfold member in *. cbn [nd_imus nd_cams nd_gps].
    destruct (Nat.eq_dec i (S (List.length ti + List.length tc))) as [->|D].
    * rewrite !mfind_mset_eq. rewrite (none_of _ _ _ (K1 _)) by lia. reflexivity.
    * rewrite !mfind_mset_neq by exact D. exact M.
  + intros i. rewrite !some_mset. intros [Z|Z]; auto.
Qed.

(** *** Callbacks *)
Definition agree (ti tc tg : list string) (r : res node) (s : res world) : Prop :=
  match r, s with OK n, OK w => rel ti tc tg n w | UB, UB => True | _, _ => False end.

Lemma nth_sub : forall (l : list (string * nat)) a m k, map snd l = seq a m ->
  (k < m -> exists t, nth_error l k = Some (t, a + k)) /\ (~ k < m -> nth_error l k = None).
Proof.
  intros l a m k H. assert (L : List.length l = m) by (rewrite <- (map_length snd), H, seq_length; reflexivity). split; intros K.
  - destruct (nth_error l k) as [[t i]|] eqn:E; [|apply nth_error_None in E; lia].
    exists t. apply (map_nth_error snd) in E. rewrite H in E. cbn in E.
    apply nth_error_nth with (d := 0) in E. rewrite seq_nth in E by exact K. congruence.
  - apply nth_error_None. lia.
Qed.
Lemma stamp_seconds : forall s, RosHeaderToTime s = seconds s.
Proof. intros s. unfold RosHeaderToTime, seconds, g_nsec_to_sec. lra. Qed.
Lemma v3_same : forall v, RosToEigen_vec v = v.
Proof. intros [x y z]. reflexivity. Qed.

Lemma step_agree : forall c ti tc tg n w v, rel ti tc tg n w -> List.length ti = List.length (rc_imus c) ->
  List.length tc = List.length (rc_cams c) -> List.length tg = List.length (rc_gps c) ->
  agree ti tc tg (nstep' n v) (wrun' w (node_event c v)).
Proof.
  intros c ti tc tg n w v R Li Lc Lg. pose proof R as [R1 R2 R3 R4 R5 R6 R7 R8 R9 K1 K2 K3 M P].
  destruct v as [k m|k s image seen board|k m junk]; cbn [node_step node_event].
  - rewrite <- Li. destruct (nth_sub _ _ _ k R7) as [N1 N2]. destruct (Nat.ltb_spec k (List.length ti)) as [H|H].
    2:{ rewrite N2 by lia. exact R. }
    destruct (N1 H) as [t E]. rewrite E. unfold ImuCallback, RosImuMessage. cbn [wrun wstep]. unfold deliver. cbn [msg_id].
    pose proof (M (1 + k)) as Mk. unfold member in Mk.
    destruct (mfind (1 + k) (nd_imus n)) as [u|] eqn:F; [|exfalso; apply (proj2 (K1 (1 + k))); [lia|exact F]].
    rewrite <- Mk, !v3_same, stamp_seconds, <- R1. unfold RosToEigen_mat, rows9.
    destruct (imu_UpdateEKF _ _ _ _ _ _ _) as [[u' e']|]; cbn [bind]; [|exact Logic.I].
    constructor; cbn [nd_ekf nd_cnt nd_imus nd_cams nd_gps nd_imu_subs nd_cam_subs nd_gps_subs nd_pubs w_ekf w_cnt w_sensors]; auto.
    + intros id. rewrite some_mset, K1. lia.
    + intros id. specialize (M id). unfold member in *. cbn [nd_imus nd_cams nd_gps]. destruct (Nat.eq_dec id (1 + k)) as [->|D].
      * rewrite !mfind_mset_eq. reflexivity.
      * rewrite !mfind_mset_neq by exact D. exact M.
  - rewrite <- Li, <- Lc. destruct (nth_sub _ _ _ k R8) as [N1 N2]. destruct (Nat.ltb_spec k (List.length tc)) as [H|H].
    2:{ rewrite N2 by lia. exact R. }
    destruct (N1 H) as [t E]. rewrite E. unfold CameraCallback. cbn [wrun wstep].
    set (id0 := 1 + List.length ti + k) in *.
    pose proof (M id0) as Mk. unfold member in Mk. rewrite (none_of _ _ _ (K1 _)) in Mk by (unfold id0; lia).
    destruct (mfind id0 (nd_cams n)) as [[trs fids]|] eqn:F; [|exfalso; apply (proj2 (K2 id0)); [unfold id0; lia|exact F]].
    rewrite <- Mk, stamp_seconds, <- R1, <- R2.
    destruct (camera_Callback _ _ _ _ _ _ _ _ _ _ _) as [[[[a b] cn] e']|] eqn:C; cbn [bind]; [|exact Logic.I].
    assert (Nn : n_sensors cn = n_sensors (nd_cnt n)).
    { clear - C. unfold camera_Callback in C. destruct (image && _).
      - destruct (CalculateLocalTime _ _) as [lt e1]. opn C. cbn [GenerateFrameID] in C. opn C. opn C. destruct x1 as [q1 q2]. opn C. destruct x1 as [q3 q4].
        injection C as <- <- <- <-. reflexivity.
      - injection C as <- <- <- <-. reflexivity. }
    destruct (mfind id0 (nd_pubs n)) as [pb|] eqn:Fp; [|exfalso; apply (P id0); [congruence|exact Fp]].
    constructor; cbn [nd_ekf nd_cnt nd_imus nd_cams nd_gps nd_imu_subs nd_cam_subs nd_gps_subs nd_pubs w_ekf w_cnt w_sensors]; auto.
    + congruence.
    + intros id. rewrite some_mset, K2. unfold id0. lia.
    + intros id. specialize (M id). unfold member in *. cbn [nd_imus nd_cams nd_gps]. destruct (Nat.eq_dec id id0) as [->|D].
      * rewrite !mfind_mset_eq. rewrite (none_of _ _ _ (K1 _)) by (unfold id0; lia). reflexivity.
      * rewrite !mfind_mset_neq by exact D. exact M.
    + intros id. rewrite some_mset. intros [->|Z]; [congruence|auto].
  - rewrite <- Li, <- Lc, <- Lg. destruct (nth_sub _ _ _ k R9) as [N1 N2]. destruct (Nat.ltb_spec k (List.length tg)) as [H|H].
    2:{ rewrite N2 by lia. exact R. }
    destruct (N1 H) as [t E]. rewrite E. unfold GpsCallback, RosGpsMessage. cbn [wrun wstep]. unfold deliver. cbn [msg_id].
    set (id0 := 1 + List.length ti + List.length tc + k) in *.
    pose proof (M id0) as Mk. unfold member in Mk. rewrite (none_of _ _ _ (K1 _)) in Mk by (unfold id0; lia).
    rewrite (none_of _ _ _ (K2 _)) in Mk by (unfold id0; lia).
    destruct (mfind id0 (nd_gps n)) as [u|] eqn:F; [|exfalso; apply (proj2 (K3 id0)); [unfold id0; lia|exact F]].
    rewrite <- Mk, stamp_seconds, <- R1.
    destruct (gps_UpdateEKF _ _ _ _ _ _ _ _) as [[u' e']|]; cbn [bind]; [|exact Logic.I].
    constructor; cbn [nd_ekf nd_cnt nd_imus nd_cams nd_gps nd_imu_subs nd_cam_subs nd_gps_subs nd_pubs w_ekf w_cnt w_sensors]; auto.
    + intros id. rewrite some_mset, K3. unfold id0. lia.
    + intros id. specialize (M id). unfold member in *. cbn [nd_imus nd_cams nd_gps]. destruct (Nat.eq_dec id id0) as [->|D].
      * rewrite !mfind_mset_eq. rewrite (none_of _ _ _ (K1 _)) by (unfold id0; lia). rewrite (none_of _ _ _ (K2 _)) by (unfold id0; lia). reflexivity.
      * rewrite !mfind_mset_neq by exact D. exact M.
Qed.
Lemma run_agree : forall c ti tc tg l n w, rel ti tc tg n w -> List.length ti = List.length (rc_imus c) ->
  List.length tc = List.length (rc_cams c) -> List.length tg = List.length (rc_gps c) ->
  agree ti tc tg (nrun' n l) (wrun' w (flat_map (node_event c) l)).
Proof.
  intros c ti tc tg l. induction l as [|v l IH]; intros n w R Li Lc Lg; cbn [node_run flat_map]; [exact R|].
  rewrite wrun_cat. pose proof (step_agree c ti tc tg n w v R Li Lc Lg) as S. unfold agree in S.
  destruct (nstep' n v) as [n1|], (wrun' w (node_event c v)) as [w1|]; cbn [bind]; try contradiction; auto.
Qed.

(** *** Loading *)
Lemma load_imus : forall asserts l ti n w n', rel ti [] [] n w -> foldM (LoadImu asserts) n l = OK n' ->
  exists vs w', Forall2 (fun x v => exists p, GetImuParameters asserts (snd x) = OK p /\ v = ENewImu p) l vs /\
    wrun' w vs = OK w' /\ rel (ti ++ map (fun x => dflt ""%string (rwi_topic (snd x))) l) [] [] n' w'.
Proof.
  intros asserts l. induction l as [|x l IH]; intros ti n w n' R H; cbn [foldM] in H.
  - injection H as <-. exists [], w. split; [constructor|]. split; [reflexivity|]. cbn. rewrite app_nil_r. exact R.
  - opn H. destruct (load_imu _ _ _ _ _ _ R B) as [p [w1 [E1 [E2 R1]]]]. destruct (IH _ _ _ _ R1 H) as [vs [w2 [F [E3 R2]]]].
    exists (ENewImu p :: vs), w2. split; [constructor; eauto|]. cbn [wrun]. rewrite E2. cbn [bind]. split; [exact E3|].
    cbn [map]. rewrite <- app_assoc in R2. exact R2.
Qed.
Lemma load_cams : forall asserts c l ti tc n w n', rel ti tc [] n w -> foldM (LoadCamera asserts c) n l = OK n' ->
  exists vs w', Forall2 (fun x v => exists p ts fs, cam_of asserts c (snd x) p ts fs /\ v = ENewCam p ts fs) l vs /\
    wrun' w vs = OK w' /\ rel ti (tc ++ map (fun x => dflt ""%string (rwc_topic (snd x))) l) [] n' w'.
Proof.
  intros asserts c l. induction l as [|x l IH]; intros ti tc n w n' R H; cbn [foldM] in H.
  - injection H as <-. exists [], w. split; [constructor|]. split; [reflexivity|]. cbn. rewrite app_nil_r. exact R.
  - opn H. destruct (load_cam _ _ _ _ _ _ _ _ R B) as [p [ts [fs [w1 [E1 [E2 R1]]]]]]. destruct (IH _ _ _ _ _ R1 H) as [vs [w2 [F [E3 R2]]]].
    exists (ENewCam p ts fs :: vs), w2. split; [constructor; eauto 6|]. cbn [wrun]. rewrite E2. cbn [bind]. split; [exact E3|].
    cbn [map]. rewrite <- app_assoc in R2. exact R2.
Qed.
Lemma load_gpss : forall asserts l ti tc tg n w n', rel ti tc tg n w -> foldM (LoadGps asserts) n l = OK n' ->
  exists vs w', Forall2 (fun x v => exists p, GetGpsParameters asserts (snd x) = OK p /\ v = ENewGps p) l vs /\
    wrun' w vs = OK w' /\ rel ti tc (tg ++ map (fun x => dflt ""%string (rwg_topic (snd x))) l) n' w'.
Proof.
  intros asserts l. induction l as [|x l IH]; intros ti tc tg n w n' R H; cbn [foldM] in H.
  - injection H as <-. exists [], w. split; [constructor|]. split; [reflexivity|]. cbn. rewrite app_nil_r. exact R.
  - opn H. destruct (load_gps _ _ _ _ _ _ _ _ R B) as [p [w1 [E1 [E2 R1]]]]. destruct (IH _ _ _ _ _ _ R1 H) as [vs [w2 [F [E3 R2]]]].
    exists (ENewGps p :: vs), w2. split; [constructor; eauto|]. cbn [wrun]. rewrite E2. cbn [bind]. split; [exact E3|].
    cbn [map]. rewrite <- app_assoc in R2. exact R2.
Qed.
End Program.

Lemma filter_conf : forall junk c pe, triple pe = dflt [0; 0; 0]%R (rc_pos_e_in_g c) ->
  filter_configured c (LoadFilterParameters c) (LoadProcessNoise junk c) pe (dflt 0%R (rc_ang_l_to_e c)).
Proof.
  intros junk c pe H. unfold filter_configured, LoadFilterParameters.
  cbn [p_aug p_aug_dt p_aug_pos_err p_aug_ang_err p_gps_init p_gps_baseline p_gps_pos_thresh p_gps_ang_thresh p_chi2 p_imu_scale p_root p_fej].
  rewrite !get_dflt. do 13 (split; [first [reflexivity|exact H]|]). split; [reflexivity|]. split; [reflexivity|].
  unfold LoadProcessNoise. cbn [ent]. rewrite !get_dflt. split; [|split]; intros i K.
  - destruct (Nat.ltb_spec i 3); [reflexivity|lia].
  - destruct (Nat.ltb_spec i 3); [lia|]. destruct (Nat.ltb_spec i 6); [reflexivity|lia].
  - destruct (Nat.ltb_spec i 3); [lia|]. destruct (Nat.ltb_spec i 6); [lia|]. destruct (Nat.ltb_spec i 9); [reflexivity|lia].
Qed.

(** Everything a successful start says. *)
Lemma start_inv : forall svd hull ecef_to_lla mat_quat solve asserts junk c n, ros_start asserts junk c = OK n ->
  exists pe li lc lg w,
    triple pe = dflt [0; 0; 0]%R (rc_pos_e_in_g c) /\
    Forall2 (fun x v => exists p, GetImuParameters asserts (snd x) = OK p /\ v = ENewImu p) (rc_imus c) li /\
    Forall2 (fun x v => exists p ts fs, cam_of asserts c (snd x) p ts fs /\ v = ENewCam p ts fs) (rc_cams c) lc /\
    Forall2 (fun x v => exists p, GetGpsParameters asserts (snd x) = OK p /\ v = ENewGps p) (rc_gps c) lg /\
    wrun svd hull ecef_to_lla mat_quat solve (world_init (EKF_init (LoadFilterParameters c) (LoadProcessNoise junk c) pe
      (dflt 0%R (rc_ang_l_to_e c)))) (li ++ lc ++ lg) = OK w /\
    rel (map (fun x => dflt ""%string (rwi_topic (snd x))) (rc_imus c)) (map (fun x => dflt ""%string (rwc_topic (snd x))) (rc_cams c))
      (map (fun x => dflt ""%string (rwg_topic (snd x))) (rc_gps c)) n w.
Proof.
  intros svd hull ecef mq solve asserts junk c n H. unfold ros_start, ros_Initialize, LoadSensors in H. opn H. opn B. opn B. injection B as <-.
  rewrite !get_dflt in *. apply to_V3_inv in B1. opn H. opn H. opn H.
  destruct (load_imus svd hull ecef mq solve _ _ _ _ _ _ (rel_init _) B2) as [li [w1 [F1 [E1 R1]]]].
  destruct (load_cams svd hull ecef mq solve _ _ _ _ _ _ _ _ R1 B3) as [lc [w2 [F2 [E2 R2]]]].
  destruct (load_gpss svd hull ecef mq solve _ _ _ _ _ _ _ _ R2 H) as [lg [w3 [F3 [E3 R3]]]].
  exists x1, li, lc, lg, w3. split; [exact B1|]. do 3 (split; [assumption|]). split; [|exact R3].
  rewrite wrun_cat, E1. cbn [bind]. rewrite wrun_cat, E2. exact E3.
Qed.

Lemma built_of : forall asserts c li lc lg,
    Forall2 (fun x v => exists p, GetImuParameters asserts (snd x) = OK p /\ v = ENewImu p) (rc_imus c) li ->
    Forall2 (fun x v => exists p ts fs, cam_of asserts c (snd x) p ts fs /\ v = ENewCam p ts fs) (rc_cams c) lc ->
    Forall2 (fun x v => exists p, GetGpsParameters asserts (snd x) = OK p /\ v = ENewGps p) (rc_gps c) lg ->
  built c (li ++ lc ++ lg).
Proof.
  intros asserts c li lc lg F1 F2 F3. exists li, lc, lg.
  assert (W : forall A B (P Q : A -> B -> Prop) l l', (forall x y, P x y -> Q x y) -> Forall2 P l l' -> Forall2 Q l l')
    by (intros A B P Q l l' I F; induction F; constructor; auto).
  split; [|split; [|split; [|reflexivity]]].
  - eapply W; [|exact F1]. intros x v [p [E ->]]. exists p. split; [eapply imu_params_inv; eauto|reflexivity].
  - eapply W; [|exact F2]. intros x v [p [ts [fs [E ->]]]]. eapply cam_of_event; eauto.
  - eapply W; [|exact F3]. intros x v [p [E ->]]. exists p. split; [eapply gps_params_inv; eauto|reflexivity].
Qed.

(** The whole history. *)
Lemma ros_program : forall svd hull ecef_to_lla mat_quat solve asserts junk c n, ros_start asserts junk c = OK n ->
  exists p q pe a l w, filter_configured c p q pe a /\ (forall i, 9 <= i < 18 -> ent q i 0 = junk i) /\ built c l /\
    wrun svd hull ecef_to_lla mat_quat solve (world_init (EKF_init p q pe a)) l = OK w /\ same_program n w /\ subscribed c n /\
    forall evs, match node_run svd hull ecef_to_lla mat_quat solve n evs with
      | OK n' => exists w', wrun svd hull ecef_to_lla mat_quat solve w (flat_map (node_event c) evs) = OK w' /\ same_program n' w'
      | UB => wrun svd hull ecef_to_lla mat_quat solve w (flat_map (node_event c) evs) = UB
      end.
Proof.
  intros svd hull ecef mq solve asserts junk c n H.
  destruct (start_inv svd hull ecef mq solve _ _ _ _ H) as (pe & li & lc & lg & w & Hp & F1 & F2 & F3 & E & R).
  do 3 eexists. eexists. exists (li ++ lc ++ lg), w. split; [apply filter_conf; exact Hp|]. split.
  { intros i K. unfold LoadProcessNoise. cbn [ent]. destruct (Nat.ltb_spec i 3); [lia|]. destruct (Nat.ltb_spec i 6); [lia|].
    destruct (Nat.ltb_spec i 9); [lia|reflexivity]. }
  split; [eapply built_of; eauto|]. split; [exact E|]. split; [eapply rel_same; eauto|].
  split; [split; [|split]; apply R|].
  intros evs. pose proof (run_agree svd hull ecef mq solve c _ _ _ evs n w R) as A. rewrite !map_length in A.
  specialize (A eq_refl eq_refl eq_refl). unfold agree in A.
  destruct (node_run svd hull ecef mq solve n evs) as [n'|], (wrun svd hull ecef mq solve w _) as [w'|]; try contradiction; [|reflexivity].
  exists w'. split; [reflexivity|eapply rel_same; eauto].
Qed.
