(** A simulated body at rest without errors. *)
From Coq Require Import Reals List Arith Bool ZArith String Lia Lra Sorted Permutation.
From Verif Require Import Base.Res Base.Mat Base.RDec Base.Geom Base.AMap Model.TypeHelper Model.Types Model.Ekf
  Model.MathHelper Model.GpsHelper Model.GpsUpdater Model.ImuUpdater Model.FiducialUpdater Model.MsckfUpdater
  Model.Sensors Model.Trackers Model.TruthEngine Model.SimSensors Model.Simulation Model.SimMain
  Spec.History Spec.Same Spec.Rotation Spec.Tracks Spec.AtRest Spec.SimMain
  Proofs.Same Proofs.Follows Proofs.ZeroStep Proofs.RestLookup Proofs.AtRest Proofs.AtRestBuild
  Proofs.Windows Proofs.Tracks Proofs.SimTracks Proofs.SteadyFrames Proofs.TrackFit Proofs.SimGen Proofs.SimMain.
Import ListNotations.
Open Scope nat_scope.

(** *** Measurement times *)
Lemma times_sorted : forall u noise T r l, (0 < r)%R -> GenerateMeasurementTimes true u noise T r = OK l -> StronglySorted Rlt l.
Proof.
  intros u noise T r l P H. unfold GenerateMeasurementTimes in H. opn H. opn H. injection H as <-. generalize 0 at 1. 
  induction (Z.to_nat (Int_part (T * r))) as [|n IH]; intros s; [constructor|]. cbn [seq map]. constructor; [apply IH|].
  rewrite Forall_map. apply Forall_forall. intros i I. apply in_seq in I. unfold ApplyTimeError.
  apply Rplus_lt_compat_r. apply Rmult_lt_compat_r; [apply Rinv_0_lt_compat; exact P|]. apply lt_INR. lia.
Qed.
Lemma in_order_app : forall a b, in_order a -> in_order b -> (forall x y, In x a -> In y b -> msg_id x <> msg_id y) -> in_order (a ++ b).
Proof.
  intros a b A B D id. rewrite filter_app. destruct (filter (of_camera id) a) as [|x fa] eqn:Ea; [apply B|].
  assert (Eb : filter (of_camera id) b = []).
  { assert (X : In x a /\ msg_id x = id).
    { assert (X : In x (filter (of_camera id) a)) by (rewrite Ea; left; reflexivity). apply filter_In in X. destruct X as [X1 X2].
      split; [exact X1|]. destruct x; cbn in X2; try discriminate. apply Nat.eqb_eq in X2. exact X2. }
    destruct X as [X1 X2]. apply not_of. apply Forall_forall. intros y Y E. apply (D x y X1 Y). congruence. }
  rewrite Eb, app_nil_r, <- Ea. apply A.
Qed.
Lemma no_cameras : forall ms, Forall (fun m => forall id t f tr b, m <> MCam id t f tr b) ms -> in_order ms.
Proof.
  intros ms F id. assert (E : filter (of_camera id) ms = []).
  { induction F as [|m ms H F IH]; [reflexivity|]. cbn [filter]. destruct m; cbn; auto. exfalso. eapply H. reflexivity. }
  rewrite E. constructor.
Qed.

Section Rest.
Variable ecef_to_lla : V3 -> V3.
Variable tF : truth.
Variables (p : V3) (q : quat).
Hypothesis Still : still tF p q.

(** What an error-free message says. *)
Definition clean (m : message) : Prop :=
  match m with
  | MImu id time _ _ _ _ => exists ae oe vr, sim_imu_message tF id true ae oe vr time = OK m
  | MGps id time _ _ => located ecef_to_lla tF p q id /\ exists le vr, sim_gps_message ecef_to_lla tF id true le vr time = OK m
  | MCam id time _ tracks boards =>
      (forall k l tr, In (k, l) tracks -> In tr l -> exists f, ft_true tr = Some f /\ forall pt, In pt (ft_track tr) ->
         exists v, sim_view pinhole tF id (fun _ => []) (fp_time pt) = OK v /\ vw_project v f = (kp_x (fp_kp pt), kp_y (fp_kp pt))) /\
      (forall x, In x boards -> exact_board tF id time x)
  | MOther _ _ => True
  end.
Lemma clean_exact : forall w m, clean m -> tracks_stored w m -> exact_msg ecef_to_lla tF p q w m.
Proof.
  intros w m C T. destruct m as [id t acc A omg WW|id t lla NN|id t frame tracks boards|id t]; cbn [exact_msg clean tracks_stored] in *; auto.
  destruct C as [C1 C2]. split; [|exact C2]. intros k l tr I1 I2. destruct (C1 k l tr I1 I2) as [f [F1 F2]]. exists f. split; [exact F1|].
  intros pt I3. split; [apply F2; exact I3|]. intros P. eapply T; eauto.
Qed.

Definition refd (b : bool) (e : ekf) : Prop :=
  b = true -> e_lla_init e = true /\ e_pos_e_in_g e = GetLocalPosition tF /\ GetLocalHeading tF = OK (e_ang_l_to_e e).
Definition ready (b : bool) (rem : list nat) (w : world) : Prop :=
  holds tF p q w /\ unused (S (n_sensors (w_cnt w))) (e_state (w_ekf w)) /\
  (forall k, In k rem -> mfind k (s_fid (e_state (w_ekf w))) = None) /\ refd b (w_ekf w).
Lemma refd_settled : forall b e e', settled e e' -> refd b e -> refd b e'.
Proof. intros b e e' [_ [_ [S1 [S2 [S3 _]]]]] H B. rewrite S1, S2, S3. auto. Qed.
Definition now (w : world) (t : truth) : Prop := covers (n_sensors (w_cnt w)) (n_trackers (w_cnt w)) t tF.
Lemma rest_all : forall A L (f : world -> truth -> A -> res (list message * world * truth)) (ids : A -> list nat) b l,
  (forall w t a ms w' t', In a l -> known (tr_features t) -> f w t a = OK (ms, w', t') -> grows L w t ms w' t') ->
  (forall w t a ms w' t' rem, In a l -> known (tr_features t) -> f w t a = OK (ms, w', t') -> now w' t' -> tr_body t = tr_body tF ->
     NoDup (ids a ++ rem) -> ready b (ids a ++ rem) w -> ready b rem w' /\ Forall clean ms /\ in_order ms) ->
  forall rem w t ms w' t', NoDup (flat_map ids l ++ rem) -> known (tr_features t) -> add_all f w t l = OK (ms, w', t') -> now w' t' ->
  ready b (flat_map ids l ++ rem) w -> ready b rem w' /\ Forall clean ms /\ in_order ms.
Proof.
  intros A L f ids b. induction l as [|a l IH]; intros HG HR rem w t ms w' t' N K H C R; cbn [add_all flat_map app] in *.
  - injection H as <- <- <-. split; [exact R|]. split; [constructor|]. intros id. constructor.
  - opn H. destruct x as [[m1 w1] t1]. opn H. destruct x as [[m2 w2] t2]. injection H as <- <- <-.
    pose proof (HG _ _ _ _ _ _ (or_introl eq_refl) K B) as G1.
    assert (G2 : grows L w1 t1 m2 w2 t2).
    { eapply grows_all; [|apply G1|exact B0]. intros. eapply HG; eauto. right. assumption. }
    assert (C1 : now w1 t1).
    { destruct G2 as [G21 [G22 [_ [_ [G25 _]]]]]. eapply covers_trans; [exact G25|]. eapply covers_less; [| |exact C]; assumption. }
    rewrite <- app_assoc in N, R.
    assert (BT : tr_body t = tr_body tF). { destruct C1 as [X _]. destruct G1 as [_ [_ [_ [_ [[Y _] _]]]]]. congruence. }
    destruct (HR _ _ _ _ _ _ _ (or_introl eq_refl) K B C1 BT N R) as [R1 [F1 O1]].
    destruct (IH (fun w t a ms w' t' I => HG w t a ms w' t' (or_intror I)) (fun w t a ms w' t' rem I => HR w t a ms w' t' rem (or_intror I))
      rem w1 t1 m2 w2 t2) as [R2 [F2 O2]]; auto.
    + clear - N. induction (ids a) as [|y l0 IH]; [exact N|]. cbn in N. inversion N; auto.
    + apply G1.
    + split; [exact R2|]. split; [apply Forall_app; auto|]. apply in_order_app; auto. intros x y X Y.
      destruct G1 as [_ [_ [_ [_ [_ [G16 _]]]]]]. destruct G2 as [_ [_ [_ [_ [_ [G26 _]]]]]]. rewrite Forall_forall in G16, G26.
      specialize (G16 x X). specialize (G26 y Y). cbv beta in *. lia.
Qed.

Lemma imu_rest : forall b w t c d ms w' t' rem, add_imu w t (c, d) = OK (ms, w', t') -> now w' t' ->
  ic_no_errors c = true -> qnorm2 (ip_ang (ic_par c)) = 1%R -> ip_acc_bias (ic_par c) = v0 -> ip_omg_bias (ic_par c) = v0 ->
  tr_body t = tr_body tF ->
  ready b rem w -> ready b rem w' /\ Forall clean ms /\ in_order ms.
Proof.
  intros b w t c d ms w' t' rem H C NE U1 U2 U3 BT [R1 [R2 [R3 R4]]]. unfold add_imu in H. opn H. destruct x as [[[id s] cn] e]. opn H. opn H. injection H as <- <- <-.
  destruct (imu_new_is _ _ _ _ _ _ _ B) as [-> [N1 [N2 [N3 [S1 S2]]]]]. cbn [install] in C. unfold now in C. cbn [w_cnt] in C. rewrite N1 in C.
  destruct C as [_ [_ [_ [_ [C _]]]]]. destruct (C (S (n_sensors (w_cnt w))) (le_n _)) as [[C1 [C2 [C3 C4]]] _].
  unfold sim_imu_new, set_imu in C1, C2, C3, C4. rewrite NE in C1, C2, C3, C4. cbn in C1, C2, C3, C4. rewrite mfind_mset_eq in C1, C2, C3, C4.
  split; [split; [|split; [|split]]|].
  1-2: destruct (build_step (fun a => (a, a)) (fun l => l) (fun v => v) (fun _ => qid) (fun _ v => v) tF p q w (ENewImu (ic_par c))
      (install w (S (n_sensors (w_cnt w)), s, cn, e)) R1 R2) as [X1 X2];
    [cbn [told]; unfold GetImuAngularPosition, tget; rewrite C2; auto|cbn [wstep]; rewrite B; reflexivity|assumption].
  - intros k I. cbn [install w_ekf]. apply S2. apply R3. exact I.
  - cbn [install w_ekf]. eapply refd_settled; eauto.
  - assert (F : forall m, In m x0 -> clean m /\ forall id t f tr b, m <> MCam id t f tr b).
    { intros m M. destruct (mapM_all _ _ _ _ _ B1 m M) as [[i time] [_ E]]. cbn [fst snd] in E. rewrite NE in E. split.
      - pose proof E as E'. unfold sim_imu_message in E'. opn E'. destruct x1. injection E' as <-. cbn [clean].
        exists (ic_acc_error c), (ic_omg_error c), (dr_vec d i). rewrite <- E. unfold sim_imu_message, sim_imu_measure,
          GetImuPosition, GetImuAngularPosition, GetImuAccelerometerBias, GetImuGyroscopeBias, tget, sim_imu_new, set_imu. rewrite C1, C2, C3, C4.
        cbn [tr_body tr_imu_pos tr_imu_ang tr_acc_bias tr_omg_bias]. rewrite !mfind_mset_eq. rewrite <- BT. reflexivity.
      - unfold sim_imu_message in E. opn E. destruct x1. injection E as <-. intros. discriminate. }
    split; [apply Forall_forall; intros m M; apply F; exact M|]. apply no_cameras. apply Forall_forall. intros m M. apply (F m M).
Qed.

Lemma gps_rest : forall w t c d ms w' t' rem, add_gps ecef_to_lla w t (c, d) = OK (ms, w', t') -> now w' t' ->
  gc_no_errors c = true -> tr_body t = tr_body tF ->
  (forall h y, GetLocalHeading tF = OK h -> enu_to_ecef (local_to_enu (vadd p (qrot q (gp_pos (gc_par c)))) h) (GetLocalPosition tF) = OK y ->
     lla_to_ecef (ecef_to_lla y) = OK y) ->
  ready true rem w -> ready true rem w' /\ Forall clean ms /\ in_order ms.
Proof.
  intros w t c d ms w' t' rem H C NE BT Loc [R1 [R2 [R3 R4]]]. unfold add_gps in H. opn H. destruct x as [[[id s] cn] e]. opn H. opn H. injection H as <- <- <-.
  destruct (gps_new_is _ _ _ _ _ _ _ B) as [-> [N1 [N2 [N3 [S1 S2]]]]]. cbn [install] in C. unfold now in C. cbn [w_cnt] in C. rewrite N1 in C.
  destruct C as [_ [_ [C6 [C7 [C _]]]]]. destruct (C (S (n_sensors (w_cnt w))) (le_n _)) as [_ [_ C1]].
  unfold sim_gps_new, set_gps in C1. rewrite NE in C1. cbn in C1, C6, C7. rewrite mfind_mset_eq in C1.
  destruct (R4 eq_refl) as [L1 [L2 L3]].
  split; [split; [|split; [|split]]|].
  1-2: destruct (build_step (fun a => (a, a)) (fun l => l) (fun v => v) (fun _ => qid) (fun _ v => v) tF p q w (ENewGps (gc_par c))
      (install w (S (n_sensors (w_cnt w)), s, cn, e)) R1 R2) as [X1 X2];
    [cbn [told]; unfold GetGpsPosition, tget; rewrite C1; auto|cbn [wstep]; rewrite B; reflexivity|assumption].
  - intros k I. cbn [install w_ekf]. apply S2. apply R3. exact I.
  - cbn [install w_ekf]. eapply refd_settled; eauto.
  - assert (F : forall m, In m x0 -> clean m /\ forall id t f tr b, m <> MCam id t f tr b).
    { intros m M. destruct (mapM_all _ _ _ _ _ B1 m M) as [[i time] [_ E]]. cbn [fst snd] in E. rewrite NE in E. split.
      - pose proof E as E'. unfold sim_gps_message in E'. do 5 opn E'. injection E' as <-. cbn [clean]. split.
        + intros a h y G1 G2 G3. unfold GetGpsPosition, tget in G1. rewrite C1 in G1. injection G1 as <-. eapply Loc; eauto.
        + exists (gc_lla_error c), (dr_vec d i). rewrite <- E. unfold sim_gps_message, GetGpsPosition, tget, sim_gps_new, set_gps, GetLocalHeading, GetLocalPosition.
          cbn [tr_body tr_gps_pos tr_heading tr_ref]. rewrite C1, !mfind_mset_eq, <- BT, C6, C7. reflexivity.
      - unfold sim_gps_message in E. do 5 opn E. injection E as <-. intros. discriminate. }
    split; [apply Forall_forall; intros m M; apply F; exact M|]. apply no_cameras. apply Forall_forall. intros m M. apply (F m M).
Qed.

Lemma view_same : forall t id f f' time v, tr_body t = tr_body tF ->
  mfind id (tr_cam_pos t) = mfind id (tr_cam_pos tF) -> mfind id (tr_cam_ang t) = mfind id (tr_cam_ang tF) ->
  mfind id (tr_cam_intr t) = mfind id (tr_cam_intr tF) -> sim_view pinhole t id f time = OK v ->
  exists v', sim_view pinhole tF id f' time = OK v' /\ vw_project v' = vw_project v.
Proof.
  intros t id f f' time v BT E1 E2 E3 H. unfold sim_view, GetCameraPosition, GetCameraAngularPosition, tget in *. rewrite BT, E1, E2 in H.
  opn H. opn H. opn H. opn H. injection H as <-. rewrite B, B0, B1, B2. cbn [bind]. eexists. split; [reflexivity|]. cbn [vw_project].
  unfold GetCameraIntrinsics, mget. rewrite E3. reflexivity.
Qed.
Definition camera_board_ids (boards : list (string * board_cfg)) (c : cam_cfg) : list nat :=
  match cc_board c with
  | Some n => match named n boards with Some b => [fp_id (bc_par b)] | None => [] end
  | None => []
  end.
Lemma cam_rest : forall b trackers boards w t c d ms w' t' rem, add_cam pinhole trackers boards w t (c, d) = OK (ms, w', t') -> now w' t' ->
  known (tr_features t) -> tr_body t = tr_body tF ->
  cc_no_errors c = true -> (0 < cp_rate (cc_par c))%R -> qnorm2 (cp_ang (cc_par c)) = 1%R ->
  (forall n x, cc_board c = Some n -> named n boards = Some x -> qnorm2 (fp_ang (bc_par x)) = 1%R /\
     representable (qmul (qmul (qinv (cp_ang (cc_par c))) (qinv q)) (fp_ang (bc_par x)))) ->
  NoDup (camera_board_ids boards c ++ rem) ->
  ready b (camera_board_ids boards c ++ rem) w -> ready b rem w' /\ Forall clean ms /\ in_order ms.
Proof.
  intros b trackers boards w t c d ms w' t' rem H C K BT NE PR U Bd ND [R1 [R2 [R3 R4]]].
  destruct (cam_inv _ _ _ _ _ _ _ _ _ _ H) as [tk [bd [ts [fs [id [s [cnt [e [times [cnt' [C1 [C2 [C3 [C4 [C5 [C6 [C7 [C8 ->]]]]]]]]]]]]]]]]]].
  destruct (camera_new_is _ _ _ _ _ _ _ _ _ C5) as [_ [N1 [N2 [N3 [S1 S2]]]]].
  set (Q := fun (x : V3) (pt : FeaturePoint) => exists v, sim_view pinhole tF id (fun _ => []) (fp_time pt) = OK v /\
    vw_project v x = (kp_x (fp_kp pt), kp_y (fp_kp pt))).
  pose proof (frames_made Q (match tk with Some a => Nat.max 1 (tc_max_len a) | None => 0 end) _ _ _ _ _ _ _ _ _ _ _ _ [] C8) as FM.
  assert (FM' := FM). rewrite NE in C7.
  (* the counters first *)
  assert (CT : exists f, t' = set_features (cam_truth c d w t tk bd) f).
  { destruct (frames_made (fun _ _ => True) (match tk with Some a => Nat.max 1 (tc_max_len a) | None => 0 end) _ _ _ _ _ _ _ _ _ _ _ _ [] C8) as [_ [_ [_ [X _]]]].
    - rewrite cam_truth_features. exact K.
    - intros k st E. unfold cam_tracker in E. destruct tk as [a|]; [|discriminate]. injection E as <- <-. apply ready_new. lia.
    - constructor.
    - auto.
    - exact X. }
  destruct CT as [f ->].
  assert (CN : n_sensors cnt' = n_sensors cnt /\ n_trackers cnt' = n_trackers cnt).
  { destruct (frames_made (fun _ _ => True) (match tk with Some a => Nat.max 1 (tc_max_len a) | None => 0 end) _ _ _ _ _ _ _ _ _ _ _ _ [] C8) as [X [Y _]]; auto.
    - rewrite cam_truth_features. exact K.
    - intros k st E. unfold cam_tracker in E. destruct tk as [a|]; [|discriminate]. injection E as <- <-. apply ready_new. lia. }
  destruct CN as [M1 M2].
  unfold now in C. cbn [w_cnt] in C. rewrite M1, M2, N1, N2 in C. destruct C as [_ [_ [_ [_ [Cs Cb]]]]].
  destruct (Cs id ltac:(lia)) as [_ [[V1 [V2 V3]] _]].
  assert (W : mfind id (tr_cam_pos (cam_truth c d w t tk bd)) = Some (cp_pos (cc_par c)) /\
              mfind id (tr_cam_ang (cam_truth c d w t tk bd)) = Some (cp_ang (cc_par c)) /\
              mfind id (tr_cam_intr (cam_truth c d w t tk bd)) = Some (cp_intr (cc_par c)) /\
              tr_body (cam_truth c d w t tk bd) = tr_body t).
  { unfold cam_truth, cam_board, sim_cam_new, sim_board_new. rewrite NE, <- C6.
    destruct bd as [b0|]; cbv zeta; cbn [bc_no_errors]; [destruct (bc_no_errors b0 || true)|]; cbn [set_cam set_board tr_cam_pos tr_cam_ang tr_cam_intr tr_body];
      rewrite ?mfind_mset_eq; auto. }
  destruct W as [W1 [W2 [W3 W4]]]. cbn [set_features tr_cam_pos tr_cam_ang tr_cam_intr] in V1, V2, V3.
  assert (BE : forall k x, cam_board c w tk bd = Some (k, x) -> bc_no_errors x = true /\
     GetBoardPosition tF k = OK (fp_pos (bc_par x)) /\ GetBoardOrientation tF k = OK (fp_ang (bc_par x)) /\
     (exists n x0, cc_board c = Some n /\ named n boards = Some x0 /\ bc_par x = bc_par x0) /\
     mfind k (tr_board_pos (cam_truth c d w t tk bd)) = Some (fp_pos (bc_par x)) /\ mfind k (tr_board_ang (cam_truth c d w t tk bd)) = Some (fp_ang (bc_par x))).
  { intros k x E. pose proof E as E'. unfold cam_board in E. destruct bd as [x0|]; [|discriminate]. injection E as <- <-. cbn [bc_no_errors bc_par].
    rewrite NE, orb_true_r. split; [reflexivity|].
    assert (LF : n_trackers (w_cnt w) + List.length ts + List.length fs = S (n_trackers (w_cnt w)) + match tk with None => 0 | Some _ => 1 end).
    { rewrite C3, C4. cbn [List.length]. lia. }
    rewrite LF in Cb. destruct (Cb _ (le_n _)) as [P1 P2].
    assert (T : cam_truth c d w t tk (Some x0) = set_board (sim_cam_new t (S (n_sensors (w_cnt w))) (cc_no_errors c) (cc_par c) (cc_pos_error c) (dr_new d) (dr_new_rot d))
      (S (n_trackers (w_cnt w)) + match tk with None => 0 | Some _ => 1 end) (fp_pos (bc_par x0)) (fp_ang (bc_par x0))).
    { unfold cam_truth, cam_board. cbv zeta. cbn [bc_no_errors bc_par]. unfold sim_board_new. rewrite NE, orb_true_r. reflexivity. }
    rewrite T in P1, P2. cbn [set_features set_board tr_board_pos tr_board_ang] in P1, P2. rewrite mfind_mset_eq in P1, P2.
    unfold GetBoardPosition, GetBoardOrientation, tget. cbn [Nat.add] in P1, P2, T |- *. rewrite P1, P2. split; [reflexivity|]. split; [reflexivity|].
    split; [|rewrite T; cbn [set_board tr_board_pos tr_board_ang]; rewrite !mfind_mset_eq; auto].
    unfold chosen in C2. destruct (cc_board c) as [n|]; [|discriminate]. exists n. destruct (named n boards) as [x1|] eqn:NB; [|discriminate]. injection C2 as ->.
    exists x0. auto. }
  assert (FI : map fp_id fs = camera_board_ids boards c).
  { unfold camera_board_ids. unfold chosen in C2. rewrite C4. destruct (cc_board c) as [n|]; [|injection C2 as <-; reflexivity].
    destruct (named n boards) as [x|]; [|discriminate]. injection C2 as <-. reflexivity. }
  assert (HW : holds tF p q (install w (id, s, cnt, e)) /\ unused (S (n_sensors cnt)) (e_state e)).
  { apply (build_step (fun a => (a, a)) (fun l => l) (fun v => v) (fun _ => qid) (fun _ v => v) tF p q w (ENewCam (cc_par c) ts fs)); [exact R1|exact R2| |cbn [wstep]; rewrite C5; reflexivity].
    cbn [told]. rewrite <- C6. unfold GetCameraPosition, GetCameraAngularPosition, GetCameraIntrinsics, tget, mget. rewrite V1, V2, V3, W1, W2, W3.
    split; [reflexivity|]. split; [reflexivity|]. split; [exact U|]. split; [reflexivity|]. split; [|split].
    - intros i fp E. rewrite C4 in E. destruct bd as [x|]; [|destruct i; discriminate]. destruct i as [|i]; [|destruct i; discriminate]. injection E as <-. cbn [fp_pos fp_ang].
      destruct (BE _ _ eq_refl) as [_ [P1 [P2 [[n [x0 [Q1 [Q2 Q3]]]] _]]]]. cbn [bc_par] in P1, P2, Q3.
      rewrite Nat.add_0_r, C3. split; [exact P1|]. split; [exact P2|]. rewrite Q3. apply (Bd n x0 Q1 Q2).
    - rewrite FI. clear - ND. induction (camera_board_ids boards c) as [|y l IH]; [constructor|]. cbn in ND. inversion ND as [|? ? A B]; subst.
      constructor; [|auto]. intros I. apply A. apply in_or_app. left. exact I.
    - intros fp I. apply R3. apply in_or_app. left. rewrite <- FI. apply in_map. exact I. }
  destruct HW as [HW1 HW2]. destruct FM as [_ [_ [_ [_ [F [_ Tm]]]]]].
  { rewrite cam_truth_features. exact K. }
  { intros k st E. unfold cam_tracker in E. destruct tk as [a|]; [|discriminate]. injection E as <- <-. apply ready_new. lia. }
  { constructor. }
  { intros k st E j time v n x frame I VW. unfold Q. cbn [fp_time fp_kp].
    destruct (view_same _ _ _ (fun _ => []) _ _ (eq_trans W4 BT) (eq_sym V1) (eq_sym V2) (eq_sym V3) VW) as [v' [V' PE]].
    exists v'. split; [exact V'|]. rewrite PE. unfold cam_tracker in E. destruct tk as [a|]; [|discriminate]. injection E as <- <-.
    cbn [sim_tracker_new st_no_errors]. rewrite NE, orb_true_r. unfold key_point. destruct (vw_project v x); reflexivity. }
  split; [split; [|split; [|split]]|split].
  - destruct HW1 as [X1 [X2 X3]]. split; [exact X1|]. split; [exact X2|]. exact X3.
  - cbn [w_cnt w_ekf]. rewrite M1. exact HW2.
  - cbn [w_ekf]. intros k I. apply S2.
    + rewrite FI. intros J. clear - ND I J. induction (camera_board_ids boards c) as [|y l IH]; [destruct J|]. cbn in ND. inversion ND as [|? ? A B]; subst.
      destruct J as [->|J]; [apply A; apply in_or_app; right; exact I|auto].
    + apply R3. apply in_or_app. right. exact I.
  - cbn [w_ekf]. eapply refd_settled; eauto.
  - eapply Forall_impl; [|exact F]. intros m [tm [fr [tr [bs [-> [_ [T1 T2]]]]]]]. cbn [clean]. split; [exact T1|].
    intros x I D DE. destruct (T2 x I) as [k [b0 [j [X [E1 [-> E2]]]]]]. cbn [fst snd] in *. injection DE as <-.
    destruct (BE _ _ E1) as [P0 [P1 [P2 [[n [x0 [Q1 [Q2 Q3]]]] [P3 P4]]]]]. rewrite P0 in E2.
    assert (E3 : sim_board_message tF k id true (bc_t_error b0) (bc_r_error b0) (dr_vec d j) (dr_rot d j) tm = OK X).
    { rewrite <- E2. unfold sim_board_message. rewrite P1, P2, W4, BT. unfold GetBoardPosition, GetBoardOrientation, GetCameraPosition, GetCameraAngularPosition, tget in *.
      rewrite V1, V2, P3, P4. reflexivity. }
    split; [|exists (bc_t_error b0), (bc_r_error b0), (dr_vec d j), (dr_rot d j); exact E3].
    unfold sim_board_message in E3. rewrite P1, P2 in E3. destruct Still as [_ St]. destruct (St tm) as [T3 [_ [T4 _]]]. rewrite T3, T4 in E3.
    unfold GetCameraPosition, GetCameraAngularPosition, tget in E3. rewrite V1, V2, W1, W2 in E3. cbn [bind] in E3. injection E3 as <-. cbn [bd_ang].
    rewrite Q3. apply (Bd n x0 Q1 Q2).
  - intros i. assert (SS : StronglySorted Rlt (map msg_time ms)) by (rewrite Tm; eapply times_sorted; eauto).
    clear - SS. induction ms as [|m ms IH]; [constructor|]. cbn [map] in SS. inversion SS as [|? ? A B]; subst. cbn [filter].
    destruct (of_camera i m); [|auto]. cbn [map]. constructor; [auto|]. rewrite Forall_map in B |- *. rewrite Forall_forall in *.
    intros y Y. apply filter_In in Y. apply B. apply Y.
Qed.
End Rest.

Lemma ready_bump : forall tF p q b rem n w, ready tF p q b rem w -> ready tF p q b rem (bump n w).
Proof.
  intros tF p q b rem n w [R1 [R2 [R3 R4]]]. split; [|split; [exact R2|split; [exact R3|exact R4]]].
  destruct R1 as [X1 [X2 X3]]. split; [exact X1|]. split; [exact X2|]. intros id s M. specialize (X3 id s M).
  destruct s; exact X3.
Qed.
Lemma no_ids : forall A (l : list A), flat_map (fun _ => @nil nat) l = [].
Proof. induction l; [reflexivity|exact IHl]. Qed.
Lemma setup_rest : forall ecef_to_lla p q c ms w t, resting ecef_to_lla p q c -> sim_setup pinhole ecef_to_lla c = OK (ms, w, t) ->
  still t p q /\ holds t p q w /\ Forall (clean ecef_to_lla t p q) ms /\ in_order ms.
Proof.
  intros g p q c ms w t [RE RS RC RW RI RM RB RG] H.
  destruct (setup_inv _ _ _ _ _ _ H) as [t0 [m1 [w1 [t1 [m2 [w2 [t2 [m3 [T [A [B [C ->]]]]]]]]]]]].
  set (L := longest_track c) in *.
  assert (HG1 : forall w t a ms w' t', In a (sc_imus c) -> known (tr_features t) -> add_imu w t a = OK (ms, w', t') -> grows L w t ms w' t')
    by (intros; eapply imu_grows; eauto).
  assert (HG2 : forall w t a ms w' t', In a (sc_cams c) -> known (tr_features t) -> add_cam pinhole (sc_trackers c) (sc_boards c) w t a = OK (ms, w', t') -> grows L w t ms w' t').
  { intros. eapply cam_grows; [|eassumption|eassumption]. intros n a0 E. pose proof (longest_ge c n a0 E). unfold L. lia. }
  assert (HG3 : forall w t a ms w' t', In a (sc_gps c) -> known (tr_features t) -> add_gps g w t a = OK (ms, w', t') -> grows L w t ms w' t')
    by (intros; eapply gps_grows; eauto).
  assert (K0 := truth_known _ _ T). pose proof (grows_all _ _ _ _ _ _ _ _ _ HG1 K0 A) as G1.
  assert (K1 : known (tr_features t1)) by apply G1. pose proof (grows_all _ _ _ _ _ _ _ _ _ HG2 K1 B) as G2.
  assert (K2 : known (tr_features t2)) by apply G2. pose proof (grows_all _ _ _ _ _ _ _ _ _ HG3 K2 C) as G3.
  assert (C3 : now t w t) by apply covers_refl.
  assert (C2 : now t w2 t2) by apply G3.
  assert (C1 : now t w1 t1).
  { eapply covers_trans; [apply G2|]. eapply covers_less; [| |exact C2]; apply G2. }
  assert (C0 : tr_body t = tr_body t0 /\ tr_ref t = true_ref c /\ tr_heading t = Some (true_heading c)).
  { destruct C1 as [X1 [_ [X2 [X3 _]]]]. destruct G1 as [_ [_ [_ [_ [[Y1 [_ [Y2 [Y3 _]]]] _]]]]]. rewrite X1, X2, X3, Y1, Y2, Y3. auto. }
  destruct C0 as [Z1 [Z2 Z3]].
  assert (St : still t p q). { specialize (RE _ T). unfold still in *. rewrite Z1. exact RE. }
  split; [exact St|].
  set (b := match sc_gps c with [] => false | _ => true end).
  assert (R0 : ready t p q b (board_ids c ++ []) (sim_start c)).
  { split; [|split; [|split]].
    - destruct RS as [B1 [B2 [B3 [B4 [B5 B6]]]]]. split; [|split; [|discriminate]].
      + unfold rests, sim_start. cbn [w_ekf world_init Initialize e_state EKF_init with_state default_state s_body s_aug]. cbn.
        repeat (split; [assumption|]). intros k l a [].
      + cbn. unfold sim_params. destruct (sc_trackers c); exact RC.
    - intros k _. auto.
    - intros k _. reflexivity.
    - intros BT. unfold b in BT. destruct (sc_gps c) as [|x l] eqn:EG; [discriminate|].
      destruct (RG x (or_introl eq_refl)) as [_ [P1 [P2 [P3 _]]]]. unfold sim_start, GetLocalPosition, GetLocalHeading.
      rewrite Z2, Z3, P2, P3. split; [|split; reflexivity].
      change (match p_gps_init (sim_params c) with GConstant => true | _ => false end = true).
      unfold sim_params. destruct (sc_trackers c); cbn [p_gps_init]; rewrite P1; reflexivity. }
  destruct (rest_all g t p q _ L add_imu (fun _ => []) b (sc_imus c) HG1) with (rem := board_ids c ++ []) (w := sim_start c)
    (t := set_local t0 (true_ref c) (true_heading c)) (ms := m1) (w' := w1) (t' := t1) as [R1 [F1 O1]]; auto.
  { intros w' t' [ic d] ms' w'' t'' rem I K E N BT _ R. destruct (RI _ I) as [Q1 [Q2 [Q3 Q4]]]. eapply imu_rest; eauto. }
  { rewrite no_ids, app_nil_r. exact RB. }
  { rewrite no_ids. exact R0. }
  destruct (rest_all g t p q _ L (add_cam pinhole (sc_trackers c) (sc_boards c)) (fun x => camera_board_ids (sc_boards c) (fst x)) b (sc_cams c) HG2) with (rem := @nil nat) (w := bump L w1)
    (t := t1) (ms := m2) (w' := w2) (t' := t2) as [R2 [F2 O2]]; auto.
  { intros w' t' [cc d] ms' w'' t'' rem I K E N BT ND R. destruct (RM _ I) as [Q1 [Q2 [Q3 Q4]]]. eapply cam_rest; eauto. }
  { rewrite app_nil_r. exact RB. }
  assert (X : holds t p q w /\ Forall (clean g t p q) m3 /\ in_order m3).
  { destruct (sc_gps c) as [|x l] eqn:EG.
    - cbn [add_all] in C. injection C as <- <- <-. split; [apply R2|]. split; [constructor|intros i; constructor].
    - rewrite <- EG in *. destruct (rest_all g t p q _ L (add_gps g) (fun _ => []) true (sc_gps c) HG3) with (rem := @nil nat) (w := w2)
        (t := t2) (ms := m3) (w' := w) (t' := t) as [R3 [F3 O3]]; auto.
      + intros w' t' [gc d] ms' w'' t'' rem I K E N BT _ R. destruct (RG _ I) as [Q1 [_ [Q2 [Q3 Q4]]]]. cbn [fst] in *. eapply gps_rest; eauto.
        unfold GetLocalHeading, GetLocalPosition. rewrite Z2, Z3, Q2, Q3. intros h y HE. injection HE as <-. apply Q4.
      + rewrite no_ids. constructor.
      + rewrite no_ids. exact R2.
      + split; [apply R3|]. auto. }
  destruct X as [X1 [X2 X3]]. split; [exact X1|]. split; [apply Forall_app; split; [apply Forall_app|]; auto|].
  apply in_order_app; [apply in_order_app|exact X3|]; auto.
  - intros x y I J. destruct G1 as [_ [_ [_ [_ [_ [G16 _]]]]]]. destruct G2 as [_ [_ [_ [_ [_ [G26 _]]]]]]. rewrite Forall_forall in G16, G26.
    specialize (G16 x I). specialize (G26 y J). cbn [bump w_cnt] in *. lia.
  - intros x y I J. destruct G1 as [_ [_ [_ [_ [_ [G16 _]]]]]]. destruct G2 as [Gn [_ [_ [_ [_ [G26 _]]]]]]. destruct G3 as [_ [_ [_ [_ [_ [G36 _]]]]]].
    rewrite Forall_forall in G16, G26, G36. specialize (G36 y J). cbn [bump w_cnt] in *. apply in_app_or in I.
    destruct I as [I|I]; [specialize (G16 x I)|specialize (G26 x I)]; cbv beta in *; lia.
Qed.

Section Whole.
Variable svd : m2 -> m2 * m2.
Variable hull : list (Z * Z) -> list (Z * Z).
Variable ecef_to_lla : V3 -> V3.
Variable mat_quat : mat R -> quat.
Variable solve : mat R -> V3 -> V3.
Lemma delivered_exact : forall t p q l w, Forall (clean ecef_to_lla t p q) l ->
  each_delivery svd hull ecef_to_lla mat_quat solve tracks_stored w l -> exact_run ecef_to_lla svd hull mat_quat solve t p q w l.
Proof.
  intros t p q. induction l as [|m l IH]; intros w F D; cbn [exact_run]; [exact I|]. inversion F as [|? ? F1 F2]; subst.
  destruct D as [D1 D2]. split; [apply clean_exact; auto|]. auto.
Qed.
Lemma replay_is_run : forall l w, replay svd hull ecef_to_lla mat_quat solve w l = wrun svd hull ecef_to_lla mat_quat solve w (map EMsg l).
Proof.
  induction l as [|m l IH]; intros w; [reflexivity|]. cbn [replay map wrun wstep].
  destruct (deliver svd hull ecef_to_lla mat_quat solve w m); [apply IH|reflexivity].
Qed.
Theorem sim_rest : forall p q c ms w t sm w', reads_rotations mat_quat -> resting ecef_to_lla p q c ->
  sim_setup pinhole ecef_to_lla c = OK (ms, w, t) -> sort_result ms sm ->
  replay svd hull ecef_to_lla mat_quat solve w sm = OK w' ->
  still t p q /\ holds t p q w' /\ same_but_clones (e_state (w_ekf w)) (e_state (w_ekf w')).
Proof.
  intros p q c ms w t sm w' RR Rs S So Rp. destruct (setup_rest _ _ _ _ _ _ _ Rs S) as [St [Ho [Cl Or]]].
  split; [exact St|]. rewrite replay_is_run in Rp. eapply run_still; eauto. apply delivered_exact.
  - apply Forall_forall. intros m M. rewrite Forall_forall in Cl. apply Cl. eapply Permutation_in; [apply Permutation_sym; apply So|exact M].
  - eapply all_stored; eauto. apply Rs.
Qed.
End Whole.
