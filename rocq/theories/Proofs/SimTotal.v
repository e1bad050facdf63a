(** The simulation program completes. *)
From Coq Require Import Reals List Arith Bool ZArith String Lia Lra Sorted Permutation.
From Verif Require Import Base.Res Base.Mat Base.LinAlg Base.RDec Base.Geom Base.AMap Model.TypeHelper Model.Types Model.Ekf Model.Ops
  Model.MathHelper Model.GpsHelper Model.GpsUpdater Model.ImuUpdater Model.FiducialUpdater Model.MsckfUpdater
  Model.Sensors Model.Trackers Model.TruthEngine Model.SimSensors Model.Simulation Model.SimMain
  Spec.History Spec.Same Spec.Rotation Spec.Tracks Spec.AtRest Spec.Contract Spec.Callback Spec.World Spec.SimMain
  Proofs.Same Proofs.Follows Proofs.ZeroStep Proofs.BlockDiag Proofs.World Proofs.WorldFinals Proofs.Windows Proofs.Tracks Proofs.SimTracks
  Proofs.SteadyFrames Proofs.TrackFit Proofs.Sim Proofs.SimGen Proofs.SimMain Proofs.SimRest Proofs.SimLog.
Import ListNotations.
Open Scope nat_scope.

(** *** The flags of the boards *)
Definition flags (P : nat -> bool -> Prop) (e : ekf) : Prop := forall k s, mfind k (s_fid (e_state e)) = Some s -> P k (f_ext s).
Lemma flags_refresh : forall P e e', RefreshIndices e = OK e' -> flags P e -> flags P e'.
Proof.
  intros P e e' H F k s K. apply refresh_bare in H. destruct H as [B1 _]. destruct (bare_parts _ _ B1) as [_ [_ [_ [_ [Z _]]]]].
  pose proof (mfind_bare _ _ k _ _ Z) as Z2. rewrite K in Z2. destruct (mfind k (s_fid (e_state e))) as [s0|] eqn:E; [|discriminate].
  cbn in Z2. injection Z2 as _ _ _ _ _ _ ->. eapply F. exact E.
Qed.
Lemma flags_same : forall P e e', s_fid (e_state e') = s_fid (e_state e) -> flags P e -> flags P e'.
Proof. intros P e e' H F k s K. rewrite H in K. eauto. Qed.
Lemma flags_imu : forall P e id st cov e', RegisterIMU e id st cov = OK e' -> flags P e -> flags P e'.
Proof.
  intros P e id st cov e' H F. unfold RegisterIMU in H. destruct (mfind id _); [injection H as <-; exact F|].
  opn H. assert (X : s_fid (e_state x) = s_fid (e_state e)).
  { destruct (_ || _); [opn B; opn B|]; injection B as <-; reflexivity. }
  match type of H with RefreshIndices ?g = _ => assert (Y : s_fid (e_state g) = s_fid (e_state x)) by (destruct (i_ext st), (i_int st); reflexivity) end.
  eapply flags_refresh; [exact H|]. eapply flags_same; [|exact F]. congruence.
Qed.
Lemma flags_gps : forall P e id st cov e', RegisterGPS e id st cov = OK e' -> flags P e -> flags P e'.
Proof.
  intros P e id st cov e' H F. unfold RegisterGPS in H. destruct (mfind id _); [injection H as <-; exact F|].
  opn H. eapply flags_refresh; [exact H|]. eapply flags_same; [|exact F]. destruct (g_ext st); [opn B; opn B|]; injection B as <-; reflexivity.
Qed.
Lemma flags_cam : forall P e id st cov e', RegisterCamera e id st cov = OK e' -> flags P e -> flags P e'.
Proof.
  intros P e id st cov e' H F. unfold RegisterCamera in H. destruct (mfind id _); [injection H as <-; exact F|].
  opn H. cbv zeta in H. opn H. eapply flags_refresh; [exact H|]. eapply flags_same; [|exact F].
  destruct (c_ext st); [opn B0; opn B0|]; injection B0 as <-; destruct (Nat.eqb _ 0); reflexivity.
Qed.
Lemma flags_fid : forall (P : nat -> bool -> Prop) e st cov e', RegisterFiducial e st cov = OK e' -> P (f_id st) (f_ext st) -> flags P e -> flags P e'.
Proof.
  intros P e st cov e' H Hp F. unfold RegisterFiducial in H. destruct (mfind (f_id st) _); [injection H as <-; exact F|].
  opn H. eapply flags_refresh; [exact H|].
  assert (X : s_fid (e_state x) = mset (f_id st) st (s_fid (e_state e))).
  { destruct (f_ext st); [opn B; opn B|]; injection B as <-; reflexivity. }
  intros k s K. rewrite X in K. destruct (Nat.eq_dec k (f_id st)) as [->|N].
  - rewrite mfind_mset_eq in K. injection K as <-. exact Hp.
  - rewrite mfind_mset_neq in K by exact N. eauto.
Qed.
Lemma flags_fids : forall (P : nat -> bool -> Prop) fs c e cam m m' c' e', add_fiducials c e cam fs m = OK (m', c', e') ->
  Forall (fun p => P (fp_id p) (fp_ext p)) fs -> flags P e -> flags P e'.
Proof.
  intros P. induction fs as [|p fs IH]; intros c e cam m m' c' e' H F0 F; cbn [add_fiducials] in H.
  - injection H as _ _ <-. exact F.
  - inversion F0 as [|? ? F1 F2]; subst. opn H. destruct x as [[[id u] c1] e1]. unfold fid_new, new_tracker_id in B. opn B. opn B. injection B as <- <- <- <-.
    eapply IH; [exact H|exact F2|]. eapply flags_fid; [exact B1| |exact F].
    unfold fid_state_of, fid_SetIsExtrinsic. destruct (fp_ext p) eqn:E; cbn; rewrite ?E; rewrite ?E in F1; exact F1.
Qed.

(** *** Sensors *)
Lemma mapM_total : forall A B (f : A -> res B) l, (forall x, In x l -> exists y, f x = OK y) -> exists r, mapM f l = OK r.
Proof.
  intros A B f. induction l as [|a l IH]; intros H; [exists []; reflexivity|]. cbn [mapM]. destruct (H a (or_introl eq_refl)) as [y ->]. cbn [bind].
  destruct IH as [r ->]; [intros x X; apply H; right; exact X|]. cbn [bind]. eauto.
Qed.
Lemma times_total : forall ne u noise T r, (0 < r)%R -> (0 <= T)%R -> exists l, GenerateMeasurementTimes ne u noise T r = OK l.
Proof.
  intros ne u noise T r Hr HT. unfold GenerateMeasurementTimes, guard.
  assert (E1 : Reqb r 0 = false) by (unfold Reqb; destruct (Req_EM_T r 0); [lra|reflexivity]). rewrite E1. cbn [negb bind].
  assert (E2 : Rleb 0 (T * r) = true) by (unfold Rleb; destruct (Rle_dec 0 (T * r)); [reflexivity|nra]). rewrite E2. cbn [bind]. eauto.
Qed.
Definition runs_well (b : body_truth) (T : R) (ref : V3) (h : R) (t : truth) : Prop :=
  known (tr_features t) /\ tr_body t = b /\ tr_max_time t = T /\ tr_ref t = ref /\ tr_heading t = Some h.
Section Add.
Variable P : nat -> bool -> Prop.
Variables (b : body_truth) (T : R) (ref : V3) (h : R).
Hypothesis body_ok : forall time, exists l, body_columns b time l.
Hypothesis time_ok : (0 <= T)%R.
Definition built (w : world) (t : truth) : Prop := winv w /\ flags P (w_ekf w) /\ runs_well b T ref h t.
Lemma runs_covers : forall n k t t', covers n k t t' -> known (tr_features t') -> runs_well b T ref h t -> runs_well b T ref h t'.
Proof.
  intros n k t t' [C1 [C2 [C3 [C4 _]]]] K [R1 [R2 [R3 [R4 R5]]]]. split; [exact K|]. rewrite C1, C2, C3, C4. auto.
Qed.
Lemma imu_total : forall w t c d, built w t -> imu_params_ok (ic_par c) -> (0 < ic_rate c)%R ->
  exists ms w' t', add_imu w t (c, d) = OK (ms, w', t') /\ built w' t'.
Proof.
  intros w t c d [W [F R]] PO PR. destruct (imu_new_inv w (ic_par c) W PO) as [[[[id s] cn] e] [E [W' _]]].
  pose proof (imu_new_is _ _ _ _ _ _ _ E) as [I _].
  set (t1 := sim_imu_new t id (ic_no_errors c) (ic_par c) (ic_pos_error c) (ic_acc_bias_error c) (ic_omg_bias_error c) (dr_new d) (dr_new_rot d)).
  assert (R1 : runs_well b T ref h t1).
  { eapply runs_covers; [apply covers_imu with (n := 0) (k := 0); rewrite I; lia| |exact R]. unfold sim_imu_new. destruct (ic_no_errors c); apply R. }
  destruct R1 as [K1 [K2 [K3 [K4 K5]]]].
  destruct (times_total (ic_no_errors c) (dr_offset d) (dr_jitter d) T (ic_rate c) PR time_ok) as [times TE].
  destruct (mapM_total _ _ (fun it => sim_imu_message t1 id (ic_no_errors c) (ic_acc_error c) (ic_omg_error c) (dr_vec d (fst it)) (snd it)) (indexed times)) as [ms ME].
  { intros [i time] _. cbn [fst snd]. unfold sim_imu_message, sim_imu_measure. rewrite K2. destruct (body_ok time) as [l [p [v [a [q [om [al [E1 [E2 [E3 [E4 [E5 [E6 _]]]]]]]]]]]]].
    rewrite E3, E4, E5, E6. cbn [bind]. unfold GetImuPosition, GetImuAngularPosition, GetImuAccelerometerBias, GetImuGyroscopeBias, tget, t1, sim_imu_new.
    destruct (ic_no_errors c); cbn [set_imu tr_imu_pos tr_imu_ang tr_acc_bias tr_omg_bias]; rewrite !mfind_mset_eq; cbn [bind]; eauto. }
  assert (HE : add_imu w t (c, d) = OK (ms, install w (id, s, cn, e), t1)).
  { unfold add_imu. rewrite E. cbn [bind]. fold t1. rewrite K3, TE. cbn [bind]. rewrite ME. reflexivity. }
  exists ms, (install w (id, s, cn, e)), t1. split; [exact HE|]. split; [exact W'|]. split; [|repeat split; assumption].
  cbn [install w_ekf]. unfold imu_new, new_sensor_id in E. opn E. opn E. injection E as <- <- <- <-. eapply flags_imu; eauto.
Qed.
Lemma gps_total : forall g w t c d, built w t -> gps_params_ok (gc_par c) -> (0 < gc_rate c)%R -> on_earth ref ->
  exists ms w' t', add_gps g w t (c, d) = OK (ms, w', t') /\ built w' t'.
Proof.
  intros g w t c d [W [F R]] PO PR OE. destruct (gps_new_inv w (gc_par c) W PO) as [[[[id s] cn] e] [E [W' _]]].
  pose proof (gps_new_is _ _ _ _ _ _ _ E) as [I _].
  set (t1 := sim_gps_new t id (gc_no_errors c) (gc_par c) (gc_pos_error c) (dr_new d)).
  assert (R1 : runs_well b T ref h t1).
  { eapply runs_covers; [apply covers_gps with (n := 0) (k := 0); rewrite I; lia| |exact R]. apply R. }
  destruct R1 as [K1 [K2 [K3 [K4 K5]]]].
  destruct (times_total (gc_no_errors c) (dr_offset d) (dr_jitter d) T (gc_rate c) PR time_ok) as [times TE].
  destruct (mapM_total _ _ (fun it => sim_gps_message g t1 id (gc_no_errors c) (gc_lla_error c) (dr_vec d (fst it)) (snd it)) (indexed times)) as [ms ME].
  { intros [i time] _. cbn [fst snd]. unfold sim_gps_message. rewrite K2. destruct (body_ok time) as [l [p [v [a [q [om [al [E1 [E2 [E3 [E4 [E5 [E6 _]]]]]]]]]]]]].
    rewrite E1, E4. cbn [bind]. unfold GetLocalHeading, GetLocalPosition. rewrite K4, K5. unfold GetGpsPosition, tget, t1, sim_gps_new.
    cbn [set_gps tr_gps_pos]. rewrite !mfind_mset_eq. cbn [bind]. unfold enu_to_lla, enu_to_ecef, lla_to_ecef.
    destruct OE as [[O1 O2] [O3 O4]].
    assert (X1 : Rltb (vx ref) (-90) = false) by (apply Rltb_false; exact O1). assert (X2 : Rltb 90 (vx ref) = false) by (apply Rltb_false; exact O2).
    assert (X3 : Rltb (vy ref) (-180) = false) by (apply Rltb_false; exact O3). assert (X4 : Rltb 180 (vy ref) = false) by (apply Rltb_false; exact O4).
    rewrite X1, X2, X3, X4. cbn [orb bind]. eauto. }
  assert (HE : add_gps g w t (c, d) = OK (ms, install w (id, s, cn, e), t1)).
  { unfold add_gps. rewrite E. cbn [bind]. fold t1. rewrite K3, TE. cbn [bind]. rewrite ME. reflexivity. }
  exists ms, (install w (id, s, cn, e)), t1. split; [exact HE|]. split; [exact W'|]. split; [|repeat split; assumption].
  cbn [install w_ekf]. unfold gps_new, new_sensor_id in E. opn E. injection E as <- <- <- <-. eapply flags_gps; eauto.
Qed.

Definition shows (id : nat) (board : option (nat * board_cfg)) (t : truth) : Prop :=
  (exists pc qc, GetCameraPosition t id = OK pc /\ GetCameraAngularPosition t id = OK qc) /\
  (forall k x, board = Some (k, x) -> exists pf qf, GetBoardPosition t k = OK pf /\ GetBoardOrientation t k = OK qf).
Lemma frames_total : forall project id d board times cn t i trk, runs_well b T ref h t -> shows id board t ->
  (forall k s, trk = Some (k, s) -> wfm (st_map s) /\ held (tr_features t) (st_map s)) ->
  exists ms cn' t', sim_frames project id d board cn t i trk times = OK (ms, cn', t') /\ runs_well b T ref h t' /\
    n_sensors cn' = n_sensors cn.
Proof.
  intros project id d board. induction times as [|time times IH]; intros cn t i trk R S Tr; cbn [sim_frames].
  - exists [], cn, t. auto.
  - destruct R as [K1 [K2 [K3 [K4 K5]]]]. destruct S as [[pc [qc [G1 G2]]] S2].
    unfold GenerateFrameID. destruct (body_ok time) as [l [p [v [a [q [om [al [E1 [E2 [E3 [E4 [E5 [E6 _]]]]]]]]]]]]].
    assert (M : exists tracks trk1 f1, (match trk with
        | None => OK ([], None, t)
        | Some (k, s) => let* v := sim_view project t id (dr_feat d i) time in
            let* (out, s, f) := GenerateMessage s (tr_features t) time (n_frames cn) v in OK ([(k, out)], Some (k, s), set_features t f)
        end) = OK (tracks, trk1, set_features t f1) /\ known f1 /\ (forall k s, trk1 = Some (k, s) -> wfm (st_map s) /\ held f1 (st_map s))).
    { destruct trk as [[k s]|].
      - unfold sim_view. rewrite K2, E1, E4, G1, G2. cbn [bind]. destruct (Tr k s eq_refl) as [W H].
        match goal with |- context [GenerateMessage s (tr_features t) time (n_frames cn) ?vw] =>
          destruct (message_step s (tr_features t) time (n_frames cn) vw K1 W H) as [kps [f' [m1 [out [kept [_ [Kf [_ [_ [GM [_ [Wk [_ [Hk _]]]]]]]]]]]]]] end.
        rewrite GM. cbn [bind]. eexists _, _, f'. split; [reflexivity|]. split; [exact Kf|]. intros k' s' X. injection X as <- <-. auto.
      - exists [], None, (tr_features t). split; [destruct t; reflexivity|]. split; [exact K1|discriminate]. }
    destruct M as [tracks [trk1 [f1 [M1 [M2 M3]]]]]. rewrite M1. cbn [bind].
    assert (N : exists bs, (match board with
        | None => OK []
        | Some (k, x) => let* y := sim_board_message (set_features t f1) k id (bc_no_errors x) (bc_t_error x) (bc_r_error x) (dr_vec d i) (dr_rot d i) time in OK [(k, Some y)]
        end) = OK bs).
    { destruct board as [[k x]|]; [|eauto]. destruct (S2 k x eq_refl) as [pf [qf [B1 B2]]].
      unfold sim_board_message. unfold GetBoardPosition, GetBoardOrientation, GetCameraPosition, GetCameraAngularPosition in *.
      cbn [set_features tr_body tr_board_pos tr_board_ang tr_cam_pos tr_cam_ang]. rewrite B1, B2, G1, G2, K2, E1, E4. cbn [bind].
      destruct (bc_no_errors x); cbn [bind]; eauto. }
    destruct N as [bs N]. rewrite N. cbn [bind].
    match goal with |- context [sim_frames project id d board ?cn2 _ _ _ _] => set (cn1 := cn2) end. destruct (IH cn1 (set_features t f1) (S i) trk1) as [ms [cn' [t' [X1 [X2 X3]]]]].
    + repeat split; assumption.
    + split; [exists pc, qc; auto|]. intros k x E. destruct (S2 k x E) as [pf [qf Z]]. exists pf, qf. exact Z.
    + exact M3.
    + rewrite X1. cbn [bind]. eexists _, cn', t'. split; [reflexivity|]. auto.
Qed.
Lemma cam_total : forall project trackers boards w t c d, built w t -> cam_params_ok (cc_par c) -> (0 < cp_rate (cc_par c))%R ->
  (forall n, cc_tracker c = Some n -> named n trackers <> None) ->
  (forall n, cc_board c = Some n -> exists x, named n boards = Some x /\ board_ok x) ->
  (forall n x s, named n boards = Some x -> (P (fp_id (bc_par x)) s <-> s = fp_ext (bc_par x))) ->
  exists ms w' t', add_cam project trackers boards w t (c, d) = OK (ms, w', t') /\ built w' t'.
Proof.
  intros project trackers boards w t c d [W [F R]] PO PR HT HB HP. unfold add_cam.
  assert (X1 : exists tk, chosen (cc_tracker c) trackers = OK tk).
  { unfold chosen. destruct (cc_tracker c) as [n|]; [|eauto]. specialize (HT n eq_refl). destruct (named n trackers); [eauto|congruence]. }
  destruct X1 as [tk X1]. rewrite X1. cbn [bind].
  assert (X2 : exists bd, chosen (cc_board c) boards = OK bd /\ forall x, bd = Some x -> board_ok x /\ exists n, named n boards = Some x).
  { unfold chosen. destruct (cc_board c) as [n|]; [|exists None; split; [reflexivity|discriminate]].
    destruct (HB n eq_refl) as [x [Y1 Y2]]. rewrite Y1. exists (Some x). split; [reflexivity|]. intros y Y. injection Y as <-. eauto. }
  destruct X2 as [bd [X2 X3]]. rewrite X2. cbn [bind]. cbv zeta.
  set (ts := match tk with None => [] | Some a => [mkTP (cp_ext (cc_par c)) (tc_min_dist a) (tc_px a)] end).
  set (fs := match bd with None => [] | Some x => [mkFidP (fp_id (bc_par x)) (fp_ext (bc_par x)) (cp_ext (cc_par c)) (fp_pos (bc_par x)) (fp_ang (bc_par x)) (fp_var (bc_par x))] end).
  destruct (cam_new_inv w (cc_par c) ts fs W PO) as [[[[id s] cn] e] [E [W' _]]].
  { unfold ts. destruct tk; repeat constructor. cbn. intros X; exact X. }
  { unfold fs. destruct bd as [x|]; constructor; [|constructor]. destruct (X3 x eq_refl) as [[Y1 Y2] [n Y3]].
    split; [exact Y1|]. split; [exact Y2|]. split; [intros X; exact X|]. split.
    - cbn [fp_id fp_ext]. intros s Hs. apply (HP n x); [exact Y3|]. apply F with (k := fp_id (bc_par x)). exact Hs.
    - intros q [<-|[]] _. reflexivity. }
  rewrite E. cbn [bind]. destruct (camera_new_is _ _ _ _ _ _ _ _ _ E) as [-> _].
  assert (LL : List.length ts = match tk with None => 0 | Some _ => 1 end) by (unfold ts; destruct tk; reflexivity). rewrite LL.
  fold (cam_tracker c w tk). fold (cam_board c w tk bd). change (S (n_trackers (w_cnt w)) + match tk with Some _ => 1 | None => 0 end) with (S (n_trackers (w_cnt w)) + match tk with Some _ => 1 | None => 0 end).
  fold (cam_truth c d w t tk bd).
  assert (R1 : runs_well b T ref h (cam_truth c d w t tk bd)).
  { eapply runs_covers; [apply cam_truth_covers| |exact R]. rewrite cam_truth_features. apply R. }
  destruct R1 as [K1 [K2 [K3 [K4 K5]]]].
  destruct (times_total (cc_no_errors c) (dr_offset d) (dr_jitter d) T (cp_rate (cc_par c)) PR time_ok) as [times TE].
  rewrite K3, TE. cbn [bind].
  destruct (frames_total project (S (n_sensors (w_cnt w))) d (cam_board c w tk bd) times cn (cam_truth c d w t tk bd) 0 (cam_tracker c w tk)) as [ms [cn' [t' [Y1 [Y2 Y3]]]]].
  { repeat split; assumption. }
  { unfold shows, GetCameraPosition, GetCameraAngularPosition, GetBoardPosition, GetBoardOrientation. split.
    - unfold cam_truth, cam_board, sim_cam_new, sim_board_new. destruct bd as [x|]; cbn [bc_no_errors]; repeat (match goal with |- context [if ?z then _ else _] => destruct z end);
        unfold tget; cbn [set_cam set_board tr_cam_pos tr_cam_ang]; rewrite !mfind_mset_eq; eauto.
    - intros k x E0. unfold cam_truth. cbv zeta. rewrite E0. unfold sim_cam_new, sim_board_new. repeat (match goal with |- context [if ?z then _ else _] => destruct z end);
        unfold tget; cbn [set_cam set_board tr_board_pos tr_board_ang]; rewrite !mfind_mset_eq; eauto. }
  { intros k s0 E0. unfold cam_tracker in E0. destruct tk as [a|]; [|discriminate]. injection E0 as <- <-. split; [apply wfm_nil|intros k t0 []]. }
  rewrite Y1. cbn [bind]. eexists _, _, _. split; [reflexivity|]. split; [|split].
  - destruct W' as [Z1 Z2 Z3]. constructor; cbn [install w_ekf w_cnt w_sensors] in *; [exact Z1|rewrite Y3; exact Z2|exact Z3].
  - cbn [install w_ekf]. unfold camera_new, cam_new, new_sensor_id in E. opn E. destruct x as [[i1 c1] e1]. opn B. injection B as <- <- <-.
    destruct (add_trackers _ _ _ _) as [trs c2]. opn E. destruct x0 as [[fids c3] e3]. injection E as <- <- <-.
    eapply flags_fids; [exact B| |eapply flags_cam; eauto]. unfold fs. destruct bd as [x0|]; [|constructor]. constructor; [|constructor].
    destruct (X3 x0 eq_refl) as [_ [n Y3']]. cbn [fp_id fp_ext]. apply (HP n x0 _ Y3'). reflexivity.
  - exact Y2.
Qed.
Lemma all_total : forall A (f : world -> truth -> A -> res (list message * world * truth)) l,
  (forall x w t, In x l -> built w t -> exists ms w' t', f w t x = OK (ms, w', t') /\ built w' t') ->
  forall w t, built w t -> exists ms w' t', add_all f w t l = OK (ms, w', t') /\ built w' t'.
Proof.
  intros A f. induction l as [|a l IH]; intros H w t B; cbn [add_all]; [eauto 6|].
  destruct (H a w t (or_introl eq_refl) B) as [m1 [w1 [t1 [E1 B1]]]]. rewrite E1. cbn [bind].
  destruct (IH (fun x w t X => H x w t (or_intror X)) w1 t1 B1) as [m2 [w2 [t2 [E2 B2]]]]. rewrite E2. cbn [bind]. eauto 6.
Qed.
End Add.

Lemma setup_total : forall project g c, sound_cfg c -> exists ms w t, sim_setup project g c = OK (ms, w, t) /\ winv w /\
  exists t0, truth_of c = OK t0 /\ tr_body t = tr_body t0 /\ tr_max_time t = sc_max_time c.
Proof.
  intros project g c [[t0 [T0 BO]] SN ST SW SI SC SF SG]. unfold sim_setup. cbv zeta. rewrite T0. cbn [bind].
  set (P := fun k s => forall n x, named n (sc_boards c) = Some x -> fp_id (bc_par x) = k -> s = fp_ext (bc_par x)).
  assert (MT : tr_max_time t0 = sc_max_time c) by (unfold truth_of in T0; destruct (sc_engine c); try discriminate; injection T0 as <-; reflexivity).
  set (ts := set_local t0 (true_ref c) (true_heading c)).
  assert (R0 : runs_well (tr_body t0) (sc_max_time c) (true_ref c) (true_heading c) ts).
  { split; [apply truth_known; exact T0|]. repeat split; try reflexivity. exact MT. }
  fold (sim_start c).
  assert (W0 : winv (sim_start c)).
  { unfold sim_start, world_init. destruct (conf_inv (world_init (EKF_init (sim_params c) (sc_noise c) (sc_ref c) (sc_heading c))) (OInit 0 (initial_state c))) as [e' [E W]].
    - apply init_winv. exact SN.
    - exact Logic.I.
    - reflexivity.
    - cbn [step] in E. injection E as <-. exact W. }
  assert (F0 : flags P (w_ekf (sim_start c))) by (intros k s K; discriminate).
  destruct (all_total P (tr_body t0) (sc_max_time c) (true_ref c) (true_heading c) _ add_imu (sc_imus c)) with (w := sim_start c) (t := ts) as [m1 [w1 [t1 [E1 [W1 [F1 R1]]]]]].
  { intros [ic d] w t X B. destruct (SI _ X) as [Y1 Y2]. apply imu_total; auto. }
  { split; [exact W0|]. split; [exact F0|exact R0]. }
  rewrite E1. cbn [bind]. fold (bump (longest_track c) w1).
  assert (W2 : winv (bump (longest_track c) w1)).
  { destruct (conf_inv w1 (OSetLen (longest_track c)) W1 Logic.I) as [e' [E W]]; [exact SW|]. cbn [step] in E. injection E as <-. exact W. }
  destruct (all_total P (tr_body t0) (sc_max_time c) (true_ref c) (true_heading c) _ (add_cam project (sc_trackers c) (sc_boards c)) (sc_cams c)) with (w := bump (longest_track c) w1) (t := t1) as [m2 [w2 [t2 [E2 [W2' [F2 R2]]]]]].
  { intros [cc d] w t X B. destruct (SC _ X) as [Y1 [Y2 [Y3 Y4]]]. apply cam_total; auto.
    intros n x s E. split; [intros Z; apply (Z n x E eq_refl)|]. intros -> n' x' E' I. symmetry. eapply SF; eauto. }
  { split; [exact W2|]. split; [exact F1|exact R1]. }
  rewrite E2. cbn [bind].
  destruct (all_total P (tr_body t0) (sc_max_time c) (true_ref c) (true_heading c) _ (add_gps g) (sc_gps c)) with (w := w2) (t := t2) as [m3 [w3 [t3 [E3 [W3 [F3 R3]]]]]].
  { intros [gc d] w t X B. destruct (SG _ X) as [Y1 [Y2 Y3]]. apply gps_total; auto. }
  { split; [exact W2'|]. split; [exact F2|exact R2]. }
  rewrite E3. cbn [bind]. eexists _, w3, t3. split; [reflexivity|]. split; [exact W3|]. exists t0. split; [reflexivity|]. destruct R3 as [_ [R3 [R4 _]]]. auto.
Qed.

(** *** Running it *)
Definition fits (w : world) (m : message) : Prop :=
  message_ok false m /\ plain_event w (EMsg m) /\ mfind (msg_id m) (w_sensors w) <> None.
Definition fits_upto (w : world) (ms : list message) : Prop := Forall (fun m => msg_id m <= n_sensors (w_cnt w) /\ fits w m) ms.
Definition extends (w w' : world) : Prop := n_sensors (w_cnt w) <= n_sensors (w_cnt w') /\
  forall id, id <= n_sensors (w_cnt w) -> mfind id (w_sensors w') = mfind id (w_sensors w).
Lemma extends_fits : forall w w' ms, extends w w' -> fits_upto w ms -> fits_upto w' ms.
Proof.
  intros w w' ms [N S] F. eapply Forall_impl; [|exact F]. cbv beta. intros m [L [F1 [F2 F3]]]. split; [lia|]. split; [exact F1|].
  specialize (S _ L). split; [|congruence]. destruct m; cbn [plain_event msg_id] in *; rewrite ?S; exact F2.
Qed.
Lemma extends_trans : forall a b c, extends a b -> extends b c -> extends a c.
Proof. intros a b c [A1 A2] [B1 B2]. split; [lia|]. intros id H. rewrite B2 by lia. apply A2. exact H. Qed.
Lemma all_fits : forall A (f : world -> truth -> A -> res (list message * world * truth)) l,
  (forall x w t ms w' t', In x l -> f w t x = OK (ms, w', t') -> extends w w' /\ fits_upto w' ms) ->
  forall w t ms w' t', add_all f w t l = OK (ms, w', t') -> extends w w' /\ fits_upto w' ms.
Proof.
  intros A f. induction l as [|a l IH]; intros H w t ms w' t' E; cbn [add_all] in E.
  - injection E as <- <- <-. split; [split; auto|constructor].
  - opn E. destruct x as [[m1 w1] t1]. opn E. destruct x as [[m2 w2] t2]. injection E as <- <- <-.
    destruct (H a w t m1 w1 t1 (or_introl eq_refl) B) as [X1 X2].
    destruct (IH (fun x w t ms w' t' X => H x w t ms w' t' (or_intror X)) _ _ _ _ _ B0) as [Y1 Y2].
    split; [eapply extends_trans; eauto|]. apply Forall_app. split; [|exact Y2]. eapply extends_fits; eauto.
Qed.
Lemma square_ok : forall v, positive v -> noise_ok false 3 (square_diag v).
Proof.
  intros v [P1 [P2 P3]]. apply diag_noise_ok with (d := fun i => match i with 0 => (vx v * vx v)%R | 1 => (vy v * vy v)%R | _ => (vz v * vz v)%R end); [reflexivity|reflexivity| |].
  - intros i H. destruct i as [|[|i]]; nra.
  - intros i j Hi Hj. destruct i as [|[|[|i]]]; [| | |lia]; destruct j as [|[|[|j]]]; try lia; reflexivity.
Qed.
Lemma imu_fits : forall c d w t ms w' t', positive (ic_acc_error c) -> positive (ic_omg_error c) ->
  add_imu w t (c, d) = OK (ms, w', t') -> extends w w' /\ fits_upto w' ms.
Proof.
  intros c d w t ms w' t' P1 P2 H. unfold add_imu in H. opn H. destruct x as [[[id s] cn] e]. opn H. opn H. injection H as <- <- <-.
  unfold imu_new, new_sensor_id in B. opn B. opn B. injection B as <- <- <- <-. split.
  - split; [cbn; lia|]. intros i L. cbn [install w_sensors]. apply mfind_mset_neq. lia.
  - apply Forall_forall. intros m M. destruct (mapM_all _ _ _ _ _ B1 m M) as [[i time] [_ E]]. cbn [fst snd] in E. unfold sim_imu_message in E. destruct (sim_imu_measure _ _ _ _ _ _ _) as [[acc omg]|]; [|discriminate]. cbn [bind] in E. injection E as <-.
    cbn [msg_id]. split; [cbn; lia|]. split; [|split].
    + split; apply square_ok; assumption.
    + cbn [plain_event msg_id install w_sensors]. rewrite mfind_mset_eq. exact I.
    + cbn [msg_id install w_sensors]. rewrite mfind_mset_eq. discriminate.
Qed.
Lemma frames_quiet : forall project id d board times cn t i ms cn' t', sim_frames project id d board cn t i None times = OK (ms, cn', t') ->
  n_sensors cn' = n_sensors cn /\
  Forall (fun m => exists time f boards, m = MCam id time f [] boards /\ forall y, In y boards -> exists k x D, board = Some (k, x) /\ y = (k, Some D) /\
    bd_pos_error D = bc_t_error x /\ bd_ang_error D = bc_r_error x) ms.
Proof.
  intros project id d board. induction times as [|time times IH]; intros cn t i ms cn' t' H; cbn [sim_frames] in H.
  - injection H as <- <- <-. split; [reflexivity|constructor].
  - unfold GenerateFrameID in H. cbn [bind] in H. opn H. rename x into bs. opn H. destruct x as [[ms1 c1] t2]. injection H as <- <- <-.
    destruct (IH _ _ _ _ _ _ B0) as [N F]. cbn in N. split; [exact N|]. constructor; [|exact F]. eexists time, _, bs. split; [reflexivity|].
    intros y Hy. destruct board as [[k x]|]; [|injection B as <-; destruct Hy]. opn B. injection B as <-. destruct Hy as [<-|[]]. exists k, x, x0. split; [reflexivity|]. split; [reflexivity|].
    unfold sim_board_message in B1. repeat opn B1. destruct (bc_no_errors x); injection B1 as <-; auto.
Qed.
Lemma cam_fits : forall project trackers boards c d w t ms w' t', cc_tracker c = None ->
  (forall n x, cc_board c = Some n -> named n boards = Some x -> positive (bc_t_error x) /\ positive (bc_r_error x)) ->
  add_cam project trackers boards w t (c, d) = OK (ms, w', t') -> extends w w' /\ fits_upto w' ms.
Proof.
  intros project trackers boards c d w t ms w' t' HT HB H.
  destruct (cam_inv _ _ _ _ _ _ _ _ _ _ H) as [tk [bd [ts [fs [id [s [cnt [e [times [cnt' [C1 [C2 [C3 [C4 [C5 [C6 [C7 [C8 ->]]]]]]]]]]]]]]]]]].
  rewrite HT in C1. cbn in C1. injection C1 as <-. cbn [cam_tracker] in C8. destruct (frames_quiet _ _ _ _ _ _ _ _ _ _ _ C8) as [N F].
  destruct (camera_new_is _ _ _ _ _ _ _ _ _ C5) as [_ [N1 _]]. subst id. split.
  - split; [cbn; lia|]. intros i L. cbn [w_sensors]. apply mfind_mset_neq. lia.
  - assert (Sx : exists trs fids, s = SCam trs fids /\ forall k x, cam_board c w None bd = Some (k, x) -> mfind k fids <> None).
    { unfold camera_new, cam_new, new_sensor_id in C5. opn C5. destruct x as [[i1 c1] e1]. opn B. injection B as <- <- <-.
      destruct ts; [|discriminate]. cbn [add_trackers] in C5. opn C5. destruct x0 as [[fids c3] e3]. injection C5 as <- <- <-. exists [], fids. split; [reflexivity|].
      intros k xx E. unfold cam_board in E. destruct bd as [y|]; [|discriminate]. injection E as <- <-. rewrite C4 in B. cbn [add_fiducials] in B. opn B.
      match goal with z : nat * fid_updater * counters * ekf |- _ => rename z into zz end. destruct zz as [[[i2 u] c4] e4]. unfold fid_new, new_tracker_id in B1. opn B1. opn B1. injection B1 as <- <- <- <-. injection B as <- <- <-.
      rewrite Nat.add_0_r. cbn [mfind]. rewrite Nat.eqb_refl. discriminate. }
    destruct Sx as [trs [fids [-> Sx]]]. eapply Forall_impl; [|exact F]. cbv beta. intros m [time [f [bs [-> Hb]]]]. cbn [msg_id w_cnt w_sensors].
    split; [lia|]. split; [|split].
    + cbn [message_ok]. apply Forall_forall. intros y Hy D ED. destruct (Hb y Hy) as [k [x [D' [E1 [-> [E2 E3]]]]]]. cbn in ED. injection ED as <-.
      unfold errors_positive. rewrite E2, E3. unfold cam_board in E1. destruct bd as [x0|]; [|discriminate]. injection E1 as <- <-. cbn [bc_t_error bc_r_error].
      unfold chosen in C2. destruct (cc_board c) as [n|]; [|discriminate]. destruct (named n boards) as [x1|] eqn:Nm; [|discriminate]. injection C2 as ->.
      destruct (HB n x0 eq_refl Nm) as [[Q1 [Q2 Q3]] [Q4 [Q5 Q6]]]. auto 10.
    + cbn [plain_event msg_id w_sensors]. rewrite mfind_mset_eq. split; [constructor|]. apply Forall_forall. intros y Hy.
      destruct (Hb y Hy) as [k [x [D' [E1 [-> _]]]]]. cbn [fst]. eapply Sx. exact E1.
    + cbn [msg_id w_sensors]; rewrite mfind_mset_eq. discriminate.
Qed.
Lemma setup_fits : forall project g c ms w t, quiet_cfg c -> sim_setup project g c = OK (ms, w, t) -> Forall (fits w) ms.
Proof.
  intros project g c ms w t [Q1 Q2 Q3 Q4 Q5] H. destruct (setup_inv _ _ _ _ _ _ H) as [t0 [m1 [w1 [t1 [m2 [w2 [t2 [m3 [T [A [B [C ->]]]]]]]]]]]].
  rewrite Q3 in C. cbn in C. injection C as <- <- <-. rewrite app_nil_r.
  apply all_fits in A; [|intros [ic d] ? ? ? ? ? X E; destruct (Q4 _ X); eapply imu_fits; eauto].
  apply all_fits in B; [|intros [cc d] ? ? ? ? ? X E; destruct (Q5 _ X); eapply cam_fits; eauto].
  destruct A as [A1 A2]. destruct B as [B1 B2].
  assert (X : fits_upto w2 (m1 ++ m2)).
  { apply Forall_app. split; [|exact B2]. eapply extends_fits; [exact B1|]. exact A2. }
  eapply Forall_impl; [|exact X]. cbv beta. intros m [_ Y]. exact Y.
Qed.
Section Cb.
Variable svd : m2 -> m2 * m2.
Variable hull : list (Z * Z) -> list (Z * Z).
Variable ecef_to_lla : V3 -> V3.
Variable mat_quat : mat R -> quat.
Variable solve : mat R -> V3 -> V3.
Definition same_boards (s s' : sensor) : Prop :=
  match s, s' with
  | SImu _, SImu _ | SGps _, SGps _ => True
  | SCam _ a, SCam _ b => forall k, mfind k a <> None -> mfind k b <> None
  | _, _ => False
  end.
Lemma board_all_keys : forall l fids e t fids' e', board_all mat_quat fids e t l = OK (fids', e') -> forall k, mfind k fids <> None -> mfind k fids' <> None.
Proof.
  induction l as [|[j x] l IH]; intros fids e t fids' e' H k K; cbn [board_all] in H; [injection H as <- <-; exact K|].
  destruct (mfind j fids) as [u|] eqn:E; [|discriminate]. destruct x as [D|]; [|eauto]. opn H. destruct x as [u' e1]. eapply IH; [exact H|].
  destruct (Nat.eq_dec k j) as [->|N]; [rewrite mfind_mset_eq; discriminate|rewrite mfind_mset_neq by exact N; exact K].
Qed.
Lemma deliver_boards : forall w m w', deliver svd hull ecef_to_lla mat_quat solve w m = OK w' ->
  forall k s, mfind k (w_sensors w) = Some s -> exists s', mfind k (w_sensors w') = Some s' /\ same_boards s s'.
Proof.
  intros w m w' E k s K. assert (Rf : forall s, same_boards s s) by (intros []; cbn; auto).
  unfold deliver in E. destruct (mfind (msg_id m) (w_sensors w)) as [s0|] eqn:F; [|injection E as <-; eauto].
  assert (X : forall e c s', same_boards s0 s' ->
    exists s2, mfind k (w_sensors (mkWorld e c (mset (msg_id m) s' (w_sensors w)))) = Some s2 /\ same_boards s s2).
  { intros e c s' S. cbn [w_sensors]. destruct (Nat.eq_dec k (msg_id m)) as [->|D].
    - rewrite mfind_mset_eq. rewrite F in K. injection K as <-. eauto.
    - rewrite mfind_mset_neq by exact D. eauto. }
  destruct m; cbn [msg_id] in F.
  - destruct s0; try discriminate. opn E. destruct x as [u' e']. injection E as <-. apply X; exact I.
  - destruct s0; try discriminate. opn E. destruct x as [u' e']. injection E as <-. apply X; exact I.
  - destruct s0 as [| |trs fids]; try discriminate. opn E. destruct x as [[a b'] e']. injection E as <-. apply X. cbn. unfold sim_camera_Callback in B.
    destruct (CalculateLocalTime _ _) as [lt e0]. opn B. opn B. opn B. destruct x1 as [trs1 e1]. opn B. destruct x1 as [fids1 e2]. injection B as <- <- <-.
    eapply board_all_keys. eassumption.
  - destruct s0; injection E as <-; eauto.
Qed.
Lemma fits_step : forall w x w', deliver svd hull ecef_to_lla mat_quat solve w x = OK w' -> forall m, fits w m -> fits w' m.
Proof.
  intros w x w' E m [F1 [F2 F3]]. split; [exact F1|]. destruct (mfind (msg_id m) (w_sensors w)) as [s|] eqn:K; [|congruence].
  destruct (deliver_boards _ _ _ E _ _ K) as [s' [K' S]]. split; [|congruence].
  destruct m; cbn [plain_event msg_id] in *; rewrite ?K in F2; rewrite ?K'; destruct s, s'; try contradiction; auto. destruct F2 as [G1 G2]. split; [exact G1|]. eapply Forall_impl; [|exact G2]. cbv beta. intros y. apply S.
Qed.
Lemma run_ok : forall l w, winv w -> p_root (e_par (w_ekf w)) = false -> (0 < p_imu_scale (e_par (w_ekf w)))%R -> Forall (fits w) l ->
  exists w', replay svd hull ecef_to_lla mat_quat solve w l = OK w'.
Proof.
  induction l as [|m l IH]; intros w W HR HS F; cbn [replay]; [eauto|]. inversion F as [|? ? F1 F2]; subst.
  assert (O : event_ok w (EMsg m)) by (cbn [event_ok]; rewrite HR; apply F1).
  destruct (wstep_total svd hull ecef_to_lla mat_quat solve w (EMsg m) W O) as [w' E]; [apply F1|exact HR|exact HS|].
  pose proof (wstep_par svd hull ecef_to_lla mat_quat solve w (EMsg m) w' W O E) as P. cbn [wstep] in E. rewrite E. cbn [bind].
  apply IH; try congruence.
  - eapply (wstep_sound svd hull ecef_to_lla mat_quat solve w (EMsg m)); eauto.
  - eapply Forall_impl; [|exact F2]. cbv beta. intros y. eapply fits_step. exact E.
Qed.
End Cb.

(** *** The truth file *)
Lemma int_part_bounds : forall x, (0 <= x)%R -> (INR (Z.to_nat (Int_part x)) <= x < INR (Z.to_nat (Int_part x)) + 1)%R.
Proof.
  intros x H. destruct (base_Int_part x) as [H1 H2]. assert (P : (0 <= Int_part x)%Z).
  { apply le_IZR. destruct (Z_le_gt_dec 0 (Int_part x)) as [L|L]; [apply IZR_le; exact L|]. exfalso. assert (Q : (Int_part x <= -1)%Z) by lia. apply IZR_le in Q. lra. }
  rewrite INR_IZR_INZ, Z2Nat.id by exact P. lra.
Qed.
Lemma mapM_nth : forall A B (f : A -> res B) l r, mapM f l = OK r -> List.length r = List.length l /\
  forall i y, nth_error r i = Some y -> exists x, nth_error l i = Some x /\ f x = OK y.
Proof.
  intros A B f. induction l as [|a l IH]; intros r H; cbn [mapM] in H.
  - injection H as <-. split; [reflexivity|]. intros [|i] y E; discriminate.
  - opn H. opn H. injection H as <-. destruct (IH _ B1) as [L N]. split; [cbn; congruence|]. intros [|i] y E; cbn in *.
    + injection E as <-. eauto.
    + eauto.
Qed.
Lemma nth_seq : forall n s i x, nth_error (seq s n) i = Some x -> x = s + i.
Proof.
  induction n as [|n IH]; intros s i x H; [destruct i; discriminate|]. destruct i as [|i]; cbn in H; [injection H as <-; lia|].
  apply IH in H. lia.
Qed.
Lemma setup_body : forall project g c ms w t, sim_setup project g c = OK (ms, w, t) ->
  exists t0, truth_of c = OK t0 /\ tr_body t = tr_body t0 /\ tr_max_time t = sc_max_time c.
Proof.
  intros project g c ms w t H.
  destruct (setup_inv _ _ _ _ _ _ H) as [t0 [m1 [w1 [t1 [m2 [w2 [t2 [m3 [T [A [B [C ->]]]]]]]]]]]].
  exists t0. split; [exact T|]. set (L := Nat.max 1 (longest_track c)) in *.
  assert (HG1 : forall w t a ms w' t', In a (sc_imus c) -> known (tr_features t) -> add_imu w t a = OK (ms, w', t') -> grows L w t ms w' t')
    by (intros; eapply imu_grows; eauto).
  assert (HG2 : forall w t a ms w' t', In a (sc_cams c) -> known (tr_features t) -> add_cam project (sc_trackers c) (sc_boards c) w t a = OK (ms, w', t') -> grows L w t ms w' t').
  { intros. eapply cam_grows; [|eassumption|eassumption]. intros n a0 E. pose proof (longest_ge c n a0 E). unfold L. lia. }
  assert (HG3 : forall w t a ms w' t', In a (sc_gps c) -> known (tr_features t) -> add_gps g w t a = OK (ms, w', t') -> grows L w t ms w' t')
    by (intros; eapply gps_grows; eauto).
  assert (K0 := truth_known _ _ T). pose proof (grows_all _ _ _ _ _ _ _ _ _ HG1 K0 A) as G1.
  assert (K1 : known (tr_features t1)) by apply G1. pose proof (grows_all _ _ _ _ _ _ _ _ _ HG2 K1 B) as G2.
  assert (K2 : known (tr_features t2)) by apply G2. pose proof (grows_all _ _ _ _ _ _ _ _ _ HG3 K2 C) as G3.
  destruct G1 as [_ [_ [_ [_ [C1 _]]]]]. destruct G2 as [_ [_ [_ [_ [C2 _]]]]]. destruct G3 as [_ [_ [_ [_ [C3 _]]]]].
  destruct C1 as [C11 [C12 _]]. destruct C2 as [C21 [C22 _]]. destruct C3 as [C31 [C32 _]].
  assert (M : tr_max_time t0 = sc_max_time c) by (unfold truth_of in T; destruct (sc_engine c); try discriminate; injection T as <-; reflexivity).
  rewrite C31, C21, C11, C32, C22, C12. split; [reflexivity|exact M].
Qed.
Lemma row_columns : forall t time r, truth_row t time = OK r -> exists l, body_columns (tr_body t) time l.
Proof.
  intros t time r H. unfold truth_row in H. cbv zeta in H. do 6 opn H. eexists. exists x, x0, x1, x2, x3, x4. repeat split; eassumption.
Qed.
Theorem truth_file : forall svd hull ecef_to_lla mat_quat solve project c sm rows w,
  sim_main svd hull ecef_to_lla mat_quat solve project c sm = OK (rows, w) ->
  (sc_log_rate c = 0%R -> rows = []) /\
  (sc_log_rate c <> 0%R -> (INR (List.length rows) <= (sc_max_time c + 1) * sc_log_rate c < INR (List.length rows) + 1)%R) /\
  exists t, truth_of c = OK t /\ forall i r, nth_error rows i = Some r ->
    exists l, body_columns (tr_body t) (INR i / sc_log_rate c) l /\ r = ((INR i / sc_log_rate c)%R :: l ++ sensor_columns c).
Proof.
  intros svd hull g mat_quat solve project c sm rows w' H. unfold sim_main in H. opn H. destruct x as [[ms w] t]. opn H. rename x into rows'. opn H. injection H as -> ->.
  destruct (truth_rows_are _ _ _ _ _ _ B) as [t0 [T0 HR]]. destruct (setup_body _ _ _ _ _ _ B) as [t0' [T0' [TB TM]]].
  rewrite T0 in T0'. injection T0' as <-.
  unfold Reqb in B0. destruct (Req_EM_T (sc_log_rate c) 0) as [E|E].
  - injection B0 as <-. split; [auto|]. split; [intros X; contradiction|]. exists t0. split; [exact T0|]. intros [|i] r X; discriminate.
  - split; [intros X; contradiction|]. unfold truth_rows in B0. opn B0. unfold guard in B2. destruct (Rleb 0 _) eqn:G; [|discriminate].
    apply Rleb_spec in G. destruct (mapM_nth _ _ _ _ _ B0) as [L N]. rewrite seq_length in L. rewrite TM in *. split; [intros _; rewrite L; apply int_part_bounds; exact G|].
    exists t0. split; [exact T0|]. intros i r X. destruct (N i r X) as [j [J F]]. apply nth_seq in J. cbn in J. subst j.
    destruct (row_columns _ _ _ F) as [l Hl]. rewrite TB in Hl. exists l. split; [exact Hl|]. specialize (HR _ _ Hl). rewrite HR in F. injection F as <-. reflexivity.
Qed.

Theorem main_total : forall svd hull ecef_to_lla mat_quat solve project c, sound_cfg c ->
  exists ms w t, sim_setup project ecef_to_lla c = OK (ms, w, t) /\
    (quiet_cfg c -> (0 <= sc_log_rate c)%R -> forall sm, sort_result ms sm ->
     exists rows w', sim_main svd hull ecef_to_lla mat_quat solve project c sm = OK (rows, w')).
Proof.
  intros svd hull g mat_quat solve project c SO. destruct (setup_total project g c SO) as [ms [w [t [E [W [t0' [T0' [TB TM]]]]]]]].
  exists ms, w, t. split; [exact E|]. intros Q LR sm SR. pose proof (setup_fits _ _ _ _ _ _ Q E) as F.
  assert (PW : e_par (w_ekf w) = sim_params c).
  { destruct (setup_grows _ _ _ _ _ _ (so_window _ SO) E) as [t1 [_ G]]. destruct G as [_ [_ [S _]]]. destruct S as [S1 S2]. rewrite S1. reflexivity. }
  destruct (run_ok svd hull g mat_quat solve sm w W) as [w' Rn].
  { rewrite PW. unfold sim_params. destruct (sc_trackers c); apply Q. }
  { rewrite PW. unfold sim_params. destruct (sc_trackers c); apply Q. }
  { apply Forall_forall. intros m M. rewrite Forall_forall in F. apply F. eapply Permutation_in; [apply Permutation_sym; apply SR|exact M]. }
  unfold sim_main. rewrite E. cbn [bind].
  assert (X : exists rows, (if Reqb (sc_log_rate c) 0 then OK [] else truth_rows t (sc_log_rate c)) = OK rows).
  { destruct (Reqb (sc_log_rate c) 0); [eauto|]. unfold truth_rows, guard.
    assert (Z : Rleb 0 ((tr_max_time t + 1) * sc_log_rate c) = true) by (apply Rleb_spec; rewrite TM; pose proof (so_time _ SO); nra). rewrite Z. cbn [bind].
    apply mapM_total. intros i _. destruct (so_engine _ SO) as [t1 [T1 BO]]. destruct (truth_rows_are _ _ _ _ _ _ E) as [t2 [T2 HR]].
    rewrite T1 in T2. injection T2 as <-. destruct (BO (INR i / sc_log_rate c)%R) as [l Hl]. eexists. eapply HR. exact Hl. }
  destruct X as [rows X]. rewrite X. cbn [bind]. rewrite Rn. cbn [bind]. eauto.
Qed.

(** *** Cameras without errors measure in order *)
Lemma all_order : forall A L (f : world -> truth -> A -> res (list message * world * truth)) l,
  (forall w t x ms w' t', In x l -> known (tr_features t) -> f w t x = OK (ms, w', t') -> grows L w t ms w' t') ->
  (forall w t x ms w' t', In x l -> known (tr_features t) -> f w t x = OK (ms, w', t') -> in_order ms) ->
  forall w t ms w' t', known (tr_features t) -> add_all f w t l = OK (ms, w', t') -> in_order ms.
Proof.
  intros A L f. induction l as [|a l IH]; intros HG H w t ms w' t' K E; cbn [add_all] in E.
  - injection E as <- <- <-. intros id. constructor.
  - opn E. destruct x as [[m1 w1] t1]. opn E. destruct x as [[m2 w2] t2]. injection E as <- <- <-.
    pose proof (HG _ _ _ _ _ _ (or_introl eq_refl) K B) as G1. assert (K1 : known (tr_features t1)) by apply G1.
    pose proof (grows_all _ L f l _ _ _ _ _ (fun w t x ms w' t' X => HG w t x ms w' t' (or_intror X)) K1 B0) as G2.
    apply in_order_app.
    + eapply H; [left; reflexivity|exact K|exact B].
    + eapply IH; [|intros; eapply H; eauto; right; eassumption|exact K1|exact B0]. intros; eapply HG; eauto. right; assumption.
    + intros x y X Y. destruct G1 as [_ [_ [_ [_ [_ [G16 _]]]]]]. destruct G2 as [_ [_ [_ [_ [_ [G26 _]]]]]]. rewrite Forall_forall in G16, G26.
      specialize (G16 x X). specialize (G26 y Y). cbv beta in *. lia.
Qed.
Lemma cam_order : forall project trackers boards w t c d ms w' t', cc_no_errors c = true -> (0 < cp_rate (cc_par c))%R ->
  known (tr_features t) -> add_cam project trackers boards w t (c, d) = OK (ms, w', t') -> in_order ms.
Proof.
  intros project trackers boards w t c d ms w' t' NE PR K H.
  destruct (cam_inv _ _ _ _ _ _ _ _ _ _ H) as [tk [bd [ts [fs [id [s [cnt [e [times [cnt' [C1 [C2 [C3 [C4 [C5 [C6 [C7 [C8 ->]]]]]]]]]]]]]]]]]].
  destruct (frames_made (fun _ _ => True) (match tk with Some a => Nat.max 1 (tc_max_len a) | None => 0 end) _ _ _ _ _ _ _ _ _ _ _ _ [] C8) as [_ [_ [_ [_ [F [_ Tm]]]]]].
  { rewrite cam_truth_features. exact K. }
  { intros k st E. unfold cam_tracker in E. destruct tk as [a|]; [|discriminate]. injection E as <- <-. apply ready_new. lia. }
  { constructor. } { auto. }
  rewrite NE in C7. pose proof (times_sorted _ _ _ _ _ PR C7) as S. intros j. destruct (Nat.eq_dec j id) as [->|N].
  - assert (E : filter (of_camera id) ms = ms).
    { clear - F. induction F as [|m l [tm [fr [tr [bs [-> _]]]]] F IH]; [reflexivity|]. cbn [filter of_camera]. rewrite Nat.eqb_refl, IH. reflexivity. }
    rewrite E, Tm. exact S.
  - rewrite not_of; [constructor|]. eapply Forall_impl; [|exact F]. cbv beta. intros m [tm [fr [tr [bs [-> _]]]]]. cbn. auto.
Qed.
Theorem setup_order : forall project g c ms w t, sim_setup project g c = OK (ms, w, t) ->
  (forall x, In x (sc_cams c) -> cc_no_errors (fst x) = true /\ (0 < cp_rate (cc_par (fst x)))%R) -> in_order ms.
Proof.
  intros project g c ms w t H HC.
  destruct (setup_inv _ _ _ _ _ _ H) as [t0 [m1 [w1 [t1 [m2 [w2 [t2 [m3 [T [A [B [C ->]]]]]]]]]]]].
  set (L := Nat.max 1 (longest_track c)) in *.
  assert (HG1 : forall w t a ms w' t', In a (sc_imus c) -> known (tr_features t) -> add_imu w t a = OK (ms, w', t') -> grows L w t ms w' t')
    by (intros; eapply imu_grows; eauto).
  assert (HG2 : forall w t a ms w' t', In a (sc_cams c) -> known (tr_features t) -> add_cam project (sc_trackers c) (sc_boards c) w t a = OK (ms, w', t') -> grows L w t ms w' t').
  { intros. eapply cam_grows; [|eassumption|eassumption]. intros n a0 E. pose proof (longest_ge c n a0 E). unfold L. lia. }
  assert (HG3 : forall w t a ms w' t', In a (sc_gps c) -> known (tr_features t) -> add_gps g w t a = OK (ms, w', t') -> grows L w t ms w' t')
    by (intros; eapply gps_grows; eauto).
  assert (K0 := truth_known _ _ T). pose proof (grows_all _ _ _ _ _ _ _ _ _ HG1 K0 A) as G1.
  assert (K1 : known (tr_features t1)) by apply G1. pose proof (grows_all _ _ _ _ _ _ _ _ _ HG2 K1 B) as G2.
  assert (K2 : known (tr_features t2)) by apply G2. pose proof (grows_all _ _ _ _ _ _ _ _ _ HG3 K2 C) as G3.
  apply in_order_app; [apply in_order_app|..].
  - apply (all_order _ L add_imu (sc_imus c) HG1) in A; auto. intros w0 t0' [ic d] ms w' t' _ _ E. apply no_cameras. apply Forall_forall. intros m M id tm f tr b ->.
    unfold add_imu in E. opn E. destruct x as [[[i s] cn] e]. opn E. opn E. injection E as <- <- <-. destruct (mapM_all _ _ _ _ _ B2 _ M) as [[i0 time] [_ E]].
    unfold sim_imu_message in E. destruct (sim_imu_measure _ _ _ _ _ _ _) as [[acc omg]|]; discriminate.
  - apply (all_order _ L _ (sc_cams c) HG2) in B; auto. intros w0 t0' [cc d] ms w' t' X K E. destruct (HC _ X) as [Y1 Y2]. eapply cam_order; eauto.
  - destruct G1 as [G11 [_ [_ [_ [_ [G16 _]]]]]]. destruct G2 as [_ [_ [_ [_ [_ [G26 _]]]]]]. rewrite Forall_forall in G16, G26.
    intros x y X Y. specialize (G16 x X). specialize (G26 y Y). cbv beta in *. cbn [bump w_cnt] in *. lia.
  - apply (all_order _ L _ (sc_gps c) HG3) in C; auto. intros w0 t0' [gc d] ms w' t' _ _ E. apply no_cameras. apply Forall_forall. intros m M id tm f tr b ->.
    unfold add_gps in E. opn E. destruct x as [[[i s] cn] e]. opn E. opn E. injection E as <- <- <-. destruct (mapM_all _ _ _ _ _ B2 _ M) as [[i0 time] [_ E]].
    unfold sim_gps_message in E. do 5 opn E. discriminate.
  - destruct G1 as [G11 [_ [_ [_ [_ [G16 _]]]]]]. destruct G2 as [G21 [_ [_ [_ [_ [G26 _]]]]]]. destruct G3 as [_ [_ [_ [_ [_ [G36 _]]]]]]. rewrite Forall_forall in G16, G26, G36.
    intros x y X Y. specialize (G36 y Y). apply in_app_or in X. cbv beta in *. cbn [bump w_cnt] in *. destruct X as [X|X]; [specialize (G16 x X)|specialize (G26 x X)]; cbv beta in *; lia.
Qed.
