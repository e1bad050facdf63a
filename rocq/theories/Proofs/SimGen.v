(** What the simulation program builds and generates. *)
From Coq Require Import Reals List Arith Bool ZArith String Lia Lra Sorted Permutation.
From Verif Require Import Base.Res Base.Mat Base.RDec Base.Geom Base.AMap Model.TypeHelper Model.Types Model.Ekf
  Model.MathHelper Model.GpsHelper Model.GpsUpdater Model.ImuUpdater Model.FiducialUpdater Model.MsckfUpdater
  Model.Sensors Model.Trackers Model.TruthEngine Model.SimSensors Model.Simulation Model.SimMain
  Spec.History Spec.Same Spec.Rotation Spec.Tracks Spec.AtRest Spec.SimMain
  Proofs.Same Proofs.Follows Proofs.ZeroStep Proofs.RestLookup Proofs.Windows Proofs.Tracks Proofs.SimTracks Proofs.SteadyFrames Proofs.TrackFit.
Import ListNotations.
Open Scope nat_scope.

(** *** Registration leaves the window and the settings alone *)
Definition settled (e e' : ekf) : Prop :=
  e_par e' = e_par e /\ e_max_len e' = e_max_len e /\ e_lla_init e' = e_lla_init e /\ e_pos_e_in_g e' = e_pos_e_in_g e /\
  e_ang_l_to_e e' = e_ang_l_to_e e /\ forall k, frames_at e' k = frames_at e k.
Lemma settled_refl : forall e, settled e e. Proof. repeat split. Qed.
Lemma settled_trans : forall a b c, settled a b -> settled b c -> settled a c.
Proof.
  intros a b c [A1 [A2 [A3 [A4 [A5 A6]]]]] [B1 [B2 [B3 [B4 [B5 B6]]]]]. do 5 (split; [congruence|]). intros k. rewrite B6. apply A6.
Qed.
Lemma settled_refresh : forall e e', RefreshIndices e = OK e' -> settled e e'.
Proof.
  intros e e' H. pose proof H as H'. apply refresh_bare in H'. destruct H' as [_ [Q [s [a [b [c [d [f E]]]]]]]].
  assert (F := fun k => frames_refresh e e' k H). rewrite E in F |- *. repeat split. exact F.
Qed.
Ltac same_settled := repeat split.
Lemma settled_imu : forall e id st cov e', RegisterIMU e id st cov = OK e' -> settled e e' /\ s_fid (e_state e') = s_fid (e_state e') /\
  (forall k, mfind k (s_fid (e_state e)) = None -> mfind k (s_fid (e_state e')) = None).
Proof.
  intros e id st cov e' H. unfold RegisterIMU in H. destruct (mfind id _); [injection H as <-; split; [apply settled_refl|auto]|].
  opn H. assert (X : settled e x /\ s_fid (e_state x) = s_fid (e_state e)).
  { destruct (_ || _); [opn B; opn B|]; injection B as <-; repeat split. }
  destruct X as [X1 X2].
  match type of H with RefreshIndices ?g = _ => assert (Y : settled x g /\ s_fid (e_state g) = s_fid (e_state x)) by (destruct (i_ext st), (i_int st); repeat split) end.
  destruct Y as [Y1 Y2]. split; [|split; [reflexivity|]].
  - eapply settled_trans; [exact X1|]. eapply settled_trans; [exact Y1|]. apply settled_refresh. exact H.
  - intros k N. apply refresh_bare in H. destruct H as [B1 _]. destruct (bare_parts _ _ B1) as [_ [_ [_ [_ [Z _]]]]].
    pose proof (mfind_bare _ _ k _ _ Z) as Z2. rewrite Y2, X2, N in Z2. destruct (mfind k (s_fid (e_state e'))); [discriminate|reflexivity].
Qed.
Lemma settled_gps : forall e id st cov e', RegisterGPS e id st cov = OK e' -> settled e e' /\
  (forall k, mfind k (s_fid (e_state e)) = None -> mfind k (s_fid (e_state e')) = None).
Proof.
  intros e id st cov e' H. unfold RegisterGPS in H. destruct (mfind id _); [injection H as <-; split; [apply settled_refl|auto]|].
  opn H. assert (X : settled e x /\ s_fid (e_state x) = s_fid (e_state e)).
  { destruct (g_ext st); [opn B; opn B|]; injection B as <-; repeat split. }
  destruct X as [X1 X2]. split.
  - eapply settled_trans; [exact X1|]. apply settled_refresh. exact H.
  - intros k N. apply refresh_bare in H. destruct H as [B1 _]. destruct (bare_parts _ _ B1) as [_ [_ [_ [_ [Z _]]]]].
    pose proof (mfind_bare _ _ k _ _ Z) as Z2. rewrite X2, N in Z2. destruct (mfind k (s_fid (e_state e'))); [discriminate|reflexivity].
Qed.
Lemma settled_cam : forall e id st cov e', RegisterCamera e id st cov = OK e' -> settled e e' /\
  (forall k, mfind k (s_fid (e_state e)) = None -> mfind k (s_fid (e_state e')) = None).
Proof.
  intros e id st cov e' H. unfold RegisterCamera in H. destruct (mfind id _); [injection H as <-; split; [apply settled_refl|auto]|].
  opn H. cbv zeta in H. opn H. assert (X : settled e x0 /\ s_fid (e_state x0) = s_fid (e_state e)).
  { destruct (c_ext st); [opn B0; opn B0|]; injection B0 as <-; destruct (Nat.eqb _ 0); repeat split. }
  destruct X as [X1 X2]. split.
  - eapply settled_trans; [exact X1|]. apply settled_refresh. exact H.
  - intros k N. apply refresh_bare in H. destruct H as [B1 _]. destruct (bare_parts _ _ B1) as [_ [_ [_ [_ [Z _]]]]].
    pose proof (mfind_bare _ _ k _ _ Z) as Z2. rewrite X2, N in Z2. destruct (mfind k (s_fid (e_state e'))); [discriminate|reflexivity].
Qed.
Lemma settled_fid : forall e st cov e', RegisterFiducial e st cov = OK e' -> settled e e' /\
  (forall k, k <> f_id st -> mfind k (s_fid (e_state e)) = None -> mfind k (s_fid (e_state e')) = None).
Proof.
  intros e st cov e' H. unfold RegisterFiducial in H. destruct (mfind (f_id st) _); [injection H as <-; split; [apply settled_refl|auto]|].
  opn H. assert (X : settled e x /\ s_fid (e_state x) = mset (f_id st) st (s_fid (e_state e))).
  { destruct (f_ext st); [opn B; opn B|]; injection B as <-; repeat split. }
  destruct X as [X1 X2]. split.
  - eapply settled_trans; [exact X1|]. apply settled_refresh. exact H.
  - intros k D N. apply refresh_bare in H. destruct H as [B1 _]. destruct (bare_parts _ _ B1) as [_ [_ [_ [_ [Z _]]]]].
    pose proof (mfind_bare _ _ k _ _ Z) as Z2. rewrite X2, mfind_mset_neq, N in Z2 by exact D.
    destruct (mfind k (s_fid (e_state e'))); [discriminate|reflexivity].
Qed.

(** The constructors: number, counters, effect on the filter. *)
Lemma imu_new_is : forall c e p id s c' e', imu_new c e p = OK (id, s, c', e') ->
  id = S (n_sensors c) /\ n_sensors c' = S (n_sensors c) /\ n_trackers c' = n_trackers c /\ n_frames c' = n_frames c /\
  settled e e' /\ (forall k, mfind k (s_fid (e_state e)) = None -> mfind k (s_fid (e_state e')) = None).
Proof.
  intros c e p id s c' e' H. unfold imu_new, new_sensor_id in H. opn H. opn H. injection H as <- <- <- <-.
  destruct (settled_imu _ _ _ _ _ B0) as [S1 [_ S2]]. auto 8.
Qed.
Lemma gps_new_is : forall c e p id s c' e', gps_new c e p = OK (id, s, c', e') ->
  id = S (n_sensors c) /\ n_sensors c' = S (n_sensors c) /\ n_trackers c' = n_trackers c /\ n_frames c' = n_frames c /\
  settled e e' /\ (forall k, mfind k (s_fid (e_state e)) = None -> mfind k (s_fid (e_state e')) = None).
Proof.
  intros c e p id s c' e' H. unfold gps_new, new_sensor_id in H. opn H. injection H as <- <- <- <-.
  destruct (settled_gps _ _ _ _ _ B) as [S1 S2]. auto 8.
Qed.
Lemma trackers_is : forall ts c cam m m' c', add_trackers c cam ts m = (m', c') ->
  n_sensors c' = n_sensors c /\ n_trackers c' = n_trackers c + List.length ts /\ n_frames c' = n_frames c.
Proof.
  induction ts as [|p ts IH]; intros c cam m m' c' H; cbn [add_trackers] in H.
  - injection H as _ <-. cbn. auto.
  - unfold tracker_new, new_tracker_id in H. destruct (IH _ _ _ _ _ H) as [A [B C]]. cbn in A, B, C. cbn [List.length]. lia.
Qed.
Lemma fids_is : forall fs c e cam m m' c' e', add_fiducials c e cam fs m = OK (m', c', e') ->
  n_sensors c' = n_sensors c /\ n_trackers c' = n_trackers c + List.length fs /\ n_frames c' = n_frames c /\ settled e e' /\
  (forall k, ~ In k (map fp_id fs) -> mfind k (s_fid (e_state e)) = None -> mfind k (s_fid (e_state e')) = None).
Proof.
  induction fs as [|p fs IH]; intros c e cam m m' c' e' H; cbn [add_fiducials] in H.
  - injection H as _ <- <-. cbn [List.length]. repeat split; auto.
  - opn H. destruct x as [[[id u] c1] e1]. unfold fid_new, new_tracker_id in B. opn B. opn B. injection B as <- <- <- <-.
    destruct (IH _ _ _ _ _ _ _ H) as [A1 [A2 [A3 [A4 A5]]]]. cbn in A1, A2, A3. destruct (settled_fid _ _ _ _ B1) as [S1 S2].
    cbn [List.length map]. split; [lia|]. split; [lia|]. split; [lia|]. split; [eapply settled_trans; eauto|].
    intros k N X. apply A5; [intros Y; apply N; right; exact Y|]. apply S2; [|exact X]. intros Y. apply N. left.
    rewrite Y. unfold fid_state_of, fid_SetIsExtrinsic. destruct (fp_ext p); reflexivity.
Qed.
Lemma camera_new_is : forall c e p ts fs id s c' e', camera_new c e p ts fs = OK (id, s, c', e') ->
  id = S (n_sensors c) /\ n_sensors c' = S (n_sensors c) /\ n_trackers c' = n_trackers c + List.length ts + List.length fs /\ n_frames c' = n_frames c /\
  settled e e' /\ (forall k, ~ In k (map fp_id fs) -> mfind k (s_fid (e_state e)) = None -> mfind k (s_fid (e_state e')) = None).
Proof.
  intros c e p ts fs id s c' e' H. unfold camera_new, cam_new, new_sensor_id in H. opn H. destruct x as [[i1 c1] e1]. opn B. injection B as <- <- <-.
  destruct (add_trackers _ _ _ _) as [trs c2] eqn:ET. opn H. destruct x0 as [[fids c3] e3]. injection H as <- <- <- <-.
  destruct (trackers_is _ _ _ _ _ _ ET) as [T1 [T2 T3]]. cbn in T1, T2, T3. destruct (fids_is _ _ _ _ _ _ _ _ B) as [F1 [F2 [F3 [F4 F5]]]].
  destruct (settled_cam _ _ _ _ _ B0) as [S1 S2]. split; [reflexivity|]. split; [lia|]. split; [lia|]. split; [lia|].
  split; [eapply settled_trans; eauto|]. intros k N X. auto.
Qed.

(** *** Frames of one camera *)
Fixpoint fit (L : nat) (h : list nat) (ms : list message) : Prop :=
  match ms with
  | [] => True
  | MCam _ _ f tracks _ :: ms =>
      (forall k l tr pt, In (k, l) tracks -> In tr l -> In pt (ft_track tr) -> In (fp_frame pt) (last_n L (h ++ [f]))) /\ fit L (h ++ [f]) ms
  | _ :: ms => fit L h ms
  end.
Definition tracker_ready (Q : V3 -> FeaturePoint -> Prop) (L : nat) (h : list nat) (f : features) (s : sim_tracker) : Prop :=
  wfm (st_map s) /\ held f (st_map s) /\ stored (st_max s) h (st_map s) /\ seen Q f (st_map s) /\ Nat.max 1 (st_max s) <= L.
Definition camera_made (Q : V3 -> FeaturePoint -> Prop) (id : nat) (d : draws) (board : option (nat * board_cfg)) (t : truth) (times : list R) (m : message) : Prop :=
  exists time frame tracks boards, m = MCam id time frame tracks boards /\ In time times /\
    (forall k l tr, In (k, l) tracks -> In tr l -> exists x, ft_true tr = Some x /\ forall p, In p (ft_track tr) -> Q x p) /\
    (forall y, In y boards -> exists k b j X, board = Some (k, b) /\ y = (k, Some X) /\
       sim_board_message t k id (bc_no_errors b) (bc_t_error b) (bc_r_error b) (dr_vec d j) (dr_rot d j) time = OK X).
Lemma frames_made : forall Q L project id d board times c t i trk ms c' t' h,
  sim_frames project id d board c t i trk times = OK (ms, c', t') ->
  known (tr_features t) -> (forall k s, trk = Some (k, s) -> tracker_ready Q L h (tr_features t) s) ->
  Forall (fun y => y < n_frames c) h ->
  (forall k s, trk = Some (k, s) -> forall j time v n x frame, In time times -> sim_view project t id (dr_feat d j) time = OK v ->
     Q x (mkFP frame time (key_point (st_no_errors s) v n x))) ->
  n_sensors c' = n_sensors c /\ n_trackers c' = n_trackers c /\ known (tr_features t') /\ (exists f, t' = set_features t f) /\
  Forall (camera_made Q id d board t times) ms /\ fit L h ms /\ map msg_time ms = times.
Proof.
  intros Q L project id d board. induction times as [|time times IH]; intros c t i trk ms c' t' h H K Tr Hh HQ; cbn [sim_frames] in H.
  - injection H as <- <- <-. repeat split; auto. exists (tr_features t). destruct t; reflexivity.
  - unfold GenerateFrameID in H. opn H. destruct x as [[tracks trk1] t1]. opn H. rename x into boards. opn H. destruct x as [[ms1 c1] t2].
    injection H as <- <- <-.
    assert (Tk : exists f1, t1 = set_features t f1 /\ known f1 /\
      (forall k s, trk1 = Some (k, s) -> tracker_ready Q L (h ++ [n_frames c]) f1 s /\ exists s0, trk = Some (k, s0) /\ st_no_errors s = st_no_errors s0) /\
      forall k l tr, In (k, l) tracks -> In tr l -> (forall p, In p (ft_track tr) -> In (fp_frame p) (last_n L (h ++ [n_frames c]))) /\
        exists x, ft_true tr = Some x /\ forall p, In p (ft_track tr) -> Q x p).
    { destruct trk as [[k s]|].
      - opn B. opn B. destruct x0 as [[out s1] f1]. injection B as <- <- <-. exists f1.
        destruct (Tr k s eq_refl) as [W [Hd [St [Sn ML]]]].
        destruct (fit_step Q s (tr_features t) time (n_frames c) x h out s1 f1 K W Hd St Sn Hh
          (fun n y => HQ k s eq_refl i time x n y (n_frames c) (or_introl eq_refl) B2) B3)
          as [K' [W' [H' [St' [Sn' [M [NE O]]]]]]].
        split; [reflexivity|]. split; [exact K'|]. split.
        + intros k' s' Y. injection Y as <- <-. split; [|exists s; auto]. unfold tracker_ready. rewrite M. split; [exact W'|]. split; [exact H'|]. split; [exact St'|]. split; [exact Sn'|exact ML].
        + intros k' l tr [Y|[]] Z. injection Y as <- <-. destruct (O tr Z) as [O1 O2]. split; [|exact O2].
          intros p Hp. eapply last_n_more; [|exact (O1 p Hp)]. exact ML.
      - injection B as <- <- <-. exists (tr_features t). split; [destruct t; reflexivity|]. split; [exact K|]. split; [discriminate|].
        intros k l tr []. }
    destruct Tk as [f1 [-> [K1 [Tr1 O]]]].
    destruct (IH _ _ _ _ _ _ _ (h ++ [n_frames c]) B1 K1) as [N1 [N2 [K2 [[f2 ->] [F [Ft Tm]]]]]].
    + intros k s Y. apply (Tr1 k s Y).
    + cbn [n_frames]. apply Forall_app. split; [eapply Forall_impl; [|exact Hh]; intros; cbv beta in *; lia|constructor; auto].
    + intros k s Y j time' v n x frame Hi V. destruct (Tr1 k s Y) as [_ [s0 [Y0 E]]]. rewrite E.
      apply (HQ k s0 Y0 j time' v n x frame (or_intror Hi) V).
    + cbn in N1, N2. split; [exact N1|]. split; [exact N2|]. split; [exact K2|]. split; [exists f2; reflexivity|].
      split; [|split; [cbn [fit]; split; [|exact Ft]|cbn [map msg_time]; f_equal; exact Tm]].
      * constructor.
        -- exists time, (n_frames c), tracks, boards. split; [reflexivity|]. split; [left; reflexivity|]. split.
           ++ intros k l tr Y Z. apply (O k l tr Y Z).
           ++ intros y Hy. destruct board as [[k b]|]; [|injection B0 as <-; destruct Hy]. opn B0. injection B0 as <-. destruct Hy as [<-|[]].
              exists k, b, i, x. auto.
        -- eapply Forall_impl; [|exact F]. intros m [tm [fr [tk [bs [-> [T1 [T2 T3]]]]]]]. exists tm, fr, tk, bs.
           split; [reflexivity|]. split; [right; exact T1|]. split; [exact T2|]. exact T3.
      * intros k l tr pt Y Z P. apply (O k l tr Y Z). exact P.
Qed.

(** *** What is stored about earlier sensors stays *)
Definition covers (n k : nat) (t t' : truth) : Prop :=
  tr_body t' = tr_body t /\ tr_max_time t' = tr_max_time t /\ tr_ref t' = tr_ref t /\ tr_heading t' = tr_heading t /\
  (forall id, id <= n ->
     (mfind id (tr_imu_pos t') = mfind id (tr_imu_pos t) /\ mfind id (tr_imu_ang t') = mfind id (tr_imu_ang t) /\
      mfind id (tr_acc_bias t') = mfind id (tr_acc_bias t) /\ mfind id (tr_omg_bias t') = mfind id (tr_omg_bias t)) /\
     (mfind id (tr_cam_pos t') = mfind id (tr_cam_pos t) /\ mfind id (tr_cam_ang t') = mfind id (tr_cam_ang t) /\
      mfind id (tr_cam_intr t') = mfind id (tr_cam_intr t)) /\
     mfind id (tr_gps_pos t') = mfind id (tr_gps_pos t)) /\
  (forall id, id <= k -> mfind id (tr_board_pos t') = mfind id (tr_board_pos t) /\ mfind id (tr_board_ang t') = mfind id (tr_board_ang t)).
Lemma covers_refl : forall n k t, covers n k t t. Proof. repeat split. Qed.
Lemma covers_trans : forall n k a b c, covers n k a b -> covers n k b c -> covers n k a c.
Proof.
  intros n k a b c [A1 [A2 [A3 [A4 [A5 A6]]]]] [B1 [B2 [B3 [B4 [B5 B6]]]]]. do 4 (split; [congruence|]). split.
  - intros id L. destruct (A5 id L) as [[? [? [? ?]]] [[? [? ?]] ?]]. destruct (B5 id L) as [[? [? [? ?]]] [[? [? ?]] ?]]. repeat split; congruence.
  - intros id L. destruct (A6 id L). destruct (B6 id L). split; congruence.
Qed.
Lemma covers_less : forall n k n' k' a b, n' <= n -> k' <= k -> covers n k a b -> covers n' k' a b.
Proof.
  intros n k n' k' a b Ln Lk [A1 [A2 [A3 [A4 [A5 A6]]]]]. do 4 (split; [assumption|]). split; intros id L; [apply A5|apply A6]; lia.
Qed.
Lemma covers_features : forall n k t f, covers n k t (set_features t f). Proof. repeat split. Qed.
Ltac skip_set := rewrite ?mfind_mset_neq by lia; auto.
Lemma covers_imu : forall n k t id b p pe ab ob vr qr, n < id -> covers n k t (sim_imu_new t id b p pe ab ob vr qr).
Proof. intros. unfold sim_imu_new. destruct b; (do 4 (split; [reflexivity|]); split; intros j L; cbn; repeat split; skip_set). Qed.
Lemma covers_gps : forall n k t id b p pe vr, n < id -> covers n k t (sim_gps_new t id b p pe vr).
Proof. intros. unfold sim_gps_new. do 4 (split; [reflexivity|]). split; intros j L; cbn; repeat split; skip_set. Qed.
Lemma covers_cam : forall n k t id b p pe vr qr, n < id -> covers n k t (sim_cam_new t id b p pe vr qr).
Proof. intros. unfold sim_cam_new. destruct b; (do 4 (split; [reflexivity|]); split; intros j L; cbn; repeat split; skip_set). Qed.
Lemma covers_board : forall n k t id b p pe vr qr, k < id -> covers n k t (sim_board_new t id b p pe vr qr).
Proof. intros. unfold sim_board_new. destruct b; (do 4 (split; [reflexivity|]); split; intros j L; cbn; repeat split; skip_set). Qed.

(** *** One sensor after the other *)
Definition grows (L : nat) (w : world) (t : truth) (ms : list message) (w' : world) (t' : truth) : Prop :=
  n_sensors (w_cnt w) <= n_sensors (w_cnt w') /\ n_trackers (w_cnt w) <= n_trackers (w_cnt w') /\
  settled (w_ekf w) (w_ekf w') /\ known (tr_features t') /\ covers (n_sensors (w_cnt w)) (n_trackers (w_cnt w)) t t' /\
  Forall (fun m => n_sensors (w_cnt w) < msg_id m <= n_sensors (w_cnt w') /\ mfind (msg_id m) (w_sensors w') <> None) ms /\
  (forall id, mfind id (w_sensors w) <> None -> mfind id (w_sensors w') <> None) /\
  (forall id, fit L [] (filter (of_camera id) ms)).
Lemma not_of : forall id ms, Forall (fun m => msg_id m <> id) ms -> filter (of_camera id) ms = [].
Proof.
  intros id ms F. induction F as [|m ms H F IH]; [reflexivity|]. cbn [filter]. rewrite IH.
  destruct m; cbn in *; try reflexivity. destruct (Nat.eqb_spec id0 id); [contradiction|reflexivity].
Qed.
Lemma grows_refl : forall L w t, known (tr_features t) -> grows L w t [] w t.
Proof. intros L w t K. unfold grows. repeat split; auto. Qed.
Lemma grows_trans : forall L w t a w1 t1 b w2 t2, grows L w t a w1 t1 -> grows L w1 t1 b w2 t2 -> grows L w t (a ++ b) w2 t2.
Proof.
  intros L w t a w1 t1 b w2 t2 [A1 [A2 [A3 [A4 [A5 [A6 [A7 A8]]]]]]] [B1 [B2 [B3 [B4 [B5 [B6 [B7 B8]]]]]]].
  split; [lia|]. split; [lia|]. split; [eapply settled_trans; eauto|]. split; [exact B4|].
  split; [eapply covers_trans; [exact A5|eapply covers_less; [| |exact B5]; lia]|].
  split; [|split; [auto|]].
  - apply Forall_app. split.
    + eapply Forall_impl; [|exact A6]. cbv beta. intros m [M1 M2]. split; [lia|auto].
    + eapply Forall_impl; [|exact B6]. cbv beta. intros m [M1 M2]. split; [lia|auto].
  - intros id. rewrite filter_app. destruct (Nat.le_gt_cases id (n_sensors (w_cnt w1))) as [H|H].
    + rewrite (not_of id b), app_nil_r; [apply A8|]. eapply Forall_impl; [|exact B6]. cbv beta. intros m [M1 _]. lia.
    + rewrite (not_of id a); [apply B8|]. eapply Forall_impl; [|exact A6]. cbv beta. intros m [M1 _]. lia.
Qed.
Lemma grows_all : forall A L (f : world -> truth -> A -> res (list message * world * truth)) l w t ms w' t',
  (forall w t a ms w' t', In a l -> known (tr_features t) -> f w t a = OK (ms, w', t') -> grows L w t ms w' t') ->
  known (tr_features t) -> add_all f w t l = OK (ms, w', t') -> grows L w t ms w' t'.
Proof.
  intros A L f. induction l as [|a l IH]; intros w t ms w' t' S K H; cbn [add_all] in H.
  - injection H as <- <- <-. apply grows_refl. exact K.
  - opn H. destruct x as [[m1 w1] t1]. opn H. destruct x as [[m2 w2] t2]. injection H as <- <- <-.
    pose proof (S _ _ _ _ _ _ (or_introl eq_refl) K B) as G. eapply grows_trans; [exact G|]. apply IH; auto; [|apply G].
    intros. apply (S w0 t0 a0); auto. right. assumption.
Qed.
Lemma mapM_all : forall A B (f : A -> res B) l r, mapM f l = OK r -> forall y, In y r -> exists x, In x l /\ f x = OK y.
Proof.
  intros A B f. induction l as [|a l IH]; intros r H y Y; cbn [mapM] in H; [injection H as <-; destruct Y|].
  opn H. opn H. injection H as <-. destruct Y as [<-|Y]; [exists a; split; [left|]; auto|].
  destruct (IH _ B1 y Y) as [x' [X1 X2]]. exists x'. split; [right|]; auto.
Qed.
Lemma installed : forall w q id s c e, q = (id, s, c, e) ->
  w_ekf (install w q) = e /\ w_cnt (install w q) = c /\ mfind id (w_sensors (install w q)) = Some s /\
  (forall j, mfind j (w_sensors w) <> None -> mfind j (w_sensors (install w q)) <> None).
Proof.
  intros w q id s c e ->. cbn [install w_ekf w_cnt w_sensors]. split; [reflexivity|]. split; [reflexivity|]. split; [apply mfind_mset_eq|].
  intros j H. destruct (Nat.eq_dec j id) as [->|N]; [rewrite mfind_mset_eq; discriminate|rewrite mfind_mset_neq by exact N; exact H].
Qed.
Lemma no_frames : forall L h ms, Forall (fun m => forall id t f tr b, m <> MCam id t f tr b) ms -> forall id, fit L h (filter (of_camera id) ms).
Proof.
  intros L h ms F id. assert (E : filter (of_camera id) ms = []).
  { induction F as [|m ms H F IH]; [reflexivity|]. cbn [filter]. destruct m; cbn; auto. exfalso. eapply H. reflexivity. }
  rewrite E. exact I.
Qed.
Lemma imu_grows : forall L w t x ms w' t', known (tr_features t) -> add_imu w t x = OK (ms, w', t') -> grows L w t ms w' t'.
Proof.
  intros L w t [c d] ms w' t' K H. unfold add_imu in H. opn H. destruct x as [[[id s] cn] e]. opn H. opn H. injection H as <- <- <-.
  destruct (imu_new_is _ _ _ _ _ _ _ B) as [-> [N1 [N2 [N3 [S1 S2]]]]]. destruct (installed w (S (n_sensors (w_cnt w)), s, cn, e) _ _ _ _ eq_refl) as [I1 [I2 [I3 I4]]].
  assert (M : Forall (fun m => msg_id m = S (n_sensors (w_cnt w)) /\ forall id t f tr b, m <> MCam id t f tr b) x0).
  { apply Forall_forall. intros m Hm. destruct (mapM_all _ _ _ _ _ B1 m Hm) as [it [_ E]].
    unfold sim_imu_message in E. opn E. destruct x1. injection E as <-. split; [reflexivity|intros; discriminate]. }
  unfold grows. cbn [install w_ekf w_cnt w_sensors] in *. rewrite N1, N2. split; [lia|]. split; [lia|]. split; [exact S1|].
  split; [unfold sim_imu_new; destruct (ic_no_errors c); exact K|]. split; [apply covers_imu; lia|]. split; [|split; [exact I4|]].
  - eapply Forall_impl; [|exact M]. cbv beta. intros m [-> _]. split; [lia|]. rewrite I3. discriminate.
  - apply no_frames. eapply Forall_impl; [|exact M]. cbv beta. tauto.
Qed.
Lemma gps_grows : forall L g w t x ms w' t', known (tr_features t) -> add_gps g w t x = OK (ms, w', t') -> grows L w t ms w' t'.
Proof.
  intros L g w t [c d] ms w' t' K H. unfold add_gps in H. opn H. destruct x as [[[id s] cn] e]. opn H. opn H. injection H as <- <- <-.
  destruct (gps_new_is _ _ _ _ _ _ _ B) as [-> [N1 [N2 [N3 [S1 S2]]]]]. destruct (installed w (S (n_sensors (w_cnt w)), s, cn, e) _ _ _ _ eq_refl) as [I1 [I2 [I3 I4]]].
  assert (M : Forall (fun m => msg_id m = S (n_sensors (w_cnt w)) /\ forall id t f tr b, m <> MCam id t f tr b) x0).
  { apply Forall_forall. intros m Hm. destruct (mapM_all _ _ _ _ _ B1 m Hm) as [it [_ E]].
    unfold sim_gps_message in E. do 5 opn E. injection E as <-. split; [reflexivity|intros; discriminate]. }
  unfold grows. cbn [install w_ekf w_cnt w_sensors] in *. rewrite N1, N2. split; [lia|]. split; [lia|]. split; [exact S1|].
  split; [exact K|]. split; [apply covers_gps; lia|]. split; [|split; [exact I4|]].
  - eapply Forall_impl; [|exact M]. cbv beta. intros m [-> _]. split; [lia|]. rewrite I3. discriminate.
  - apply no_frames. eapply Forall_impl; [|exact M]. cbv beta. tauto.
Qed.

(** The tracker, the board and the truth of a camera. *)
Definition cam_tracker (c : cam_cfg) (w : world) (tk : option tracker_cfg) : option (nat * sim_tracker) :=
  match tk with
  | None => None
  | Some a => Some (S (n_trackers (w_cnt w)), sim_tracker_new (tc_min_len a) (tc_max_len a) (tc_count a) (tc_no_errors a || cc_no_errors c))
  end.
Definition cam_board (c : cam_cfg) (w : world) (tk : option tracker_cfg) (bd : option board_cfg) : option (nat * board_cfg) :=
  match bd with
  | None => None
  | Some b => Some (S (n_trackers (w_cnt w)) + (match tk with None => 0 | Some _ => 1 end),
                    mkBC (bc_par b) (bc_pos_error b) (bc_t_error b) (bc_r_error b) (bc_no_errors b || cc_no_errors c))
  end.
Definition cam_truth (c : cam_cfg) (d : draws) (w : world) (t : truth) (tk : option tracker_cfg) (bd : option board_cfg) : truth :=
  let t := sim_cam_new t (S (n_sensors (w_cnt w))) (cc_no_errors c) (cc_par c) (cc_pos_error c) (dr_new d) (dr_new_rot d) in
  match cam_board c w tk bd with
  | None => t
  | Some (k, b) => sim_board_new t k (bc_no_errors b) (bc_par b) (bc_pos_error b) (dr_board d) (dr_board_rot d)
  end.
Lemma cam_inv : forall project trackers boards w t c d ms w' t', add_cam project trackers boards w t (c, d) = OK (ms, w', t') ->
  exists tk bd ts fs id s cnt e times cnt',
    chosen (cc_tracker c) trackers = OK tk /\ chosen (cc_board c) boards = OK bd /\
    List.length ts = (match tk with None => 0 | Some _ => 1 end) /\
    fs = (match bd with
          | None => []
          | Some b => [mkFidP (fp_id (bc_par b)) (fp_ext (bc_par b)) (cp_ext (cc_par c)) (fp_pos (bc_par b)) (fp_ang (bc_par b)) (fp_var (bc_par b))]
          end) /\
    camera_new (w_cnt w) (w_ekf w) (cc_par c) ts fs = OK (id, s, cnt, e) /\ id = S (n_sensors (w_cnt w)) /\
    GenerateMeasurementTimes (cc_no_errors c) (dr_offset d) (dr_jitter d) (tr_max_time t) (cp_rate (cc_par c)) = OK times /\
    sim_frames project id d (cam_board c w tk bd) cnt (cam_truth c d w t tk bd) 0 (cam_tracker c w tk) times = OK (ms, cnt', t') /\
    w' = mkWorld e cnt' (mset id s (w_sensors w)).
Proof.
  intros project trackers boards w t c d ms w' t' H. unfold add_cam in H. opn H. rename x into tk. opn H. rename x into bd. cbv zeta in H.
  opn H. destruct x as [[[id s] cnt] e]. pose proof (camera_new_is _ _ _ _ _ _ _ _ _ B1) as [-> _].
  match type of B1 with camera_new _ _ _ ?a ?b = _ => exists tk, bd, a, b, (S (n_sensors (w_cnt w))), s, cnt, e end.
  assert (LL : List.length (match tk with None => [] | Some a => [mkTP (cp_ext (cc_par c)) (tc_min_dist a) (tc_px a)] end) =
    match tk with None => 0 | Some _ => 1 end) by (destruct tk; reflexivity).
  rewrite LL in H. opn H. opn H. destruct x0 as [[ms1 cn1] t1]. injection H as <- <- <-. exists x, cn1.
  split; [exact B|]. split; [exact B0|]. split; [exact LL|]. split; [destruct bd; reflexivity|]. split; [exact B1|]. split; [reflexivity|].
  split; [|split; [|reflexivity]].
  - rewrite <- B2. destruct bd; unfold sim_cam_new, sim_board_new; repeat (match goal with |- context [if ?b then _ else _] => destruct b end); reflexivity.
  - exact B3.
Qed.
Lemma cam_truth_covers : forall c d w t tk bd, covers (n_sensors (w_cnt w)) (n_trackers (w_cnt w)) t (cam_truth c d w t tk bd).
Proof.
  intros. unfold cam_truth, cam_board. cbv zeta. eapply covers_trans; [apply covers_cam with (id := S (n_sensors (w_cnt w))); lia|].
  destruct bd; [apply covers_board; lia|apply covers_refl].
Qed.
Lemma cam_truth_features : forall c d w t tk bd, tr_features (cam_truth c d w t tk bd) = tr_features t.
Proof.
  intros. unfold cam_truth, cam_board, sim_cam_new, sim_board_new. destruct bd; repeat (match goal with |- context [if ?b then _ else _] => destruct b end); reflexivity.
Qed.
Lemma ready_new : forall Q L f mn mx n ne, Nat.max 1 mx <= L -> tracker_ready Q L [] f (sim_tracker_new mn mx n ne).
Proof. intros. split; [apply wfm_nil|]. split; [intros k t []|]. split; [intros k t []|]. split; [intros k t p []|exact H]. Qed.
Lemma cam_grows : forall L project trackers boards w t x ms w' t',
  (forall n a, named n trackers = Some a -> Nat.max 1 (tc_max_len a) <= L) ->
  known (tr_features t) -> add_cam project trackers boards w t x = OK (ms, w', t') -> grows L w t ms w' t'.
Proof.
  intros L project trackers boards w t [c d] ms w' t' HL K H.
  destruct (cam_inv _ _ _ _ _ _ _ _ _ _ H) as [tk [bd [ts [fs [id [s [cnt [e [times [cnt' [C1 [C2 [C3 [C4 [C5 [C6 [C7 [C8 ->]]]]]]]]]]]]]]]]]].
  destruct (camera_new_is _ _ _ _ _ _ _ _ _ C5) as [_ [N1 [N2 [N3 [S1 S2]]]]].
  destruct (frames_made (fun _ _ => True) L _ _ _ _ _ _ _ _ _ _ _ _ [] C8) as [M1 [M2 [K' [[f ->] [F [Ft _]]]]]].
  { rewrite cam_truth_features. exact K. }
  { intros k st E. unfold cam_tracker in E. destruct tk as [a|]; [|discriminate]. injection E as <- <-. apply ready_new.
    unfold chosen in C1. destruct (cc_tracker c) as [n|]; [|discriminate]. destruct (named n trackers) eqn:X; [|discriminate]. injection C1 as ->. eauto. }
  { constructor. } { auto. }
  assert (I : Forall (fun m => msg_id m = id) ms).
  { eapply Forall_impl; [|exact F]. intros m [tm [fr [tr [bs [-> _]]]]]. reflexivity. }
  unfold grows. cbn [w_ekf w_cnt w_sensors]. rewrite M1, M2, N1, N2. split; [lia|]. split; [lia|]. split; [exact S1|]. split; [exact K'|].
  split; [eapply covers_trans; [apply cam_truth_covers|apply covers_features]|]. split; [|split].
  - eapply Forall_impl; [|exact I]. cbv beta. intros m ->. split; [lia|]. rewrite mfind_mset_eq. discriminate.
  - intros j J. destruct (Nat.eq_dec j id) as [->|N]; [rewrite mfind_mset_eq; discriminate|rewrite mfind_mset_neq by exact N; exact J].
  - intros j. destruct (Nat.eq_dec j id) as [->|N].
    + assert (E : filter (of_camera id) ms = ms).
      { clear - F. induction F as [|m l [tm [fr [tr [bs [-> _]]]]] F IH]; [reflexivity|]. cbn [filter of_camera]. rewrite Nat.eqb_refl, IH. reflexivity. }
      rewrite E. exact Ft.
    + rewrite not_of; [exact Logic.I|]. eapply Forall_impl; [|exact I]. cbv beta. intros m ->. auto.
Qed.

(** *** The whole set-up *)
Lemma longest_ge : forall c n a, named n (sc_trackers c) = Some a -> tc_max_len a <= longest_track c.
Proof.
  intros c n a H. unfold longest_track.
  assert (F1 : forall A (g : A -> nat) l m, m <= fold_left (fun n x => Nat.max n (g x)) l m).
  { intros A g. induction l as [|x l IH]; intros m; cbn [fold_left]; [lia|]. etransitivity; [|apply IH]. lia. }
  assert (F2 : forall A (g : A -> nat) l m x, In x l -> g x <= fold_left (fun n x => Nat.max n (g x)) l m).
  { intros A g. induction l as [|y l IH]; intros m x X; [destruct X|]. cbn [fold_left]. destruct X as [<-|X]; [|apply IH; exact X].
    etransitivity; [|apply F1]. lia. }
  assert (I : In (n, a) (sc_trackers c)).
  { revert H. induction (sc_trackers c) as [|[m b] l IH]; cbn [named]; [discriminate|]. intros H. destruct (named n l) as [b'|].
    - injection H as <-. right. apply IH. reflexivity.
    - destruct (String.eqb_spec m n) as [->|]; [injection H as <-; left; reflexivity|discriminate]. }
  etransitivity; [|apply (F1 _ (fun _ => board_max_len))]. apply (F2 _ (fun x => tc_max_len (snd x)) _ _ (n, a) I).
Qed.
Lemma known_start : forall b m ref hd, known (tr_features (set_local (truth_new b m) ref hd)).
Proof. intros. apply grown_known. apply grown_grid. apply grown_empty. Qed.
