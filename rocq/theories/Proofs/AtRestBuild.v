(** A simulated program that is built from true parameters holds the truth. *)
From Coq Require Import Reals List Arith Bool Lia Lra.
From Verif Require Import Base.Res Base.Mat Base.RDec Base.RSum Base.LinAlg Base.Geom Base.AMap Base.RMat
  Model.TypeHelper Model.Types Model.MathHelperMat Model.MathHelper Model.Matrix3 Model.QR Model.Ekf Model.Updater
  Model.GpsHelper Model.ImuUpdater Model.GpsUpdater Model.FiducialUpdater Model.MsckfUpdater
  Model.Sensors Model.Trackers Model.SimSensors
  Spec.History Spec.Same Spec.Lookup Spec.Rotation Spec.AtRest
  Proofs.Effects Proofs.Update Proofs.Rotations Proofs.GpsFrames Proofs.Same Proofs.Lookup Proofs.Follows
  Proofs.ZeroStep Proofs.RestLookup Proofs.AtRest.
Import ListNotations.
Open Scope nat_scope.

Lemma extends_refl : forall s, extends s s.
Proof. intros s. repeat split; intros id x H; exists x; auto. Qed.
Lemma extends_trans : forall a b c, extends a b -> extends b c -> extends a c.
Proof.
  intros a b c [A1 [A2 [A3 A4]]] [B1 [B2 [B3 B4]]]. repeat split; intros id x H.
  - destruct (A1 _ _ H) as [y [Y1 Y2]]. destruct (B1 _ _ Y1) as [z [Z1 Z2]]. exists z. split; congruence.
  - destruct (A2 _ _ H) as [y [Y1 Y2]]. destruct (B2 _ _ Y1) as [z [Z1 Z2]]. exists z. split; congruence.
  - destruct (A3 _ _ H) as [y [Y1 Y2]]. destruct (B3 _ _ Y1) as [z [Z1 Z2]]. exists z. split; congruence.
  - destruct (A4 _ _ H) as [y [Y1 Y2]]. destruct (B4 _ _ Y1) as [z [Z1 Z2]]. exists z. split; congruence.
Qed.
(** Nothing stored under numbers from [n] on. *)
Definition unused (n : nat) (s : State) : Prop :=
  forall k, n <= k -> mfind k (s_imu s) = None /\ mfind k (s_gps s) = None /\ mfind k (s_cam s) = None.
Definition grown (p : V3) (q : quat) (e e' : ekf) : Prop :=
  rests p q (e_state e') /\ extends (e_state e) (e_state e') /\ e_par e' = e_par e /\ e_lla_init e' = e_lla_init e /\
  e_pos_e_in_g e' = e_pos_e_in_g e /\ e_ang_l_to_e e' = e_ang_l_to_e e.
Lemma grown_trans : forall p q a b c, grown p q a b -> grown p q b c -> grown p q a c.
Proof.
  intros p q a b c [_ [A1 [A2 [A3 [A4 A5]]]]] [B0 [B1 [B2 [B3 [B4 B5]]]]]. split; [exact B0|].
  split; [eapply extends_trans; eauto|]. repeat split; congruence.
Qed.
Lemma grown_refl : forall p q e, rests p q (e_state e) -> grown p q e e.
Proof. intros p q e R. split; [exact R|]. split; [apply extends_refl|auto]. Qed.
Lemma bare_extends : forall s s', bare s' = bare s -> extends s s'.
Proof. intros s s' H. apply sbc_extends. apply sbc_bare. exact H. Qed.
Lemma grow_refresh : forall p q e e2 e', rests p q (e_state e2) -> extends (e_state e) (e_state e2) ->
  e_par e2 = e_par e -> e_lla_init e2 = e_lla_init e -> e_pos_e_in_g e2 = e_pos_e_in_g e -> e_ang_l_to_e e2 = e_ang_l_to_e e ->
  RefreshIndices e2 = OK e' -> grown p q e e'.
Proof.
  intros p q e e2 e' R X F1 F2 F3 F4 H. destruct (quiet_refresh p q _ _ R H) as [R' [S [G1 [G2 [G3 [G4 _]]]]]].
  split; [exact R'|]. split; [eapply extends_trans; [exact X|apply sbc_extends; exact S]|]. repeat split; congruence.
Qed.
Lemma mset_extends : forall A (f : A -> A) k v m, mfind k m = None -> forall id x, mfind id m = Some x ->
  exists y, mfind id (mset k v m) = Some y /\ f y = f x.
Proof.
  intros A f k v m N id x H. exists x. split; [|reflexivity]. rewrite mfind_mset_neq; [exact H|]. intros ->. congruence.
Qed.
Lemma rests_same : forall p q s s', s_body s' = s_body s -> s_aug s' = s_aug s -> rests p q s -> rests p q s'.
Proof. intros p q s s' H1 H2 R. unfold rests in *. rewrite H1, H2. exact R. Qed.

Lemma bare_none : forall A (f : A -> A) k m m', on_map f m' = on_map f m -> mfind k m = None -> mfind k m' = None.
Proof.
  intros A f k m m' H N. pose proof (mfind_bare _ _ k _ _ H) as Y. rewrite N in Y. destruct (mfind k m'); [discriminate|reflexivity].
Qed.
Lemma refresh_unused : forall n e e', RefreshIndices e = OK e' -> unused n (e_state e) -> unused n (e_state e').
Proof.
  intros n e e' H U k L. destruct (refresh_bare _ _ H) as [B _]. destruct (U k L) as [U1 [U2 U3]].
  destruct (bare_parts _ _ B) as [_ [X1 [X2 [X3 _]]]].
  split; [eapply bare_none; eauto|]. split; eapply bare_none; eauto.
Qed.
Lemma refresh_fid : forall k e e', RefreshIndices e = OK e' -> mfind k (s_fid (e_state e)) = None -> mfind k (s_fid (e_state e')) = None.
Proof.
  intros k e e' H U. destruct (refresh_bare _ _ H) as [B _]. destruct (bare_parts _ _ B) as [_ [_ [_ [_ [X _]]]]].
  eapply bare_none; eauto.
Qed.

Lemma reg_imu : forall p q e id st cov e', rests p q (e_state e) -> unused id (e_state e) -> RegisterIMU e id st cov = OK e' ->
  grown p q e e' /\ unused (S id) (e_state e') /\ exists y, mfind id (s_imu (e_state e')) = Some y /\ bare_imu y = bare_imu st.
Proof.
  intros p q e id st cov e' R U H. destruct (U id (le_n _)) as [N _]. unfold RegisterIMU in H. rewrite N in H.
  cbv zeta in H. set (s1 := state_with_imu (e_state e) (mset id st (s_imu (e_state e)))) in *. opn H. rename x into e1.
  assert (E1 : e_state e1 = s1 /\ e_par e1 = e_par e /\ e_lla_init e1 = e_lla_init e /\ e_pos_e_in_g e1 = e_pos_e_in_g e /\ e_ang_l_to_e e1 = e_ang_l_to_e e).
  { destruct (i_ext st || i_int st); [opn B; opn B|]; injection B as <-; repeat split; reflexivity. }
  match type of H with RefreshIndices ?x = _ => set (e2 := x) in * end.
  assert (E2 : e_state e2 = s1 /\ e_par e2 = e_par e /\ e_lla_init e2 = e_lla_init e /\ e_pos_e_in_g e2 = e_pos_e_in_g e /\ e_ang_l_to_e e2 = e_ang_l_to_e e).
  { unfold e2. destruct (i_int st), (i_ext st); exact E1. }
  clearbody e2. destruct E2 as [Es [P1 [P2 [P3 P4]]]].
  assert (X : extends (e_state e) (e_state e2)).
  { rewrite Es. destruct (extends_refl (e_state e)) as [_ [G2 [G3 G4]]]. split; [|split; [exact G2|split; [exact G3|exact G4]]].
    apply mset_extends. exact N. }
  assert (U2 : unused (S id) (e_state e2)).
  { intros k L. destruct (U k ltac:(lia)) as [U1 [U2 U3]]. rewrite Es. cbn. rewrite mfind_mset_neq by lia. auto. }
  split; [|split].
  - eapply (grow_refresh p q e e2); eauto. rewrite Es. eapply rests_same; [| |exact R]; reflexivity.
  - eapply refresh_unused; eauto.
  - destruct (bare_extends _ _ (proj1 (refresh_bare _ _ H))) as [G _]. apply G. rewrite Es. cbn. apply mfind_mset_eq.
Qed.
Lemma reg_gps : forall p q e id st cov e', rests p q (e_state e) -> unused id (e_state e) -> RegisterGPS e id st cov = OK e' ->
  grown p q e e' /\ unused (S id) (e_state e') /\ exists y, mfind id (s_gps (e_state e')) = Some y /\ bare_gps y = bare_gps st.
Proof.
  intros p q e id st cov e' R U H. destruct (U id (le_n _)) as [_ [N _]]. unfold RegisterGPS in H. rewrite N in H.
  cbv zeta in H. set (s1 := state_with_gps (e_state e) (mset id st (s_gps (e_state e)))) in *. opn H. rename x into e2.
  assert (E2 : e_state e2 = s1 /\ e_par e2 = e_par e /\ e_lla_init e2 = e_lla_init e /\ e_pos_e_in_g e2 = e_pos_e_in_g e /\ e_ang_l_to_e e2 = e_ang_l_to_e e).
  { destruct (g_ext st); [opn B|]; try opn B; injection B as <-; repeat split; reflexivity. }
  destruct E2 as [Es [P1 [P2 [P3 P4]]]].
  assert (X : extends (e_state e) (e_state e2)).
  { rewrite Es. destruct (extends_refl (e_state e)) as [G1 [_ [G3 G4]]]. split; [exact G1|split; [|split; [exact G3|exact G4]]].
    apply mset_extends. exact N. }
  assert (U2 : unused (S id) (e_state e2)).
  { intros k L. destruct (U k ltac:(lia)) as [U1 [U2 U3]]. rewrite Es. cbn. rewrite mfind_mset_neq by lia. auto. }
  split; [|split].
  - eapply (grow_refresh p q e e2); eauto. rewrite Es. eapply rests_same; [| |exact R]; reflexivity.
  - eapply refresh_unused; eauto.
  - destruct (bare_extends _ _ (proj1 (refresh_bare _ _ H))) as [_ [G _]]. apply G. rewrite Es. cbn. apply mfind_mset_eq.
Qed.
Lemma reg_cam : forall p q e id st cov e', rests p q (e_state e) -> unused id (e_state e) -> RegisterCamera e id st cov = OK e' ->
  grown p q e e' /\ unused (S id) (e_state e') /\ (exists y, mfind id (s_cam (e_state e')) = Some y /\ bare_cam y = bare_cam st) /\
  (forall k, mfind k (s_fid (e_state e)) = None -> mfind k (s_fid (e_state e')) = None).
Proof.
  intros p q e id st cov e' R U H. destruct (U id (le_n _)) as [_ [_ N]]. unfold RegisterCamera in H. rewrite N in H.
  cbv zeta in H. opn H. opn H. rename x0 into e2.
  set (s1 := state_with_cam (e_state e) (mset id st (s_cam (e_state e)))).
  assert (E2 : e_state e2 = s1 /\ e_par e2 = e_par e /\ e_lla_init e2 = e_lla_init e /\ e_pos_e_in_g e2 = e_pos_e_in_g e /\ e_ang_l_to_e e2 = e_ang_l_to_e e).
  { destruct (c_ext st); [opn B0; opn B0|]; injection B0 as <-; destruct (Nat.eqb _ 0); repeat split; reflexivity. }
  destruct E2 as [Es [P1 [P2 [P3 P4]]]].
  assert (X : extends (e_state e) (e_state e2)).
  { rewrite Es. destruct (extends_refl (e_state e)) as [G1 [G2 [_ G4]]]. split; [exact G1|split; [exact G2|split; [|exact G4]]].
    apply mset_extends. exact N. }
  assert (U2 : unused (S id) (e_state e2)).
  { intros k L. destruct (U k ltac:(lia)) as [U1 [U2 U3]]. rewrite Es. cbn. rewrite mfind_mset_neq by lia. auto. }
  split; [|split; [|split]].
  - eapply (grow_refresh p q e e2); eauto. rewrite Es. eapply rests_same; [| |exact R]; reflexivity.
  - eapply refresh_unused; eauto.
  - destruct (bare_extends _ _ (proj1 (refresh_bare _ _ H))) as [_ [_ [G _]]]. apply G. rewrite Es. cbn. apply mfind_mset_eq.
  - intros k K. eapply refresh_fid; [exact H|]. rewrite Es. exact K.
Qed.
Lemma reg_fid : forall p q n e st cov e', rests p q (e_state e) -> unused n (e_state e) -> mfind (f_id st) (s_fid (e_state e)) = None ->
  RegisterFiducial e st cov = OK e' ->
  grown p q e e' /\ unused n (e_state e') /\ (exists y, mfind (f_id st) (s_fid (e_state e')) = Some y /\ bare_fid y = bare_fid st) /\
  (forall k, k <> f_id st -> mfind k (s_fid (e_state e)) = None -> mfind k (s_fid (e_state e')) = None).
Proof.
  intros p q n e st cov e' R U N H. unfold RegisterFiducial in H. rewrite N in H.
  cbv zeta in H. opn H. rename x into e2.
  set (s1 := state_with_fid (e_state e) (mset (f_id st) st (s_fid (e_state e)))).
  assert (E2 : e_state e2 = s1 /\ e_par e2 = e_par e /\ e_lla_init e2 = e_lla_init e /\ e_pos_e_in_g e2 = e_pos_e_in_g e /\ e_ang_l_to_e e2 = e_ang_l_to_e e).
  { destruct (f_ext st); [opn B; opn B|]; injection B as <-; repeat split; reflexivity. }
  destruct E2 as [Es [P1 [P2 [P3 P4]]]].
  assert (X : extends (e_state e) (e_state e2)).
  { rewrite Es. destruct (extends_refl (e_state e)) as [G1 [G2 [G3 _]]]. split; [exact G1|split; [exact G2|split; [exact G3|]]].
    apply mset_extends. exact N. }
  assert (U2 : unused n (e_state e2)).
  { intros k L. destruct (U k ltac:(lia)) as [U1 [U2 U3]]. rewrite Es. cbn. auto. }
  split; [|split; [|split]].
  - eapply (grow_refresh p q e e2); eauto. rewrite Es. eapply rests_same; [| |exact R]; reflexivity.
  - eapply refresh_unused; eauto.
  - destruct (bare_extends _ _ (proj1 (refresh_bare _ _ H))) as [_ [_ [_ G]]]. apply G. rewrite Es. cbn. apply mfind_mset_eq.
  - intros k Nk K. eapply refresh_fid; [exact H|]. rewrite Es. cbn. rewrite mfind_mset_neq by exact Nk. exact K.
Qed.

(** *** The trackers of a camera *)
Lemma add_trackers_fresh : forall ts c cam m m' c', add_trackers c cam ts m = (m', c') ->
  n_sensors c' = n_sensors c /\ n_trackers c' = n_trackers c + length ts /\
  forall k tr, mfind k m' = Some tr -> (exists p, In p ts /\ tr = mkTrk (msckf_updater_init cam (tp_cam_ext p) (tp_min_dist p)) (tp_px p))
    \/ mfind k m = Some tr.
Proof.
  induction ts as [|p ts IH]; intros c cam m m' c' H; cbn [add_trackers] in H.
  - injection H as <- <-. cbn. split; [reflexivity|]. split; [lia|]. auto.
  - cbn [tracker_new new_tracker_id] in H. destruct (IH _ _ _ _ _ H) as [H0 [H1 H2]]. cbn in H0, H1. split; [exact H0|].
    split; [cbn [length]; lia|].
    intros k tr K. destruct (H2 _ _ K) as [[p' [I ->]]|K'].
    + left. exists p'. split; [right; exact I|reflexivity].
    + destruct (Nat.eq_dec k (S (n_trackers c))) as [->|N].
      * rewrite mfind_mset_eq in K'. injection K' as <-. left. exists p. split; [left; reflexivity|reflexivity].
      * rewrite mfind_mset_neq in K' by exact N. auto.
Qed.

Lemma add_fids_true : forall t p q cam cs ps c e m m' c' e', rests p q (e_state e) -> unused (S cam) (e_state e) ->
  boards_told t (S (n_trackers c)) ps -> NoDup (map fp_id ps) ->
  (forall f, In f ps -> mfind (fp_id f) (s_fid (e_state e)) = None) ->
  (forall k u, mfind k m = Some u -> board_true t e cam cs k u) ->
  add_fiducials c e cam ps m = OK (m', c', e') ->
  grown p q e e' /\ unused (S cam) (e_state e') /\ n_sensors c' = n_sensors c /\ (forall k u, mfind k m' = Some u -> board_true t e' cam cs k u).
Proof.
  intros t p q cam cs. induction ps as [|f ps IH]; intros c e m m' c' e' R U T ND FR BT H; cbn [add_fiducials] in H.
  - injection H as <- <- <-. split; [apply grown_refl; exact R|]. split; [exact U|]. split; [reflexivity|exact BT].
  - opn H. destruct x as [[[id u] c1] e1]. unfold fid_new in B. cbn [new_tracker_id] in B. opn B. opn B.
    injection B as <- <- <- <-.
    assert (Hid : f_id (fid_state_of f) = fp_id f) by (unfold fid_state_of, fid_SetIsExtrinsic; destruct (fp_ext f); reflexivity).
    destruct (reg_fid p q (S cam) _ _ _ _ R U ltac:(rewrite Hid; apply FR; left; reflexivity) B1) as [G [U1 [[y [Y1 Y2]] FR1]]].
    rewrite Hid in Y1, FR1. inversion ND as [|? ? ND1 ND2]; subst.
    assert (T1 : boards_told t (S (S (n_trackers c))) ps).
    { intros i g Hg. specialize (T (S i) g Hg). replace (S (S (n_trackers c)) + i) with (S (n_trackers c) + S i) by lia. exact T. }
    assert (FR2 : forall g, In g ps -> mfind (fp_id g) (s_fid (e_state x0)) = None).
    { intros g I. apply FR1; [|apply FR; right; exact I]. intros E. apply ND1. rewrite <- E. apply in_map. exact I. }
    assert (BT2 : forall k v, mfind k (mset (S (n_trackers c)) (fid_updater_init (fp_id f) cam (fp_ext f) (fp_cam_ext f)) m) = Some v ->
      board_true t x0 cam cs k v).
    { intros k v K. destruct (Nat.eq_dec k (S (n_trackers c))) as [->|N].
      - rewrite mfind_mset_eq in K. injection K as <-. split; [reflexivity|]. exists y. cbn [fu_id fid_updater_init]. split; [exact Y1|].
        destruct (T 0 f eq_refl) as [T2 [T3 T4]]. rewrite Nat.add_0_r in T2, T3.
        assert (Z : f_pos y = fp_pos f /\ f_ang y = fp_ang f).
        { pose proof (f_equal f_pos Y2) as Z1. pose proof (f_equal f_ang Y2) as Z2. cbn in Z1, Z2. rewrite Z1, Z2.
          unfold fid_state_of, fid_SetIsExtrinsic. destruct (fp_ext f); split; reflexivity. }
        destruct Z as [-> ->]. split; [exact T2|]. split; [exact T3|]. split; [exact T4|]. discriminate.
      - rewrite mfind_mset_neq in K by exact N. destruct (BT _ _ K) as [J1 [z [J2 [J3 [J4 [J5 J6]]]]]]. split; [exact J1|].
        destruct G as [_ [[_ [_ [_ X]]] _]]. destruct (X _ _ J2) as [z' [Z1 Z2]]. exists z'.
        pose proof (f_equal f_pos Z2) as W1. pose proof (f_equal f_ang Z2) as W2. cbn in W1, W2. rewrite W1, W2. auto. }
    apply IH in H; [|apply G|exact U1|exact T1|exact ND2|exact FR2|exact BT2]. destruct H as [G2 [U2 [H2 H3]]]. cbn in H2.
    split; [eapply grown_trans; eauto|]. auto.
Qed.

Section Build.
Variable svd : m2 -> m2 * m2.
Variable hull : list (BinNums.Z * BinNums.Z) -> list (BinNums.Z * BinNums.Z).
Variable ecef_to_lla : V3 -> V3.
Variable mat_quat : mat R -> quat.
Variable solve : mat R -> V3 -> V3.

Lemma holds_grown : forall t p q w id s e c, holds t p q w -> grown p q (w_ekf w) e -> sensor_true t e id s ->
  holds t p q (mkWorld e c (mset id s (w_sensors w))).
Proof.
  intros t p q w id s e c [R [X S]] [R' [E [F1 [F2 [F3 F4]]]]] ST. split; [exact R'|]. cbn [w_ekf w_sensors].
  split; [rewrite F1; exact X|]. intros k x K. destruct (Nat.eq_dec k id) as [->|N].
  - rewrite mfind_mset_eq in K. injection K as <-. exact ST.
  - rewrite mfind_mset_neq in K by exact N. eapply sensor_grow; eauto.
Qed.

Lemma build_step : forall t p q w v w', holds t p q w -> unused (S (n_sensors (w_cnt w))) (e_state (w_ekf w)) -> told t w v ->
  wstep svd hull ecef_to_lla mat_quat solve w v = OK w' ->
  holds t p q w' /\ unused (S (n_sensors (w_cnt w'))) (e_state (w_ekf w')).
Proof.
  intros t p q w v w' H U T E. pose proof (proj1 H) as R. destruct v as [ip|gp|cp ts fs|m|id tm im se bo|o]; try destruct T; cbn [wstep] in E.
  - opn E. injection E as <-. unfold imu_new in B. cbn [new_sensor_id] in B. opn B. opn B. injection B as <-. cbn [install].
    destruct H1 as [T1 [T2 T3]]. destruct (reg_imu p q _ _ _ _ _ R U B1) as [G [U1 [y [Y1 Y2]]]].
    split; [|exact U1]. apply (holds_grown t p q w _ _ _ _ H G). split; [reflexivity|]. split; [reflexivity|]. exists y.
    assert (Z : i_ang y = ip_ang ip /\ i_acc_bias y = ip_acc_bias ip /\ i_omg_bias y = ip_omg_bias ip).
    { pose proof (f_equal i_ang Y2) as Z1. pose proof (f_equal i_acc_bias Y2) as Z2. pose proof (f_equal i_omg_bias Y2) as Z3. auto. }
    destruct Z as [-> [-> ->]]. auto.
  - opn E. injection E as <-. unfold gps_new in B. cbn [new_sensor_id] in B. opn B. injection B as <-. cbn [install].
    destruct H1 as [T1 [T2 T3]]. destruct (reg_gps p q _ _ _ _ _ R U B0) as [G [U1 [y [Y1 Y2]]]].
    split; [|exact U1]. apply (holds_grown t p q w _ _ _ _ H G). destruct G as [_ [_ [_ [F2 [F3 F4]]]]].
    split; [reflexivity|]. rewrite F2, F3, F4. repeat (split; [assumption|]). exists y.
    assert (Z : g_pos y = gp_pos gp).
    { pose proof (f_equal g_pos Y2) as Z1. cbn in Z1. rewrite Z1. unfold gps_state_of, gps_SetIsExtrinsic. destruct (gp_ext gp); reflexivity. }
    rewrite Z. split; [exact Y1|]. split; [exact H0|discriminate].
  - opn E. injection E as <-. unfold camera_new, cam_new in B. cbn [new_sensor_id] in B. opn B. opn B0. destruct x0 as [[i1 c0] e1]. injection B0 as <- <- <-.
    destruct (add_trackers _ _ _ _) as [trs c1] eqn:ET. opn B. destruct x0 as [[fids c2] e2]. injection B as <-. cbn [install].
    destruct H1 as [T1 [T2 [T3 [T4 [T5 T6]]]]].
    destruct (reg_cam p q _ _ _ _ _ R U B1) as [G [U1 [[y [Y1 Y2]] FR]]].
    destruct (add_trackers_fresh _ _ _ _ _ _ ET) as [N0 [N1 N2]]. cbn in N0, N1.
    assert (BT : forall k u, mfind k (@nil (nat * fid_updater)) = Some u -> board_true t x1 (S (n_sensors (w_cnt w))) y k u) by discriminate.
    destruct (add_fids_true t p q (S (n_sensors (w_cnt w))) y fs c1 x1 [] fids c2 e2 (proj1 G) U1
      ltac:(rewrite N1; exact T4) T5 (fun f I => FR _ (T6 f I)) BT B0) as [G2 [U2 [N3 BT2]]].
    split; [|cbn [w_cnt w_ekf]; rewrite N3, N0; exact U2]. apply (holds_grown t p q w _ _ _ _ H (grown_trans _ _ _ _ _ G G2)).
    destruct G2 as [_ [[_ [_ [X _]]] _]]. destruct (X _ _ Y1) as [z [Z1 Z2]].
    assert (Zc : c_pos z = cp_pos cp /\ c_ang z = cp_ang cp /\ c_intr z = cp_intr cp).
    { pose proof (f_equal c_pos Z2) as W1. pose proof (f_equal c_ang Z2) as W2. pose proof (f_equal c_intr Z2) as W3. cbn in W1, W2, W3.
      pose proof (f_equal c_pos Y2) as V1. pose proof (f_equal c_ang Y2) as V2. pose proof (f_equal c_intr Y2) as V3. cbn in V1, V2, V3.
      rewrite W1, W2, W3, V1, V2, V3. unfold cam_state_of, cam_SetIsExtrinsic. destruct (cp_ext cp); auto. }
    assert (Zy : c_pos y = c_pos z /\ c_ang y = c_ang z).
    { pose proof (f_equal c_pos Z2) as W1. pose proof (f_equal c_ang Z2) as W2. cbn in W1, W2. auto. }
    exists z. destruct Zc as [W1 [W2 W3]]. rewrite W1, W2, W3. split; [exact Z1|]. split; [exact H0|]. split; [exact T1|]. split; [exact T2|].
    split; [exact T3|]. split.
    + intros k tr K. destruct (N2 _ _ K) as [[tp [I ->]]|K']; [|discriminate]. split; [reflexivity|]. split; [reflexivity|discriminate].
    + intros k u K. destruct (BT2 _ _ K) as [J1 [f J2]]. split; [exact J1|]. exists f. destruct Zy as [V1 V2]. rewrite V1, V2 in J2. exact J2.
Qed.

Lemma build_run : forall t p q l w w', holds t p q w -> unused (S (n_sensors (w_cnt w))) (e_state (w_ekf w)) -> all_told t w l ->
  wrun svd hull ecef_to_lla mat_quat solve w l = OK w' -> holds t p q w'.
Proof.
  intros t p q. induction l as [|v l IH]; intros w w' H U T E; cbn [wrun] in E.
  - injection E as <-. exact H.
  - opn E. destruct T as [T1 T2]. destruct (build_step _ _ _ _ _ _ H U T1 B) as [H1 U1]. eapply IH; eauto.
Qed.

Lemma built_holds : forall t p q par Q pe a t0 b l w, at_rest p q b -> (0 <= p_chi2 par)%R ->
  all_told t (world_init (Initialize (EKF_init par Q pe a) t0 b)) l ->
  wrun svd hull ecef_to_lla mat_quat solve (world_init (Initialize (EKF_init par Q pe a) t0 b)) l = OK w -> holds t p q w.
Proof.
  intros t p q par Q pe a t0 b l w [B1 [B2 [B3 [B4 [B5 B6]]]]] X T E. eapply build_run; [| |exact T|exact E].
  - split; [|split; [exact X|discriminate]]. unfold rests. cbn. repeat (split; [assumption|]). intros k l' a' [].
  - intros k _. auto.
Qed.
End Build.
