(** Error-free measurements of a body at rest leave a filter alone that knows
    everything. *)
From Coq Require Import Reals List Arith Bool Lia Lra.
From Verif Require Import Base.Res Base.Mat Base.RDec Base.RSum Base.LinAlg Base.Geom Base.AMap Base.RMat
  Model.TypeHelper Model.Types Model.MathHelperMat Model.MathHelper Model.Matrix3 Model.QR Model.Ekf Model.Updater
  Model.GpsHelper Model.ImuUpdater Model.GpsUpdater Model.FiducialUpdater Model.MsckfUpdater
  Model.Sensors Model.Trackers Model.SimSensors
  Spec.History Spec.Same Spec.Lookup Spec.Rotation Spec.AtRest
  Proofs.Effects Proofs.Update Proofs.Rotations Proofs.GpsFrames Proofs.Same Proofs.Lookup Proofs.Follows Proofs.ZeroStep Proofs.RestLookup.
Import ListNotations.
Open Scope nat_scope.

(** *** Geometry *)
Lemma vadd0l : forall v, vadd v0 v = v. Proof. intros [x y z]. unfold vadd, v0. cbn. f_equal; ring. Qed.
Lemma vadd0r : forall v, vadd v v0 = v. Proof. intros [x y z]. unfold vadd, v0. cbn. f_equal; ring. Qed.
Lemma vsub0r : forall v, vsub v v0 = v. Proof. intros [x y z]. unfold vsub, v0. cbn. f_equal; ring. Qed.
Lemma vsub_self : forall v, vsub v v = v0. Proof. intros [x y z]. unfold vsub, v0. cbn. f_equal; ring. Qed.
Lemma vcross0l : forall v, vcross v0 v = v0. Proof. intros [x y z]. unfold vcross, v0. cbn. f_equal; ring. Qed.
Lemma vopp0 : vopp v0 = v0. Proof. unfold vopp, v0. cbn. f_equal; ring. Qed.
Lemma qrot0 : forall q, qrot q v0 = v0.
Proof. intros [w x y z]. unfold qrot, vadd, vscale, vcross, qvec, v0. cbn. f_equal; ring. Qed.
Lemma vget0 : forall i, vget v0 i = 0%R. Proof. intros [|[|]]; reflexivity. Qed.
Lemma zeros_v3 : zeros (v3mat v0).
Proof. intros k Hk. apply vget0. Qed.
Lemma zeros_stack : zeros (stack2 v0 v0).
Proof. intros k Hk. unfold stack2. cbn [ent]. rewrite !vget0. destruct (k <? 3); reflexivity. Qed.

Lemma mat_vec_ext : forall A B v, (forall i j, i < 3 -> j < 3 -> ent A i j = ent B i j) -> mat_vec A v = mat_vec B v.
Proof. intros A B v H. unfold mat_vec. rewrite !H by lia. reflexivity. Qed.
Lemma tr_mul_vec : forall q c v, qnorm2 q = 1%R -> qnorm2 c = 1%R ->
  mat_vec (m3tr (qmat (qmul q c))) v = mat_vec (m3tr (qmat c)) (mat_vec (m3tr (qmat q)) v).
Proof.
  intros q c v Hq Hc. pose proof (qmat_mul q c Hq Hc) as E. unfold mat_vec, m3tr, tr. cbn [ent vx vy vz].
  rewrite !E by lia. unfold mm. cbn [rsum]. f_equal; ring.
Qed.
Lemma tr_back : forall q v, qnorm2 q = 1%R -> mat_vec (m3tr (qmat q)) (qrot q v) = v.
Proof.
  intros q v H. rewrite <- qmat_vec by exact H. destruct (qmat_orthogonal q H) as [_ E].
  pose proof (E 0 0) as E00. pose proof (E 0 1) as E01. pose proof (E 0 2) as E02.
  pose proof (E 1 0) as E10. pose proof (E 1 1) as E11. pose proof (E 1 2) as E12.
  pose proof (E 2 0) as E20. pose proof (E 2 1) as E21. pose proof (E 2 2) as E22. clear E.
  specialize (E00 ltac:(lia) ltac:(lia)). specialize (E01 ltac:(lia) ltac:(lia)). specialize (E02 ltac:(lia) ltac:(lia)).
  specialize (E10 ltac:(lia) ltac:(lia)). specialize (E11 ltac:(lia) ltac:(lia)). specialize (E12 ltac:(lia) ltac:(lia)).
  specialize (E20 ltac:(lia) ltac:(lia)). specialize (E21 ltac:(lia) ltac:(lia)). specialize (E22 ltac:(lia) ltac:(lia)).
  unfold mm, tr in *. cbn [rsum] in *. unfold idm in *. cbn [Nat.eqb] in *. unfold mat_vec, m3tr. cbn [ent vx vy vz]. unfold tr.
  destruct v as [x y z]. cbn [vx vy vz].
  set (a := ent (qmat q)) in *. f_equal.
  - match type of E00 with ?a0 = _ => match type of E01 with ?a1 = _ => match type of E02 with ?a2 = _ =>
      transitivity (a0 * x + a1 * y + a2 * z)%R; [ring|rewrite E00, E01, E02; ring] end end end.
  - match type of E10 with ?a0 = _ => match type of E11 with ?a1 = _ => match type of E12 with ?a2 = _ =>
      transitivity (a0 * x + a1 * y + a2 * z)%R; [ring|rewrite E10, E11, E12; ring] end end end.
  - match type of E20 with ?a0 = _ => match type of E21 with ?a1 = _ => match type of E22 with ?a2 = _ =>
      transitivity (a0 * x + a1 * y + a2 * z)%R; [ring|rewrite E20, E21, E22; ring] end end end.
Qed.
Lemma mat_vec_add : forall M a b, mat_vec M (vadd a b) = vadd (mat_vec M a) (mat_vec M b).
Proof. intros. unfold mat_vec, vadd. cbn [vx vy vz]. f_equal; ring. Qed.
Lemma mat_vec_opp : forall M a, mat_vec M (vopp a) = vopp (mat_vec M a).
Proof. intros. unfold mat_vec, vopp. cbn [vx vy vz]. f_equal; ring. Qed.

(** The camera coordinates of the tracker and of the updater are the same. *)
Lemma same_point : forall p q pc qc f, qnorm2 q = 1%R -> qnorm2 qc = 1%R ->
  vadd (mat_vec (m3tr (qmat (qmul q qc))) f) (mat_vec (m3tr (qmat (qmul q qc))) (vopp (vadd p (qrot q pc)))) =
  mat_vec (m3tr (qmat qc)) (vsub (mat_vec (m3tr (qmat q)) (vsub f p)) pc).
Proof.
  intros p q pc qc f Hq Hc. rewrite !tr_mul_vec, <- mat_vec_add by assumption. f_equal.
  rewrite mat_vec_opp, mat_vec_add, tr_back, mat_vec_sub by exact Hq.
  destruct (mat_vec (m3tr (qmat q)) f), (mat_vec (m3tr (qmat q)) p), pc. unfold vadd, vsub, vopp. cbn. f_equal; ring.
Qed.
Lemma rdiv_val : forall a b c, rdiv a b = OK c -> c = (a / b)%R /\ b <> 0%R.
Proof.
  intros a b c H. unfold rdiv in H. destruct (Reqb b 0) eqn:E; [discriminate|]. injection H as <-. split; [reflexivity|].
  intros ->. assert (X : Reqb 0 0 = true) by (apply Reqb_spec; reflexivity). congruence.
Qed.
Lemma pixel_back : forall k pt c x y px py, pinhole k c = (kp_x pt, kp_y pt) ->
  undo_pixel k pt = OK (x, y) -> Project c = OK (px, py) -> x = px /\ y = py.
Proof.
  intros k pt c x y px py H U P. unfold pinhole in H. injection H as Hx Hy. unfold undo_pixel in U. unfold Project in P.
  opn U. opn U. opn U. opn U. injection U as <- <-. opn P. opn P. injection P as <- <-.
  apply rdiv_val in B, B0, B1, B2, B3, B4.
  destruct B as [-> N], B0 as [-> N0], B1 as [-> N1], B2 as [-> N2], B3 as [-> N3], B4 as [-> N4].
  rewrite <- Hx, <- Hy. set (a := (in_f_x k / in_pixel_size k)%R) in *. set (b := (in_f_y k / in_pixel_size k)%R) in *.
  clear - N1 N2 N3. split; field; auto.
Qed.

(** *** Sensors stay true *)
Definition extends (s s' : State) : Prop :=
  (forall id x, mfind id (s_imu s) = Some x -> exists y, mfind id (s_imu s') = Some y /\ bare_imu y = bare_imu x) /\
  (forall id x, mfind id (s_gps s) = Some x -> exists y, mfind id (s_gps s') = Some y /\ bare_gps y = bare_gps x) /\
  (forall id x, mfind id (s_cam s) = Some x -> exists y, mfind id (s_cam s') = Some y /\ bare_cam y = bare_cam x) /\
  (forall id x, mfind id (s_fid s) = Some x -> exists y, mfind id (s_fid s') = Some y /\ bare_fid y = bare_fid x).
Lemma sbc_extends : forall s s', same_but_clones s s' -> extends s s'.
Proof.
  intros s s' H. split; [|split; [|split]]; intros id x F.
  - eapply sbc_imu; eauto.
  - eapply sbc_gps; eauto.
  - eapply sbc_cam; eauto.
  - eapply sbc_fid; eauto.
Qed.
Lemma sensor_grow : forall t e e' id s, extends (e_state e) (e_state e') -> e_lla_init e' = e_lla_init e ->
  e_pos_e_in_g e' = e_pos_e_in_g e -> e_ang_l_to_e e' = e_ang_l_to_e e -> sensor_true t e id s -> sensor_true t e' id s.
Proof.
  intros t e e' id s [S1 [S2 [S3 S4]]] F1 F2 F3 H. destruct s as [u|u|trs fids]; cbn [sensor_true] in *.
  - destruct H as [H1 [H2 [x [X1 [X2 [X3 [X4 X5]]]]]]]. destruct (S1 _ _ X1) as [y [Y1 Y2]].
    pose proof (f_equal i_ang Y2) as Z1. pose proof (f_equal i_acc_bias Y2) as Z2. pose proof (f_equal i_omg_bias Y2) as Z3.
    cbn in Z1, Z2, Z3. split; [exact H1|]. split; [exact H2|]. exists y. rewrite Z1, Z2, Z3. repeat (split; [assumption|]). assumption.
  - destruct H as [H1 [H2 [H3 [H4 [x [X1 [X2 X3]]]]]]]. destruct (S2 _ _ X1) as [y [Y1 Y2]].
    pose proof (f_equal g_pos Y2) as Z1. cbn in Z1. unfold gps_true. rewrite F1, F2, F3. repeat (split; [assumption|]). exists y. rewrite Z1. auto.
  - destruct H as [c [C1 [C2 [C3 [C4 [C5 [T B]]]]]]]. destruct (S3 _ _ C1) as [y [Y1 Y2]].
    pose proof (f_equal c_pos Y2) as Z1. pose proof (f_equal c_ang Y2) as Z2. pose proof (f_equal c_intr Y2) as Z3.
    cbn in Z1, Z2, Z3. exists y. unfold tracker_true, board_true in *. rewrite Z1, Z2, Z3. split; [exact Y1|]. split; [exact C2|]. split; [exact C3|].
    split; [exact C4|]. split; [exact C5|]. split.
    + exact T.
    + intros k u Hk. destruct (B k u Hk) as [B1 [f [D1 [D2 [D3 [D4 D5]]]]]]. split; [exact B1|].
      destruct (S4 _ _ D1) as [g [G1 G2]]. exists g.
      pose proof (f_equal f_pos G2) as W1. pose proof (f_equal f_ang G2) as W2. cbn in W1, W2. rewrite W1, W2. auto.
Qed.
Lemma sensor_keep : forall t p q e e' id s, quiet p q e e' -> sensor_true t e id s -> sensor_true t e' id s.
Proof.
  intros t p q e e' id s [_ [S [_ [F1 [F2 [F3 _]]]]]] H. eapply sensor_grow; eauto. apply sbc_extends. exact S.
Qed.

Lemma local_quiet : forall p q e t lt e', rests p q (e_state e) -> CalculateLocalTime e t = (lt, e') ->
  quiet p q e e' /\ e_state e' = e_state e /\ e_max_len e' = e_max_len e.
Proof.
  intros p q e t lt e' R H. unfold CalculateLocalTime in H. destruct (e_time_init e); injection H as <- <-.
  - split; [apply quiet_refl; exact R|auto].
  - split; [apply quiet_same; [reflexivity|repeat split|exact R]|auto].
Qed.

(** *** IMU *)
Lemma zero_jac_known : forall u e s j e', mfind (iu_id u) (s_imu (e_state e)) = Some s ->
  GetZeroAccelerationJacobian u e = OK (j, e') -> e' = e.
Proof.
  intros u e s j e' K H. unfold GetZeroAccelerationJacobian in H. rewrite (get_imu_known _ _ _ K) in H.
  cbv zeta in H. opn H. opn H. opn H. injection H as _ <-. reflexivity.
Qed.

Lemma score_zero : forall e jac noise y sc, nc y = 1 -> zeros y -> zero_score e jac noise y = OK sc -> sc = 0%R.
Proof.
  intros e jac noise y sc N Z H. unfold zero_score in H. opn H. opn H. opn H. opn H. opn H. opn H. injection H as <-.
  pose proof (mulc_zero _ _ _ Z B4) as Z4. rewrite Z4; [apply Rabs_R0|].
  unfold mulc in B3, B4. destruct (Nat.eqb _ _) in B3; [|discriminate]. injection B3 as <-.
  destruct (Nat.eqb _ _) in B4; [|discriminate]. injection B4 as <-. cbn. lia.
Qed.

Lemma imu_still : forall t p q e id u ae oe vr time acc A omg W u' e', still t p q -> rests p q (e_state e) ->
  (0 <= p_chi2 (e_par e))%R -> imu_true t e id u ->
  sim_imu_message t id true ae oe vr time = OK (MImu id time acc A omg W) ->
  imu_UpdateEKF u e time acc A omg W = OK (u', e') -> u' = u /\ quiet p q e e'.
Proof.
  intros t p q e id u ae oe vr time acc A omg W u' e' [Uq St] R Chi [I1 [I2 [s [K [TA [Us [Ba Bo]]]]]]] M H.
  destruct (St time) as [_ [T1 [T2 [T3 T4]]]].
  assert (V : acc = qrot (qinv (i_ang s)) (qrot (qinv q) g_gravity) /\ omg = v0).
  { unfold sim_imu_message, sim_imu_measure in M. rewrite T1, T2, T3, T4 in M. cbn [bind] in M.
    opn M. opn B. rewrite TA in B. cbn [bind] in B. opn B. opn B. injection B as <-. cbn in M. injection M as <- _ <- _.
    rewrite !vcross0l, !vadd0r, vadd0l, qrot0. auto. }
  destruct V as [-> ->]. clear M.
  unfold imu_UpdateEKF in H. destruct (CalculateLocalTime e time) as [lt e0] eqn:EL.
  destruct (local_quiet p q _ _ _ _ R EL) as [Q0 [S0 _]].
  assert (K0 : mfind (iu_id u) (s_imu (e_state e0)) = Some s) by (rewrite S0, I1; exact K).
  opn H. destruct x as [[applied u1] e1]. unfold ZeroAccelerationUpdate in B. rewrite I2 in B.
  rewrite (get_imu_known _ _ _ K0) in B. opn B. destruct x as [j ej]. apply (zero_jac_known _ _ _ _ _ K0) in B0. subst ej.
  opn B. rename x into nz. opn B. rename x into sc.
  set (resid := zero_resid u e0 s (qrot (qinv (i_ang s)) (qrot (qinv q) g_gravity)) v0) in *.
  assert (Zr : zeros resid /\ nc resid = 1).
  { unfold resid, zero_resid. cbv zeta. assert (Eb : b_ang (s_body (e_state e0)) = q) by (rewrite S0; apply R). rewrite Eb.
    rewrite qrot_mul by (apply qinv_unit; assumption). rewrite Ba, Bo, !vsub0r, vsub_self, vopp0.
    destruct (iu_int u); [split; [apply zeros_stack|reflexivity]|split; [apply zeros_v3|reflexivity]]. }
  destruct Zr as [Zr Nr]. apply (score_zero _ _ _ _ _ Nr Zr) in B1. subst sc.
  assert (Par : e_par e0 = e_par e) by apply Q0.
  rewrite (proj2 (Rltb_false (p_chi2 (e_par e0)) 0)) in B by (rewrite Par; exact Chi). cbn [andb] in B.
  set (eg := if Rltb 0 (p_chi2 (e_par e0)) then InitializeGravity e0 else e0) in *.
  assert (Qg : quiet p q e0 eg).
  { unfold eg. destruct (Rltb _ _); [|apply quiet_refl; apply Q0]. apply quiet_same; [reflexivity|repeat split|apply Q0]. }
  opn B. rename x into ep. pose proof (predict_quiet p q _ _ _ (proj1 Qg) B1) as Qp.
  assert (Kp : exists sp, mfind (iu_id u) (s_imu (e_state ep)) = Some sp).
  { assert (Qx : quiet p q e0 ep) by (eapply quiet_trans; eauto). destruct (sbc_imu _ _ _ _ (proj1 (proj2 Qx)) K0) as [y [Y _]]. eauto. }
  destruct Kp as [sp Kp]. opn B. destruct x as [j2 ej]. apply (zero_jac_known _ _ _ _ _ Kp) in B2. subst ej.
  opn B. rename x into ek. destruct (kalman_quiet p q _ _ _ _ _ (proj1 Qp) Zr B2) as [Qk _]. injection B as <- <- <-.
  injection H as <- <-. split; [reflexivity|].
  assert (Qs : quiet p q ek (SetZeroAcceleration (SetBodyRates ek g_gravity v0 v0) true)).
  { apply quiet_same; [|repeat split|apply Qk]. cbn [SetZeroAcceleration with_zero_acc SetBodyRates with_state e_state].
    destruct Qk as [[_ [_ [R3 [_ [R5 [R6 _]]]]]] _]. destruct (e_state ek) as [b ? ? ? ? ?]. cbn in *.
    unfold state_with_body. cbn. f_equal. destruct b; cbn in *; subst; reflexivity. }
  eapply quiet_trans; [exact Q0|]. eapply quiet_trans; [exact Qg|]. eapply quiet_trans; [exact Qp|].
  eapply quiet_trans; [exact Qk|]. exact Qs.
Qed.

(** *** GPS *)
Lemma gps_jac_known : forall u e s j u' e', mfind (gu_id u) (s_gps (e_state e)) = Some s ->
  gps_GetMeasurementJacobian u e = OK (j, u', e') ->
  e' = e /\ gu_id u' = gu_id u /\ ((gu_first u = false -> gu_pos u = g_pos s) -> gu_pos u' = g_pos s).
Proof.
  intros u e s j u' e' K H. unfold gps_GetMeasurementJacobian, gps_refresh in H. rewrite (get_gps_known _ _ _ K) in H.
  destruct (negb (p_fej (e_par e)) || gu_first u) eqn:EF; cbv zeta in H.
  - cbn [gu_id gu_ext gu_pos] in H. opn H. opn H. destruct (gu_ext u).
    + rewrite (get_gps_known _ _ _ K) in H. opn H. injection H as _ <- <-. cbn. auto.
    + injection H as _ <- <-. cbn. auto.
  - apply orb_false_iff in EF. destruct EF as [_ EF]. opn H. opn H. destruct (gu_ext u).
    + rewrite (get_gps_known _ _ _ K) in H. opn H. injection H as _ <- <-. auto.
    + injection H as _ <- <-. auto.
Qed.
Lemma gps_predict_known : forall u e s h u' e', mfind (gu_id u) (s_gps (e_state e)) = Some s ->
  (gu_first u = false -> gu_pos u = g_pos s) ->
  gps_PredictMeasurement u e = (h, u', e') ->
  h = vadd (b_pos (s_body (e_state e))) (qrot (b_ang (s_body (e_state e))) (g_pos s)) /\
  e' = e /\ gu_id u' = gu_id u /\ gu_pos u' = g_pos s.
Proof.
  intros u e s h u' e' K F H. unfold gps_PredictMeasurement, gps_refresh in H. rewrite (get_gps_known _ _ _ K) in H.
  destruct (negb (p_fej (e_par e)) || gu_first u) eqn:EF; cbv zeta in H; injection H as <- <- <-.
  - cbn. auto.
  - apply orb_false_iff in EF. destruct EF as [_ EF]. rewrite F by exact EF. auto.
Qed.

Section Run.
Variable svd : m2 -> m2 * m2.
Variable hull : list (BinNums.Z * BinNums.Z) -> list (BinNums.Z * BinNums.Z).
Variable ecef_to_lla : V3 -> V3.
Variable mat_quat : mat R -> quat.
Variable solve : mat R -> V3 -> V3.

Lemma gps_still : forall t p q e id u le vr time lla N u' e', still t p q -> rests p q (e_state e) ->
  gps_true t e id u -> located ecef_to_lla t p q id ->
  sim_gps_message ecef_to_lla t id true le vr time = OK (MGps id time lla N) ->
  gps_UpdateEKF svd hull ecef_to_lla u e time lla N = OK (u', e') -> gps_true t e' id u' /\ quiet p q e e'.
Proof.
  intros t p q e id u le vr time lla N u' e' [Uq St] R [I1 [I2 [I3 [I4 [s [K [TG F]]]]]]] Loc M H.
  destruct (St time) as [T1 [_ [T2 _]]].
  assert (V : lla_to_enu lla (GetLocalPosition t) = OK (local_to_enu (vadd p (qrot q (g_pos s))) (e_ang_l_to_e e))).
  { unfold sim_gps_message in M. rewrite T1, T2, TG, I4 in M. cbn [bind] in M. opn M. injection M as <- _.
    unfold enu_to_lla in B. opn B. injection B as <-. unfold lla_to_enu. rewrite (Loc _ _ _ TG I4 B0). cbn [bind].
    apply ecef_enu_roundtrip. exact B0. }
  clear M. unfold gps_UpdateEKF in H. destruct (CalculateLocalTime e time) as [lt e0] eqn:EL.
  destruct (local_quiet p q _ _ _ _ R EL) as [Q0 [S0 _]]. opn H. rename x into e1.
  pose proof (predict_quiet p q _ _ _ (proj1 Q0) B) as Q1. pose proof (quiet_trans _ _ _ _ _ Q0 Q1) as Q.
  destruct Q as [R1 [S1 [F0 [F1 [F2 [F3 F4]]]]]].
  cbv zeta in H. rewrite F1, I2 in H. cbn [negb] in H. rewrite F2, I3, V in H. cbn [bind] in H.
  destruct (sbc_gps _ _ _ _ S1 K) as [s1 [K1 B1]]. pose proof (f_equal g_pos B1) as P1. cbn in P1. rewrite <- I1 in K1.
  destruct (gps_PredictMeasurement u e1) as [[h u1] e2] eqn:EP.
  destruct (gps_predict_known _ _ _ _ _ _ K1 ltac:(rewrite P1; exact F) EP) as [Eh [-> [Iu1 Pu1]]].
  opn H. destruct x as [[jac u2] e3].
  assert (K2 : mfind (gu_id u1) (s_gps (e_state e1)) = Some s1) by (rewrite Iu1; exact K1).
  destruct (gps_jac_known _ _ _ _ _ _ K2 B0) as [-> [Iu2 Pu2]].
  opn H. injection H as <- <-.
  assert (Z : zeros (v3mat (vsub (enu_to_local (local_to_enu (vadd p (qrot q (g_pos s))) (e_ang_l_to_e e)) (e_ang_l_to_e e1)) h))).
  { rewrite F3, (proj1 (local_roundtrip _ _)), Eh, P1. destruct R1 as [-> [_ [_ [-> _]]]]. rewrite vsub_self. apply zeros_v3. }
  destruct (kalman_quiet p q _ _ _ _ _ R1 Z B2) as [Qk Sk].
  assert (QQ : quiet p q e x).
  { eapply quiet_trans; [|exact Qk]. split; [exact R1|]. split; [exact S1|]. repeat split; assumption. }
  split; [|exact QQ]. destruct QQ as [_ [_ [_ [G1 [G2 [G3 _]]]]]].
  unfold gps_true. rewrite G1, G2, G3, Iu2, Iu1. repeat (split; [assumption|]). exists s1. rewrite Sk, <- I1.
  split; [exact K1|]. rewrite P1. split; [rewrite I1; exact TG|]. intros _. rewrite Pu2; [exact P1|]. intros _. exact Pu1.
Qed.

(** *** Boards *)
Lemma opp_mul_l : forall a b, qmul (opposite a) b = opposite (qmul a b).
Proof. intros [a b c d] [e f g h]. unfold qmul, opposite. cbn. f_equal; ring. Qed.
Lemma opp_mul_r : forall a b, qmul a (opposite b) = opposite (qmul a b).
Proof. intros [a b c d] [e f g h]. unfold qmul, opposite. cbn. f_equal; ring. Qed.
Lemma opp_opp : forall a, opposite (opposite a) = a.
Proof. intros [a b c d]. unfold opposite. cbn. f_equal; ring. Qed.
Lemma qunit_mul : forall a b, qnorm2 a = 1%R -> qnorm2 b = 1%R -> qnorm2 (qmul a b) = 1%R.
Proof.
  intros a b Ha Hb. replace (qnorm2 (qmul a b)) with (qnorm2 a * qnorm2 b)%R; [rewrite Ha, Hb; ring|].
  destruct a, b. unfold qnorm2, qmul. cbn. ring.
Qed.
Lemma qmul_qinv : forall a, qnorm2 a = 1%R -> qmul a (qinv a) = qid.
Proof.
  intros a H. rewrite qinv_conj by exact H. destruct a as [w x y z]. unfold qnorm2 in H. cbn in H.
  unfold qmul, qconj, qid. cbn. f_equal; [rewrite <- H|..]; ring.
Qed.
Lemma rotvec_opp_id : QuatToRotVec (opposite qid) = v0.
Proof.
  unfold QuatToRotVec, quat_angle_axis. replace (vnorm (qvec (opposite qid))) with 0%R.
  - rewrite (proj2 (Reqb_spec _ _)) by reflexivity. unfold v0. cbn. f_equal; ring.
  - symmetry. unfold qvec, opposite, qid. cbn. unfold vnorm, vnorm2, vdot. cbn. replace (_ + _)%R with 0%R by ring. apply sqrt_0.
Qed.

Lemma opp_unit : forall q, qnorm2 (opposite q) = qnorm2 q.
Proof. intros [a b c d]. unfold qnorm2, opposite. cbn. ring. Qed.
Lemma opp_len : forall q, vnorm (qvec (opposite q)) = vnorm (qvec q).
Proof. intros [a b c d]. unfold vnorm, vnorm2, vdot, qvec, opposite. cbn. f_equal. ring. Qed.
Lemma half_angle : forall q, qnorm2 q = 1%R ->
  cos (atan2_nn (vnorm (qvec q)) (Rabs (qw q))) = Rabs (qw q) /\
  sin (atan2_nn (vnorm (qvec q)) (Rabs (qw q))) = vnorm (qvec q).
Proof.
  intros q H. apply atan2_cos_sin; [apply Rabs_pos|apply vnorm_nonneg|].
  rewrite vnorm_sq, <- Rabs_mult, Rabs_right by nra. unfold vnorm2, vdot, qvec. cbn [vx vy vz]. unfold qnorm2 in H. lra.
Qed.
Lemma rotvec_len : forall q, qnorm2 q = 1%R ->
  vnorm (QuatToRotVec q) = (2 * atan2_nn (vnorm (qvec q)) (Rabs (qw q)))%R.
Proof.
  intros q Hq. pose proof (half_angle q Hq) as [C S]. pose proof (vnorm_nonneg (qvec q)) as P0.
  pose proof (atan2_range _ _ (Rabs_pos (qw q)) P0) as B.
  destruct (Req_dec (vnorm (qvec q)) 0) as [E0|E0].
  - unfold QuatToRotVec, quat_angle_axis. rewrite (proj2 (Reqb_spec _ _) E0). cbn [vx vy vz].
    replace (mkV3 (1 * 0) (0 * 0) (0 * 0)) with v0 by (unfold v0; f_equal; ring).
    replace (vnorm v0) with 0%R.
    + rewrite E0 in *. pose proof PI_RGT_0.
      destruct (Req_dec (atan2_nn 0 (Rabs (qw q))) 0) as [Z|Z]; [rewrite Z; ring|]. exfalso.
      assert (0 < sin (atan2_nn 0 (Rabs (qw q))))%R by (apply sin_gt_0; lra). lra.
    + unfold vnorm, vnorm2, vdot, v0. cbn. replace (_ + _)%R with 0%R by ring. symmetry. apply sqrt_0.
  - set (n := vnorm (qvec q)) in *. set (h := atan2_nn n (Rabs (qw q))) in *.
    set (n' := if Rltb (qw q) 0 then (- n)%R else n).
    assert (N' : (n' * n' = n * n)%R /\ n' <> 0%R) by (unfold n'; destruct (Rltb (qw q) 0); split; lra).
    assert (E : QuatToRotVec q = vscale (2 * h) (vdiv (qvec q) n')).
    { unfold QuatToRotVec, quat_angle_axis. fold n. rewrite (proj2 (Reqb_false _ _) E0).
      cbv zeta. fold h. fold n'. unfold vscale. f_equal; ring. }
    rewrite E, vnorm_scale. replace (vnorm (vdiv (qvec q) n')) with 1%R; [rewrite Rmult_1_r; apply Rabs_right; lra|].
    unfold vnorm. rewrite vnorm2_div by tauto. rewrite (proj1 N'). unfold n. rewrite vnorm_sq.
    replace (vnorm2 (qvec q) / vnorm2 (qvec q))%R with 1%R; [symmetry; apply sqrt_1|].
    rewrite <- vnorm_sq. fold n. field. exact E0.
Qed.
Lemma rep_opp : forall q, qnorm2 q = 1%R -> representable q -> representable (opposite q).
Proof.
  intros q U H. unfold representable in *. rewrite rotvec_len in * by (try rewrite opp_unit; exact U).
  rewrite opp_len. replace (Rabs (qw (opposite q))) with (Rabs (qw q)); [exact H|].
  destruct q. cbn. rewrite Rabs_Ropp. reflexivity.
Qed.
Lemma rep_back : forall q, qnorm2 q = 1%R -> representable q ->
  RotVecToQuat (QuatToRotVec q) = q \/ RotVecToQuat (QuatToRotVec q) = opposite q.
Proof.
  intros q U [H|H].
  - rewrite RotVec_small by (rewrite H; lra). rewrite rotvec_len in H by exact U.
    destruct (half_angle q U) as [C S]. replace (atan2_nn (vnorm (qvec q)) (Rabs (qw q))) with 0%R in C, S by lra.
    rewrite sin_0 in S. rewrite cos_0 in C. apply eq_sym, vnorm_zero in S. destruct q as [w x y z]. cbn in S, C. unfold v0 in S.
    injection S as -> -> ->. unfold Rabs in C. destruct (Rcase_abs w) in C.
    + right. unfold opposite, qid. cbn. f_equal; lra.
    + left. unfold qid. f_equal; lra.
  - rewrite (proj1 (quat_roundtrip q U H)). destruct (Rltb _ _); auto.
Qed.
Lemma resid_zero : forall a b, qnorm2 b = 1%R -> a = b \/ a = opposite b -> QuatToRotVec (qmul a (qinv b)) = v0.
Proof.
  intros a b U [-> | ->]; [rewrite qmul_qinv by exact U; apply quat_rotvec_id|].
  rewrite opp_mul_l, qmul_qinv by exact U. apply rotvec_opp_id.
Qed.

Lemma fid_refresh_known : forall u e c f ps u' e', mfind (fu_cam u) (s_cam (e_state e)) = Some c ->
  mfind (fu_id u) (s_fid (e_state e)) = Some f ->
  (fu_first u = false -> fu_poses u = Some (c_pos c, c_ang c, f_pos f, f_ang f)) ->
  fid_RefreshStates u e = OK (ps, u', e') ->
  ps = (c_pos c, c_ang c, f_pos f, f_ang f) /\ e' = e /\ fu_id u' = fu_id u /\ fu_cam u' = fu_cam u /\
  fu_poses u' = Some (c_pos c, c_ang c, f_pos f, f_ang f).
Proof.
  intros u e c f ps u' e' K1 K2 F H. unfold fid_RefreshStates in H. destruct (negb (p_fej (e_par e)) || fu_first u) eqn:EF.
  - rewrite (get_cam_known _ _ _ K1) in H. unfold fid_at in H. rewrite K2 in H. cbn [bind] in H. injection H as <- <- <-. cbn. auto 8.
  - apply orb_false_iff in EF. destruct EF as [_ EF]. rewrite (F EF) in H. injection H as <- <- <-. pose proof (F EF). auto 8.
Qed.
Lemma fid_jac_known : forall u e c f j u' e', mfind (fu_cam u) (s_cam (e_state e)) = Some c ->
  mfind (fu_id u) (s_fid (e_state e)) = Some f ->
  (fu_first u = false -> fu_poses u = Some (c_pos c, c_ang c, f_pos f, f_ang f)) ->
  fid_GetMeasurementJacobian u e = OK (j, u', e') ->
  e' = e /\ fu_id u' = fu_id u /\ fu_cam u' = fu_cam u /\ fu_poses u' = Some (c_pos c, c_ang c, f_pos f, f_ang f).
Proof.
  intros u e c f j u' e' K1 K2 F H. unfold fid_GetMeasurementJacobian in H. opn H. destruct x as [[ps u1] e1].
  destruct (fid_refresh_known _ _ _ _ _ _ _ K1 K2 F B) as [-> [-> [I1 [I2 P]]]]. cbv zeta in H.
  opn H. opn H. opn H. opn H. destruct x2 as [j1 e2]. opn H. injection H as _ <- <-.
  assert (e2 = e).
  { destruct (fu_cam_ext u1); [|injection B3 as _ <-; reflexivity].
    rewrite I2, (get_cam_known _ _ _ K1) in B3. cbv zeta in B3. opn B3. opn B3. opn B3. injection B3 as _ <-. reflexivity. }
  auto.
Qed.

Lemma board_still : forall t p q e id c k u time d te re vr qr u' e', still t p q -> rests p q (e_state e) ->
  reads_rotations mat_quat ->
  mfind id (s_cam (e_state e)) = Some c -> GetCameraPosition t id = OK (c_pos c) ->
  GetCameraAngularPosition t id = OK (c_ang c) -> qnorm2 (c_ang c) = 1%R ->
  board_true t e id c k u -> representable (bd_ang d) ->
  sim_board_message t k id true te re vr qr time = OK d ->
  fid_UpdateEKF mat_quat u e time d = OK (u', e') -> quiet p q e e' /\ fu_id u' = fu_id u /\ fu_cam u' = fu_cam u /\
   (forall f, mfind (fu_id u) (s_fid (e_state e)) = Some f -> fu_poses u' = Some (c_pos c, c_ang c, f_pos f, f_ang f)).
Proof.
  intros t p q e id c k u time d te re vr qr u' e' [Uq St] R RR K TP TA Uc [Ic [f [Kf [FP [FA [Uf F]]]]]] Rep M H.
  destruct (St time) as [T1 [_ [T2 _]]].
  unfold sim_board_message in M. rewrite FP, FA, T1, T2, TP, TA in M. cbn [bind] in M. injection M as <-.
  cbn [bd_ang] in Rep.
  unfold fid_UpdateEKF in H. destruct (CalculateLocalTime e time) as [lt e0] eqn:EL.
  destruct (local_quiet p q _ _ _ _ R EL) as [Q0 [S0 _]]. opn H. rename x into e1.
  pose proof (predict_quiet p q _ _ _ (proj1 Q0) B) as Q1. pose proof (quiet_trans _ _ _ _ _ Q0 Q1) as Q.
  destruct Q as [R1 [S1 F0]].
  destruct (sbc_cam _ _ _ _ S1 K) as [c1 [K1 C1]]. destruct (sbc_fid _ _ _ _ S1 Kf) as [f1 [K2 C2]].
  pose proof (f_equal c_pos C1) as Z1. pose proof (f_equal c_ang C1) as Z2. cbn in Z1, Z2.
  pose proof (f_equal f_pos C2) as Z3. pose proof (f_equal f_ang C2) as Z4. cbn in Z3, Z4. rewrite <- Ic in K1.
  opn H. destruct x as [[[pp ap] u1] e2]. unfold fid_PredictMeasurement in B0. opn B0. destruct x as [[ps u2] e3].
  destruct (fid_refresh_known _ _ _ _ _ _ _ K1 K2 ltac:(rewrite Z1, Z2, Z3, Z4; exact F) B1) as [-> [-> [I1 [I2 P]]]].
  injection B0 as <- <- <- <-. cbv zeta in H. cbn [bd_pos bd_ang] in H.
  opn H. destruct x as [[jac u3] e3]. opn H. opn H. injection H as <- <-.
  destruct (fid_jac_known u2 e1 c1 f1 _ _ _ ltac:(rewrite I2; exact K1) ltac:(rewrite I1; exact K2) (fun _ => P) B0)
    as [-> [I3 [I4 P3]]].
  assert (Z : zeros (stack2 (vsub (mat_vec (m3tr (qmat (c_ang c))) (vsub (mat_vec (m3tr (qmat q)) (vsub (f_pos f) p)) (c_pos c)))
     (mat_vec (m3tr (qmat (c_ang c1))) (vsub (mat_vec (m3tr (qmat (b_ang (s_body (e_state e1))))) (vsub (f_pos f1) (b_pos (s_body (e_state e1))))) (c_pos c1))))
     (QuatToRotVec (qmul (RotVecToQuat (QuatToRotVec (qmul (mat_quat (m3mul (m3tr (qmat (c_ang c1))) (m3tr (qmat (b_ang (s_body (e_state e1))))))) (f_ang f1))))
       (qinv (qmul (qmul (qinv (c_ang c)) (qinv q)) (f_ang f))))))).
  { rewrite Z1, Z2, Z3, Z4. destruct R1 as [-> [_ [_ [-> _]]]]. rewrite vsub_self.
    assert (Uci : qnorm2 (qinv (c_ang c)) = 1%R) by (apply qinv_unit; exact Uc).
    assert (Uqi : qnorm2 (qinv q) = 1%R) by (apply qinv_unit; exact Uq).
    set (qc := qmul (qinv (c_ang c)) (qinv q)) in *.
    assert (Uqc : qnorm2 qc = 1%R) by (apply qunit_mul; assumption).
    assert (Um : qnorm2 (qmul qc (f_ang f)) = 1%R) by (apply qunit_mul; assumption).
    assert (MQ : mat_quat (m3mul (m3tr (qmat (c_ang c))) (m3tr (qmat q))) = qc \/
                 mat_quat (m3mul (m3tr (qmat (c_ang c))) (m3tr (qmat q))) = opposite qc).
    { apply RR; [exact Uqc|]. intros i j Hi Hj. unfold qc. rewrite (qmat_mul _ _ Uci Uqi) by assumption.
      unfold m3mul. cbn [ent]. unfold mm. apply rsum_ext. intros b Hb.
      rewrite (qmat_inv _ Uc), (qmat_inv _ Uq) by assumption. reflexivity. }
    rewrite resid_zero; [apply zeros_stack|exact Um|].
    destruct MQ as [-> | ->].
    - apply rep_back; assumption.
    - rewrite opp_mul_l. destruct (rep_back (opposite (qmul qc (f_ang f)))) as [-> | ->];
        [rewrite opp_unit; exact Um|apply rep_opp; assumption|auto|rewrite opp_opp; auto]. }
  destruct (kalman_quiet p q _ _ _ _ _ R1 Z B3) as [Qk Sk].
  split; [eapply quiet_trans; [|exact Qk]; split; [exact R1|]; split; assumption|].
  split; [congruence|]. split; [congruence|]. intros f2 Kf2. rewrite Kf in Kf2. injection Kf2 as <-.
  rewrite P3, Z1, Z2, Z3, Z4. reflexivity.
Qed.

(** *** Feature tracks *)
Definition calm (p : V3) (q : quat) (k : nat) (e e' : ekf) : Prop := quiet p q e e' /\ frames_at e' k = frames_at e k.
Lemma calm_trans : forall p q k a b c, calm p q k a b -> calm p q k b c -> calm p q k a c.
Proof. intros p q k a b c [A1 A2] [B1 B2]. split; [eapply quiet_trans; eauto|congruence]. Qed.
Lemma calm_refl : forall p q k e, rests p q (e_state e) -> calm p q k e e.
Proof. intros. split; [apply quiet_refl; assumption|reflexivity]. Qed.
Lemma quiet_per_frame : forall p q e e' k, quiet p q e e' -> per_frame e' k = per_frame e k.
Proof. intros p q e e' k [_ [_ [F1 [_ [_ [_ F5]]]]]]. unfold per_frame. rewrite F1, F5. reflexivity. Qed.
Definition stored (e : ekf) (k : nat) (l : list FeaturePoint) : Prop :=
  per_frame e k = true -> forall pt, In pt l -> In (fp_frame pt) (frames_at e k).
Lemma stored_calm : forall p q e e' k l, calm p q k e e' -> stored e k l -> stored e' k l.
Proof. intros p q e e' k l [Q F] H P. rewrite (quiet_per_frame _ _ _ _ k Q) in P. rewrite F. apply H. exact P. Qed.
Lemma lookup_calm : forall p q e k f l a e', qnorm2 q = 1%R -> rests p q (e_state e) -> stored e k (f :: l) ->
  GetAugState e k (fp_frame f) (fp_time f) = OK (a, e') -> posed p q a /\ calm p q k e e'.
Proof.
  intros p q e k f l a e' U R S H.
  destruct (lookup_quiet p q _ _ _ _ _ _ U R ltac:(intros P; apply S; [exact P|left; reflexivity]) H) as [P [Q [F _]]].
  split; [exact P|]. split; [exact Q|apply F].
Qed.
Lemma stored_tl : forall e k f l, stored e k (f :: l) -> stored e k l.
Proof. intros e k f l H P pt I. apply H; [exact P|right; exact I]. Qed.

Lemma tri_calm : forall p q u k pc ac a0 l e A b A' b' e', qnorm2 q = 1%R -> rests p q (e_state e) -> stored e (mu_id u) l ->
  tri_rows u k pc ac a0 e l A b = OK (A', b', e') -> calm p q (mu_id u) e e'.
Proof.
  intros p q u k pc ac a0. induction l as [|f l IH]; intros e A b A' b' e' U R S H; cbn [tri_rows] in H.
  - injection H as _ _ <-. apply calm_refl. exact R.
  - opn H. destruct x as [ai e1]. destruct (lookup_calm p q _ _ _ _ _ _ U R S B) as [_ C]. cbv zeta in H.
    opn H. destruct x as [mx my]. opn H. eapply calm_trans; [exact C|]. eapply IH; [exact U|apply C| |exact H].
    eapply stored_calm; [exact C|]. eapply stored_tl; exact S.
Qed.
Lemma triangulate_calm : forall p q u k pc ac t e r e', qnorm2 q = 1%R -> rests p q (e_state e) ->
  stored e (mu_id u) (ft_track t) -> mu_use_true u = true ->
  TriangulateFeature solve u k pc ac e t = OK (r, e') -> calm p q (mu_id u) e e' /\ ft_true t = r.
Proof.
  intros p q u k pc ac t e r e' U R S T H. unfold TriangulateFeature in H. rewrite T in H. opn H. opn H. destruct x0 as [a0 e1].
  opn H. destruct x0 as [[A b] e2]. cbv zeta in H. destruct (ft_track t) as [|f l] eqn:EL; [discriminate|].
  cbn in B. injection B as <-. destruct (lookup_calm p q _ _ _ _ _ _ U R S B0) as [_ C].
  assert (C2 : calm p q (mu_id u) e1 e2) by (eapply tri_calm; [exact U|apply C|eapply stored_calm; eauto|exact B1]).
  destruct (ft_true t); [|discriminate]. injection H as <- <-. split; [eapply calm_trans; eauto|reflexivity].
Qed.

Lemma set_block_zeros : forall m i h b m', zeros m -> (forall k, k < h -> ent b k 0 = 0%R) ->
  set_block m i 0 h 1 b = OK m' -> zeros m'.
Proof.
  intros m i h b m' Z Zb H. unfold set_block in H. destruct (_ && _) eqn:E; [|discriminate]. injection H as <-.
  intros k Hk. cbn [ent nr] in *. destruct (in_range k i h) eqn:E2; cbn [andb]; [|apply Z; exact Hk].
  unfold in_range in *. apply andb_true_iff in E2. destruct E2 as [E2 E3]. apply Nat.leb_le in E2. apply Nat.ltb_lt in E3.
  apply Zb. lia.
Qed.

(** A pixel where a camera at the truth sees the feature. *)
Definition sees (t : truth) (cam : nat) (f : V3) (pt : FeaturePoint) : Prop :=
  exists v, sim_view pinhole t cam (fun _ => []) (fp_time pt) = OK v /\ vw_project v f = (kp_x (fp_kp pt), kp_y (fp_kp pt)).
Lemma sees_pixel : forall t p q cam c f pt mx my px py, still t p q ->
  GetCameraPosition t cam = OK (c_pos c) -> GetCameraAngularPosition t cam = OK (c_ang c) -> qnorm2 (c_ang c) = 1%R ->
  GetCameraIntrinsics t cam = c_intr c -> sees t cam f pt ->
  undo_pixel (c_intr c) (fp_kp pt) = OK (mx, my) ->
  Project (mat_vec (m3tr (qmat (c_ang c))) (vsub (mat_vec (m3tr (qmat q)) (vsub f p)) (c_pos c))) = OK (px, py) ->
  mx = px /\ my = py.
Proof.
  intros t p q cam c f pt mx my px py [Uq St] CP CA Uc CI [v [V P]] U J.
  destruct (St (fp_time pt)) as [T1 [_ [T2 _]]]. unfold sim_view in V. rewrite T1, T2, CP, CA, CI in V. cbn [bind] in V.
  injection V as <-. cbn [vw_project] in P. rewrite same_point in P by assumption. eapply pixel_back; eauto.
Qed.

Lemma row_calm : forall t p q c u ss ci f e i pt r Hf Hc r' Hf' Hc' e' l, still t p q -> rests p q (e_state e) ->
  GetCameraPosition t (mu_id u) = OK (c_pos c) -> GetCameraAngularPosition t (mu_id u) = OK (c_ang c) -> qnorm2 (c_ang c) = 1%R ->
  GetCameraIntrinsics t (mu_id u) = c_intr c -> sees t (mu_id u) f pt -> stored e (mu_id u) (pt :: l) -> zeros r ->
  feature_row u (c_intr c) (c_pos c) (c_ang c) ss ci f e i pt r Hf Hc = OK (r', Hf', Hc', e') ->
  calm p q (mu_id u) e e' /\ zeros r'.
Proof.
  intros t p q c u ss ci f e i pt r Hf Hc r' Hf' Hc' e' l T R CP CA Uc CI S St Z H. unfold feature_row in H.
  opn H. destruct x as [ai e1]. destruct (lookup_calm p q _ _ _ _ _ _ (proj1 T) R St B) as [[P1 P2] C]. cbv zeta in H.
  rewrite P1, P2 in H. opn H. destruct x as [px py]. opn H. destruct x as [mx my]. opn H.
  destruct (sees_pixel _ _ _ _ _ _ _ _ _ _ _ T CP CA Uc CI S B1 B0) as [-> ->].
  assert (Z' : zeros x).
  { eapply set_block_zeros; [exact Z| |exact B2]. intros [|k] _; cbn [ent]; ring. }
  opn H. opn H. opn H. opn H. injection H as <- _ _ <-. split; assumption.
Qed.
Lemma rows_calm : forall t p q c u ss ci f l e i r Hf Hc r' Hf' Hc' e', still t p q -> rests p q (e_state e) ->
  GetCameraPosition t (mu_id u) = OK (c_pos c) -> GetCameraAngularPosition t (mu_id u) = OK (c_ang c) -> qnorm2 (c_ang c) = 1%R ->
  GetCameraIntrinsics t (mu_id u) = c_intr c -> (forall pt, In pt l -> sees t (mu_id u) f pt) -> stored e (mu_id u) l -> zeros r ->
  feature_rows u (c_intr c) (c_pos c) (c_ang c) ss ci f e i l r Hf Hc = OK (r', Hf', Hc', e') ->
  calm p q (mu_id u) e e' /\ zeros r'.
Proof.
  intros t p q c u ss ci f. induction l as [|pt l IH]; intros e i r Hf Hc r' Hf' Hc' e' T R CP CA Uc CI S St Z H; cbn [feature_rows] in H.
  - injection H as <- _ _ <-. split; [apply calm_refl; exact R|exact Z].
  - opn H. destruct x as [[[r1 Hf1] Hc1] e1].
    destruct (row_calm _ _ _ _ _ _ _ _ _ _ _ _ _ _ _ _ _ _ _ T R CP CA Uc CI (S pt (or_introl eq_refl)) St Z B) as [C Z1].
    destruct (IH _ _ _ _ _ _ _ _ _ T (proj1 (proj1 C)) CP CA Uc CI (fun x I => S x (or_intror I))
      (stored_calm _ _ _ _ _ _ C (stored_tl _ _ _ _ St)) Z1 H) as [C2 Z2].
    split; [eapply calm_trans; eauto|exact Z2].
Qed.

(** What an error-free track gives at rest. *)
Definition clear_track (t : truth) (e : ekf) (cam : nat) (tr : FeatureTrack) : Prop :=
  exists f, ft_true tr = Some f /\ (forall pt, In pt (ft_track tr) -> sees t cam f pt) /\ stored e cam (ft_track tr).
Lemma clear_calm : forall p q t e e' cam tr, calm p q cam e e' -> clear_track t e cam tr -> clear_track t e' cam tr.
Proof.
  intros p q t e e' cam tr C [f [F1 [F2 F3]]]. exists f. split; [exact F1|]. split; [exact F2|]. eapply stored_calm; eauto.
Qed.
Lemma tracks_calm : forall t p q c u ss ci l e ct Hx r Hx' r' ct' e', still t p q -> rests p q (e_state e) ->
  GetCameraPosition t (mu_id u) = OK (c_pos c) -> GetCameraAngularPosition t (mu_id u) = OK (c_ang c) -> qnorm2 (c_ang c) = 1%R ->
  GetCameraIntrinsics t (mu_id u) = c_intr c -> mu_use_true u = true ->
  (forall tr, In tr l -> clear_track t e (mu_id u) tr) -> zeros r ->
  track_rows solve u (c_intr c) (c_pos c) (c_ang c) ss ci e l ct Hx r = OK (Hx', r', ct', e') ->
  calm p q (mu_id u) e e' /\ zeros r'.
Proof.
  intros t p q c u ss ci. induction l as [|tr l IH]; intros e ct Hx r Hx' r' ct' e' T R CP CA Uc CI UT S Z H; cbn [track_rows] in H.
  - injection H as _ <- _ <-. split; [apply calm_refl; exact R|exact Z].
  - opn H. destruct x as [pf e1]. destruct (S tr (or_introl eq_refl)) as [f [F1 [F2 F3]]].
    destruct (triangulate_calm p q _ _ _ _ _ _ _ _ (proj1 T) R F3 UT B) as [C <-]. rewrite F1 in H. cbv zeta in H.
    opn H. destruct x as [[[rf Hf] Hc] e2].
    destruct (rows_calm t p q c u ss ci f (ft_track tr) e1 0 (mzero (2 * length (ft_track tr)) 1) _ _ _ _ _ _ T (proj1 (proj1 C)) CP CA Uc CI F2
      (stored_calm _ _ _ _ _ _ C F3) ltac:(intros k _; reflexivity) B0) as [C2 Z2].
    opn H. destruct x as [Hc' rf']. pose proof (nullspace_zero _ _ _ _ _ Z2 B1) as Z3. opn H. opn H.
    assert (Z4 : zeros x0) by (eapply set_block_zeros; [exact Z|exact Z3|exact B3]).
    pose proof (calm_trans _ _ _ _ _ _ C C2) as C3.
    destruct (IH _ _ _ _ _ _ _ _ T (proj1 (proj1 C3)) CP CA Uc CI UT
      (fun x I => clear_calm _ _ _ _ _ _ _ C3 (S x (or_intror I))) Z4 H) as [C4 Z5].
    split; [eapply calm_trans; eauto|exact Z5].
Qed.

Lemma predict_calm : forall p q e time lt e0 e1 k, rests p q (e_state e) -> CalculateLocalTime e time = (lt, e0) ->
  PredictModel e0 lt = OK e1 -> quiet p q e e1 /\ (per_frame e k = true -> aug_at e1 k = aug_at e k /\ e_max_len e1 = e_max_len e).
Proof.
  intros p q e time lt e0 e1 k R EL B. destruct (local_quiet p q _ _ _ _ R EL) as [Q0 [S0 M0]].
  pose proof (predict_quiet p q _ _ _ (proj1 Q0) B) as Q1. split; [eapply quiet_trans; eauto|].
  intros P. rewrite <- (quiet_per_frame _ _ _ _ k Q0) in P. destruct (predict_window _ _ _ _ P B) as [W1 W2].
  split; [rewrite W1; unfold aug_at; rewrite S0; reflexivity|congruence].
Qed.

Lemma msckf_still : forall t p q e id c u time tracks px u' e', still t p q -> rests p q (e_state e) ->
  mfind id (s_cam (e_state e)) = Some c -> GetCameraPosition t id = OK (c_pos c) ->
  GetCameraAngularPosition t id = OK (c_ang c) -> qnorm2 (c_ang c) = 1%R -> GetCameraIntrinsics t id = c_intr c ->
  tracker_true id c u -> (forall tr, In tr tracks -> clear_track t e id tr) ->
  msckf_UpdateEKF solve u e time tracks px = OK (u', e') ->
  quiet p q e e' /\ (per_frame e id = true -> frames_at e' id = frames_at e id) /\ tracker_true id c u'.
Proof.
  intros t p q e id c u time tracks px u' e' T R K CP CA Uc CI [I1 [I2 I3]] S H. unfold msckf_UpdateEKF in H.
  destruct (CalculateLocalTime e time) as [lt e0] eqn:EL. opn H. rename x into e1.
  destruct (predict_calm p q e time lt e0 e1 id R EL B) as [Q W].
  assert (W' : per_frame e id = true -> frames_at e1 id = frames_at e id).
  { intros P. unfold frames_at. rewrite (proj1 (W P)). reflexivity. }
  destruct tracks as [|tr0 trs].
  { injection H as <- <-. split; [exact Q|]. split; [exact W'|]. split; auto. }
  destruct (sbc_cam _ _ _ _ (proj1 (proj2 Q)) K) as [c1 [K1 C1]].
  pose proof (f_equal c_pos C1) as Z1. pose proof (f_equal c_ang C1) as Z2. pose proof (f_equal c_intr C1) as Z3. cbn in Z1, Z2, Z3.
  rewrite <- I1 in K1.
  assert (X : exists u1, (if negb (p_fej (e_par e1)) || mu_first u then
      let '(c, e) := GetCamState e1 (mu_id u) in
         (mkMU (mu_id u) (mu_ext u) false (Some (c_intr c, c_pos c, c_ang c))
               (mu_min_dist u) (mu_max_dist u) (mu_use_true u), e) else (u, e1)) = (u1, e1) /\
      mu_id u1 = id /\ mu_use_true u1 = true /\ mu_poses u1 = Some (c_intr c, c_pos c, c_ang c)).
  { destruct (negb (p_fej (e_par e1)) || mu_first u) eqn:EF.
    - rewrite (get_cam_known _ _ _ K1). eexists. split; [reflexivity|]. cbn. rewrite Z1, Z2, Z3. auto.
    - apply orb_false_iff in EF. exists u. rewrite (I3 (proj2 EF)). auto. }
  destruct X as [u1 [X [J1 [J2 J3]]]]. rewrite X in H. rewrite J3 in H. cbv zeta in H. rewrite I1 in K1.
  rewrite J1, (get_cam_known _ _ _ K1) in H. opn H. destruct x as [[[Hx rx] ct] e2].
  assert (TT : tracker_true id c u1) by (split; [exact J1|]; split; [exact J2|]; intros _; exact J3).
  rewrite <- J1 in CP, CA, CI.
  assert (S1 : forall tr, In tr (tr0 :: trs) -> clear_track t e1 (mu_id u1) tr).
  { rewrite J1. intros tr I. destruct (S tr I) as [f [F1 [F2 F3]]]. exists f. split; [exact F1|]. split; [exact F2|].
    intros P pt Ip. rewrite (quiet_per_frame _ _ _ _ _ Q) in P. rewrite (W' P). apply F3; assumption. }
  assert (Z0 : zeros (mzero (max_meas_size (tr0 :: trs)) 1)) by (intros k _; reflexivity).
  destruct (tracks_calm _ _ _ _ _ _ _ _ _ _ _ _ _ _ _ _ T (proj1 Q) CP CA Uc CI J2 S1 Z0 B0) as [[Q2 F2] Zr]. rewrite J1 in F2.
  assert (G2 : quiet p q e e2) by (eapply quiet_trans; eauto).
  assert (G3 : per_frame e id = true -> frames_at e2 id = frames_at e id) by (intros P; rewrite F2; auto).
  destruct (Nat.eqb ct 0); [injection H as <- <-; auto|]. opn H. destruct x as [Hx' rx'].
  pose proof (compress_zero _ _ _ _ Zr B1) as Zr'. destruct (Nat.leb _ _); [injection H as <- <-; auto|].
  opn H. injection H as <- <-. destruct (kalman_quiet p q _ _ _ _ _ (proj1 G2) Zr' B2) as [Qk Sk].
  split; [eapply quiet_trans; eauto|]. split; [|exact TT]. intros P. unfold frames_at, aug_at. rewrite Sk. apply G3. exact P.
Qed.

(** *** Camera callback *)
Definition calm_at (p : V3) (q : quat) (k : nat) (e e' : ekf) : Prop :=
  quiet p q e e' /\ (per_frame e k = true -> frames_at e' k = frames_at e k).
Lemma calm_at_trans : forall p q k a b c, calm_at p q k a b -> calm_at p q k b c -> calm_at p q k a c.
Proof.
  intros p q k a b c [A1 A2] [B1 B2]. split; [eapply quiet_trans; eauto|]. intros P. rewrite B2; [auto|].
  rewrite (quiet_per_frame _ _ _ _ _ A1). exact P.
Qed.
Lemma clear_at : forall p q t e e' cam tr, calm_at p q cam e e' -> clear_track t e cam tr -> clear_track t e' cam tr.
Proof.
  intros p q t e e' cam tr [Q F] [f [F1 [F2 F3]]]. exists f. split; [exact F1|]. split; [exact F2|].
  intros P pt I. rewrite (quiet_per_frame _ _ _ _ _ Q) in P. rewrite (F P). apply F3; assumption.
Qed.

Lemma cam_again : forall e e' id c x, same_but_clones (e_state e) (e_state e') -> mfind id (s_cam (e_state e)) = Some c ->
  mfind id (s_cam (e_state e')) = Some x -> c_pos x = c_pos c /\ c_ang x = c_ang c /\ c_intr x = c_intr c.
Proof.
  intros e e' id c x S K X. destruct (sbc_cam _ _ _ _ S K) as [y [Y1 Y2]]. rewrite X in Y1. injection Y1 as <-.
  pose proof (f_equal c_pos Y2) as Z1. pose proof (f_equal c_ang Y2) as Z2. pose proof (f_equal c_intr Y2) as Z3. auto.
Qed.
Lemma fid_again : forall e e' id c x, same_but_clones (e_state e) (e_state e') -> mfind id (s_fid (e_state e)) = Some c ->
  mfind id (s_fid (e_state e')) = Some x -> f_pos x = f_pos c /\ f_ang x = f_ang c.
Proof.
  intros e e' id c x S K X. destruct (sbc_fid _ _ _ _ S K) as [y [Y1 Y2]]. rewrite X in Y1. injection Y1 as <-.
  pose proof (f_equal f_pos Y2) as Z1. pose proof (f_equal f_ang Y2) as Z2. auto.
Qed.

Lemma track_all_still : forall t p q id fids time l trs e trs' e', still t p q -> rests p q (e_state e) ->
  sensor_true t e id (SCam trs fids) -> (forall k ts tr, In (k, ts) l -> In tr ts -> clear_track t e id tr) ->
  track_all solve trs e time l = OK (trs', e') ->
  calm_at p q id e e' /\ sensor_true t e' id (SCam trs' fids).
Proof.
  intros t p q id fids time. induction l as [|[k ts] l IH]; intros trs e trs' e' T R ST C H; cbn [track_all] in H.
  - injection H as <- <-. split; [split; [apply quiet_refl; exact R|reflexivity]|exact ST].
  - destruct ts as [|tr0 ts].
    + apply (IH _ _ _ _ T R ST (fun k' ts' tr I => C k' ts' tr (or_intror I)) H).
    + destruct (mfind k trs) as [tk|] eqn:EK; [|discriminate]. opn H. destruct x as [u1 e1].
      pose proof ST as [c [C1 [C2 [C3 [C4 [C5 [TT BT]]]]]]].
      destruct (msckf_still _ _ _ _ _ _ _ _ _ _ _ _ T R C1 C2 C3 C4 C5 (TT _ _ EK)
        (fun tr I => C k (tr0 :: ts) tr (or_introl eq_refl) I) B) as [Q [F TT1]].
      assert (CA : calm_at p q id e e1) by (split; assumption).
      destruct (sensor_keep _ _ _ _ _ _ _ Q ST) as [c1 [D1 [D2 [D3 [D4 [D5 [TD BD]]]]]]].
      destruct (cam_again _ _ _ _ _ (proj1 (proj2 Q)) C1 D1) as [Z1 [Z2 Z3]].
      assert (ST1 : sensor_true t e1 id (SCam (mset k (mkTrk u1 (tk_px tk)) trs) fids)).
      { exists c1. split; [exact D1|]. split; [exact D2|]. split; [exact D3|]. split; [exact D4|]. split; [exact D5|].
        split; [|exact BD]. intros k' tr' K'. destruct (Nat.eq_dec k' k) as [->|N].
        - rewrite mfind_mset_eq in K'. injection K' as <-. cbn [tk_upd]. destruct TT1 as [I1 [I2 I3]].
          split; [exact I1|]. split; [exact I2|]. rewrite Z1, Z2, Z3. exact I3.
        - rewrite mfind_mset_neq in K' by exact N. apply (TD _ _ K'). }
      destruct (IH _ _ _ _ T (proj1 Q) ST1 (fun k' ts' tr I1 I2 => clear_at _ _ _ _ _ _ _ CA (C k' ts' tr (or_intror I1) I2)) H)
        as [CA2 ST2].
      split; [eapply calm_at_trans; eauto|exact ST2].
Qed.

Lemma board_all_still : forall t p q id trs time l fids e fids' e', still t p q -> rests p q (e_state e) ->
  reads_rotations mat_quat ->
  sensor_true t e id (SCam trs fids) -> (forall x, In x l -> exact_board t id time x) ->
  board_all mat_quat fids e time l = OK (fids', e') ->
  quiet p q e e' /\ sensor_true t e' id (SCam trs fids').
Proof.
  intros t p q id trs time. induction l as [|[k b] l IH]; intros fids e fids' e' T R RR ST C H; cbn [board_all] in H.
  - injection H as <- <-. split; [apply quiet_refl; exact R|exact ST].
  - destruct (mfind k fids) as [u|] eqn:EK; [|discriminate]. destruct b as [d|].
    + opn H. destruct x as [u1 e1]. pose proof ST as [c [C1 [C2 [C3 [C4 [C5 [TT BT]]]]]]].
      destruct (C (k, Some d) (or_introl eq_refl) d eq_refl) as [Rep [te [re [vr [qr M]]]]]. cbn [fst] in M.
      destruct (board_still _ _ _ _ _ _ _ _ _ _ _ _ _ _ _ _ T R RR C1 C2 C3 C4 (BT _ _ EK) Rep M B) as [Q [I1 [I2 I3]]].
      destruct (sensor_keep _ _ _ _ _ _ _ Q ST) as [c1 [D1 [D2 [D3 [D4 [D5 [TD BD]]]]]]].
      destruct (cam_again _ _ _ _ _ (proj1 (proj2 Q)) C1 D1) as [Z1 [Z2 Z3]].
      assert (ST1 : sensor_true t e1 id (SCam trs (mset k u1 fids))).
      { exists c1. split; [exact D1|]. split; [exact D2|]. split; [exact D3|]. split; [exact D4|]. split; [exact D5|].
        split; [exact TD|]. intros k' u' K'. destruct (Nat.eq_dec k' k) as [->|N].
        - rewrite mfind_mset_eq in K'. injection K' as <-. destruct (BD _ _ EK) as [J1 [f [J2 [J3 [J4 [J5 _]]]]]].
          destruct (BT _ _ EK) as [_ [f0 [G1 _]]].
          destruct (fid_again _ _ _ _ _ (proj1 (proj2 Q)) G1 J2) as [W1 W2].
          split; [congruence|]. exists f. rewrite I1. split; [exact J2|]. split; [exact J3|]. split; [exact J4|]. split; [exact J5|].
          intros _. rewrite Z1, Z2, W1, W2. apply I3. exact G1.
        - rewrite mfind_mset_neq in K' by exact N. apply (BD _ _ K'). }
      destruct (IH _ _ _ _ T (proj1 Q) RR ST1 (fun x I => C x (or_intror I)) H) as [Q2 ST2].
      split; [eapply quiet_trans; eauto|exact ST2].
    + apply (IH _ _ _ _ T R RR ST (fun x I => C x (or_intror I)) H).
Qed.

Lemma camera_still : forall t p q e id trs fids time frame tracks boards trs' fids' e', still t p q -> rests p q (e_state e) ->
  reads_rotations mat_quat -> sensor_true t e id (SCam trs fids) ->
  (forall k l tr, In (k, l) tracks -> In tr l -> exact_track t e id frame tr) ->
  (forall x, In x boards -> exact_board t id time x) ->
  sim_camera_Callback mat_quat solve trs fids e id time frame tracks boards = OK (trs', fids', e') ->
  quiet p q e e' /\ sensor_true t e' id (SCam trs' fids').
Proof.
  intros t p q e id trs fids time frame tracks boards trs' fids' e' T R RR ST CT CB H. unfold sim_camera_Callback in H.
  destruct (CalculateLocalTime e time) as [lt e0] eqn:EL. opn H. rename x into e1. opn H. rename x into e2.
  destruct (predict_calm p q e time lt e0 e1 id R EL B) as [Q1 W].
  destruct (frame_quiet p q _ _ _ _ (proj1 Q1) B0) as [Q2 F2]. pose proof (quiet_trans _ _ _ _ _ Q1 Q2) as Q.
  assert (CT2 : forall k l tr, In (k, l) tracks -> In tr l -> clear_track t e2 id tr).
  { intros k l tr I1 I2. destruct (CT _ _ _ I1 I2) as [f [G1 G2]]. exists f. split; [exact G1|].
    split; [intros pt I; apply (G2 pt I)|]. intros P pt I. rewrite (quiet_per_frame _ _ _ _ _ Q) in P. apply F2.
    - rewrite (quiet_per_frame _ _ _ _ _ Q1). exact P.
    - unfold frames_after. destruct (W P) as [-> ->]. apply (G2 pt I). exact P. }
  opn H. destruct x as [trs1 e3]. opn H. destruct x as [fids1 e4]. injection H as <- <- <-.
  destruct (track_all_still _ _ _ _ _ _ _ _ _ _ _ T (proj1 Q) (sensor_keep _ _ _ _ _ _ _ Q ST) CT2 B1) as [[Q3 _] ST3].
  destruct (board_all_still _ _ _ _ _ _ _ _ _ _ _ T (proj1 Q3) RR ST3 CB B2) as [Q4 ST4].
  split; [|exact ST4]. eapply quiet_trans; [exact Q|]. eapply quiet_trans; eauto.
Qed.
End Run.

(** *** Whole runs *)
Lemma holds_step : forall t p q w id s s' e c, holds t p q w -> mfind id (w_sensors w) = Some s ->
  quiet p q (w_ekf w) e -> sensor_true t e id s' -> holds t p q (mkWorld e c (mset id s' (w_sensors w))).
Proof.
  intros t p q w id s s' e c [R [X S]] K Q ST. split; [apply Q|]. cbn [w_ekf w_sensors].
  split; [rewrite (proj1 (proj2 (proj2 Q))); exact X|].
  intros k x Kx. destruct (Nat.eq_dec k id) as [->|N].
  - rewrite mfind_mset_eq in Kx. injection Kx as <-. exact ST.
  - rewrite mfind_mset_neq in Kx by exact N. eapply sensor_keep; [exact Q|]. apply S. exact Kx.
Qed.

Section Runs.
Variable svd : m2 -> m2 * m2.
Variable hull : list (BinNums.Z * BinNums.Z) -> list (BinNums.Z * BinNums.Z).
Variable ecef_to_lla : V3 -> V3.
Variable mat_quat : mat R -> quat.
Variable solve : mat R -> V3 -> V3.
Hypothesis rotations : reads_rotations mat_quat.

Lemma deliver_still : forall t p q w m w', still t p q -> holds t p q w -> exact_msg ecef_to_lla t p q w m ->
  deliver svd hull ecef_to_lla mat_quat solve w m = OK w' ->
  holds t p q w' /\ same_but_clones (e_state (w_ekf w)) (e_state (w_ekf w')).
Proof.
  intros t p q w m w' T H X D. pose proof H as [R [Chi S]]. unfold deliver in D.
  destruct (mfind (msg_id m) (w_sensors w)) as [s|] eqn:EK; [|injection D as <-; split; [exact H|reflexivity]].
  destruct m as [id time acc A omg W|id time lla N|id time frame tracks boards|id time]; cbn [msg_id] in EK.
  - destruct s as [u|u|trs fids]; try discriminate. opn D. destruct x as [u1 e1]. injection D as <-.
    destruct X as [ae [oe [vr M]]]. pose proof (S _ _ EK) as ST.
    destruct (imu_still _ _ _ _ _ _ _ _ _ _ _ _ _ _ _ _ T R Chi ST M B) as [-> Q].
    split; [|apply Q]. eapply holds_step; [exact H|exact EK|exact Q|]. eapply sensor_keep; [exact Q|exact ST].
  - destruct s as [u|u|trs fids]; try discriminate. opn D. destruct x as [u1 e1]. injection D as <-.
    destruct X as [L [le [vr M]]].
    destruct (gps_still svd hull ecef_to_lla _ _ _ _ _ _ _ _ _ _ _ _ _ T R (S _ _ EK) L M B) as [G Q].
    split; [|apply Q]. eapply holds_step; [exact H|exact EK|exact Q|exact G].
  - destruct s as [u|u|trs fids]; try discriminate. opn D. destruct x as [[trs1 fids1] e1]. injection D as <-.
    destruct X as [CT CB].
    destruct (camera_still mat_quat solve _ _ _ _ _ _ _ _ _ _ _ _ _ _ T R rotations (S _ _ EK) CT CB B) as [Q G].
    split; [|apply Q]. eapply holds_step; [exact H|exact EK|exact Q|exact G].
  - injection D as <-. split; [exact H|reflexivity].
Qed.

Lemma run_still : forall t p q l w w', still t p q -> holds t p q w ->
  exact_run ecef_to_lla svd hull mat_quat solve t p q w l ->
  wrun svd hull ecef_to_lla mat_quat solve w (map EMsg l) = OK w' ->
  holds t p q w' /\ same_but_clones (e_state (w_ekf w)) (e_state (w_ekf w')).
Proof.
  intros t p q. induction l as [|m l IH]; intros w w' T H X D; cbn [map wrun] in D.
  - injection D as <-. split; [exact H|reflexivity].
  - opn D. cbn [wstep] in B. destruct X as [X1 X2]. destruct (deliver_still _ _ _ _ _ _ T H X1 B) as [H1 S1].
    destruct (IH _ _ T H1 (X2 _ B) D) as [H2 S2]. split; [exact H2|]. eapply sbc_trans; eauto.
Qed.
End Runs.
