(** What constructing a sensor enters into the filter. *)
From Coq Require Import Reals List Arith Bool Lia Lra ZArith.
From Verif Require Import Base.Res Base.Mat Base.RDec Base.RSum Base.LinAlg Base.Geom Base.AMap Base.RMat
  Model.TypeHelper Model.Types Model.MathHelperMat Model.MathHelper Model.Matrix3 Model.Ekf Model.Updater Model.Ops
  Model.ImuUpdater Model.GpsUpdater Model.FiducialUpdater Model.MsckfUpdater Model.Sensors
  Spec.Layout Spec.History Spec.Contract Spec.Named Spec.Same Spec.Callback Spec.World Spec.Build
  Proofs.Invariant Proofs.Named Proofs.Same Proofs.World Proofs.Ids Proofs.StationaryFinals.
Import ListNotations.
Open Scope nat_scope.

Lemma gram_diag : forall n v k l, k < n -> l < n ->
  gram n (diagm v) k l = (if Nat.eqb k l then v k * v k else 0)%R.
Proof.
  intros n v k l Hk Hl. unfold gram, mm, tr, diagm.
  rewrite (rsum_single n k) by (try lia; intros i Hi Hn; rewrite (proj2 (Nat.eqb_neq i k) Hn); ring).
  rewrite Nat.eqb_refl. destruct (Nat.eqb k l); ring.
Qed.
Lemma gram_ext : forall n A B k l, eqm n n A B -> k < n -> l < n -> gram n A k l = gram n B k l.
Proof. intros n A B k l H Hk Hl. unfold gram, mm, tr. apply rsum_ext. intros i Hi. rewrite (H i k), (H i l) by assumption. reflexivity. Qed.

Lemma adds_enrolled : forall e e' N c v spread,
  adds e e' N (stands_for (p_root (e_par e)) (length N) c) -> eqm (length N) (length N) (ent c) (diagm v) ->
  (forall k a, nth_error N k = Some a -> spread a = v k) -> enrolled e e' N spread.
Proof.
  intros e e' N c v spread [A1 A2 A3 A4] D S.
  assert (C : forall k l, k < length N -> l < length N -> stands_for (p_root (e_par e)) (length N) c k l =
    (if Nat.eqb k l then (if p_root (e_par e) then v k * v k else v k) else 0)%R).
  { intros k l Hk Hl. unfold stands_for. destruct (p_root (e_par e)).
    - rewrite (gram_ext _ _ _ _ _ D Hk Hl). apply gram_diag; assumption.
    - rewrite (D k l Hk Hl). reflexivity. }
  constructor; auto.
  - intros a Ha. destruct (In_nth_error _ _ Ha) as [k Hk]. pose proof (A3 k k a a Hk Hk) as X.
    assert (L : k < length N) by (apply nth_error_Some; rewrite Hk; discriminate).
    rewrite (C k k L L), Nat.eqb_refl in X. rewrite (S k a Hk). exact X.
  - intros a b Ha [[Hb Ne]|Hb]; [|apply A4; assumption].
    destruct (In_nth_error _ _ Ha) as [k Hk]. destruct (In_nth_error _ _ Hb) as [l Hl].
    assert (Lk : k < length N) by (apply nth_error_Some; rewrite Hk; discriminate).
    assert (Ll : l < length N) by (apply nth_error_Some; rewrite Hl; discriminate).
    assert (NE : k <> l) by (intros ->; congruence).
    pose proof (A3 k l a b Hk Hl) as X. pose proof (A3 l k b a Hl Hk) as Y.
    rewrite (C k l Lk Ll), (proj2 (Nat.eqb_neq k l) NE) in X.
    rewrite (C l k Ll Lk), (proj2 (Nat.eqb_neq l k) (not_eq_sym NE)) in Y. auto.
Qed.

Lemma floor_nth : forall v k, k < length v -> nth k (MinBoundVector v (1 / 1000000)) 0%R = floored v k.
Proof.
  intros v k H. unfold MinBoundVector, floored. set (f := fun x : R => if Rltb x (1 / 1000000) then (1 / 1000000)%R else x).
  rewrite (nth_indep (map f v) 0%R (f 0%R)) by (rewrite map_length; exact H). rewrite map_nth. unfold f.
  destruct (Rltb _ _) eqn:E.
  - apply Rltb_spec in E. rewrite Rmax_right; [reflexivity|apply Rlt_le; exact E].
  - apply Rltb_false in E. rewrite Rmax_left; [reflexivity|exact E].
Qed.
Lemma six_nth : forall f k a, nth_error (six f) k = Some a -> k < 6 /\ a = f k.
Proof. intros f k a H. unfold six in H. cbn in H. do 6 (destruct k as [|k]; [cbn in H; injection H as <-; split; [lia|reflexivity]|]). destruct k; discriminate. Qed.
Lemma three_nth : forall f k a, nth_error (three f) k = Some a -> k < 3 /\ a = f k.
Proof. intros f k a H. unfold three in H. cbn in H. do 3 (destruct k as [|k]; [cbn in H; injection H as <-; split; [lia|reflexivity]|]). destruct k; discriminate. Qed.
Lemma stored : forall A (f : A -> A) m m' id x, stores f m m' id x -> exists s, mfind id m' = Some s /\ f s = f x.
Proof.
  intros A f m m' id x H. pose proof (H id) as X. rewrite Nat.eqb_refl in X. destruct (mfind id m') as [s|]; [|discriminate].
  cbn in X. injection X as X. eauto.
Qed.
Lemma below_within : forall n A (m : amap A), (forall k, In k (keys m) -> k <= n) -> below (S n) m.
Proof. intros n A m H k Hk. pose proof (H k Hk). lia. Qed.

(** The covariance an IMU is registered with. *)
Lemma imu_cov_diag : forall p c, imu_params_ok p -> imu_cov_of p = OK c -> exists v,
  let n := length (imu_scalars 0 (ip_ext p) (ip_int p)) in
  nr c = n /\ nc c = n /\ eqm n n (ent c) (diagm v) /\
  forall id k a, nth_error (imu_scalars id (ip_ext p) (ip_int p)) k = Some a -> imu_spread p a = v k.
Proof.
  intros p c [_ [_ L]] E. unfold imu_cov_of, head_segment, guard in E.
  assert (LM : length (MinBoundVector (ip_var p) (1 / 1000000)) = length (ip_var p)) by apply map_length.
  exists (fun k => floored (ip_var p) k).
  assert (D : forall n, n <= length (ip_var p) -> eqm n n (ent (diag_of (firstn n (MinBoundVector (ip_var p) (1 / 1000000))))) (diagm (fun k => floored (ip_var p) k))).
  { intros n Hn i j Hi Hj. unfold diag_of, diagm. cbn [ent]. destruct (Nat.eqb i j); [|reflexivity].
    rewrite <- floor_nth by lia. rewrite <- (firstn_skipn n (MinBoundVector (ip_var p) (1 / 1000000))) at 2.
    rewrite app_nth1; [reflexivity|]. rewrite firstn_length. lia. }
  assert (LF : forall n, n <= length (ip_var p) -> length (firstn n (MinBoundVector (ip_var p) (1 / 1000000))) = n)
    by (intros n Hn; rewrite firstn_length; lia).
  cbv zeta. destruct (ip_ext p) eqn:X, (ip_int p) eqn:Y; cbn [andb orb Nat.add] in *; unfold imu_scalars; cbn [length app six map seq] in *.
  - rewrite LM, (proj2 (Nat.leb_le 12 _) L) in E. cbn [bind] in E. injection E as <-.
    split; [exact (LF 12 L)|]. split; [exact (LF 12 L)|]. split; [exact (D 12 L)|].
    intros id k a H. do 12 (destruct k as [|k]; [cbn in H; injection H as <-; cbn [imu_spread]; rewrite ?X; reflexivity|]). destruct k; discriminate.
  - rewrite LM, (proj2 (Nat.leb_le 6 _) L) in E. cbn [bind] in E. injection E as <-.
    split; [exact (LF 6 L)|]. split; [exact (LF 6 L)|]. split; [exact (D 6 L)|].
    intros id k a H. do 6 (destruct k as [|k]; [cbn in H; injection H as <-; reflexivity|]). destruct k; discriminate.
  - rewrite LM, (proj2 (Nat.leb_le 6 _) L) in E. cbn [bind] in E. injection E as <-.
    split; [exact (LF 6 L)|]. split; [exact (LF 6 L)|]. split; [exact (D 6 L)|].
    intros id k a H. do 6 (destruct k as [|k]; [cbn in H; injection H as <-; cbn [imu_spread]; rewrite ?X; reflexivity|]). destruct k; discriminate.
  - injection E as <-. split; [reflexivity|]. split; [reflexivity|]. split; [intros i j Hi; lia|].
    intros id k a H. destruct k; discriminate.
Qed.

Lemma fresh_sensor : forall w, idinv w -> mfind (S (n_sensors (w_cnt w))) (w_sensors w) = None.
Proof. intros w [K _ _]. apply mfind_none. rewrite K. intros H. apply in_seq in H. lia. Qed.

Section Build.
Variable svd : m2 -> m2 * m2.
Variable hull : list (Z * Z) -> list (Z * Z).
Variable ecef_to_lla : V3 -> V3.
Variable mat_quat : mat R -> quat.
Variable solve : mat R -> V3 -> V3.
Notation lived' := (lived svd hull ecef_to_lla mat_quat solve).
Notation wstep' := (wstep svd hull ecef_to_lla mat_quat solve).

Lemma imu_build : forall w p w', lived' w -> imu_params_ok p -> wstep' w (ENewImu p) = OK w' ->
  exists id s, mfind id (w_sensors w) = None /\
    mfind id (w_sensors w') = Some (SImu (imu_updater_init id (ip_ext p) (ip_int p))) /\
    (forall k, k <> id -> mfind k (w_sensors w') = mfind k (w_sensors w)) /\
    mfind id (s_imu (e_state (w_ekf w'))) = Some s /\ imu_configured p s /\
    (forall k, k <> id -> option_map bare_imu (mfind k (s_imu (e_state (w_ekf w')))) = option_map bare_imu (mfind k (s_imu (e_state (w_ekf w))))) /\
    bare (state_with_imu (e_state (w_ekf w')) []) = bare (state_with_imu (e_state (w_ekf w)) []) /\
    enrolled (w_ekf w) (w_ekf w') (imu_scalars id (ip_ext p) (ip_int p)) (imu_spread p).
Proof.
  intros w p w' HL HP E. destruct (lived_winv _ _ _ _ _ _ HL) as [WI II].
  cbn [wstep] in E. unfold imu_new, new_sensor_id in E. set (id := S (n_sensors (w_cnt w))) in *.
  destruct (imu_params_arg (p_root (e_par (w_ekf w))) p HP) as [c [EC A]]. rewrite EC in E. cbn [bind] in E.
  destruct (RegisterIMU _ _ _ _) as [e'|] eqn:ER; [|discriminate]. cbn [bind] in E. injection E as <-.
  pose proof (reachable_inv _ (wi_reach _ WI)) as I.
  destruct (within_new _ _ (wi_within _ WI)) as [N [_ _]]. fold id in N.
  assert (C : contract (w_ekf w) (ORegImu id (imu_state_of p) c)) by (intros _; exact A).
  destruct (reg_imu_fresh _ _ _ _ _ I C N ER) as [ST [BR _]].
  assert (B : below id (s_imu (e_state (w_ekf w)))) by (apply below_within; apply (wi_within _ WI)).
  pose proof (register_imu_named _ _ _ _ _ I C B ER) as AD.
  destruct (stored _ _ _ _ _ _ ST) as [s [FS BS]].
  exists id, s. cbn [install w_sensors w_ekf].
  split; [apply (fresh_sensor w II)|]. split; [apply mfind_mset_eq|]. split; [intros k Hk; apply mfind_mset_neq; exact Hk|].
  split; [exact FS|]. split.
  { unfold bare_imu in BS. injection BS as B1 B2 B3 B4 B5 B6 B7 B8 B9 B10 B11. unfold imu_configured. repeat split; assumption. }
  split. { intros k Hk. rewrite (ST k), (proj2 (Nat.eqb_neq k id) Hk). reflexivity. }
  split; [exact BR|].
  destruct (imu_cov_diag p c HP EC) as [v [D1 [D2 [D3 D4]]]].
  assert (LB : imu_labels (id, imu_state_of p) = imu_scalars id (ip_ext p) (ip_int p)).
  { unfold imu_labels, imu_scalars. cbn [fst snd imu_state_of i_ext i_int]. destruct (ip_ext p), (ip_int p); reflexivity. }
  rewrite LB in AD. apply (adds_enrolled _ _ _ _ v _ AD).
  - replace (length (imu_scalars id (ip_ext p) (ip_int p))) with (length (imu_scalars 0 (ip_ext p) (ip_int p)))
      by (destruct (ip_ext p), (ip_int p); reflexivity). exact D3.
  - intros k a Hk. apply (D4 id k a Hk).
Qed.

Lemma gps_build : forall w p w', lived' w -> gps_params_ok p -> wstep' w (ENewGps p) = OK w' ->
  exists id s, mfind id (w_sensors w) = None /\
    mfind id (w_sensors w') = Some (SGps (gps_updater_init id (gp_ext p))) /\
    (forall k, k <> id -> mfind k (w_sensors w') = mfind k (w_sensors w)) /\
    mfind id (s_gps (e_state (w_ekf w'))) = Some s /\ gps_configured p s /\
    (forall k, k <> id -> option_map bare_gps (mfind k (s_gps (e_state (w_ekf w')))) = option_map bare_gps (mfind k (s_gps (e_state (w_ekf w))))) /\
    bare (state_with_gps (e_state (w_ekf w')) []) = bare (state_with_gps (e_state (w_ekf w)) []) /\
    enrolled (w_ekf w) (w_ekf w') (if gp_ext p then three (LGps id) else []) (gps_spread p).
Proof.
  intros w p w' HL HP E. destruct (lived_winv _ _ _ _ _ _ HL) as [WI II].
  cbn [wstep] in E. unfold gps_new, new_sensor_id in E. set (id := S (n_sensors (w_cnt w))) in *.
  pose proof (gps_params_arg (p_root (e_par (w_ekf w))) p HP) as A.
  destruct (RegisterGPS _ _ _ _) as [e'|] eqn:ER; [|discriminate]. cbn [bind] in E. injection E as <-.
  pose proof (reachable_inv _ (wi_reach _ WI)) as I.
  destruct (within_new _ _ (wi_within _ WI)) as [_ [N _]]. fold id in N.
  assert (C : contract (w_ekf w) (ORegGps id (gps_state_of p) (mdiag (v3mat (gp_var p))))) by (intros _; exact A).
  destruct (reg_gps_fresh _ _ _ _ _ I C N ER) as [ST [BR _]].
  assert (B : below id (s_gps (e_state (w_ekf w)))) by (apply below_within; apply (wi_within _ WI)).
  pose proof (register_gps_named _ _ _ _ _ I C B ER) as AD.
  destruct (stored _ _ _ _ _ _ ST) as [s [FS BS]].
  exists id, s. cbn [install w_sensors w_ekf].
  split; [apply (fresh_sensor w II)|]. split; [apply mfind_mset_eq|]. split; [intros k Hk; apply mfind_mset_neq; exact Hk|].
  split; [exact FS|]. split.
  { unfold bare_gps in BS. injection BS as B1 B2 B3 B4. unfold gps_configured. rewrite B1, B2, B4.
    unfold gps_state_of, gps_SetIsExtrinsic. destruct (gp_ext p); repeat split; reflexivity. }
  split. { intros k Hk. rewrite (ST k), (proj2 (Nat.eqb_neq k id) Hk). reflexivity. }
  split; [exact BR|].
  assert (LB : gps_labels (id, gps_state_of p) = if gp_ext p then three (LGps id) else []).
  { unfold gps_labels, gps_state_of, gps_SetIsExtrinsic. destruct (gp_ext p); reflexivity. }
  rewrite LB in AD. apply (adds_enrolled _ _ _ _ (fun k => vget (gp_var p) k) _ AD).
  - destruct (gp_ext p); [|intros i j Hi; cbn in Hi; lia]. intros i j Hi Hj. unfold diagm.
    cbn in Hi, Hj. do 3 (destruct i as [|i]; [do 3 (destruct j as [|j]; [reflexivity|]); lia|]). lia.
  - intros k a Hk. destruct (gp_ext p); [|destruct k; discriminate]. apply three_nth in Hk. destruct Hk as [_ ->]. reflexivity.
Qed.

Lemma cam_build : forall w p ts w', lived' w -> cam_params_ok p -> wstep' w (ENewCam p ts []) = OK w' ->
  exists id s trs, mfind id (w_sensors w) = None /\
    mfind id (w_sensors w') = Some (SCam trs []) /\
    (forall k, k <> id -> mfind k (w_sensors w') = mfind k (w_sensors w)) /\
    mfind id (s_cam (e_state (w_ekf w'))) = Some s /\ cam_configured p s /\
    (forall k, k <> id -> option_map bare_cam (mfind k (s_cam (e_state (w_ekf w')))) = option_map bare_cam (mfind k (s_cam (e_state (w_ekf w))))) /\
    bare (state_with_cam (e_state (w_ekf w')) []) = bare (state_with_cam (e_state (w_ekf w)) []) /\
    enrolled (w_ekf w) (w_ekf w') (if cp_ext p then six (LCam id) else []) (cam_spread p).
Proof.
  intros w p ts w' HL HP E. destruct (lived_winv _ _ _ _ _ _ HL) as [WI II].
  cbn [wstep] in E. unfold camera_new, cam_new, new_sensor_id in E. set (id := S (n_sensors (w_cnt w))) in *.
  pose proof (cam_params_arg (p_root (e_par (w_ekf w))) p HP) as A.
  destruct (RegisterCamera _ _ _ _) as [e'|] eqn:ER; [|discriminate]. cbn [bind] in E.
  destruct (add_trackers _ _ ts []) as [trs c2]. cbn [add_fiducials bind] in E. injection E as <-.
  pose proof (reachable_inv _ (wi_reach _ WI)) as I.
  destruct (within_new _ _ (wi_within _ WI)) as [_ [_ N]]. fold id in N.
  assert (C : contract (w_ekf w) (ORegCam id (cam_state_of p) (diag_of (MinBoundVector (cp_var p) (1 / 1000000))))) by (intros _; exact A).
  destruct (reg_cam_fresh _ _ _ _ _ I C N ER) as [ST [BR _]].
  assert (B : below id (s_cam (e_state (w_ekf w)))) by (apply below_within; apply (wi_within _ WI)).
  pose proof (register_cam_named _ _ _ _ _ I C B ER) as AD.
  destruct (stored _ _ _ _ _ _ ST) as [s [FS BS]].
  exists id, s, trs. cbn [install w_sensors w_ekf].
  split; [apply (fresh_sensor w II)|]. split; [apply mfind_mset_eq|]. split; [intros k Hk; apply mfind_mset_neq; exact Hk|].
  split; [exact FS|]. split.
  { unfold bare_cam in BS. injection BS as B1 B2 B3 B4 B5 B6 B7 B8. unfold cam_configured. rewrite B1, B2, B3, B4, B5, B6, B8.
    unfold cam_state_of, cam_SetIsExtrinsic. destruct (cp_ext p); repeat split; reflexivity. }
  split. { intros k Hk. rewrite (ST k), (proj2 (Nat.eqb_neq k id) Hk). reflexivity. }
  split; [exact BR|].
  assert (LB : cam_labels (id, cam_state_of p) = if cp_ext p then six (LCam id) else []).
  { unfold cam_labels, cam_state_of, cam_SetIsExtrinsic. destruct (cp_ext p); reflexivity. }
  rewrite LB in AD. apply (adds_enrolled _ _ _ _ (fun k => floored (cp_var p) k) _ AD).
  - destruct HP as [_ HP]. destruct (cp_ext p); [|intros i j Hi; cbn in Hi; lia]. destruct (HP eq_refl) as [_ [_ L6]].
    intros i j Hi Hj. cbn [six map seq length] in Hi, Hj. unfold diag_of, diagm. cbn [ent]. rewrite floor_nth by lia. reflexivity.
  - intros k a Hk. destruct (cp_ext p); [|destruct k; discriminate]. apply six_nth in Hk. destruct Hk as [_ ->]. reflexivity.
Qed.
End Build.

(** Calibrated for its biases only, an IMU gets the variances of its pose. *)
Lemma bias_variance_unread : forall c e p v, ip_ext p = false -> length v = length (ip_var p) ->
  firstn 6 v = firstn 6 (ip_var p) -> imu_new c e (with_variance p v) = imu_new c e p.
Proof.
  intros c e p v X L F. unfold imu_new. replace (imu_cov_of (with_variance p v)) with (imu_cov_of p); [reflexivity|].
  unfold imu_cov_of, head_segment. cbn [with_variance ip_ext ip_int ip_var]. rewrite X. cbn [andb orb].
  unfold MinBoundVector. rewrite !map_length, L, !firstn_map, F. reflexivity.
Qed.

(** A board. *)
Lemma fid_build : forall c e cam p id u c' e', reachable e -> (6 <= length (fp_var p))%nat -> Forall (fun x => (0 <= x)%R) (fp_var p) ->
  below (fp_id p) (s_fid (e_state e)) -> no_clones e -> fid_new c e cam p = OK (id, u, c', e') ->
  id = S (n_trackers c) /\ n_trackers c' = id /\ n_sensors c' = n_sensors c /\ u = mkFU (fp_id p) cam (fp_ext p) (fp_cam_ext p) true None /\
  exists s, mfind (fp_id p) (s_fid (e_state e')) = Some s /\ fid_configured p s /\
    (forall k, k <> fp_id p -> option_map bare_fid (mfind k (s_fid (e_state e'))) = option_map bare_fid (mfind k (s_fid (e_state e)))) /\
    bare (state_with_fid (e_state e') []) = bare (state_with_fid (e_state e) []) /\
    enrolled e e' (if fp_ext p then six (LFid (fp_id p)) else []) (fid_spread p).
Proof.
  intros c e cam p id u c' e' Hr L6 V B NC E. unfold fid_new, new_tracker_id in E. rewrite (proj2 (Nat.leb_le _ _) L6) in E. cbn [guard bind] in E.
  destruct (RegisterFiducial _ _ _) as [e2|] eqn:ER; [|discriminate]. cbn [bind] in E. injection E as <- <- <- <-.
  split; [reflexivity|]. split; [reflexivity|]. split; [reflexivity|]. split; [reflexivity|].
  pose proof (fid_params_arg (p_root (e_par e)) p L6 V) as A. pose proof (reachable_inv _ Hr) as I.
  assert (N : mfind (f_id (fid_state_of p)) (s_fid (e_state e)) = None).
  { destruct (mfind _ _) as [x|] eqn:X; [|reflexivity]. apply mfind_in in X. apply (in_map fst) in X. cbn [fst] in X. apply B in X.
    unfold fid_state_of, fid_SetIsExtrinsic in X. cbn [f_id] in X. lia. }
  assert (C : contract e (ORegFid (fid_state_of p) (diag_of (fp_var p)))) by (intros _; exact A).
  destruct (reg_fid_fresh _ _ _ _ I C N ER) as [ST [BR _]].
  pose proof (register_fid_named _ _ _ _ I C B NC ER) as AD.
  destruct (stored _ _ _ _ _ _ ST) as [s [FS BS]]. exists s. split; [exact FS|]. split.
  { unfold bare_fid in BS. injection BS as B1 B2 B3 B4 B5 B6 B7. unfold fid_configured. rewrite B1, B2, B6, B7.
    unfold fid_state_of, fid_SetIsExtrinsic. destruct (fp_ext p); repeat split; reflexivity. }
  split. { intros k Hk. rewrite (ST k). change (f_id (fid_state_of p)) with (fp_id p). rewrite (proj2 (Nat.eqb_neq k (fp_id p)) Hk). reflexivity. }
  split; [exact BR|].
  assert (LB : fid_labels (f_id (fid_state_of p), fid_state_of p) = if fp_ext p then six (LFid (fp_id p)) else []).
  { unfold fid_labels, fid_state_of, fid_SetIsExtrinsic. destruct (fp_ext p); reflexivity. }
  rewrite LB in AD. apply (adds_enrolled _ _ _ _ (fun k => nth k (fp_var p) 0%R) _ AD).
  - intros i j _ _. reflexivity.
  - intros k a Hk. destruct (fp_ext p); [|destruct k; discriminate]. apply six_nth in Hk. destruct Hk as [_ ->]. reflexivity.
Qed.
(** A board that is known already: its configuration is not looked at. *)
Lemma fid_known : forall c e cam p s id u c' e', mfind (fp_id p) (s_fid (e_state e)) = Some s ->
  fid_new c e cam p = OK (id, u, c', e') -> e' = e.
Proof.
  intros c e cam p s id u c' e' M E. unfold fid_new, new_tracker_id in E. destruct (Nat.leb _ _); [|discriminate]. cbn [guard bind] in E.
  unfold RegisterFiducial in E. change (f_id (fid_state_of p)) with (fp_id p) in E. rewrite M in E. cbn [bind] in E. injection E as _ _ _ <-. reflexivity.
Qed.
Lemma fid_builds : forall c e cam p, reachable e -> (6 <= length (fp_var p))%nat -> Forall (fun x => (0 <= x)%R) (fp_var p) ->
  exists id u c' e', fid_new c e cam p = OK (id, u, c', e').
Proof.
  intros c e cam p Hr L6 V. pose proof (fid_params_arg (p_root (e_par e)) p L6 V) as A.
  assert (C : contract e (ORegFid (fid_state_of p) (diag_of (fp_var p)))) by (intros _; exact A).
  destruct (step_inv e _ (reachable_inv e Hr) C) as [e' [E _]]. cbn [step] in E.
  unfold fid_new, new_tracker_id. rewrite (proj2 (Nat.leb_le _ _) L6). cbn [guard bind]. rewrite E. cbn [bind]. eauto.
Qed.
