(** Sensors and whole programs do the same wherever the origins are. *)
From Coq Require Import Reals List Arith Bool ZArith Lia Lra.
From Verif Require Import Base.Res Base.Mat Base.RDec Base.Geom Base.AMap Base.RMat Base.LinAlg
  Model.TypeHelper Model.Types Model.MathHelper Model.Ekf Model.Updater Model.Ops Model.ImuUpdater
  Model.GpsHelper Model.GpsUpdater Model.FiducialUpdater Model.MsckfUpdater Model.Matrix3 Model.Sensors
  Spec.Origin Proofs.Origin.
Import ListNotations.
Open Scope R_scope.

(** *** The window keeps its frames *)
Definition keeps (e e' : ekf) : Prop :=
  (forall cam f, shown e cam f -> shown e' cam f) /\ (e_time_init e = true -> e_time_init e' = true).
Lemma keeps_refl : forall e, keeps e e.
Proof. intros e. split; auto. Qed.
Lemma keeps_trans : forall a b e, keeps a b -> keeps b e -> keeps a e.
Proof. intros a b e [H H'] [K K']. split; auto. Qed.
Lemma keeps_same : forall e e', e_par e' = e_par e -> e_primary e' = e_primary e ->
  s_aug (e_state e') = s_aug (e_state e) -> (e_time_init e = true -> e_time_init e' = true) -> keeps e e'.
Proof.
  intros e e' Hp Hq Ha Ht. split; [|exact Ht]. intros cam f H. unfold shown, by_frame in *. rewrite Hp, Hq, Ha. exact H.
Qed.
Lemma keeps_touch : forall e k, keeps e (touch_aug e k).
Proof.
  intros e k. split; [|intros H; exact H]. intros cam f H Hb. destruct (H Hb) as (l & a & Hl & Ha & Hf).
  exists l, a. split; [|auto]. unfold touch_aug, with_state, state_with_aug. cbn [e_state s_aug].
  unfold mtouch. destruct (mfind k (s_aug (e_state e))) eqn:E; [exact Hl|].
  rewrite mfind_mset_neq; [exact Hl|]. intros ->. rewrite Hl in E. discriminate.
Qed.
Lemma keeps_get : forall e cam f t a e', GetAugState e cam f t = OK (a, e') -> keeps e e'.
Proof.
  intros e cam f t a e' H. unfold GetAugState in H.
  destruct ((match p_aug (e_par e) with AAll => true | _ => false end) ||
     ((match p_aug (e_par e) with APrimary => true | _ => false end) && Nat.eqb cam (e_primary e))).
  - cbv zeta in H. injection H as _ <-. apply keeps_touch.
  - cbv zeta in H. apply bind_OK in H. destruct H as (first & _ & H). apply bind_OK in H. destruct H as (last & _ & H).
    destruct (Rltb t (a_time first)).
    { apply bind_OK in H. destruct H as (al & _ & H). injection H as _ <-. apply keeps_touch. }
    destruct (Rltb t (a_time last)).
    { destruct (find_interval _ t _) as [[r s0] s1]. apply bind_OK in H. destruct H as (al & _ & H).
      injection H as _ <-. apply keeps_touch. }
    apply bind_OK in H. destruct H as (al & _ & H). injection H as _ <-. apply keeps_touch.
Qed.
Lemma keeps_local : forall e t, keeps e (snd (CalculateLocalTime e t)).
Proof.
  intros e t. unfold CalculateLocalTime. destruct (e_time_init e) eqn:E; apply keeps_same; try reflexivity.
  cbn [snd]. rewrite E. discriminate || auto.
Qed.
Definition ctl (e e' : ekf) : Prop := e_par e' = e_par e /\ e_time_init e' = e_time_init e.
Lemma ctl_trans : forall a b e, ctl a b -> ctl b e -> ctl a e.
Proof. intros a b e [H H'] [K K']. split; congruence. Qed.
Lemma refresh_par : forall e e', RefreshIndices e = OK e' -> ctl e e'.
Proof.
  intros e e' H. unfold RefreshIndices in H. cbv zeta in H.
  binv H. binv Hc. destruct a0 as [[im c1] Q1]. binv Hc0. destruct a0 as [[gm c2] Q2].
  binv Hc. destruct a0 as [[cm c3] Q3]. binv Hc0. destruct a0 as [[fm c4] Q4].
  destruct (refresh_augs (s_aug (e_state e)) c4) as [am c5]. binv Hc. injection Hc0 as <-. split; reflexivity.
Qed.
Lemma prune_par : forall k e e', prune k e = OK e' -> ctl e e'.
Proof.
  induction k as [|k IH]; intros e e' H; cbn [prune] in H; [injection H as <-; split; reflexivity|].
  binv H. destruct (Rltb _ _ && Nat.ltb _ _); [|apply IH; exact Hc].
  binv Hc. binv Hc0. binv Hc. cbv zeta in Hc0. binv Hc0. binv Hc.
  eapply ctl_trans; [|apply (IH _ _ Hc0)]. apply refresh_par in Hb4. exact Hb4.
Qed.
Lemma augment_par : forall e e', AugmentStateIfNeeded e = OK e' -> ctl e e'.
Proof.
  intros e e' H. unfold AugmentStateIfNeeded in H.
  destruct (p_aug (e_par e)); try (injection H as <-; split; reflexivity); cbv zeta in H;
    binv H; binv Hc; apply prune_par in Hb0; change (ctl e a0) in Hb0; (eapply ctl_trans; [exact Hb0|]);
    (destruct (a && e_frame_recv a0); [|injection Hc0 as <-; split; reflexivity]);
    binv Hc0; binv Hc; binv Hc0; injection Hc as <-; apply refresh_par in Hb1; exact Hb1.
Qed.
Lemma frame_par : forall e cam f e', AugmentStateFrame e cam f = OK e' -> ctl e e'.
Proof.
  intros e cam f e' H. unfold AugmentStateFrame in H. cbv zeta in H.
  destruct (_ || _) in H; [|injection H as <-; split; reflexivity].
  binv H. binv Hc. binv Hc0. binv Hc. injection Hc0 as <-. apply refresh_par in Hb0.
  eapply ctl_trans; [|exact Hb0]. destruct (Nat.leb _ _) in Hb; [injection Hb as <-; split; reflexivity|].
  binv Hb. binv Hc. injection Hc0 as <-. split; reflexivity.
Qed.
Lemma predict_par : forall e t e', PredictModel e t = OK e' -> ctl e e'.
Proof.
  intros e t e' H. unfold PredictModel in H. destruct (Rltb t (e_time e)); [injection H as <-; split; reflexivity|].
  binv H. cbv zeta in Hc. apply augment_par in Hc. eapply ctl_trans; [|exact Hc].
  destruct (e_gravity e); [cbv zeta in Hb; binv Hb; injection Hc0 as <-; split; reflexivity|injection Hb as <-; split; reflexivity].
Qed.
Lemma keeps_predict : forall e t e', PredictModel e t = OK e' -> keeps e e'.
Proof.
  intros e t e' H. destruct (predict_par _ _ _ H) as [Hp Ht]. split; [|intros Hi; rewrite Ht; exact Hi].
  intros cam f Hs Hb.
  assert (Hk : p_aug (e_par e) = AAll \/ p_aug (e_par e) = APrimary).
  { unfold by_frame in Hb. rewrite Hp in Hb. destruct (p_aug (e_par e)); try discriminate; auto. }
  unfold PredictModel in H. destruct (Rltb t (e_time e)).
  { injection H as <-. apply Hs. exact Hb. }
  binv H. assert (Ha : e_par a = e_par e /\ e_primary a = e_primary e /\ s_aug (e_state a) = s_aug (e_state e)).
  { destruct (e_gravity e).
    - cbv zeta in Hb0. binv Hb0. injection Hc0 as <-. auto.
    - injection Hb0 as <-. auto. }
  destruct Ha as (Ha1 & Ha2 & Ha3).
  assert (e' = with_time a t) as ->.
  { cbv zeta in Hc. unfold AugmentStateIfNeeded in Hc.
    change (e_par (with_time a t)) with (e_par a) in Hc. rewrite Ha1 in Hc.
    destruct Hk as [Hk|Hk]; rewrite Hk in Hc; injection Hc as <-; reflexivity. }
  revert Hb. unfold shown, by_frame in *.
  change (e_par (with_time a t)) with (e_par a). change (e_primary (with_time a t)) with (e_primary a).
  change (e_state (with_time a t)) with (e_state a). rewrite Ha1, Ha2, Ha3. exact Hs.
Qed.
Lemma augv_frames : forall l r idx l' i', augv_plus_vec l r idx = OK (l', i') -> map a_frame l' = map a_frame l.
Proof.
  induction l as [|s l IH]; intros r idx l' i' H; cbn [augv_plus_vec] in H.
  - injection H as <- _. reflexivity.
  - binv H. binv Hc. cbv zeta in Hc0. binv Hc0. destruct a1 as [t' i2]. injection Hc as <- _.
    cbn [map]. f_equal. eapply IH. exact Hb1.
Qed.
Lemma augs_frames : forall m r idx m' i', augs_plus_vec m r idx = OK (m', i') ->
  over (map a_frame) m' = over (map a_frame) m.
Proof.
  induction m as [|[k l] m IH]; intros r idx m' i' H; cbn [augs_plus_vec] in H.
  - injection H as <- _. reflexivity.
  - binv H. destruct a as [l' i1]. binv Hc. destruct a as [t' i2]. injection Hc0 as <- _.
    cbn [over map fst snd]. f_equal; [|apply (IH _ _ _ _ Hb0)]. f_equal. eapply augv_frames. exact Hb.
Qed.
Lemma keeps_kalman : forall e j r n e', KalmanUpdate e j r n = OK e' -> keeps e e'.
Proof.
  intros e j r n e' H. unfold KalmanUpdate in H. binv H. destruct a as [g K]. binv Hc. binv Hc0. injection Hc as <-.
  assert (Ho : over (map a_frame) (s_aug a0) = over (map a_frame) (s_aug (e_state e))).
  { unfold state_plus_vec in Hb1. repeat (let H := fresh in apply bind_OK in Hb1; destruct Hb1 as [? [H Hb1]];
      try match type of Hb1 with (let '(_, _) := ?x in _) = _ => destruct x end).
    injection Hb1 as <-. cbn [s_aug]. eapply augs_frames. eassumption. }
  split; [|intros Hi; exact Hi]. intros cam f Hs Hb'. destruct (Hs Hb') as (l & x & Hl & Hx & Hf).
  assert (Hm : option_map (map a_frame) (mfind cam (s_aug a0)) = Some (map a_frame l)).
  { rewrite <- over_find, Ho, over_find, Hl. reflexivity. }
  change (s_aug (e_state (with_cov (with_state e a0) K))) with (s_aug a0).
  destruct (mfind cam (s_aug a0)) as [l'|]; [|discriminate]. injection Hm as Hm.
  assert (Hin : In f (map a_frame l')) by (rewrite Hm, <- Hf; apply in_map; exact Hx).
  apply in_map_iff in Hin. destruct Hin as (y & Hy & Hiny). exists l', y. auto.
Qed.

Section Origin.
Variable v : V3.
Variables c d : R.
Notation F := (filter' v c d).
Notation C' := (clone' v c).

Lemma found_keeps : forall e e' cam f, keeps e e' -> found v c e cam f -> found v c e' cam f.
Proof. intros e e' cam f [K _] [H|H]; [left; exact H|right; apply K, H]. Qed.

Definition with' {A} (x : A * ekf) : A * ekf := (fst x, F (snd x)).
Lemma bothp : forall A B D (m : res (A * ekf)) m' (k : A * ekf -> res B) k' (h : B -> D),
  m' = rmap with' m -> (forall a e, m = OK (a, e) -> k' (a, F e) = rmap h (k (a, e))) ->
  bind m' k' = rmap h (bind m k).
Proof. intros A B D m m' k k' h -> H. destruct m as [[a e]|]; cbn [bind rmap]; [apply (H a e); reflexivity|reflexivity]. Qed.
Lemma both' : forall A B (m m' : res ekf) (k : ekf -> res A) (k' : ekf -> res B) (h : A -> B),
  m' = rmap F m -> (forall e, m = OK e -> k' (F e) = rmap h (k e)) -> bind m' k' = rmap h (bind m k).
Proof. intros A B m m' k k' h -> H. destruct m; cbn [bind rmap]; [apply H; reflexivity|reflexivity]. Qed.
Lemma same' : forall A B D (m : res A) (k : A -> res B) (k' : A -> res D) (h : B -> D),
  (forall x, m = OK x -> k' x = rmap h (k x)) -> bind m k' = rmap h (bind m k).
Proof. intros A B D m k k' h H. destruct m; cbn [bind rmap]; [apply H; reflexivity|reflexivity]. Qed.

(** *** IMU *)
Lemma get_imu' : forall e id, GetImuState (F e) id = with' (GetImuState e id).
Proof. reflexivity. Qed.
Lemma zero_jac' : forall u e, GetZeroAccelerationJacobian u (F e) = rmap with' (GetZeroAccelerationJacobian u e).
Proof.
  intros u e. unfold GetZeroAccelerationJacobian. rewrite get_imu'.
  destruct (GetImuState e (iu_id u)) as [s e1]. cbn [with' fst snd]. cbv zeta.
  change (e_size (F e1)) with (e_size e1).
  change (b_ang (s_body (e_state (F e1)))) with (b_ang (s_body (e_state e1))).
  apply same'. intros j _. apply same'. intros j1 _. apply same'. intros j2 _. reflexivity.
Qed.
Lemma zero_update' : forall u e t acc A omg W,
  ZeroAccelerationUpdate u (F e) (t + c) acc A omg W = rmap with' (ZeroAccelerationUpdate u e t acc A omg W).
Proof.
  intros u e t acc A omg W. unfold ZeroAccelerationUpdate. destruct (iu_moved u); [reflexivity|].
  rewrite get_imu'. destruct (GetImuState e (iu_id u)) as [s e1]. cbn [with' fst snd].
  apply bothp; [apply zero_jac'|]. intros jac e2 _. apply same'. intros n _. cbv zeta.
  apply same'. intros score _.
  change (e_par (F e2)) with (e_par e2). change (e_gravity (F e2)) with (e_gravity e2).
  destruct (Rltb (p_chi2 (e_par e2)) score && e_gravity e2); [reflexivity|].
  apply both'.
  - destruct (Rltb score (p_chi2 (e_par e2))).
    + change (InitializeGravity (F e2)) with (F (InitializeGravity e2)). apply predict'.
    + apply predict'.
  - intros e3 _. apply bothp; [apply zero_jac'|]. intros jac2 e4 _. 
    apply both'; [apply kalman'|]. intros e5 _. reflexivity.
Qed.
Lemma imu_jac' : forall u e, imu_GetMeasurementJacobian u (F e) = rmap with' (imu_GetMeasurementJacobian u e).
Proof.
  intros u e. unfold imu_GetMeasurementJacobian. rewrite get_imu'.
  destruct (GetImuState e (iu_id u)) as [s e1]. cbn [with' fst snd]. cbv zeta.
  change (s_body (e_state (F e1))) with (body' v (s_body (e_state e1))).
  unfold body'. cbn [b_vel b_acc b_ang b_ang_vel b_ang_acc]. change (e_size (F e1)) with (e_size e1).
  do 4 (apply same'; intros ? _). apply same'. intros j1 _. apply same'. intros j2 _. reflexivity.
Qed.
Lemma imu' : forall u e t acc A omg W, clocked c e ->
  imu_UpdateEKF u (F e) (t + (c + d)) acc A omg W = rmap with' (imu_UpdateEKF u e t acc A omg W).
Proof.
  intros u e t acc A omg W Hk. unfold imu_UpdateEKF. rewrite local' by exact Hk.
  destruct (CalculateLocalTime e t) as [lt e0]. cbn [fst snd].
  apply bothp; [apply zero_update'|]. intros [app u1] e1 _.
  destruct app; [reflexivity|]. cbv zeta.
  change (SetZeroAcceleration (F e1) false) with (F (SetZeroAcceleration e1 false)).
  rewrite get_imu'. destruct (GetImuState (SetZeroAcceleration e1 false) (iu_id u1)) as [s e2]. cbn [with' fst snd].
  apply both'.
  - change (s_imu (e_state (F e2))) with (s_imu (e_state e2)).
    destruct (Nat.eqb (length (s_imu (e_state e2))) 1); [reflexivity|].
    assert (imu_PredictMeasurement u1 (F e2) = with' (imu_PredictMeasurement u1 e2)) as -> by reflexivity.
    destruct (imu_PredictMeasurement u1 e2) as [pred e3]. cbn [with' fst snd].
    apply same'. intros r _. apply bothp; [apply imu_jac'|]. intros jac e4 _.
    apply same'. intros n _. apply kalman'.
  - intros e3 _. apply both'; [apply predict'|]. intros e4 _. reflexivity.
Qed.

(** *** Boards *)
Notation U' := (fid_updater' v).
Definition upd' {A} (x : A * fid_updater * ekf) : A * fid_updater * ekf :=
  (fst (fst x), U' (snd (fst x)), F (snd x)).
Lemma get_cam' : forall e id, GetCamState (F e) id = with' (GetCamState e id).
Proof. reflexivity. Qed.
Lemma fid_at' : forall e id, fid_at (F e) id = rmap (board' v) (fid_at e id).
Proof.
  intros e id. unfold fid_at. change (s_fid (e_state (F e))) with (over (board' v) (s_fid (e_state e))).
  rewrite over_find. destruct (mfind id (s_fid (e_state e))); reflexivity.
Qed.
Definition pose' (x : V3 * quat * V3 * quat) : V3 * quat * V3 * quat :=
  let '(p, q, pf, qf) := x in (p, q, vadd pf v, qf).
Definition ref' (x : V3 * quat * V3 * quat * fid_updater * ekf) : V3 * quat * V3 * quat * fid_updater * ekf :=
  let '(p, u, e) := x in (pose' p, U' u, F e).
Lemma fid_refresh' : forall u e, fid_RefreshStates (U' u) (F e) = rmap ref' (fid_RefreshStates u e).
Proof.
  intros u e. unfold fid_RefreshStates. change (p_fej (e_par (F e))) with (p_fej (e_par e)).
  change (fu_first (U' u)) with (fu_first u). destruct (negb (p_fej (e_par e)) || fu_first u).
  - change (fu_cam (U' u)) with (fu_cam u). change (fu_id (U' u)) with (fu_id u). rewrite get_cam'.
    destruct (GetCamState e (fu_cam u)) as [cs e1]. cbn [with' fst snd]. rewrite fid_at', bind_rmap.
    apply same'. intros f _. reflexivity.
  - change (fu_poses (U' u)) with (option_map pose' (fu_poses u)). destruct (fu_poses u); reflexivity.
Qed.
Lemma fid_jac' : forall u e, fid_GetMeasurementJacobian (U' u) (F e) = rmap upd' (fid_GetMeasurementJacobian u e).
Proof.
  intros u e. unfold fid_GetMeasurementJacobian. rewrite fid_refresh'.
  destruct (fid_RefreshStates u e) as [[[[[[pc qc] pf] qf] u1] e1]|]; [|reflexivity].
  cbn [rmap bind ref' pose']. cbv zeta.
  change (b_pos (s_body (e_state (F e1)))) with (vadd (b_pos (s_body (e_state e1))) v).
  change (b_ang (s_body (e_state (F e1)))) with (b_ang (s_body (e_state e1))). rewrite far.
  change (e_size (F e1)) with (e_size e1). change (fu_cam_ext (U' u1)) with (fu_cam_ext u1).
  do 3 (apply same'; intros ? _).
  apply bothp.
  - destruct (fu_cam_ext u1); [|reflexivity]. change (fu_cam (U' u1)) with (fu_cam u1). rewrite get_cam'.
    destruct (GetCamState e1 (fu_cam u1)) as [cs e2]. cbn [with' fst snd]. cbv zeta.
    do 3 (apply same'; intros ? _). reflexivity.
  - intros j e2 _. change (fu_ext (U' u1)) with (fu_ext u1). change (fu_id (U' u1)) with (fu_id u1).
    assert ((if fu_ext u1 then
         let* f := fid_at (F e2) (fu_id u1) in
         let* j := set_block j 0 (f_index f + 0) 3 3 m3id in
         set_block j 3 (f_index f + 3) 3 3 m3id else OK j) =
       (if fu_ext u1 then
         let* f := fid_at e2 (fu_id u1) in
         let* j := set_block j 0 (f_index f + 0) 3 3 m3id in
         set_block j 3 (f_index f + 3) 3 3 m3id else OK j)) as ->.
    { destruct (fu_ext u1); [|reflexivity]. rewrite fid_at', bind_rmap. reflexivity. }
    apply same'. intros j1 _. reflexivity.
Qed.
Lemma fid' : forall mq u e t b, clocked c e ->
  fid_UpdateEKF mq (U' u) (F e) (t + (c + d)) b
  = rmap (fun x => (U' (fst x), F (snd x))) (fid_UpdateEKF mq u e t b).
Proof.
  intros mq u e t b Hk. unfold fid_UpdateEKF. rewrite local' by exact Hk.
  destruct (CalculateLocalTime e t) as [lt e0]. cbn [fst snd].
  apply both'; [apply predict'|]. intros e1 _.
  assert (fid_PredictMeasurement mq (U' u) (F e1) = rmap upd' (fid_PredictMeasurement mq u e1)) as ->.
  { unfold fid_PredictMeasurement. rewrite fid_refresh'.
    destruct (fid_RefreshStates u e1) as [[[[[[pc qc] pf] qf] u1] e2]|]; [|reflexivity].
    cbn [rmap bind ref' pose']. cbv zeta.
    change (b_pos (s_body (e_state (F e2)))) with (vadd (b_pos (s_body (e_state e2))) v).
    change (b_ang (s_body (e_state (F e2)))) with (b_ang (s_body (e_state e2))). rewrite far. reflexivity. }
  rewrite bind_rmap. apply same'. intros [[[pp ap] u2] e2] _. unfold upd' at 1. cbn [fst snd]. cbv zeta.
  rewrite fid_jac', bind_rmap. apply same'. intros [[jac u3] e3] _. unfold upd'. cbn [fst snd].
  apply same'. intros n _. apply both'; [apply kalman'|]. intros e4 _. reflexivity.
Qed.

(** *** GPS: the origin of time *)
Lemma vadd_0 : forall p, vadd p v0 = p.
Proof. intros [x y z]. apply vext; unfold vadd, v0; cbn [vx vy vz]; ring. Qed.
Lemma get_gps' : forall e id, GetGpsState (F e) id = with' (GetGpsState e id).
Proof. reflexivity. Qed.
Lemma gps_refresh' : forall u e, gps_refresh u (F e) = with' (gps_refresh u e).
Proof.
  intros u e. unfold gps_refresh. change (p_fej (e_par (F e))) with (p_fej (e_par e)).
  destruct (negb (p_fej (e_par e)) || gu_first u); reflexivity.
Qed.
Lemma gps_jac' : forall u e, gps_GetMeasurementJacobian u (F e) = rmap with' (gps_GetMeasurementJacobian u e).
Proof.
  intros u e. unfold gps_GetMeasurementJacobian. rewrite gps_refresh'.
  destruct (gps_refresh u e) as [u1 e1]. cbn [with' fst snd]. cbv zeta.
  change (b_ang (s_body (e_state (F e1)))) with (b_ang (s_body (e_state e1))).
  change (e_size (F e1)) with (e_size e1).
  do 2 (apply same'; intros ? _). destruct (gu_ext u1); [|reflexivity].
  rewrite get_gps'. destruct (GetGpsState e1 (gu_id u1)) as [s e2]. cbn [with' fst snd].
  apply same'. intros j _. reflexivity.
Qed.
Lemma multi_rows' : forall ecef xyz u e ref h i jac r,
  multi_rows u (F e) ref h ecef xyz i jac r = rmap with' (multi_rows u e ref h ecef xyz i jac r).
Proof.
  induction ecef as [|p ecef IH]; intros [|x xyz] u e ref h i jac r; try reflexivity.
  cbn [multi_rows]. apply same'. intros enu _. cbv zeta. apply bothp; [apply gps_jac'|].
  intros [j u1] e1 _. change (e_size (F e1)) with (e_size e1). do 2 (apply same'; intros ? _). apply IH.
Qed.
Lemma gps' : forall svd hull tolla u e t lla N, v = v0 -> clocked c e ->
  gps_UpdateEKF svd hull tolla u (F e) (t + (c + d)) lla N = rmap with' (gps_UpdateEKF svd hull tolla u e t lla N).
Proof.
  intros svd hull tolla u e t lla N Hv Hk. unfold gps_UpdateEKF. rewrite local' by exact Hk.
  destruct (CalculateLocalTime e t) as [lt e0]. cbn [fst snd].
  apply both'; [apply predict'|]. intros e1 _. cbv zeta.
  change (e_ang_l_to_e (F e1)) with (e_ang_l_to_e e1). change (e_lla_init (F e1)) with (e_lla_init e1).
  change (e_pos_e_in_g (F e1)) with (e_pos_e_in_g e1).
  destruct (negb (e_lla_init e1)).
  - apply both'.
    + unfold AttemptGps. apply same'. intros ecef _.
      assert (Hx : e_gps_xyz (F e1) ++ [b_pos (s_body (e_state (F e1)))] = e_gps_xyz e1 ++ [b_pos (s_body (e_state e1))]).
      { change (e_gps_xyz (F e1)) with (map (fun p => vadd p v) (e_gps_xyz e1)).
        change (b_pos (s_body (e_state (F e1)))) with (vadd (b_pos (s_body (e_state e1))) v).
        rewrite Hv, v0_map, vadd_0. reflexivity. }
      rewrite Hx. change (e_gps_ecef (F e1)) with (e_gps_ecef e1). change (e_par (F e1)) with (e_par e1).
      change (e_gps_time (F e1)) with (map (fun t => t + c) (e_gps_time e1)).
      change [lt + c] with (map (fun t => t + c) [lt]). rewrite <- map_app, map_length.
      apply same'. intros r _.
      cbn [rmap]. f_equal. apply gps_sample'. exact Hv.
    + intros e2 _. change (e_lla_init (F e2)) with (e_lla_init e2). destruct (e_lla_init e2); [|reflexivity].
      unfold MultiUpdateEKF. cbv zeta. change (e_gps_time (F e2)) with (map (fun t => t + c) (e_gps_time e2)).
      rewrite map_length. change (e_pos_e_in_g (F e2)) with (e_pos_e_in_g e2).
      change (e_ang_l_to_e (F e2)) with (e_ang_l_to_e e2). change (e_gps_ecef (F e2)) with (e_gps_ecef e2).
      change (e_gps_xyz (F e2)) with (map (fun p => vadd p v) (e_gps_xyz e2)). rewrite Hv, v0_map.
      change (e_size (filter' v0 c d e2)) with (e_size e2). rewrite <- Hv.
      apply bothp; [apply multi_rows'|]. intros [[jac r] u1] e3 _. apply same'. intros [jac1 r1] _.
      destruct (Nat.leb (nr r1) 1); [reflexivity|]. apply both'; [apply kalman'|]. intros e4 _. reflexivity.
  - apply same'. intros enu _.
    assert (gps_PredictMeasurement u (F e1) = with' (gps_PredictMeasurement u e1)) as ->.
    { unfold gps_PredictMeasurement. rewrite gps_refresh'. destruct (gps_refresh u e1) as [u1 e2]. cbn [with' fst snd].
      cbv zeta. change (b_pos (s_body (e_state (F e2)))) with (vadd (b_pos (s_body (e_state e2))) v).
      change (b_ang (s_body (e_state (F e2)))) with (b_ang (s_body (e_state e2))). 
      assert (vadd (b_pos (s_body (e_state e2))) v = b_pos (s_body (e_state e2))) as -> by (rewrite Hv; apply vadd_0).
      reflexivity. }
    destruct (gps_PredictMeasurement u e1) as [[hat u1] e2]. cbn [with' fst snd].
    apply bothp; [apply gps_jac'|]. intros [jac u2] e3 _. apply both'; [apply kalman'|]. intros e4 _. reflexivity.
Qed.

(** *** Feature tracks *)
Lemma tri_rows' : forall u k pc qc a0 l e A b,
  (forall p, In p l -> found v c e (mu_id u) (fp_frame p)) ->
  tri_rows u k pc qc (C' a0) (F e) (map (point' c) l) A b = rmap with' (tri_rows u k pc qc a0 e l A b).
Proof.
  intros u k pc qc a0. induction l as [|f l IH]; intros e A b Hs; [reflexivity|].
  cbn [map tri_rows]. change (fp_frame (point' c f)) with (fp_frame f). change (fp_time (point' c f)) with (fp_time f + c).
  rewrite get_aug' by (apply Hs; left; reflexivity). rewrite bind_rmap.
  apply same'. intros [ai e1] Hai. unfold looked'. cbn [fst snd]. cbv zeta.
  change (a_ang (C' ai)) with (a_ang ai). change (a_ang (C' a0)) with (a_ang a0).
  change (a_pos (C' ai)) with (vadd (a_pos ai) v). change (a_pos (C' a0)) with (vadd (a_pos a0) v).
  change (fp_kp (point' c f)) with (fp_kp f).
  replace (vsub (vadd (mat_vec (qmat (a_ang ai)) pc) (vadd (a_pos ai) v))
                (vadd (mat_vec (qmat (a_ang a0)) pc) (vadd (a_pos a0) v)))
    with (vsub (vadd (mat_vec (qmat (a_ang ai)) pc) (a_pos ai)) (vadd (mat_vec (qmat (a_ang a0)) pc) (a_pos a0)))
    by vring.
  apply same'. intros [x y] _. apply same'. intros s _. apply IH.
  intros p Hp. apply (found_keeps _ _ _ _ (keeps_get _ _ _ _ _ _ Hai)). apply Hs. right. exact Hp.
Qed.
Lemma keeps_tri_rows : forall u k pc qc a0 l e A b x e',
  tri_rows u k pc qc a0 e l A b = OK (x, e') -> keeps e e'.
Proof.
  intros u k pc qc a0. induction l as [|f l IH]; intros e A b x e' H; cbn [tri_rows] in H.
  - injection H as _ <-. apply keeps_refl.
  - binv H. destruct a as [ai e1]. cbv zeta in Hc. binv Hc. destruct a as [xx yy]. binv Hc0.
    eapply keeps_trans; [eapply keeps_get; exact Hb|]. eapply IH. exact Hc.
Qed.

Section Solve.
Variable solve : mat R -> V3 -> V3.
Definition shows (e : ekf) (u : msckf_updater) (t : FeatureTrack) : Prop :=
  forall p, In p (ft_track t) -> found v c e (mu_id u) (fp_frame p).
Lemma shows_keeps : forall e e' u t, keeps e e' -> shows e u t -> shows e' u t.
Proof. intros e e' u t K H p Hp. eapply found_keeps; [exact K|]. apply H, Hp. Qed.

Lemma triangulate' : forall u k pc qc e t, shows e u t ->
  TriangulateFeature solve u k pc qc (F e) (track' v c t)
  = rmap (fun x => (option_map (fun p => vadd p v) (fst x), F (snd x))) (TriangulateFeature solve u k pc qc e t).
Proof.
  intros u k pc qc e t Hs. unfold TriangulateFeature.
  change (ft_track (track' v c t)) with (map (point' c) (ft_track t)). rewrite vnth', bind_rmap.
  apply same'. intros f0 Hf0. change (fp_frame (point' c f0)) with (fp_frame f0).
  change (fp_time (point' c f0)) with (fp_time f0 + c).
  assert (Hin : In f0 (ft_track t)).
  { unfold vnth in Hf0. destruct (nth_error (ft_track t) 0) eqn:E; [|discriminate]. injection Hf0 as <-.
    eapply nth_error_In. exact E. }
  rewrite get_aug' by (apply Hs; exact Hin). rewrite bind_rmap. apply same'. intros [a0 e1] Ha0.
  unfold looked'. cbn [fst snd].
  apply bothp.
  { apply tri_rows'. intros p Hp. apply (found_keeps _ _ _ _ (keeps_get _ _ _ _ _ _ Ha0)). apply Hs. exact Hp. }
  intros [A b] e2 _. cbv zeta.
  change (ft_true (track' v c t)) with (option_map (fun p => vadd p v) (ft_true t)).
  destruct (mu_use_true u).
  - destruct (ft_true t); reflexivity.
  - destruct (Rltb (vz (solve A b)) (mu_min_dist u) || Rltb (mu_max_dist u) (vz (solve A b))); [reflexivity|].
    cbn [rmap fst snd option_map]. do 3 f_equal. change (a_ang (C' a0)) with (a_ang a0).
    change (a_pos (C' a0)) with (vadd (a_pos a0) v). vring.
Qed.
Lemma keeps_triangulate : forall u k pc qc e t p e',
  TriangulateFeature solve u k pc qc e t = OK (p, e') -> keeps e e'.
Proof.
  intros u k pc qc e t p e' H. unfold TriangulateFeature in H. binv H. binv Hc. destruct a0 as [a0 e1].
  binv Hc0. destruct a1 as [[A b] e2]. cbv zeta in Hc.
  assert (e' = e2) as ->.
  { destruct (mu_use_true u); [destruct (ft_true t); [|discriminate]; injection Hc as _ <-; reflexivity|].
    destruct (Rltb _ _ || Rltb _ _); injection Hc as _ <-; reflexivity. }
  eapply keeps_trans; [eapply keeps_get; exact Hb0|eapply keeps_tri_rows; exact Hb1].
Qed.

Lemma feature_row' : forall u k pc qc n ci pf e i f rf Hf Hx, found v c e (mu_id u) (fp_frame f) ->
  feature_row u k pc qc n ci (vadd pf v) (F e) i (point' c f) rf Hf Hx
  = rmap with' (feature_row u k pc qc n ci pf e i f rf Hf Hx).
Proof.
  intros u k pc qc n ci pf e i f rf Hf Hx Hs. unfold feature_row.
  change (fp_frame (point' c f)) with (fp_frame f). change (fp_time (point' c f)) with (fp_time f + c).
  change (fp_kp (point' c f)) with (fp_kp f).
  rewrite get_aug' by exact Hs. rewrite bind_rmap. apply same'. intros [ai e1] _. unfold looked'. cbn [fst snd].
  cbv zeta. change (a_ang (C' ai)) with (a_ang ai). change (a_pos (C' ai)) with (vadd (a_pos ai) v).
  change (a_alpha (C' ai)) with (a_alpha ai). change (a_index (C' ai)) with (a_index ai). rewrite far.
  apply same'. intros [px py] _. apply same'. intros [mx my] _.
  do 3 (apply same'; intros ? _). apply same'. intros H1 _. apply same'. intros H2 _. reflexivity.
Qed.
Lemma keeps_row : forall u k pc qc n ci pf e i f rf Hf Hx x e',
  feature_row u k pc qc n ci pf e i f rf Hf Hx = OK (x, e') -> keeps e e'.
Proof.
  intros u k pc qc n ci pf e i f rf Hf Hx x e' H. unfold feature_row in H.
  apply bind_OK in H. destruct H as ([ai e1] & Ha & H). cbv zeta in H.
  apply bind_OK in H. destruct H as ([px py] & _ & H). apply bind_OK in H. destruct H as ([mx my] & _ & H).
  do 5 (apply bind_OK in H; destruct H as (? & _ & H)). injection H as _ <-. eapply keeps_get. exact Ha.
Qed.
Lemma feature_rows' : forall u k pc qc n ci pf l e i rf Hf Hx,
  (forall p, In p l -> found v c e (mu_id u) (fp_frame p)) ->
  feature_rows u k pc qc n ci (vadd pf v) (F e) i (map (point' c) l) rf Hf Hx
  = rmap with' (feature_rows u k pc qc n ci pf e i l rf Hf Hx).
Proof.
  intros u k pc qc n ci pf. induction l as [|f l IH]; intros e i rf Hf Hx Hs; [reflexivity|].
  cbn [map feature_rows]. apply bothp; [apply feature_row'; apply Hs; left; reflexivity|].
  intros [[rf1 Hf1] Hx1] e1 He. apply IH. intros p Hp. apply (found_keeps _ _ _ _ (keeps_row _ _ _ _ _ _ _ _ _ _ _ _ _ _ _ He)).
  apply Hs. right. exact Hp.
Qed.
Lemma keeps_rows : forall u k pc qc n ci pf l e i rf Hf Hx x e',
  feature_rows u k pc qc n ci pf e i l rf Hf Hx = OK (x, e') -> keeps e e'.
Proof.
  intros u k pc qc n ci pf. induction l as [|f l IH]; intros e i rf Hf Hx x e' H; cbn [feature_rows] in H.
  - injection H as _ <-. apply keeps_refl.
  - apply bind_OK in H. destruct H as ([[[rf1 Hf1] Hx1] e1] & He & H).
    eapply keeps_trans; [eapply keeps_row; exact He|eapply IH; exact H].
Qed.

Lemma track_rows' : forall u k pc qc n ci l e ct Hx rx, (forall t, In t l -> shows e u t) ->
  track_rows solve u k pc qc n ci (F e) (map (track' v c) l) ct Hx rx
  = rmap with' (track_rows solve u k pc qc n ci e l ct Hx rx).
Proof.
  intros u k pc qc n ci. induction l as [|t l IH]; intros e ct Hx rx Hs; [reflexivity|].
  cbn [map track_rows]. rewrite triangulate' by (apply Hs; left; reflexivity). rewrite bind_rmap.
  apply same'. intros [[p|] e1] He; cbn [fst snd option_map].
  - assert (Ht : ft_track (track' v c t) = map (point' c) (ft_track t)) by reflexivity. rewrite Ht, map_length. clear Ht.
    cbv zeta.
    assert (K1 : keeps e e1) by (eapply keeps_triangulate; exact He).
    apply bothp.
    + apply feature_rows'. intros q Hq. apply (found_keeps _ _ _ _ K1). apply (Hs t (or_introl eq_refl) q Hq).
    + intros [[rf Hf] Hc] e2 He2. apply same'. intros [Hc1 rf1] _. do 2 (apply same'; intros ? _). apply IH.
      intros t1 Ht1. eapply shows_keeps; [|apply Hs; right; exact Ht1].
      eapply keeps_trans; [exact K1|eapply keeps_rows; exact He2].
  - apply IH. intros t1 Ht1. eapply shows_keeps; [|apply Hs; right; exact Ht1]. eapply keeps_triangulate; exact He.
Qed.
Lemma keeps_track_rows : forall u k pc qc n ci l e ct Hx rx x e',
  track_rows solve u k pc qc n ci e l ct Hx rx = OK (x, e') -> keeps e e'.
Proof.
  intros u k pc qc n ci. induction l as [|t l IH]; intros e ct Hx rx x e' H; cbn [track_rows] in H.
  - injection H as _ <-. apply keeps_refl.
  - apply bind_OK in H. destruct H as ([[p|] e1] & He & H).
    + cbv zeta in H. apply bind_OK in H. destruct H as ([[[rf Hf] Hc] e2] & He2 & H).
      apply bind_OK in H. destruct H as ([Hc1 rf1] & _ & H). do 2 (apply bind_OK in H; destruct H as (? & _ & H)).
      eapply keeps_trans; [eapply keeps_triangulate; exact He|].
      eapply keeps_trans; [eapply keeps_rows; exact He2|eapply IH; exact H].
    + eapply keeps_trans; [eapply keeps_triangulate; exact He|eapply IH; exact H].
Qed.
Lemma meas_size' : forall l, max_meas_size (map (track' v c) l) = max_meas_size l.
Proof.
  assert (G : forall l n,
    fold_left (fun n t => (n + 2 * length (ft_track t))%nat) (map (track' v c) l) n
    = fold_left (fun n t => (n + 2 * length (ft_track t))%nat) l n).
  { induction l as [|t l IH]; intros n; [reflexivity|].
    cbn [map fold_left]. rewrite IH. change (ft_track (track' v c t)) with (map (point' c) (ft_track t)).
    rewrite map_length. reflexivity. }
  intros l. apply G.
Qed.

Lemma msckf' : forall u e t l px, clocked c e -> (forall x, In x l -> shows e u x) ->
  msckf_UpdateEKF solve u (F e) (t + (c + d)) (map (track' v c) l) px
  = rmap with' (msckf_UpdateEKF solve u e t l px).
Proof.
  intros u e t l px Hk Hs. unfold msckf_UpdateEKF. rewrite local' by exact Hk.
  pose proof (keeps_local e t) as K0.
  destruct (CalculateLocalTime e t) as [lt e0]. cbn [fst snd] in *.
  apply both'; [apply predict'|]. intros e1 He1. apply keeps_predict in He1.
  destruct l as [|x l]; [reflexivity|]. cbn [map].
  change (track' v c x :: map (track' v c) l) with (map (track' v c) (x :: l)).
  assert (Hs1 : forall t, In t (x :: l) -> shows e1 u t).
  { intros y Hy. eapply shows_keeps; [eapply keeps_trans; [exact K0|exact He1]|apply Hs; exact Hy]. }
  clear Hs. revert Hs1. generalize (x :: l). clear x l. intros l Hs.
  change (e_par (F e1)) with (e_par e1). rewrite get_cam'.
  set (p := if negb (p_fej (e_par e1)) || mu_first u then
      let '(c0, e2) := GetCamState e1 (mu_id u) in
      (mkMU (mu_id u) (mu_ext u) false (Some (c_intr c0, c_pos c0, c_ang c0)) (mu_min_dist u) (mu_max_dist u)
         (mu_use_true u), e2) else (u, e1)).
  assert (Hp : (if negb (p_fej (e_par e1)) || mu_first u then
      let '(c0, e2) := with' (GetCamState e1 (mu_id u)) in
      (mkMU (mu_id u) (mu_ext u) false (Some (c_intr c0, c_pos c0, c_ang c0)) (mu_min_dist u) (mu_max_dist u)
         (mu_use_true u), e2) else (u, F e1)) = with' p).
  { unfold p. destruct (negb (p_fej (e_par e1)) || mu_first u); reflexivity. }
  rewrite Hp. clear Hp.
  assert (Hq : mu_id (fst p) = mu_id u /\ keeps e1 (snd p)).
  { unfold p. destruct (negb (p_fej (e_par e1)) || mu_first u); split; try reflexivity; apply keeps_same; try reflexivity; intros Hi; exact Hi. }
  destruct p as [u1 e2]. cbn [with' fst snd] in *. destruct Hq as [Hid K2].
  destruct (mu_poses u1) as [[[k pc] qc]|]; [|reflexivity]. rewrite get_cam'.
  assert (K3 : keeps e2 (snd (GetCamState e2 (mu_id u1)))) by (apply keeps_same; try reflexivity; intros Hi; exact Hi).
  destruct (GetCamState e2 (mu_id u1)) as [cs e3]. cbn [with' fst snd] in *. rewrite meas_size'.
  change (e_size (F e2)) with (e_size e2). cbv zeta.
  apply bothp.
  - apply track_rows'. intros y Hy q Hq. rewrite Hid. apply (found_keeps _ _ _ _ K3), (found_keeps _ _ _ _ K2). apply (Hs y Hy q Hq).
  - intros [[Hx rx] ct] e4 _. destruct (Nat.eqb ct 0); [reflexivity|]. apply same'. intros [Hx1 rx1] _.
    destruct (Nat.leb (nr rx1) 1); [reflexivity|]. apply both'; [apply kalman'|]. intros e5 _. reflexivity.
Qed.
Lemma keeps_msckf : forall u e t l px u' e', msckf_UpdateEKF solve u e t l px = OK (u', e') ->
  keeps e e' /\ mu_id u' = mu_id u.
Proof.
  intros u e t l px u' e' H. unfold msckf_UpdateEKF in H.
  pose proof (keeps_local e t) as K0. destruct (CalculateLocalTime e t) as [lt e0]. cbn [fst snd] in *.
  apply bind_OK in H. destruct H as (e1 & He1 & H). apply keeps_predict in He1.
  assert (K1 : keeps e e1) by (eapply keeps_trans; eassumption).
  destruct l as [|x l]; [injection H as <- <-; split; [exact K1|reflexivity]|]. revert H. generalize (x :: l). clear x l. intros l H.
  set (p := if negb (p_fej (e_par e1)) || mu_first u then
      let '(c0, e2) := GetCamState e1 (mu_id u) in
      (mkMU (mu_id u) (mu_ext u) false (Some (c_intr c0, c_pos c0, c_ang c0)) (mu_min_dist u) (mu_max_dist u)
         (mu_use_true u), e2) else (u, e1)) in H.
  assert (Hq : mu_id (fst p) = mu_id u /\ keeps e1 (snd p)).
  { unfold p. destruct (negb (p_fej (e_par e1)) || mu_first u); split; try reflexivity; apply keeps_same; try reflexivity; intros Hi; exact Hi. }
  destruct p as [u1 e2]. cbn [fst snd] in *. destruct Hq as [Hid K2].
  destruct (mu_poses u1) as [[[k pc] qc]|]; [|discriminate]. cbv zeta in H.
  assert (K3 : keeps e2 (snd (GetCamState e2 (mu_id u1)))) by (apply keeps_same; try reflexivity; intros Hi; exact Hi).
  destruct (GetCamState e2 (mu_id u1)) as [cs e3]. cbn [fst snd] in *.
  apply bind_OK in H. destruct H as ([[[Hx rx] ct] e4] & He4 & H). apply keeps_track_rows in He4.
  assert (K4 : keeps e e4) by (eapply keeps_trans; [exact K1|]; eapply keeps_trans; [exact K2|];
    eapply keeps_trans; eassumption).
  destruct (Nat.eqb ct 0); [injection H as <- <-; auto|].
  apply bind_OK in H. destruct H as ([Hx1 rx1] & _ & H).
  destruct (Nat.leb (nr rx1) 1); [injection H as <- <-; auto|].
  apply bind_OK in H. destruct H as (e5 & He5 & H). injection H as <- <-. split; [|exact Hid].
  eapply keeps_trans; [exact K4|eapply keeps_kalman; exact He5].
Qed.
End Solve.
End Origin.
