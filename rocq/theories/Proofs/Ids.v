(** Identifiers are counted up. *)
From Coq Require Import Reals List Arith Bool Lia ZArith Sorted.
From Verif Require Import Base.Res Base.Mat Base.Geom Base.AMap Model.Types Model.Ekf Model.Ops
  Model.MathHelper Model.GpsHelper Model.ImuUpdater Model.GpsUpdater Model.FiducialUpdater Model.MsckfUpdater
  Model.Sensors Spec.Ids.
Import ListNotations.
Open Scope nat_scope.

Definition next_of (c : counters) (g : gen) : nat :=
  match g with GSensor => S (n_sensors c) | GTracker => S (n_trackers c) | GFrame => n_frames c | GFeature => n_features c end.

Lemma given_seq : forall l c g, given g (call_all c l) = seq (next_of c g) (length (filter (gen_eqb g) l)).
Proof.
  induction l as [|x l IH]; intros c g; [reflexivity|]. unfold given in *. cbn [call_all].
  destruct (call_gen c x) as [n c'] eqn:E. cbn [filter map fst snd].
  destruct (gen_eqb g x) eqn:Q; cbn [map length seq snd]; rewrite IH;
    destruct x; injection E as <- <-; destruct g; try discriminate Q; reflexivity.
Qed.

Lemma generator_ids : forall l g, given g (call_all counters_init l) =
  seq (match g with GSensor | GTracker => 1 | _ => 0 end) (length (filter (gen_eqb g) l)).
Proof. intros l g. rewrite given_seq. destruct g; reflexivity. Qed.

(** *** Worlds *)
Definition tids (s : sensor) : list nat := match s with SCam trs fids => keys trs ++ keys fids | _ => [] end.
Definition maps_sorted (s : sensor) : Prop := match s with SCam trs fids => sorted trs /\ sorted fids | _ => True end.
Record idinv (w : world) : Prop := mkId {
  ii_keys : keys (w_sensors w) = seq 1 (n_sensors (w_cnt w));
  ii_trk : tracker_ids w = seq 1 (n_trackers (w_cnt w));
  ii_sorted : Forall (fun x => maps_sorted (snd x)) (w_sensors w) }.

Lemma seq_sorted : forall n a, StronglySorted lt (seq a n).
Proof.
  induction n as [|n IH]; intros a; cbn; constructor; auto. apply Forall_forall. intros x H. apply in_seq in H. lia.
Qed.
Lemma keys_present : forall A k (v w : A) m, mfind k m = Some w -> sorted m -> keys (mset k v m) = keys m.
Proof.
  intros A k v w m H S. destruct (mset_present A k v m w H S) as [l [r [E1 E2]]]. rewrite E2, E1. unfold keys.
  rewrite !map_app. reflexivity.
Qed.

Lemma idinv_update : forall w e c id s s', idinv w -> mfind id (w_sensors w) = Some s -> tids s' = tids s -> maps_sorted s' ->
  n_sensors c = n_sensors (w_cnt w) -> n_trackers c = n_trackers (w_cnt w) -> idinv (mkWorld e c (mset id s' (w_sensors w))).
Proof.
  intros w e c id s s' [K T S] F E M N1 N2.
  assert (SS : sorted (w_sensors w)) by (unfold sorted; rewrite K; apply seq_sorted).
  constructor; cbn [w_sensors w_cnt]; rewrite ?N1, ?N2.
  - rewrite (keys_present _ _ _ s) by auto. exact K.
  - rewrite <- T. unfold tracker_ids. destruct (mset_present _ id s' _ s F SS) as [l [r [E1 E2]]].
    cbn [w_sensors]. rewrite E2, E1. rewrite !flat_map_app. cbn. f_equal. f_equal. exact E.
  - destruct (mset_present _ id s' _ s F SS) as [l [r [E1 E2]]]. rewrite E2. rewrite E1 in S.
    apply Forall_app in S. destruct S as [S1 S2]. inversion S2; subst. apply Forall_app. auto.
Qed.

Lemma idinv_add : forall w e c s, idinv w -> n_sensors c = S (n_sensors (w_cnt w)) ->
  tids s = seq (S (n_trackers (w_cnt w))) (n_trackers c - n_trackers (w_cnt w)) -> n_trackers (w_cnt w) <= n_trackers c ->
  maps_sorted s -> idinv (mkWorld e c (mset (S (n_sensors (w_cnt w))) s (w_sensors w))).
Proof.
  intros w e c s [K T S] N E L M.
  assert (A : mset (Datatypes.S (n_sensors (w_cnt w))) s (w_sensors w) = w_sensors w ++ [(Datatypes.S (n_sensors (w_cnt w)), s)]).
  { apply mset_append. apply Forall_forall. intros [k x] H. apply (in_map fst) in H. change (In k (keys (w_sensors w))) in H.
    rewrite K in H. apply in_seq in H. cbn. lia. }
  constructor; cbn [w_sensors w_cnt]; [rewrite A|unfold tracker_ids; cbn [w_sensors]; rewrite A|rewrite A].
  - unfold keys in *. rewrite map_app, K, N, seq_S. reflexivity.
  - unfold tracker_ids in *. cbn [w_sensors]. rewrite flat_map_app, T. cbn [flat_map snd]. rewrite app_nil_r.
    change (seq 1 (n_trackers (w_cnt w)) ++ tids s = seq 1 (n_trackers c)). rewrite E.
    replace (n_trackers c) with (n_trackers (w_cnt w) + (n_trackers c - n_trackers (w_cnt w))) at 2 by lia.
    rewrite seq_app. reflexivity.
  - apply Forall_app. split; [exact S|]. constructor; auto.
Qed.

Lemma trackers_ids : forall ps c cam m m' c', add_trackers c cam ps m = (m', c') -> sorted m ->
  (forall k, In k (keys m) -> k <= n_trackers c) ->
  keys m' = keys m ++ seq (S (n_trackers c)) (length ps) /\ n_trackers c' = n_trackers c + length ps /\
  n_sensors c' = n_sensors c /\ sorted m'.
Proof.
  induction ps as [|p ps IH]; intros c cam m m' c' E S H; cbn in E.
  - injection E as <- <-. cbn. rewrite app_nil_r. repeat split; auto.
  - assert (A : forall t : tracker, mset (Datatypes.S (n_trackers c)) t m = m ++ [(Datatypes.S (n_trackers c), t)]).
    { intros t. apply mset_append. apply Forall_forall. intros [k x] I. apply (in_map fst) in I. apply H in I. cbn in *. lia. }
    apply IH in E.
    + destruct E as [E1 [E2 [E3 E4]]]. cbn in *. rewrite A in E1. unfold keys in *. rewrite map_app in E1. cbn in E1.
      rewrite <- app_assoc in E1. cbn in E1. repeat split; auto. lia.
    + apply mset_sorted. exact S.
    + intros k I. apply mset_keys_in in I. cbn. destruct I as [->|I]; [lia|]. apply H in I. lia.
Qed.

Lemma fids_ids : forall ps c e cam m m' c' e', add_fiducials c e cam ps m = OK (m', c', e') -> sorted m ->
  (forall k, In k (keys m) -> k <= n_trackers c) ->
  keys m' = keys m ++ seq (S (n_trackers c)) (length ps) /\ n_trackers c' = n_trackers c + length ps /\
  n_sensors c' = n_sensors c /\ sorted m'.
Proof.
  induction ps as [|p ps IH]; intros c e cam m m' c' e' E S H; cbn [add_fiducials] in E.
  - injection E as <- <- <-. cbn. rewrite app_nil_r. repeat split; auto.
  - unfold fid_new in E. cbn [new_tracker_id] in E.
    destruct (guard _) as [[]|]; cbn [bind] in E; [|discriminate].
    destruct (RegisterFiducial e (fid_state_of p) (diag_of (fp_var p))) as [e1|]; cbn [bind] in E; [|discriminate].
    assert (A : forall t : fid_updater, mset (Datatypes.S (n_trackers c)) t m = m ++ [(Datatypes.S (n_trackers c), t)]).
    { intros t. apply mset_append. apply Forall_forall. intros [k x] I. apply (in_map fst) in I. apply H in I. cbn in *. lia. }
    apply IH in E.
    + destruct E as [E1 [E2 [E3 E4]]]. cbn in *. rewrite A in E1. unfold keys in *. rewrite map_app in E1. cbn in E1.
      rewrite <- app_assoc in E1. cbn in E1. repeat split; auto. lia.
    + apply mset_sorted. exact S.
    + intros k I. apply mset_keys_in in I. cbn. destruct I as [->|I]; [lia|]. apply H in I. lia.
Qed.

Lemma camera_new_ids : forall c e p ts fs id s c' e', camera_new c e p ts fs = OK (id, s, c', e') ->
  id = S (n_sensors c) /\ n_sensors c' = S (n_sensors c) /\ n_trackers c' = n_trackers c + (length ts + length fs) /\
  tids s = seq (S (n_trackers c)) (length ts + length fs) /\ maps_sorted s /\ exists trs fids, s = SCam trs fids.
Proof.
  intros c e p ts fs id s c' e' E. unfold camera_new, cam_new in E. cbn [new_sensor_id] in E.
  destruct (RegisterCamera _ _ _ _) as [e1|]; cbn [bind] in E; [|discriminate].
  destruct (add_trackers _ _ ts []) as [trs c1] eqn:E1.
  destruct (add_fiducials c1 e1 _ fs []) as [[[fids c2] e2]|] eqn:E2; cbn [bind] in E; [|discriminate].
  injection E as <- <- <- <-.
  apply trackers_ids in E1; [|constructor|intros k []]. destruct E1 as [A1 [A2 [A3 A4]]].
  apply fids_ids in E2; [|constructor|intros k []]. destruct E2 as [B1 [B2 [B3 B4]]]. cbn in *.
  repeat split; eauto; try lia. rewrite A1, B1, A2. cbn. rewrite seq_app. f_equal.
Qed.

Section Cb.
Variable svd : m2 -> m2 * m2.
Variable hull : list (Z * Z) -> list (Z * Z).
Variable ecef_to_lla : V3 -> V3.
Variable mat_quat : mat R -> quat.
Variable solve : mat R -> V3 -> V3.

Lemma track_all_keys : forall l trs e t trs' e', sorted trs -> track_all solve trs e t l = OK (trs', e') ->
  keys trs' = keys trs /\ sorted trs'.
Proof.
  induction l as [|[k x] l IH]; intros trs e t trs' e' S E; cbn [track_all] in E.
  - injection E as <- <-. auto.
  - destruct x as [|y x]; [eapply IH; eauto|]. destruct (mfind k trs) as [tr|] eqn:F; [|discriminate].
    destruct (msckf_UpdateEKF solve _ _ _ _ _) as [[u e1]|]; cbn [bind] in E; [|discriminate].
    apply IH in E; [|apply mset_sorted; exact S]. destruct E as [E1 E2]. split; [|exact E2]. rewrite E1.
    eapply keys_present; eauto.
Qed.
Lemma board_all_keys : forall l fids e t fids' e', sorted fids -> board_all mat_quat fids e t l = OK (fids', e') ->
  keys fids' = keys fids /\ sorted fids'.
Proof.
  induction l as [|[k x] l IH]; intros trs e t trs' e' S E; cbn [board_all] in E.
  - injection E as <- <-. auto.
  - destruct (mfind k trs) as [u|] eqn:F; [|discriminate]. destruct x as [d|]; [|eapply IH; eauto].
    destruct (fid_UpdateEKF mat_quat _ _ _ _) as [[u' e1]|]; cbn [bind] in E; [|discriminate].
    apply IH in E; [|apply mset_sorted; exact S]. destruct E as [E1 E2]. split; [|exact E2]. rewrite E1.
    eapply keys_present; eauto.
Qed.

Lemma sim_camera_keys : forall trs fids e id t f tr bo trs' fids' e', sorted trs -> sorted fids ->
  sim_camera_Callback mat_quat solve trs fids e id t f tr bo = OK (trs', fids', e') ->
  keys trs' = keys trs /\ keys fids' = keys fids /\ sorted trs' /\ sorted fids'.
Proof.
  intros trs fids e id t f tr bo trs' fids' e' S1 S2 E. unfold sim_camera_Callback in E.
  destruct (CalculateLocalTime e t) as [lt e1].
  destruct (PredictModel e1 lt) as [e2|]; cbn [bind] in *; [|discriminate].
  destruct (AugmentStateFrame e2 id f) as [e3|]; cbn [bind] in *; [|discriminate].
  destruct (track_all solve trs e3 t _) as [[t4 e4]|] eqn:E4; cbn [bind] in *; [|discriminate].
  destruct (board_all mat_quat fids e4 t _) as [[f5 e5]|] eqn:E5; cbn [bind] in *; [|discriminate].
  injection E as <- <- <-. apply track_all_keys in E4; auto. apply board_all_keys in E5; auto. tauto.
Qed.

Lemma sensor_sorted : forall w id s, idinv w -> mfind id (w_sensors w) = Some s -> maps_sorted s.
Proof. intros w id s [_ _ S] F. rewrite Forall_forall in S. apply mfind_in in F. apply (S _ F). Qed.

Lemma deliver_ids : forall w m w', idinv w -> deliver svd hull ecef_to_lla mat_quat solve w m = OK w' -> idinv w' /\ w_cnt w' = w_cnt w.
Proof.
  intros w m w' I E. unfold deliver in E. destruct (mfind (msg_id m) (w_sensors w)) as [s|] eqn:F; [|injection E as <-; auto].
  destruct m; cbn [msg_id] in F.
  - destruct s; try discriminate. destruct (imu_UpdateEKF _ _ _ _ _ _ _) as [[u' e']|]; cbn [bind] in E; [|discriminate].
    injection E as <-. split; [|reflexivity]. eapply idinv_update; eauto; exact Logic.I.
  - destruct s; try discriminate. destruct (gps_UpdateEKF _ _ _ _ _ _ _ _) as [[u' e']|]; cbn [bind] in E; [|discriminate].
    injection E as <-. split; [|reflexivity]. eapply idinv_update; eauto; exact Logic.I.
  - destruct s; try discriminate. destruct (sim_camera_Callback _ _ _ _ _ _ _ _ _ _) as [[[a b] e']|] eqn:X; cbn [bind] in E; [|discriminate].
    injection E as <-. split; [|reflexivity]. pose proof (sensor_sorted w _ _ I F) as [S1 S2].
    apply sim_camera_keys in X; auto. destruct X as [X1 [X2 [X3 X4]]].
    eapply idinv_update; eauto; cbn; [congruence|auto].
  - destruct s; injection E as <-; auto.
Qed.

Lemma wstep_ids : forall w v w', idinv w -> wstep svd hull ecef_to_lla mat_quat solve w v = OK w' ->
  idinv w' /\ n_sensors (w_cnt w') = n_sensors (w_cnt w) + news v /\ n_trackers (w_cnt w') = n_trackers (w_cnt w) + new_trackers v.
Proof.
  intros w v w' I E. destruct v as [p|p|p ts fs|m|id t image seen board|o]; cbn [wstep news new_trackers] in *.
  - unfold imu_new in E. cbn [new_sensor_id] in E. destruct (imu_cov_of p) as [cov|]; cbn [bind] in E; [|discriminate].
    destruct (RegisterIMU _ _ _ _) as [e'|]; cbn [bind] in E; [|discriminate]. injection E as <-. cbn.
    split; [|split; lia]. apply (idinv_add w e' (mkCnt (S (n_sensors (w_cnt w))) _ _ _)); auto; cbn; [|exact Logic.I].
    rewrite Nat.sub_diag. reflexivity.
  - unfold gps_new in E. cbn [new_sensor_id] in E.
    destruct (RegisterGPS _ _ _ _) as [e'|]; cbn [bind] in E; [|discriminate]. injection E as <-. cbn.
    split; [|split; lia]. apply (idinv_add w e' (mkCnt (S (n_sensors (w_cnt w))) _ _ _)); auto; cbn; [|exact Logic.I].
    rewrite Nat.sub_diag. reflexivity.
  - destruct (camera_new (w_cnt w) (w_ekf w) p ts fs) as [[[[id s] c] e']|] eqn:X; cbn [bind] in E; [|discriminate].
    injection E as <-. apply camera_new_ids in X. destruct X as [-> [X1 [X2 [X3 [X4 _]]]]]. cbn [install w_cnt].
    split; [|split; lia]. apply idinv_add; auto; [|lia]. rewrite X3. f_equal. lia.
  - destruct (deliver_ids w m w' I E) as [A B]. rewrite B. split; [exact A|lia].
  - destruct (mfind id (w_sensors w)) as [s|] eqn:F; [|injection E as <-; split; [auto|lia]].
    destruct s as [u|u|trs fids]; try discriminate.
    destruct (camera_Callback mat_quat solve (w_cnt w) trs fids (w_ekf w) id t image seen board) as [[[[a b] c] e']|] eqn:X; cbn [bind] in E; [|discriminate].
    injection E as <-. cbn [w_cnt]. pose proof (sensor_sorted w _ _ I F) as [S1 S2]. unfold camera_Callback in X.
    destruct (image && _).
    + destruct (CalculateLocalTime (w_ekf w) t) as [lt e1].
      destruct (PredictModel e1 lt) as [e2|]; cbn [bind] in *; [|discriminate]. cbn [GenerateFrameID] in X.
      destruct (AugmentStateFrame e2 id _) as [e3|]; cbn [bind] in *; [|discriminate].
      destruct (track_all solve trs e3 t _) as [[t4 e4]|] eqn:E4; cbn [bind] in *; [|discriminate].
      destruct (board_all mat_quat fids e4 t _) as [[f5 e5]|] eqn:E5; cbn [bind] in *; [|discriminate].
      injection X as <- <- <- <-. apply track_all_keys in E4; auto. apply board_all_keys in E5; auto.
      destruct E4, E5. cbn [n_sensors n_trackers]. split; [|lia]. eapply idinv_update; eauto; cbn; [congruence|auto].
    + injection X as <- <- <- <-. split; [|lia]. eapply idinv_update; eauto. cbn. auto.
  - destruct (step (w_ekf w) o) as [e'|]; cbn [bind] in E; [|discriminate]. injection E as <-. cbn.
    destruct I as [A B C]. split; [constructor; auto|lia].
Qed.

Lemma wrun_ids : forall l w w', idinv w -> wrun svd hull ecef_to_lla mat_quat solve w l = OK w' ->
  idinv w' /\ n_sensors (w_cnt w') = n_sensors (w_cnt w) + total news l /\
  n_trackers (w_cnt w') = n_trackers (w_cnt w) + total new_trackers l.
Proof.
  induction l as [|v l IH]; intros w w' I E; cbn [wrun total fold_right] in *.
  - injection E as <-. split; [auto|lia].
  - destruct (wstep svd hull ecef_to_lla mat_quat solve w v) as [w1|] eqn:E1; cbn [bind] in E; [|discriminate].
    apply wstep_ids in E1; auto. destruct E1 as [I1 [A B]]. apply IH in E; auto. destruct E as [I2 [C D]].
    unfold total in *. split; [auto|lia].
Qed.
End Cb.

Lemma init_ids : forall e, idinv (world_init e).
Proof. intros e. constructor; cbn; auto. Qed.

Lemma history_ids : forall svd hull ecef_to_lla mat_quat solve e l w,
  wrun svd hull ecef_to_lla mat_quat solve (world_init e) l = OK w ->
  keys (w_sensors w) = seq 1 (total news l) /\ tracker_ids w = seq 1 (total new_trackers l).
Proof.
  intros svd hull ecef mq solve e l w E. destruct (wrun_ids svd hull ecef mq solve l _ _ (init_ids e) E) as [[A B _] [C D]].
  cbn in C, D. rewrite A, B, C, D. auto.
Qed.
