(** Message times, order and replay. *)
From Coq Require Import Reals List Arith Bool Lia Lra ZArith Sorted Permutation.
From Verif Require Import Base.Res Base.Mat Base.RDec Base.LinAlg Base.Geom Base.AMap Base.RMat
  Model.TypeHelper Model.Types Model.MathHelper Model.GpsHelper Model.Ekf Model.Updater Model.Ops
  Model.ImuUpdater Model.GpsUpdater Model.FiducialUpdater Model.MsckfUpdater Model.Sensors Model.Simulation
  Spec.Layout Spec.Contract Spec.Callback Spec.World Spec.Ids Spec.Replay
  Proofs.Scalars Proofs.Follows Proofs.World Proofs.Ids.
Import ListNotations.
Open Scope nat_scope.

(** *** C44 *)
Lemma compare_swo : strict_weak_order MessageCompare.
Proof.
  unfold strict_weak_order, MessageCompare. repeat split; intros.
  - apply Rltb_ff. lra.
  - apply Rltb_spec in H. apply Rltb_ff. lra.
  - apply Rltb_spec in H. apply Rltb_spec in H0. apply Rltb_true. lra.
  - apply Rltb_false in H, H0, H1, H2. apply Rltb_ff. lra.
  - apply Rltb_false in H, H0, H1, H2. apply Rltb_ff. lra.
Qed.
Lemma compare_time : forall a b, MessageCompare a b = true <-> (msg_time a < msg_time b)%R.
Proof. intros a b. unfold MessageCompare. apply Rltb_spec. Qed.

(** *** Sorting *)
Lemma ordered_chronological : forall l, ordered l -> chronological l.
Proof.
  induction 1 as [|a l H _ IH]; cbn; auto. split; auto. intros b Hb. rewrite Forall_forall in H.
  apply H in Hb. unfold MessageCompare in Hb. apply Rltb_false in Hb. lra.
Qed.
Lemma sort_chronological : forall ms s, sort_result ms s -> Permutation ms s /\ chronological s.
Proof. intros ms s [P O]. split; [exact P|apply ordered_chronological; exact O]. Qed.

Lemma insert_perm : forall a l, Permutation (a :: l) (insert_message a l).
Proof.
  induction l as [|b t IH]; cbn; [reflexivity|]. destruct (MessageCompare b a); [|reflexivity].
  eapply perm_trans; [apply perm_swap|]. constructor. exact IH.
Qed.
Lemma insert_ordered : forall a l, ordered l -> ordered (insert_message a l).
Proof.
  intros a l H. induction H as [|b l HF HO IH]; cbn; [constructor; [constructor|constructor]|].
  destruct (MessageCompare b a) eqn:E.
  - constructor; [|exact IH]. rewrite Forall_forall in *. intros x Hx.
    apply (Permutation_in x (Permutation_sym (insert_perm a l))) in Hx. destruct Hx as [<-|Hx].
    + apply (proj1 (proj2 compare_swo)). exact E.
    + apply HF. exact Hx.
  - constructor; [|constructor; auto]. constructor; [exact E|]. rewrite Forall_forall in *. intros x Hx. apply HF in Hx.
    unfold MessageCompare in *. apply Rltb_false in Hx, E. apply Rltb_ff. lra.
Qed.
Lemma sort_exists : forall ms, sort_result ms (sort_messages ms).
Proof.
  induction ms as [|a l [P O]]; cbn; [split; [constructor|constructor]|]. split.
  - eapply perm_trans; [|apply insert_perm]. constructor. exact P.
  - apply insert_ordered. exact O.
Qed.

(** *** C32 *)
Lemma int_part_nonneg : forall x, (0 <= x)%R -> (0 <= Int_part x)%Z.
Proof.
  intros x H. destruct (base_Int_part x) as [A B]. assert (C : (-1 < IZR (Int_part x))%R) by lra.
  apply lt_IZR in C. lia.
Qed.

Lemma times_exact : forall u noise T r, (0 < r)%R -> (0 <= T)%R ->
  exists l n, GenerateMeasurementTimes true u noise T r = OK l /\ length l = n /\ (INR n <= T * r < INR n + 1)%R /\
    (forall i, i < n -> nth i l 0%R = (INR i / r)%R).
Proof.
  intros u noise T r Hr HT. assert (HP : (0 <= T * r)%R) by nra. unfold GenerateMeasurementTimes, guard.
  assert (E1 : Reqb r 0 = false) by (unfold Reqb; destruct (Req_EM_T r 0); [lra|reflexivity]). rewrite E1. cbn [negb bind].
  assert (E2 : Rleb 0 (T * r) = true) by (unfold Rleb; destruct (Rle_dec 0 (T * r)); [reflexivity|contradiction]). rewrite E2. cbn [bind].
  eexists. exists (Z.to_nat (Int_part (T * r))). split; [reflexivity|]. split; [rewrite map_length, seq_length; reflexivity|].
  pose proof (int_part_nonneg _ HP) as Z. destruct (base_Int_part (T * r)) as [A B].
  split.
  - rewrite INR_IZR_INZ, Z2Nat.id by exact Z. lra.
  - intros i Hi. unfold ApplyTimeError. set (f := fun i0 : nat => (INR i0 / r + 0)%R).
    rewrite (nth_indep _ 0%R (f 0)) by (rewrite map_length, seq_length; exact Hi). rewrite map_nth, seq_nth by exact Hi. unfold f. cbn. lra.
Qed.

Lemma measurement_times : forall u noise T r, (0 < r)%R -> (0 <= T)%R ->
  exists l, GenerateMeasurementTimes true u noise T r = OK l /\
    (INR (length l) <= T * r < INR (length l) + 1)%R /\
    (forall t, nth_error l 0 = Some t -> t = 0%R) /\
    (forall i s t, nth_error l i = Some s -> nth_error l (S i) = Some t -> (t - s = 1 / r)%R /\ (s < t)%R) /\
    (forall t, In t l -> (0 <= t < T)%R).
Proof.
  intros u noise T r Hr HT. destruct (times_exact u noise T r Hr HT) as [l [n [E [L [B H]]]]]. exists l.
  assert (N : forall i t, nth_error l i = Some t -> i < n /\ t = (INR i / r)%R).
  { intros i t X. assert (Hi : i < n) by (rewrite <- L; apply nth_error_Some; congruence). split; [exact Hi|].
    apply (nth_error_nth l i 0%R) in X. rewrite <- X. apply H. exact Hi. }
  split; [exact E|]. split; [rewrite L; exact B|]. repeat split.
  - intros t X. apply N in X. destruct X as [_ ->]. cbn. lra.
  - apply N in H0. apply N in H1. destruct H0 as [_ ->], H1 as [_ ->]. rewrite S_INR. field. lra.
  - apply N in H0. apply N in H1. destruct H0 as [_ ->], H1 as [_ ->]. rewrite S_INR.
    apply (Rmult_lt_reg_r r); [exact Hr|]. unfold Rdiv. rewrite !Rmult_assoc, Rinv_l by lra. lra.
  - apply In_nth_error in H0. destruct H0 as [i X]. apply N in X. destruct X as [_ ->].
    apply (Rmult_le_reg_r r); [exact Hr|]. unfold Rdiv. rewrite !Rmult_assoc, Rinv_l by lra. pose proof (pos_INR i). lra.
  - apply In_nth_error in H0. destruct H0 as [i X]. apply N in X. destruct X as [Hi ->].
    apply (Rmult_lt_reg_r r); [exact Hr|]. unfold Rdiv. rewrite !Rmult_assoc, Rinv_l by lra.
    assert (INR i + 1 <= INR n)%R by (rewrite <- S_INR; apply le_INR; lia). lra.
Qed.

(** *** Building the simulation *)
Lemma camera_messages_ids : forall times c id trs fids tracks board ms c', camera_messages c id trs fids times tracks board = (ms, c') ->
  n_sensors c' = n_sensors c /\ n_trackers c' = n_trackers c /\
  map msg_time ms = times /\
  (forall m, In m ms -> msg_id m = id /\ exists t f, In t times /\
     m = MCam id t f (map (fun k => (k, tracks k t f)) trs) (map (fun k => (k, board k t)) fids)).
Proof.
  induction times as [|t times IH]; intros c id trs fids tracks board ms c' E; cbn [camera_messages GenerateFrameID] in E.
  - injection E as <- <-. cbn. repeat split; intros; contradiction.
  - destruct (camera_messages _ id trs fids times tracks board) as [ms1 c1] eqn:E1. injection E as <- <-.
    apply IH in E1. cbn in E1. destruct E1 as [A [B [T H]]]. split; [exact A|]. split; [exact B|]. split; [cbn; f_equal; exact T|].
    intros m [<-|Hm].
    + split; [reflexivity|]. exists t, (n_frames c). split; [left; reflexivity|reflexivity].
    + destruct (H m Hm) as [X [t' [f [Y Z]]]]. split; [exact X|]. exists t', f. split; [right; exact Y|exact Z].
Qed.

Definition cnt_frames (w : world) (c : counters) : world := mkWorld (w_ekf w) c (w_sensors w).

(** What one configured sensor adds. *)
Record added (w : world) (s : simspec) (ms : list message) (w' : world) : Prop := mkAdded {
  ad_inv : winv w'; ad_ids : idinv w';
  ad_cnt : n_sensors (w_cnt w') = S (n_sensors (w_cnt w));
  ad_frame : frame' (w_ekf w) (w_ekf w');
  ad_obj : exists x, mfind (S (n_sensors (w_cnt w))) (w_sensors w') = Some x /\ object_of s x;
  ad_old : forall k, k <> S (n_sensors (w_cnt w)) -> mfind k (w_sensors w') = mfind k (w_sensors w);
  ad_msg : forall m, In m ms -> msg_id m = S (n_sensors (w_cnt w)) /\ produced_by s m /\ message_ok (p_root (e_par (w_ekf w))) m;
  ad_times : map msg_time ms = times_of s }.

Lemma sim_add_ok : forall w s, winv w -> idinv w -> simspec_ok w s -> exists ms w', sim_add w s = OK (ms, w') /\ added w s ms w'.
Proof.
  intros w s HW HI HS. destruct s as [p times acc A omg V|p times lla N|p ts fs times tracks board]; cbn [sim_add simspec_ok] in *.
  - destruct HS as [H1 [H2 H3]]. destruct (imu_new_inv w p HW H1) as [q [E [W' F]]].
    pose proof (wstep_ids (fun x => (x, x)) (fun l => l) (fun v => v) (fun _ => qid) (fun _ v => v) w (ENewImu p) (install w q) HI) as Q.
    cbn [wstep] in Q. rewrite E in Q. cbn [bind] in Q. destruct (Q eq_refl) as [I' [C' _]]. clear Q. rewrite E. cbn [bind].
    unfold imu_new in E. cbn [new_sensor_id] in E. destruct (imu_cov_of p) as [cov|]; cbn [bind] in E; [|discriminate].
    destruct (RegisterIMU _ _ _ _) as [e'|]; cbn [bind] in E; [|discriminate]. injection E as <-.
    eexists. eexists. split; [reflexivity|]. constructor; auto.
    + cbn. rewrite mfind_mset_eq. eexists. split; [reflexivity|exact I].
    + intros k Hk. cbn. rewrite mfind_mset_neq by exact Hk. reflexivity.
    + intros m Hm. apply in_map_iff in Hm. destruct Hm as [t [<- Ht]]. cbn. auto 10.
    + rewrite map_map. cbn. apply map_id.
  - destruct HS as [H1 H2]. destruct (gps_new_inv w p HW H1) as [q [E [W' F]]].
    pose proof (wstep_ids (fun x => (x, x)) (fun l => l) (fun v => v) (fun _ => qid) (fun _ v => v) w (ENewGps p) (install w q) HI) as Q.
    cbn [wstep] in Q. rewrite E in Q. cbn [bind] in Q. destruct (Q eq_refl) as [I' [C' _]]. clear Q. rewrite E. cbn [bind].
    unfold gps_new in E. cbn [new_sensor_id] in E.
    destruct (RegisterGPS _ _ _ _) as [e'|]; cbn [bind] in E; [|discriminate]. injection E as <-.
    eexists. eexists. split; [reflexivity|]. constructor; auto.
    + cbn. rewrite mfind_mset_eq. eexists. split; [reflexivity|exact I].
    + intros k Hk. cbn. rewrite mfind_mset_neq by exact Hk. reflexivity.
    + intros m Hm. apply in_map_iff in Hm. destruct Hm as [t [<- Ht]]. cbn. auto 10.
    + rewrite map_map. cbn. apply map_id.
  - destruct HS as [H1 [H2 [H3 H4]]]. destruct (cam_new_inv w p ts fs HW H1 H2 H3) as [q [E [W' F]]].
    pose proof (wstep_ids (fun x => (x, x)) (fun l => l) (fun v => v) (fun _ => qid) (fun _ v => v) w (ENewCam p ts fs) (install w q) HI) as Q.
    cbn [wstep] in Q. rewrite E in Q. cbn [bind] in Q. destruct (Q eq_refl) as [I' [C' _]]. clear Q. rewrite E. cbn [bind].
    destruct q as [[[id s] c] e']. apply camera_new_ids in E. destruct E as [-> [X1 [X2 [X3 [X4 [trs [fids ->]]]]]]].
    destruct (camera_messages c (S (n_sensors (w_cnt w))) (keys trs) (keys fids) times tracks board) as [ms c2] eqn:M.
    eexists. eexists. split; [reflexivity|]. apply camera_messages_ids in M. destruct M as [M1 [M2 [M3 M4]]].
    destruct W' as [V1 V2 V3]. destruct I' as [J1 J2 J3]. cbn in *. constructor; cbn; auto.
    + constructor; cbn; auto. rewrite M1. exact V2.
    + constructor; cbn; auto; [rewrite M1; exact J1|rewrite M2; exact J2].
    + lia.
    + rewrite mfind_mset_eq. eexists. split; [reflexivity|exact I].
    + intros k Hk. rewrite mfind_mset_neq by exact Hk. reflexivity.
    + intros m Hm. destruct (M4 m Hm) as [Y1 [t [f [Y2 ->]]]]. cbn. split; [reflexivity|]. split;
      [split; [exact Y2|split; intros k x Hx; apply in_map_iff in Hx; destruct Hx as [k' [Hk _]]; injection Hk as <- <-; reflexivity]|].
      apply Forall_forall. intros y Hy d Hd. apply in_map_iff in Hy. destruct Hy as [k [<- _]]. apply (H4 k t). exact Hd.
Qed.

Lemma sim_build_ok : forall l w, winv w -> idinv w -> simspecs_ok w l ->
  exists ms w', sim_build w l = OK (ms, w') /\ winv w' /\ idinv w' /\ frame' (w_ekf w) (w_ekf w') /\
    n_sensors (w_cnt w') = n_sensors (w_cnt w) + length l /\
    (forall j s, nth_error l j = Some s -> exists x, mfind (S (n_sensors (w_cnt w) + j)) (w_sensors w') = Some x /\ object_of s x) /\
    (forall k, k <= n_sensors (w_cnt w) -> mfind k (w_sensors w') = mfind k (w_sensors w)) /\
    (forall m, In m ms -> message_ok (p_root (e_par (w_ekf w))) m /\
       exists j s, nth_error l j = Some s /\ msg_id m = S (n_sensors (w_cnt w) + j) /\ produced_by s m) /\
    map msg_time ms = flat_map times_of l.
Proof.
  induction l as [|s l IH]; intros w HW HI HS; cbn [sim_build simspecs_ok] in *.
  - exists [], w. split; [reflexivity|]. split; [exact HW|]. split; [exact HI|]. split; [repeat split|]. cbn.
    split; [lia|]. split; [intros [|j] s H; discriminate|]. split; [reflexivity|]. split; [intros m []|reflexivity].
  - destruct HS as [S1 S2]. destruct (sim_add_ok w s HW HI S1) as [ms [w1 [E A]]]. rewrite E. cbn [bind].
    destruct A as [A1 A2 A3 A4 A5 A6 A7 A8].
    destruct (IH w1 A1 A2 (S2 _ _ E)) as [ms' [w' [E' [B1 [B2 [B3 [B4 [B5 [B6 [B7 B8]]]]]]]]]]. rewrite E'. cbn [bind].
    exists (ms ++ ms'), w'. split; [reflexivity|]. split; [exact B1|]. split; [exact B2|]. split; [eapply frame'_trans; eauto|].
    split; [cbn; lia|]. split; [|split; [|split]].
    + intros [|j] x H; cbn in H.
      * injection H as ->. rewrite Nat.add_0_r. destruct A5 as [y [Y1 Y2]]. exists y. split; [|exact Y2]. rewrite B6 by lia. exact Y1.
      * destruct (B5 j x H) as [y Y]. exists y. rewrite A3 in Y. replace (S (n_sensors (w_cnt w) + S j)) with (S (S (n_sensors (w_cnt w)) + j)) by lia. exact Y.
    + intros k Hk. rewrite B6 by lia. apply A6. lia.
    + intros m Hm. apply in_app_or in Hm. destruct Hm as [Hm|Hm].
      * destruct (A7 m Hm) as [Y1 [Y2 Y3]]. split; [exact Y3|]. exists 0, s. rewrite Nat.add_0_r. auto.
      * destruct (B7 m Hm) as [Y1 [j [x [Y2 [Y3 Y4]]]]]. split.
        -- destruct A4 as [P _]. rewrite <- P. exact Y1.
        -- exists (S j), x. split; [exact Y2|]. split; [|exact Y4]. rewrite Y3, A3. lia.
    + rewrite map_app, A8, B8. reflexivity.
Qed.

(** *** Replaying *)
Section Cb.
Variable svd : m2 -> m2 * m2.
Variable hull : list (Z * Z) -> list (Z * Z).
Variable ecef_to_lla : V3 -> V3.
Variable mat_quat : mat R -> quat.
Variable solve : mat R -> V3 -> V3.

(** Callbacks leave every sensor a sensor of its kind. *)
Definition kind (s : sensor) : nat := match s with SImu _ => 0 | SGps _ => 1 | SCam _ _ => 2 end.
Lemma deliver_kinds : forall w m w', deliver svd hull ecef_to_lla mat_quat solve w m = OK w' ->
  forall k, option_map kind (mfind k (w_sensors w')) = option_map kind (mfind k (w_sensors w)).
Proof.
  intros w m w' E k. unfold deliver in E. destruct (mfind (msg_id m) (w_sensors w)) as [s|] eqn:F; [|injection E as <-; auto].
  assert (X : forall e c id s', mfind id (w_sensors w) = Some s -> kind s' = kind s ->
    option_map kind (mfind k (w_sensors (mkWorld e c (mset id s' (w_sensors w))))) = option_map kind (mfind k (w_sensors w))).
  { intros e c id s' F' K. cbn. destruct (Nat.eq_dec k id) as [->|D].
    - rewrite mfind_mset_eq, F'. cbn. rewrite K. reflexivity.
    - rewrite mfind_mset_neq by exact D. reflexivity. }
  destruct m; cbn [msg_id] in F.
  - destruct s; try discriminate. destruct (imu_UpdateEKF _ _ _ _ _ _ _) as [[u' e']|]; cbn [bind] in E; [|discriminate].
    injection E as <-. apply X; auto.
  - destruct s; try discriminate. destruct (gps_UpdateEKF _ _ _ _ _ _ _ _) as [[u' e']|]; cbn [bind] in E; [|discriminate].
    injection E as <-. apply X; auto.
  - destruct s; try discriminate. destruct (sim_camera_Callback _ _ _ _ _ _ _ _ _ _) as [[[a b] e']|]; cbn [bind] in E; [|discriminate].
    injection E as <-. apply X; auto.
  - destruct s; injection E as <-; auto.
Qed.
Lemma addressed_kinds : forall w w' m, (forall k, option_map kind (mfind k (w_sensors w')) = option_map kind (mfind k (w_sensors w))) ->
  addressed w m -> addressed w' m.
Proof.
  intros w w' m H A. unfold addressed in *. specialize (H (msg_id m)). destruct m; cbn [msg_id] in *;
    destruct (mfind id (w_sensors w)) as [[ | | ]|]; try contradiction; destruct (mfind id (w_sensors w')) as [[ | | ]|]; cbn in H; try discriminate; exact I.
Qed.

Lemma replay_in_step : forall s w, winv w -> chronological s ->
  (forall m, In m s -> message_ok (p_root (e_par (w_ekf w))) m /\ addressed w m) ->
  e_time_init (w_ekf w) = true ->
  (forall m, In m s -> (e_ref_time (w_ekf w) + e_time (w_ekf w) <= msg_time m)%R) ->
  in_step svd hull ecef_to_lla mat_quat solve w s.
Proof.
  induction s as [|m s IH]; intros w HW HC HM HT HP; cbn [in_step]; [exact I|].
  cbn [chronological] in HC. destruct HC as [C1 C2]. destruct (HM m (or_introl eq_refl)) as [O A].
  pose proof (HP m (or_introl eq_refl)) as P. unfold local_of. rewrite HT.
  split; [exact A|]. split; [lra|]. intros w' E.
  destruct (deliver_sound svd hull ecef_to_lla mat_quat solve w m w' HW O E) as [W' [G [B _]]].
  destruct (B A) as [T1 [T2 [T3 _]]]. unfold local_of, clock_of in T1. rewrite HT in T1.
  assert (T : e_time (w_ekf w') = (msg_time m - e_ref_time (w_ekf w))%R).
  { rewrite T1. apply Rmax_left. lra. }
  split; [exact T|]. apply IH; auto.
  - intros x Hx. destruct (HM x (or_intror Hx)) as [O' A']. rewrite (w_par _ _ G). split; [exact O'|].
    apply (addressed_kinds w); auto. apply (deliver_kinds w m). exact E.
  - intros x Hx. rewrite T, (T3 HT). specialize (C1 x Hx). lra.
Qed.
End Cb.

(** *** The whole simulation *)
Lemma object_addressed : forall w m s x, mfind (msg_id m) (w_sensors w) = Some x -> object_of s x -> produced_by s m -> addressed w m.
Proof.
  intros w m s x F O P. unfold addressed. destruct s, m; try contradiction; cbn [msg_id] in *; destruct (mfind _ (w_sensors w)) as [y|]; try discriminate; injection F as ->; destruct x; try contradiction; exact I.
Qed.

Lemma simulation_replay : forall svd hull ecef_to_lla mat_quat solve p q pe a t0 b l,
  noise_arg q -> b_index b = 0 ->
  simspecs_ok (world_init (Initialize (EKF_init p q pe a) t0 b)) l ->
  exists ms w, sim_build (world_init (Initialize (EKF_init p q pe a) t0 b)) l = OK (ms, w) /\
    map msg_time ms = flat_map times_of l /\
    (forall m, In m ms -> exists j s x, nth_error l j = Some s /\ msg_id m = S j /\ produced_by s m /\
       mfind (S j) (w_sensors w) = Some x /\ object_of s x) /\
    forall sm, sort_result ms sm -> Permutation ms sm /\ chronological sm /\
      ((forall m, In m ms -> (t0 <= msg_time m)%R) -> in_step svd hull ecef_to_lla mat_quat solve w sm).
Proof.
  intros svd hull ecef mq solve p q pe a t0 b l HQ HB HS.
  set (e0 := Initialize (EKF_init p q pe a) t0 b) in *.
  assert (HW : winv (world_init e0)).
  { destruct (conf_inv (world_init (EKF_init p q pe a)) (OInit t0 b)) as [e' [E W]].
    - apply init_winv. exact HQ.
    - exact I.
    - exact HB.
    - cbn [step] in E. injection E as <-. exact W. }
  destruct (sim_build_ok l _ HW (init_ids e0) HS) as [ms [w [E [W [J [F [N [O [_ [M T]]]]]]]]]].
  exists ms, w. split; [exact E|]. split; [exact T|].
  assert (K : forall m, In m ms -> message_ok (p_root (e_par e0)) m /\ exists j s x, nth_error l j = Some s /\ msg_id m = S j /\ produced_by s m /\
       mfind (S j) (w_sensors w) = Some x /\ object_of s x).
  { intros m Hm. destruct (M m Hm) as [A [j [s [B [C D]]]]]. split; [exact A|]. destruct (O j s B) as [x [X1 X2]].
    exists j, s, x. cbn in *. auto. }
  split; [intros m Hm; apply (K m Hm)|].
  intros sm HSm. destruct (sort_chronological ms sm HSm) as [P C]. split; [exact P|]. split; [exact C|].
  intros HT. unfold frame' in F. decompose [and] F. cbn [w_ekf world_init] in *.
  assert (I0 : e_time_init e0 = true /\ e_ref_time e0 = 0%R /\ e_time e0 = t0) by (unfold e0, Initialize; cbn; auto).
  destruct I0 as [I1 [I2 I3]].
  apply replay_in_step; auto.
  - intros m Hm. apply (Permutation_in m (Permutation_sym P)) in Hm. destruct (K m Hm) as [A [j [s [x [B1 [B2 [B3 [B4 B5]]]]]]]].
    split; [congruence|]. apply (object_addressed w m s x); auto. rewrite B2. exact B4.
  - intros m Hm. apply (Permutation_in m (Permutation_sym P)) in Hm. apply HT in Hm.
    replace (e_ref_time (w_ekf w)) with 0%R by congruence. replace (e_time (w_ekf w)) with t0 by congruence. lra.
Qed.

(** *** Frame numbers *)
Lemma frames_app : forall a b, frames_of (a ++ b) = frames_of a ++ frames_of b.
Proof. intros. unfold frames_of. apply flat_map_app. Qed.
Lemma camera_frames : forall times c id trs fids tracks board ms c', camera_messages c id trs fids times tracks board = (ms, c') ->
  frames_of ms = seq (n_frames c) (length times) /\ n_frames c' = n_frames c + length times.
Proof.
  induction times as [|t times IH]; intros c id trs fids tracks board ms c' E; cbn [camera_messages GenerateFrameID] in E.
  - injection E as <- <-. cbn. split; [reflexivity|lia].
  - destruct (camera_messages _ id trs fids times tracks board) as [ms1 c1] eqn:E1. injection E as <- <-.
    apply IH in E1. destruct E1 as [A B]. cbn [n_frames] in A, B. unfold frames_of in *. cbn [flat_map app length seq]. rewrite A. split; [reflexivity|lia].
Qed.
Lemma add_trackers_frames : forall ts c cam m m' c', add_trackers c cam ts m = (m', c') -> n_frames c' = n_frames c.
Proof.
  induction ts as [|t ts IH]; intros c cam m m' c' E; cbn in E; [injection E as _ <-; reflexivity|].
  apply IH in E. exact E.
Qed.
Lemma add_fiducials_frames : forall fs c e cam m m' c' e', add_fiducials c e cam fs m = OK (m', c', e') -> n_frames c' = n_frames c.
Proof.
  induction fs as [|f fs IH]; intros c e cam m m' c' e' E; cbn [add_fiducials] in E; [injection E as _ <- _; reflexivity|].
  unfold fid_new in E. cbn [new_tracker_id] in E. destruct (guard _) as [g|]; cbn [bind] in E; [|discriminate]. destruct (RegisterFiducial _ _ _) as [e1|]; cbn [bind] in E; [|discriminate].
  apply IH in E. exact E.
Qed.
Lemma sim_add_frames : forall w s ms w', sim_add w s = OK (ms, w') ->
  frames_of ms = seq (n_frames (w_cnt w)) (camera_times [s]) /\ n_frames (w_cnt w') = n_frames (w_cnt w) + camera_times [s].
Proof.
  intros w s ms w' E. destruct s as [p times acc A omg V|p times lla N|p ts fs times tracks board]; cbn [sim_add] in E.
  - unfold imu_new in E. cbn [new_sensor_id] in E. destruct (imu_cov_of p); cbn [bind] in E; [|discriminate].
    destruct (RegisterIMU _ _ _ _); cbn [bind] in E; [|discriminate]. injection E as <- <-. cbn.
    split; [|lia]. induction times; cbn; auto.
  - unfold gps_new in E. cbn [new_sensor_id] in E.
    destruct (RegisterGPS _ _ _ _); cbn [bind] in E; [|discriminate]. injection E as <- <-. cbn.
    split; [|lia]. induction times; cbn; auto.
  - unfold camera_new, cam_new in E. cbn [new_sensor_id] in E.
    destruct (RegisterCamera _ _ _ _) as [e1|]; cbn [bind] in E; [|discriminate].
    destruct (add_trackers _ _ ts []) as [trs c1] eqn:E1. apply add_trackers_frames in E1.
    destruct (add_fiducials _ _ _ fs []) as [[[m2 c2] e2]|] eqn:E2; cbn [bind] in E; [|discriminate].
    apply add_fiducials_frames in E2.
    destruct (camera_messages _ _ _ _ times tracks board) as [ms1 c3] eqn:E3. apply camera_frames in E3.
    injection E as <- <-. cbn in *. destruct E3 as [A B]. rewrite A, B, E2, E1. rewrite Nat.add_0_r. auto.
Qed.
Lemma sim_build_frames : forall l w ms w', sim_build w l = OK (ms, w') ->
  frames_of ms = seq (n_frames (w_cnt w)) (camera_times l).
Proof.
  induction l as [|s l IH]; intros w ms w' E; cbn [sim_build] in E.
  - injection E as <- <-. reflexivity.
  - destruct (sim_add w s) as [[ms1 w1]|] eqn:E1; cbn [bind] in E; [|discriminate].
    destruct (sim_build w1 l) as [[ms2 w2]|] eqn:E2; cbn [bind] in E; [|discriminate]. injection E as <- <-.
    apply sim_add_frames in E1. apply IH in E2. destruct E1 as [A B]. rewrite frames_app, A, E2, B.
    cbn [camera_times fold_right]. rewrite Nat.add_0_r. rewrite seq_app. reflexivity.
Qed.
