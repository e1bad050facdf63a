(** The simulation program as a whole. *)
From Coq Require Import Reals List Arith Bool ZArith String Lia Lra Sorted Permutation.
From Verif Require Import Base.Res Base.Mat Base.RDec Base.Geom Base.AMap Model.TypeHelper Model.Types Model.Ekf
  Model.MathHelper Model.GpsHelper Model.GpsUpdater Model.ImuUpdater Model.FiducialUpdater Model.MsckfUpdater
  Model.Sensors Model.Trackers Model.TruthEngine Model.SimSensors Model.Simulation Model.SimMain
  Spec.History Spec.Same Spec.Rotation Spec.Tracks Spec.AtRest Spec.SimMain
  Proofs.Same Proofs.Follows Proofs.ZeroStep Proofs.RestLookup Proofs.Windows Proofs.Tracks Proofs.SimTracks Proofs.SteadyFrames
  Proofs.TrackFit Proofs.SimGen.
Import ListNotations.
Open Scope nat_scope.

(** *** Sorting keeps the order of a camera *)
Lemma sorted_same : forall A (key : A -> R) l1 l2, StronglySorted Rlt (map key l1) -> StronglySorted Rle (map key l2) ->
  Permutation l1 l2 -> l2 = l1.
Proof.
  intros A key. induction l1 as [|a l1 IH]; intros l2 S1 S2 P; [apply Permutation_nil in P; exact P|].
  destruct l2 as [|b l2]; [apply Permutation_sym, Permutation_nil in P; discriminate|].
  cbn [map] in S1, S2. inversion S1 as [|? ? S1' F1]; subst. inversion S2 as [|? ? S2' F2]; subst.
  rewrite Forall_map, Forall_forall in F1, F2.
  assert (E : In b (a :: l1)) by (eapply Permutation_in; [apply Permutation_sym; exact P|left; reflexivity]).
  assert (E' : In a (b :: l2)) by (eapply Permutation_in; [exact P|left; reflexivity]).
  assert (X : b = a).
  { destruct E as [E|E]; [auto|]. destruct E' as [E'|E']; [auto|]. specialize (F1 b E). specialize (F2 a E'). lra. }
  subst b. f_equal. apply IH; auto. eapply Permutation_cons_inv; eauto.
Qed.
Lemma sort_camera : forall ms sm id, sort_result ms sm -> in_order ms -> filter (of_camera id) sm = filter (of_camera id) ms.
Proof.
  intros ms sm id [P O] I. apply sorted_same with (key := msg_time); [apply I| |].
  - clear P I. induction O as [|a l F O IH]; [constructor|]. cbn [filter]. destruct (of_camera id a); [|exact IH]. cbn [map]. constructor; [exact IH|].
    rewrite Forall_map. apply Forall_forall. intros b B. apply filter_In in B. destruct B as [B _]. rewrite Forall_forall in F.
    specialize (F b B). unfold MessageCompare in F. apply Rltb_false in F. exact F.
  - clear O I. induction P; cbn [filter]; auto.
    + destruct (of_camera id x); auto.
    + destruct (of_camera id x), (of_camera id y); auto. constructor.
    + eapply perm_trans; eauto.
Qed.

(** *** The set-up *)
Definition bump (n : nat) (w : world) : world := mkWorld (SetMaxTrackLength (w_ekf w) n) (w_cnt w) (w_sensors w).
Lemma grows_bump : forall n L w t a w1 t1, grows L w t a w1 t1 -> grows L (bump n w) t a (bump n w1) t1.
Proof.
  intros n L w t a w1 t1 [A1 [A2 [A3 [A4 [A5 [A6 [A7 A8]]]]]]]. unfold grows. cbn [bump w_cnt w_ekf w_sensors].
  split; [exact A1|]. split; [exact A2|]. split; [|auto 10]. destruct A3 as [B1 [B2 [B3 [B4 [B5 B6]]]]].
  split; [exact B1|]. split; [reflexivity|]. auto.
Qed.
Definition sim_start (c : sim_cfg) : world :=
  world_init (Initialize (EKF_init (sim_params c) (sc_noise c) (sc_ref c) (sc_heading c)) 0 (initial_state c)).
Lemma setup_inv : forall project g c ms w t, sim_setup project g c = OK (ms, w, t) ->
  exists t0 m1 w1 t1 m2 w2 t2 m3, truth_of c = OK t0 /\
    add_all add_imu (sim_start c) (set_local t0 (true_ref c) (true_heading c)) (sc_imus c) = OK (m1, w1, t1) /\
    add_all (add_cam project (sc_trackers c) (sc_boards c)) (bump (longest_track c) w1) t1 (sc_cams c) = OK (m2, w2, t2) /\
    add_all (add_gps g) w2 t2 (sc_gps c) = OK (m3, w, t) /\ ms = (m1 ++ m2) ++ m3.
Proof.
  intros project g c ms w t H. unfold sim_setup in H. opn H. opn H. destruct x0 as [[m1 w1] t1]. opn H. destruct x0 as [[m2 w2] t2].
  opn H. destruct x0 as [[m3 w3] t3]. injection H as <- <- <-. exists x, m1, w1, t1, m2, w2, t2, m3. auto.
Qed.
Lemma truth_known : forall c t0, truth_of c = OK t0 -> known (tr_features (set_local t0 (true_ref c) (true_heading c))).
Proof. intros c t0 H. unfold truth_of in H. destruct (sc_engine c); try discriminate; injection H as <-; apply known_start. Qed.
Lemma setup_grows_any : forall L project g c ms w t, (forall n a, named n (sc_trackers c) = Some a -> Nat.max 1 (tc_max_len a) <= L) ->
  sim_setup project g c = OK (ms, w, t) ->
  exists t0, truth_of c = OK t0 /\
    grows L (bump (longest_track c) (sim_start c)) (set_local t0 (true_ref c) (true_heading c)) ms w t.
Proof.
  intros L project g c ms w t HL H. destruct (setup_inv _ _ _ _ _ _ H) as [t0 [m1 [w1 [t1 [m2 [w2 [t2 [m3 [T [A [B [C ->]]]]]]]]]]]].
  exists t0. split; [exact T|].
  assert (G1 : grows L (sim_start c) (set_local t0 (true_ref c) (true_heading c)) m1 w1 t1).
  { eapply grows_all; [|apply truth_known; exact T|exact A]. intros. eapply imu_grows; eauto. }
  assert (G2 : grows L (bump (longest_track c) w1) t1 m2 w2 t2).
  { eapply grows_all; [|apply G1|exact B]. intros. eapply cam_grows; [exact HL|eassumption|eassumption]. }
  assert (G3 : grows L w2 t2 m3 w t).
  { eapply grows_all; [|apply G2|exact C]. intros. eapply gps_grows; eauto. }
  eapply grows_trans; [|exact G3]. eapply grows_trans; [|exact G2]. apply grows_bump. exact G1.
Qed.
Lemma setup_grows : forall project g c ms w t, 1 <= longest_track c -> sim_setup project g c = OK (ms, w, t) ->
  exists t0, truth_of c = OK t0 /\
    grows (longest_track c) (bump (longest_track c) (sim_start c)) (set_local t0 (true_ref c) (true_heading c)) ms w t.
Proof.
  intros project g c ms w t L H. apply (setup_grows_any _ project g); [|exact H].
  intros n a0 E. pose proof (longest_ge c n a0 E). lia.
Qed.

(** *** Frames *)
Section Replays.
Variable svd : m2 -> m2 * m2.
Variable hull : list (Z * Z) -> list (Z * Z).
Variable ecef_to_lla : V3 -> V3.
Variable mat_quat : mat R -> quat.
Variable solve : mat R -> V3 -> V3.
Lemma deliver_sensors : forall w m w' id, deliver svd hull ecef_to_lla mat_quat solve w m = OK w' ->
  mfind id (w_sensors w) <> None -> mfind id (w_sensors w') <> None.
Proof.
  intros w m w' id H N. assert (S : forall j s, mfind id (mset j s (w_sensors w)) <> None).
  { intros j s. destruct (Nat.eq_dec id j) as [->|D]; [rewrite mfind_mset_eq; discriminate|rewrite mfind_mset_neq by exact D; exact N]. }
  unfold deliver in H. destruct (mfind (msg_id m) (w_sensors w)) as [s|]; [|injection H as <-; exact N].
  destruct m; destruct s; try discriminate; try (injection H as <-; exact N); opn H.
  - destruct x as [u' e']. injection H as <-. apply S.
  - destruct x as [u' e']. injection H as <-. apply S.
  - destruct x as [[trs' fids'] e']. injection H as <-. apply S.
Qed.
Lemma frames_stored : forall L sm w (h : nat -> list nat), 1 <= L -> e_max_len (w_ekf w) = L ->
  Forall (fun m => mfind (msg_id m) (w_sensors w) <> None) sm ->
  (forall id, per_frame (w_ekf w) id = true -> frames_at (w_ekf w) id = last_n L (h id)) ->
  (forall id, fit L (h id) (filter (of_camera id) sm)) ->
  each_delivery svd hull ecef_to_lla mat_quat solve tracks_stored w sm.
Proof.
  intros L. induction sm as [|m sm IH]; intros w h P ML I W F; cbn [each_delivery]; [exact Logic.I|].
  inversion I as [|? ? I1 I2]; subst x l. split.
  - destruct m as [id t acc A omg WW|id t lla NN|id t frame tracks boards|id t]; cbn [tracks_stored]; auto.
    intros PF k l tr pt T1 T2 T3. specialize (F id). cbn [filter of_camera] in F. rewrite Nat.eqb_refl in F. cbn [fit] in F.
    destruct F as [F _]. specialize (F k l tr pt T1 T2 T3). rewrite <- next_frames_last in F by exact P.
    rewrite <- (W id PF) in F. unfold next_frames, frames_at in F. rewrite map_length in F. unfold frames_after. rewrite ML.
    apply in_app_or in F. destruct F as [F|[F|[]]]; [right|left; exact F].
    destruct (Nat.ltb (List.length (aug_at (w_ekf w) id)) L); [exact F|]. destruct (aug_at (w_ekf w) id); exact F.
  - intros w' D.
    set (h' := fun id => match m with MCam i _ f _ _ => if Nat.eqb i id then h id ++ [f] else h id | _ => h id end).
    assert (DS := fun k => deliver_steady _ _ _ _ _ w m w' k D I1).
    assert (PE : forall k, per_frame (w_ekf w') k = per_frame (w_ekf w) k).
    { intros k. destruct (DS k) as [D1 [D2 _]]. unfold per_frame. rewrite D1, D2. reflexivity. }
    apply (IH w' h').
    + exact P.
    + destruct (DS 0) as [_ [_ [D3 _]]]. congruence.
    + eapply Forall_impl; [|exact I2]. cbv beta. intros x X. eapply deliver_sensors; eauto.
    + intros id PF. rewrite PE in PF. destruct (DS id) as [_ [_ [_ D4]]]. rewrite (D4 PF), ML, (W id PF). unfold own_frame, h'.
      destruct m as [id' t acc A omg WW|id' t lla NN|id' t frame tracks boards|id' t]; try reflexivity.
      destruct (Nat.eqb id' id); [|reflexivity]. apply next_frames_last. exact P.
    + intros id. specialize (F id). cbn [filter] in F. unfold h'.
      destruct m as [id' t acc A omg WW|id' t lla NN|id' t frame tracks boards|id' t]; cbn [of_camera] in F; try exact F.
      destruct (Nat.eqb_spec id' id) as [E|E]; [cbn [fit] in F; apply F|exact F].
Qed.
Theorem all_stored : forall project c ms w t sm, sim_setup project ecef_to_lla c = OK (ms, w, t) -> 1 <= longest_track c ->
  in_order ms -> sort_result ms sm -> each_delivery svd hull ecef_to_lla mat_quat solve tracks_stored w sm.
Proof.
  intros project c ms w t sm H L O S. destruct (setup_grows _ _ _ _ _ _ L H) as [t0 [_ [_ [_ [St [_ [_ [I [_ F]]]]]]]]].
  destruct St as [_ [S2 [_ [_ [_ S6]]]]]. apply (frames_stored (longest_track c) sm w (fun _ => [])).
  - exact L.
  - rewrite S2. reflexivity.
  - apply Forall_forall. intros m M. rewrite Forall_forall in I. apply I. eapply Permutation_in; [apply Permutation_sym; apply S|exact M].
  - intros id _. rewrite S6. reflexivity.
  - intros id. rewrite (sort_camera _ _ id S O). apply F.
Qed.

(** *** Without trackers *)
Lemma replay_none : forall sm w w' k, replay svd hull ecef_to_lla mat_quat solve w sm = OK w' -> p_aug (e_par (w_ekf w)) = ANone ->
  frames_at (w_ekf w') k = frames_at (w_ekf w) k.
Proof.
  induction sm as [|m sm IH]; intros w w' k H N; cbn [replay] in H; [injection H as <-; reflexivity|].
  opn H. destruct (deliver_none _ _ _ _ _ _ _ _ k B N) as [E F]. rewrite <- F. apply IH; [exact H|congruence].
Qed.
Theorem never_cloned : forall project c ms w t sm w' id, sc_trackers c = [] -> sim_setup project ecef_to_lla c = OK (ms, w, t) ->
  replay svd hull ecef_to_lla mat_quat solve w sm = OK w' -> aug_at (w_ekf w) id = [] /\ aug_at (w_ekf w') id = [].
Proof.
  intros project c ms w t sm w' id T H R.
  destruct (setup_grows_any 1 _ _ _ _ _ _ ltac:(intros n a E; rewrite T in E; discriminate) H) as [t0 [_ [_ [_ [[S1 S2] _]]]]].
  assert (A : frames_at (w_ekf w) id = []) by (destruct S2 as [_ [_ [_ [_ S6]]]]; rewrite S6; reflexivity).
  split; [exact (map_eq_nil _ _ A)|]. apply (map_eq_nil a_frame). change (frames_at (w_ekf w') id = []).
  rewrite (replay_none _ _ _ id R); [exact A|]. rewrite S1. cbn. unfold sim_params. rewrite T. reflexivity.
Qed.
End Replays.
