(** The truth file of the simulation program. *)
From Coq Require Import Reals List Arith Bool ZArith String Lia Lra.
From Verif Require Import Base.Res Base.Mat Base.RDec Base.Geom Base.AMap Model.TypeHelper Model.Types Model.Ekf
  Model.MathHelper Model.GpsHelper Model.GpsUpdater Model.ImuUpdater Model.FiducialUpdater Model.MsckfUpdater
  Model.Sensors Model.Trackers Model.TruthEngine Model.SimSensors Model.Simulation Model.SimMain
  Spec.History Spec.Same Spec.Rotation Spec.Tracks Spec.AtRest Spec.SimMain
  Proofs.Same Proofs.Follows Proofs.ZeroStep Proofs.Windows Proofs.Tracks Proofs.SimTracks Proofs.SteadyFrames Proofs.TrackFit Proofs.SimGen Proofs.SimMain.
Import ListNotations.
Open Scope nat_scope.

Lemma mset_fresh_length : forall A k (v : A) m, mfind k m = None -> List.length (mset k v m) = S (List.length m).
Proof.
  induction m as [|[k' v'] m IH]; intros H; [reflexivity|]. cbn [mset mfind] in *. destruct (Nat.eqb k k'); [discriminate|].
  destruct (Nat.ltb k k'); [reflexivity|]. cbn [List.length]. rewrite IH by exact H. reflexivity.
Qed.
(** Nothing filed above [n]. *)
Definition fresh (n : nat) (t : truth) : Prop := forall k, n < k ->
  mfind k (tr_imu_pos t) = None /\ mfind k (tr_cam_pos t) = None /\ mfind k (tr_gps_pos t) = None.
Definition imu_filed (t : truth) (id : nat) (x : imu_cfg * draws) : Prop :=
  exists p q a o, mfind id (tr_imu_pos t) = Some p /\ mfind id (tr_imu_ang t) = Some q /\ mfind id (tr_acc_bias t) = Some a /\
    mfind id (tr_omg_bias t) = Some o /\ imu_columns x = three p ++ four q ++ three a ++ three o.
Definition cam_filed (t : truth) (id : nat) (x : cam_cfg * draws) : Prop :=
  exists p q, mfind id (tr_cam_pos t) = Some p /\ mfind id (tr_cam_ang t) = Some q /\ cam_columns x = three p ++ four q.
Definition gps_filed (t : truth) (id : nat) (x : gps_cfg * draws) : Prop :=
  exists p, mfind id (tr_gps_pos t) = Some p /\ gps_columns x = three p.
Lemma imu_kept : forall n k t t' id x, covers n k t t' -> id <= n -> imu_filed t id x -> imu_filed t' id x.
Proof.
  intros n k t t' id x [_ [_ [_ [_ [C _]]]]] L [p [q [a [o [H1 [H2 [H3 [H4 H5]]]]]]]]. destruct (C id L) as [[E1 [E2 [E3 E4]]] _].
  exists p, q, a, o. rewrite E1, E2, E3, E4. auto.
Qed.
Lemma cam_kept : forall n k t t' id x, covers n k t t' -> id <= n -> cam_filed t id x -> cam_filed t' id x.
Proof.
  intros n k t t' id x [_ [_ [_ [_ [C _]]]]] L [p [q [H1 [H2 H3]]]]. destruct (C id L) as [_ [[E1 [E2 _]] _]].
  exists p, q. rewrite E1, E2. auto.
Qed.
Lemma gps_kept : forall n k t t' id x, covers n k t t' -> id <= n -> gps_filed t id x -> gps_filed t' id x.
Proof.
  intros n k t t' id x [_ [_ [_ [_ [C _]]]]] L [p [H1 H2]]. destruct (C id L) as [_ [_ E1]]. exists p. rewrite E1. auto.
Qed.
Definition sizes (t : truth) : nat * nat * nat := (List.length (tr_imu_pos t), List.length (tr_cam_pos t), List.length (tr_gps_pos t)).

Lemma filed_all : forall A L (f : world -> truth -> A -> res (list message * world * truth)) (filed : truth -> nat -> A -> Prop)
  (size : truth -> nat) (B : Type) (rest : truth -> B) l,
  (forall n k t t' id x, covers n k t t' -> id <= n -> filed t id x -> filed t' id x) ->
  (forall w t a ms w' t', In a l -> known (tr_features t) -> f w t a = OK (ms, w', t') -> grows L w t ms w' t') ->
  (forall w t a ms w' t', In a l -> known (tr_features t) -> f w t a = OK (ms, w', t') -> fresh (n_sensors (w_cnt w)) t ->
     n_sensors (w_cnt w') = S (n_sensors (w_cnt w)) /\ fresh (S (n_sensors (w_cnt w))) t' /\ filed t' (S (n_sensors (w_cnt w))) a /\
     size t' = S (size t) /\ rest t' = rest t) ->
  forall w t ms w' t', known (tr_features t) -> add_all f w t l = OK (ms, w', t') -> fresh (n_sensors (w_cnt w)) t ->
    n_sensors (w_cnt w') = n_sensors (w_cnt w) + List.length l /\ fresh (n_sensors (w_cnt w')) t' /\
    size t' = size t + List.length l /\ rest t' = rest t /\
    forall i x, nth_error l i = Some x -> filed t' (S (n_sensors (w_cnt w)) + i) x.
Proof.
  intros A L f filed size B rest. induction l as [|a l IH]; intros Kp HG HS w t ms w' t' K H Fr; cbn [add_all] in H.
  - injection H as <- <- <-. cbn [List.length]. rewrite !Nat.add_0_r. repeat (split; [auto|]). intros [|i] x X; discriminate X.
  - opn H. destruct x as [[m1 w1] t1]. opn H. destruct x as [[m2 w2] t2]. injection H as <- <- <-.
    pose proof (HG _ _ _ _ _ _ (or_introl eq_refl) K B0) as G1.
    assert (G2 : grows L w1 t1 m2 w2 t2).
    { eapply grows_all; [|apply G1|exact B1]. intros. eapply HG; eauto. right. assumption. }
    destruct (HS _ _ _ _ _ _ (or_introl eq_refl) K B0 Fr) as [N1 [F1 [D1 [Z1 R1]]]].
    assert (F1' : fresh (n_sensors (w_cnt w1)) t1) by (rewrite N1; exact F1).
    destruct (IH Kp (fun w t a ms w' t' I => HG w t a ms w' t' (or_intror I)) (fun w t a ms w' t' I => HS w t a ms w' t' (or_intror I))
      w1 t1 m2 w2 t2) as [N2 [F2 [Z2 [R2 D2]]]]; auto; [apply G1|].
    cbn [List.length]. split; [lia|]. split; [exact F2|]. split; [lia|]. split; [congruence|].
    intros [|i] x X.
    + injection X as <-. rewrite Nat.add_0_r. eapply Kp; [apply G2| |exact D1]. lia.
    + specialize (D2 i x X). rewrite N1 in D2. replace (S (n_sensors (w_cnt w)) + S i) with (S (S (n_sensors (w_cnt w))) + i) by lia. exact D2.
Qed.
Ltac above := rewrite ?mfind_mset_neq by lia; auto.
Lemma imu_step : forall w t a ms w' t', add_imu w t a = OK (ms, w', t') -> fresh (n_sensors (w_cnt w)) t ->
  n_sensors (w_cnt w') = S (n_sensors (w_cnt w)) /\ fresh (S (n_sensors (w_cnt w))) t' /\ imu_filed t' (S (n_sensors (w_cnt w))) a /\
  List.length (tr_imu_pos t') = S (List.length (tr_imu_pos t)) /\ (tr_cam_pos t', tr_gps_pos t') = (tr_cam_pos t, tr_gps_pos t).
Proof.
  intros w t [c d] ms w' t' H Fr. unfold add_imu in H. opn H. destruct x as [[[id s] cn] e]. opn H. opn H. injection H as <- <- <-.
  destruct (imu_new_is _ _ _ _ _ _ _ B) as [-> [N1 _]]. cbn [install w_cnt]. split; [exact N1|].
  destruct (Fr (S (n_sensors (w_cnt w))) (le_n _)) as [E _].
  unfold sim_imu_new, imu_filed, imu_columns. destruct (ic_no_errors c); (split; [|split; [|split]]);
    try (intros k Lk; destruct (Fr k ltac:(lia)) as [F1 [F2 F3]]; cbn [set_imu tr_imu_pos tr_cam_pos tr_gps_pos]; above; fail);
    try (cbn [set_imu tr_imu_pos tr_imu_ang tr_acc_bias tr_omg_bias]; rewrite !mfind_mset_eq; do 4 eexists; do 4 (split; [reflexivity|]); reflexivity);
    try reflexivity; cbn [set_imu tr_imu_pos]; apply mset_fresh_length; exact E.
Qed.
Lemma gps_step : forall g w t a ms w' t', add_gps g w t a = OK (ms, w', t') -> fresh (n_sensors (w_cnt w)) t ->
  n_sensors (w_cnt w') = S (n_sensors (w_cnt w)) /\ fresh (S (n_sensors (w_cnt w))) t' /\ gps_filed t' (S (n_sensors (w_cnt w))) a /\
  List.length (tr_gps_pos t') = S (List.length (tr_gps_pos t)) /\ (tr_imu_pos t', tr_cam_pos t') = (tr_imu_pos t, tr_cam_pos t).
Proof.
  intros g w t [c d] ms w' t' H Fr. unfold add_gps in H. opn H. destruct x as [[[id s] cn] e]. opn H. opn H. injection H as <- <- <-.
  destruct (gps_new_is _ _ _ _ _ _ _ B) as [-> [N1 _]]. cbn [install w_cnt]. split; [exact N1|].
  destruct (Fr (S (n_sensors (w_cnt w))) (le_n _)) as [_ [_ E]].
  unfold sim_gps_new, gps_filed, gps_columns. cbn [set_gps tr_imu_pos tr_cam_pos tr_gps_pos]. split; [|split; [|split]].
  - intros k Lk. destruct (Fr k ltac:(lia)) as [F1 [F2 F3]]. cbn [set_gps tr_imu_pos tr_cam_pos tr_gps_pos]. above.
  - rewrite mfind_mset_eq. eexists. split; reflexivity.
  - apply mset_fresh_length. exact E.
  - reflexivity.
Qed.
Lemma cam_step : forall project trackers boards w t a ms w' t', add_cam project trackers boards w t a = OK (ms, w', t') ->
  known (tr_features t) -> fresh (n_sensors (w_cnt w)) t ->
  n_sensors (w_cnt w') = S (n_sensors (w_cnt w)) /\ fresh (S (n_sensors (w_cnt w))) t' /\ cam_filed t' (S (n_sensors (w_cnt w))) a /\
  List.length (tr_cam_pos t') = S (List.length (tr_cam_pos t)) /\ (tr_imu_pos t', tr_gps_pos t') = (tr_imu_pos t, tr_gps_pos t).
Proof.
  intros project trackers boards w t [c d] ms w' t' H K Fr.
  destruct (cam_inv _ _ _ _ _ _ _ _ _ _ H) as [tk [bd [ts [fs [id [s [cnt [e [times [cnt' [C1 [C2 [C3 [C4 [C5 [C6 [C7 [C8 ->]]]]]]]]]]]]]]]]]].
  destruct (camera_new_is _ _ _ _ _ _ _ _ _ C5) as [_ [N1 _]].
  destruct (frames_made (fun _ _ => True) (match tk with Some a => Nat.max 1 (tc_max_len a) | None => 0 end) _ _ _ _ _ _ _ _ _ _ _ _ [] C8) as [M1 [_ [_ [[f ->] _]]]].
  { rewrite cam_truth_features. exact K. }
  { intros k st E. unfold cam_tracker in E. destruct tk as [a|]; [|discriminate]. injection E as <- <-. apply ready_new. lia. }
  { constructor. } { auto. }
  cbn [w_cnt]. split; [lia|]. clear C8.
  assert (X : exists p q, tr_cam_pos (cam_truth c d w t tk bd) = mset id p (tr_cam_pos t) /\ tr_cam_ang (cam_truth c d w t tk bd) = mset id q (tr_cam_ang t) /\
    tr_imu_pos (cam_truth c d w t tk bd) = tr_imu_pos t /\ tr_gps_pos (cam_truth c d w t tk bd) = tr_gps_pos t /\ cam_columns (c, d) = three p ++ four q).
  { unfold cam_truth, cam_board, cam_columns, sim_cam_new, sim_board_new. rewrite <- C6.
    destruct bd as [b0|]; cbv zeta; cbn [bc_no_errors]; [destruct (bc_no_errors b0 || cc_no_errors c)|]; destruct (cc_no_errors c);
      do 2 eexists; do 4 (split; [reflexivity|]); reflexivity. }
  destruct X as [pp [qq [X1 [X2 [X3 [X4 X5]]]]]]. unfold fresh, cam_filed. cbn [set_features tr_imu_pos tr_cam_pos tr_cam_ang tr_gps_pos].
  rewrite X1, X2, X3, X4, <- C6. split; [|split; [|split]].
  - intros k Lk. destruct (Fr k ltac:(lia)) as [F1 [F2 F3]]. above.
  - rewrite !mfind_mset_eq. exists pp, qq. auto.
  - apply mset_fresh_length. rewrite C6. apply (Fr _ (le_n _)).
  - reflexivity.
Qed.

Lemma mapM_filed : forall A B (f : nat -> res B) (g : A -> B) l n, (forall i x, nth_error l i = Some x -> f (n + i) = OK (g x)) ->
  mapM f (seq n (List.length l)) = OK (map g l).
Proof.
  intros A B f g. induction l as [|a l IH]; intros n H; [reflexivity|]. cbn [List.length seq mapM map].
  pose proof (H 0 a eq_refl) as H0. rewrite Nat.add_0_r in H0. rewrite H0. cbn [bind].
  rewrite (IH (S n)); [reflexivity|]. intros i x X. specialize (H (S i) x X). rewrite <- H. f_equal. lia.
Qed.
Theorem truth_rows_are : forall project g c ms w t, sim_setup project g c = OK (ms, w, t) ->
  exists t0, truth_of c = OK t0 /\ forall time b, body_columns (tr_body t0) time b ->
    truth_row t time = OK (time :: b ++ sensor_columns c).
Proof.
  intros project g c ms w t H.
  destruct (setup_inv _ _ _ _ _ _ H) as [t0 [m1 [w1 [t1 [m2 [w2 [t2 [m3 [T [A [B [C ->]]]]]]]]]]]].
  exists t0. split; [exact T|]. set (L := Nat.max 1 (longest_track c)) in *.
  assert (HG1 : forall w t a ms w' t', In a (sc_imus c) -> known (tr_features t) -> add_imu w t a = OK (ms, w', t') -> grows L w t ms w' t')
    by (intros; eapply imu_grows; eauto).
  assert (HG2 : forall w t a ms w' t', In a (sc_cams c) -> known (tr_features t) -> add_cam project (sc_trackers c) (sc_boards c) w t a = OK (ms, w', t') -> grows L w t ms w' t').
  { intros. eapply cam_grows; [|eassumption|eassumption]. intros n a0 E. pose proof (longest_ge c n a0 E). unfold L. lia. }
  assert (HG3 : forall w t a ms w' t', In a (sc_gps c) -> known (tr_features t) -> add_gps g w t a = OK (ms, w', t') -> grows L w t ms w' t')
    by (intros; eapply gps_grows; eauto).
  assert (K0 := truth_known _ _ T). pose proof (grows_all _ _ _ _ _ _ _ _ _ HG1 K0 A) as G1.
  assert (K1 : known (tr_features t1)) by apply G1. pose proof (grows_all _ _ _ _ _ _ _ _ _ HG2 K1 B) as G2.
  assert (K2 : known (tr_features t2)) by apply G2. pose proof (grows_all _ _ _ _ _ _ _ _ _ HG3 K2 C) as G3.
  assert (F0 : fresh (n_sensors (w_cnt (sim_start c))) (set_local t0 (true_ref c) (true_heading c)) /\
    sizes (set_local t0 (true_ref c) (true_heading c)) = (0, 0, 0)).
  { unfold truth_of in T. destruct (sc_engine c); try discriminate; injection T as <-; split; [intros k _; repeat split|reflexivity|intros k _; repeat split|reflexivity|intros k _; repeat split|reflexivity]. }
  destruct F0 as [F0 Z0]. injection Z0 as Z01 Z02 Z03.
  destruct (filed_all _ L add_imu imu_filed (fun t => List.length (tr_imu_pos t)) _ (fun t => (tr_cam_pos t, tr_gps_pos t)) (sc_imus c) imu_kept HG1
    (fun w t a ms w' t' _ _ => imu_step w t a ms w' t') _ _ _ _ _ K0 A F0) as [N1 [F1 [S1 [R1 D1]]]].
  destruct (filed_all _ L (add_cam project (sc_trackers c) (sc_boards c)) cam_filed (fun t => List.length (tr_cam_pos t)) _ (fun t => (tr_imu_pos t, tr_gps_pos t)) (sc_cams c) cam_kept HG2
    (fun w t a ms w' t' _ K H => cam_step _ _ _ w t a ms w' t' H K) _ _ _ _ _ K1 B F1) as [N2 [F2 [S2 [R2 D2]]]].
  destruct (filed_all _ L (add_gps g) gps_filed (fun t => List.length (tr_gps_pos t)) _ (fun t => (tr_imu_pos t, tr_cam_pos t)) (sc_gps c) gps_kept HG3
    (fun w t a ms w' t' _ _ => gps_step g w t a ms w' t') _ _ _ _ _ K2 C F2) as [N3 [F3 [S3 [R3 D3]]]].
  cbv beta in *. cbn [set_local tr_imu_pos] in S1. injection R1 as R11 R12. injection R2 as R21 R22. injection R3 as R31 R32. cbn [bump w_cnt] in *.
  change (n_sensors (w_cnt (sim_start c))) with 0 in *.
  assert (L1 : List.length (tr_imu_pos t) = List.length (sc_imus c)) by (rewrite R31, R21, S1; lia).
  assert (L2 : List.length (tr_cam_pos t) = List.length (sc_cams c)) by (rewrite R32, S2, R11; lia).
  assert (L3 : List.length (tr_gps_pos t) = List.length (sc_gps c)) by (rewrite S3, R22, R12; lia).
  assert (GC : tr_body t = tr_body t0 /\ tr_ref t = true_ref c /\ tr_heading t = Some (true_heading c)).
  { destruct G1 as [_ [_ [_ [_ [[X1 [_ [X2 [X3 _]]]] _]]]]]. destruct G2 as [_ [_ [_ [_ [[Y1 [_ [Y2 [Y3 _]]]] _]]]]].
    destruct G3 as [_ [_ [_ [_ [[V1 [_ [V2 [V3 _]]]] _]]]]]. rewrite V1, V2, V3, Y1, Y2, Y3, X1, X2, X3. auto. }
  destruct GC as [GB [GR GH]].
  intros time b [p0 [v [a [q [om [al [E1 [E2 [E3 [E4 [E5 [E6 ->]]]]]]]]]]]]. unfold truth_row. rewrite L1, L2, L3, GB.
  rewrite E1, E2, E3, E4, E5, E6. cbn [bind].
  assert (D1' : forall i x, nth_error (sc_imus c) i = Some x -> imu_filed t (1 + i) x).
  { intros i x X. assert (I : i < List.length (sc_imus c)) by (apply nth_error_Some; congruence).
    apply (imu_kept _ _ t2 t _ _ (proj1 (proj2 (proj2 (proj2 (proj2 G3)))))); [lia|].
    apply (imu_kept _ _ t1 t2 _ _ (proj1 (proj2 (proj2 (proj2 (proj2 G2)))))); [cbn [bump w_cnt]; lia|]. apply D1. exact X. }
  assert (D2' : forall i x, nth_error (sc_cams c) i = Some x -> cam_filed t (1 + List.length (sc_imus c) + i) x).
  { intros i x X. assert (I : i < List.length (sc_cams c)) by (apply nth_error_Some; congruence).
    apply (cam_kept _ _ t2 t _ _ (proj1 (proj2 (proj2 (proj2 (proj2 G3)))))); [lia|]. rewrite N1 in D2. apply D2. exact X. }
  assert (D3' : forall i x, nth_error (sc_gps c) i = Some x -> gps_filed t (1 + List.length (sc_imus c) + List.length (sc_cams c) + i) x).
  { intros i x X. rewrite N2, N1 in D3. apply D3. exact X. }
  rewrite (mapM_filed _ _ _ imu_columns (sc_imus c) 1).
  2: { intros i x X. destruct (D1' i x X) as [p1 [q1 [a1 [o1 [H1 [H2 [H3 [H4 ->]]]]]]]].
    unfold GetImuPosition, GetImuAngularPosition, GetImuAccelerometerBias, GetImuGyroscopeBias, tget. rewrite H1, H2, H3, H4. reflexivity. }
  rewrite (mapM_filed _ _ _ cam_columns (sc_cams c)).
  2: { intros i x X. destruct (D2' i x X) as [p1 [q1 [H1 [H2 ->]]]]. unfold GetCameraPosition, GetCameraAngularPosition, tget. rewrite H1, H2. reflexivity. }
  rewrite (mapM_filed _ _ _ gps_columns (sc_gps c)).
  2: { intros i x X. destruct (D3' i x X) as [p1 [H1 ->]]. unfold GetGpsPosition, tget. rewrite H1. reflexivity. }
  cbn [bind]. unfold sensor_columns, GetLocalHeading, GetLocalPosition. rewrite GH, GR.
  destruct (sc_gps c) as [|x l]; cbn [List.length Nat.eqb bind]; unfold three, four; cbn [app]; reflexivity.
Qed.
