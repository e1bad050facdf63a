(** What a configuration has to say for the simulation to be set up. *)
From Coq Require Import Reals List Arith Bool String Lia Lra.
From Verif Require Import Base.Res Base.Mat Base.RDec Base.LinAlg Base.Geom Base.AMap Model.TypeHelper Model.Types Model.Ekf Model.MathHelper Base.RMat
  Model.Sensors Model.TruthEngine Model.SimSensors Model.Simulation Model.SimMain Model.SimConfig
  Spec.Same Spec.Ros Spec.Config Proofs.Same Proofs.Follows Proofs.ZeroStep Proofs.RestLookup Proofs.SimGen Proofs.SimMain Proofs.Config.
Import ListNotations.
Open Scope nat_scope.

(** *** Cameras are numbered by the sensor counter *)
Definition numbered (n : nat) (e : ekf) : Prop := forall k s, mfind k (s_cam (e_state e)) = Some s -> k <= n.
Lemma numbered_refresh : forall n e e', RefreshIndices e = OK e' -> numbered n e -> numbered n e'.
Proof.
  intros n e e' H F k s K. apply refresh_bare in H. destruct H as [B1 _]. destruct (bare_parts _ _ B1) as [_ [_ [_ [Z _]]]].
  pose proof (mfind_bare _ _ k _ _ Z) as Z2. rewrite K in Z2. destruct (mfind k (s_cam (e_state e))) as [s0|] eqn:E; [|discriminate].
  eapply F. exact E.
Qed.
Lemma numbered_same : forall n e e', s_cam (e_state e') = s_cam (e_state e) -> numbered n e -> numbered n e'.
Proof. intros n e e' H F k s K. rewrite H in K. eauto. Qed.
Lemma numbered_imu : forall n e id st cov e', RegisterIMU e id st cov = OK e' -> numbered n e -> numbered n e'.
Proof.
  intros n e id st cov e' H F. unfold RegisterIMU in H. destruct (mfind id _); [injection H as <-; exact F|].
  opn H. assert (X : s_cam (e_state x) = s_cam (e_state e)).
  { destruct (_ || _); [opn B; opn B|]; injection B as <-; reflexivity. }
  match type of H with RefreshIndices ?g = _ => assert (Y : s_cam (e_state g) = s_cam (e_state x)) by (destruct (i_ext st), (i_int st); reflexivity) end.
  eapply numbered_refresh; [exact H|]. eapply numbered_same; [|exact F]. congruence.
Qed.
Lemma numbered_fid : forall n e st cov e', RegisterFiducial e st cov = OK e' -> numbered n e -> numbered n e'.
Proof.
  intros n e st cov e' H F. unfold RegisterFiducial in H. destruct (mfind (f_id st) _); [injection H as <-; exact F|].
  opn H. eapply numbered_refresh; [exact H|]. eapply numbered_same; [|exact F]. destruct (f_ext st); [opn B; opn B|]; injection B as <-; reflexivity.
Qed.
Lemma numbered_cam : forall n e st cov e', RegisterCamera e (S n) st cov = OK e' -> numbered n e -> c_size st <= 6 ->
  numbered (S n) e' /\ (c_ext st = true -> c_size st <= nr cov) /\ c_rate st <> 0%R.
Proof.
  intros n e st cov e' H F C. unfold RegisterCamera in H. destruct (mfind (S n) (s_cam (e_state e))) as [s0|] eqn:E.
  { specialize (F _ _ E). lia. }
  opn H. cbv zeta in H. opn H. split; [|split].
  - eapply numbered_refresh; [exact H|].
    assert (X : s_cam (e_state x0) = mset (S n) st (s_cam (e_state e))).
    { destruct (c_ext st); [opn B0; opn B0|]; injection B0 as <-; destruct (Nat.eqb _ 0); reflexivity. }
    intros k s K. rewrite X in K. destruct (Nat.eq_dec k (S n)) as [->|N]; [lia|]. rewrite mfind_mset_neq in K by exact N. specialize (F _ _ K). lia.
  - intros Ex. rewrite Ex in B0. opn B0. apply block_inv in B1. lia.
  - unfold rdiv in B. intros Z. rewrite Z in B. unfold Reqb in B. destruct (Req_EM_T 0 0); [discriminate|lra].
Qed.
Lemma numbered_fids : forall n fs c e cam m m' c' e', add_fiducials c e cam fs m = OK (m', c', e') -> numbered n e ->
  numbered n e' /\ n_sensors c' = n_sensors c /\ Forall (fun p => 6 <= List.length (fp_var p)) fs.
Proof.
  intros n. induction fs as [|p fs IH]; intros c e cam m m' c' e' H F; cbn [add_fiducials] in H.
  - injection H as _ <- <-. auto.
  - opn H. destruct x as [[[id u] c1] e1]. unfold fid_new, new_tracker_id in B. opn B. opn B. injection B as <- <- <- <-.
    unfold guard in B0. destruct (Nat.leb 6 _) eqn:L; [|discriminate]. apply Nat.leb_le in L.
    destruct (IH _ _ _ _ _ _ _ H) as [A1 [A2 A3]]; [eapply numbered_fid; eauto|]. cbn in A2. auto.
Qed.
Lemma trackers_sensors : forall ts c cam m m' c', add_trackers c cam ts m = (m', c') -> n_sensors c' = n_sensors c.
Proof.
  induction ts as [|p ts IH]; intros c cam m m' c' H; cbn [add_trackers] in H; [injection H as _ <-; reflexivity|].
  unfold tracker_new, new_tracker_id in H. apply IH in H. exact H.
Qed.
Lemma frames_sensors : forall project id d board times c t i trk ms c' t',
  sim_frames project id d board c t i trk times = OK (ms, c', t') -> n_sensors c' = n_sensors c.
Proof.
  intros project id d board. induction times as [|time times IH]; intros c t i trk ms c' t' H; cbn [sim_frames] in H; [injection H as _ <- _; reflexivity|].
  unfold GenerateFrameID in H. opn H. destruct x as [[tr trk1] t1]. opn H. opn H. destruct x0 as [[ms1 c1] t2]. injection H as _ <- _.
  apply IH in B1. exact B1.
Qed.
Lemma times_rate : forall ne u noise T r l, GenerateMeasurementTimes ne u noise T r = OK l -> r <> 0%R.
Proof.
  intros ne u noise T r l H Z. unfold GenerateMeasurementTimes, guard in H. rewrite Z in H. unfold Reqb in H.
  destruct (Req_EM_T 0 0); [discriminate|lra].
Qed.

(** *** Sensor by sensor *)
Definition imu_needs (c : imu_cfg) : Prop :=
  (ip_ext (ic_par c) || ip_int (ic_par c) = true -> 6 <= List.length (ip_var (ic_par c))) /\
  (ip_ext (ic_par c) && ip_int (ic_par c) = true -> 12 <= List.length (ip_var (ic_par c))) /\ ic_rate c <> 0%R.
Lemma imu_needed : forall w t c d ms w' t', add_imu w t (c, d) = OK (ms, w', t') -> numbered (n_sensors (w_cnt w)) (w_ekf w) ->
  numbered (n_sensors (w_cnt w')) (w_ekf w') /\ imu_needs c.
Proof.
  intros w t c d ms w' t' H F. unfold add_imu in H. opn H. destruct x as [[[id s] cn] e].
  unfold imu_new, new_sensor_id in B. opn B. opn B. injection B as <- <- <- <-. opn H. opn H. injection H as _ <- _.
  split.
  - cbn. intros k s K. pose proof (numbered_imu _ _ _ _ _ _ B1 F k s K). lia.
  - split; [|split].
    + intros Ex. unfold imu_cov_of in B0. destruct (ip_ext (ic_par c) && ip_int (ic_par c)).
      * opn B0. unfold head_segment, guard in B3. destruct (Nat.leb 12 _) eqn:L; [|discriminate]. apply Nat.leb_le in L.
        unfold MinBoundVector in L. rewrite map_length in L. lia.
      * rewrite Ex in B0. opn B0. unfold head_segment, guard in B3. destruct (Nat.leb 6 _) eqn:L; [|discriminate]. apply Nat.leb_le in L.
        unfold MinBoundVector in L. rewrite map_length in L. lia.
    + intros Ex. unfold imu_cov_of in B0. rewrite Ex in B0. opn B0. unfold head_segment, guard in B3. destruct (Nat.leb 12 _) eqn:L; [|discriminate].
      apply Nat.leb_le in L. unfold MinBoundVector in L. rewrite map_length in L. lia.
    + eapply times_rate; eauto.
Qed.
Definition cam_needs (trackers : list (string * tracker_cfg)) (boards : list (string * board_cfg)) (c : cam_cfg) : Prop :=
  (cp_ext (cc_par c) = true -> 6 <= List.length (cp_var (cc_par c))) /\ cp_rate (cc_par c) <> 0%R /\
  (forall n, cc_tracker c = Some n -> exists a, named n trackers = Some a) /\
  (forall n, cc_board c = Some n -> exists b, named n boards = Some b /\ 6 <= List.length (fp_var (bc_par b))).
Lemma cam_needed : forall project ts bs w t c d ms w' t', add_cam project ts bs w t (c, d) = OK (ms, w', t') ->
  numbered (n_sensors (w_cnt w)) (w_ekf w) -> numbered (n_sensors (w_cnt w')) (w_ekf w') /\ cam_needs ts bs c.
Proof.
  intros project ts bs w t c d ms w' t' H F. unfold add_cam in H. opn H. opn H. rename x into tk. rename x0 into bd. opn H.
  destruct x as [[[id s] cn] e]. opn H. opn H. destruct x0 as [[ms1 c2] t2]. injection H as _ <- _.
  unfold camera_new, cam_new, new_sensor_id in B1. opn B1. destruct x0 as [[id0 c0] e0]. opn B4. injection B4 as <- <- <-.
  match type of B1 with context [add_trackers ?a ?b ?c ?d] => destruct (add_trackers a b c d) as [trs c1] eqn:AT end.
  opn B1. destruct x1 as [[fids c3] e2]. injection B1 as <- <- <- <-.
  apply trackers_sensors in AT. cbn in AT. apply frames_sensors in B3.
  destruct (numbered_cam _ _ _ _ _ B5 F) as [N1 [N2 N3]].
  { unfold cam_state_of, cam_SetIsExtrinsic. destruct (cp_ext (cc_par c)); cbn; unfold g_cam_extrinsic_state_size; lia. }
  destruct (numbered_fids _ _ _ _ _ _ _ _ _ B4 N1) as [M1 [M2 M3]].
  split; [cbn [install w_cnt w_ekf]; rewrite B3, M2, AT; exact M1|].
  split; [|split; [|split]].
  - intros Ex. unfold cam_state_of, cam_SetIsExtrinsic in N2. rewrite Ex in N2. cbn in N2. unfold MinBoundVector in N2. rewrite map_length in N2.
    apply N2. reflexivity.
  - eapply times_rate; eauto.
  - intros n E. unfold chosen in B. rewrite E in B. destruct (named n ts) as [a|]; [eauto|discriminate].
  - intros n E. unfold chosen in B0. rewrite E in B0. destruct (named n bs) as [b|]; [|discriminate]. injection B0 as <-. exists b. split; [reflexivity|].
    inversion M3 as [|? ? M4 _]; subst. exact M4.
Qed.
Lemma gps_needed : forall g w t c d ms w' t', add_gps g w t (c, d) = OK (ms, w', t') -> gc_rate c <> 0%R.
Proof. intros g w t c d ms w' t' H. unfold add_gps in H. opn H. destruct x as [[[id s] cn] e]. opn H. eapply times_rate; eauto. Qed.
Lemma all_needed : forall A (f : world -> truth -> A * draws -> res (list message * world * truth)) (I : world -> Prop) (P : A -> Prop),
  (forall w t c d ms w' t', f w t (c, d) = OK (ms, w', t') -> I w -> I w' /\ P c) ->
  forall l w t ms w' t', add_all f w t l = OK (ms, w', t') -> I w -> I w' /\ forall x, In x l -> P (fst x).
Proof.
  intros A f I P S. induction l as [|[c d] l IH]; intros w t ms w' t' H Iw; cbn [add_all] in H.
  - injection H as _ <- _. split; [exact Iw|intros x []].
  - opn H. destruct x as [[m1 w1] t1]. opn H. destruct x as [[m2 w2] t2]. injection H as _ <- _.
    destruct (S _ _ _ _ _ _ _ B Iw) as [I1 P1]. destruct (IH _ _ _ _ _ B0 I1) as [I2 P2]. split; [exact I2|].
    intros x [<-|X]; [exact P1|auto].
Qed.
Lemma setup_needs : forall project g c r, sim_setup project g c = OK r ->
  sc_engine c <> EngUnknown /\ (forall x, In x (sc_imus c) -> imu_needs (fst x)) /\
  (forall x, In x (sc_cams c) -> cam_needs (sc_trackers c) (sc_boards c) (fst x)) /\ (forall x, In x (sc_gps c) -> gc_rate (fst x) <> 0%R).
Proof.
  intros project g c [[ms w] t] H. destruct (setup_inv _ _ _ _ _ _ H) as [t0 [m1 [w1 [t1 [m2 [w2 [t2 [m3 [HT [HA [HB [HC _]]]]]]]]]]]].
  split; [intros E; unfold truth_of in HT; rewrite E in HT; discriminate|].
  set (I := fun w : world => numbered (n_sensors (w_cnt w)) (w_ekf w)).
  destruct (all_needed _ _ I _ (fun w t c d ms w' t' => imu_needed w t c d ms w' t') _ _ _ _ _ _ HA) as [I1 P1]; [intros k s K; discriminate|].
  destruct (all_needed _ _ I _ (fun w t c0 d ms w' t' => cam_needed project (sc_trackers c) (sc_boards c) w t c0 d ms w' t') _ _ _ _ _ _ HB I1) as [I2 P2].
  destruct (all_needed _ _ (fun _ => True) (fun c => gc_rate c <> 0%R) (fun w t c d ms w' t' E _ => conj Logic.I (gps_needed g w t c d ms w' t' E)) _ _ _ _ _ _ HC Logic.I) as [_ P3].
  auto.
Qed.

(** *** In terms of the file *)
Lemma forall2_same : forall A B (P : A -> B -> Prop), (forall a b c, P a b -> P a c -> b = c) ->
  forall l m k, Forall2 P l m -> Forall2 P l k -> m = k.
Proof.
  intros A B P U l. induction l as [|a l IH]; intros m k F G; inversion F; inversion G; subst; [reflexivity|]. f_equal; eauto.
Qed.
Lemma names_same : forall f p l m, names f p l -> names f p m -> l = m.
Proof.
  intros f p l m. unfold names. destruct (lookup p f) as [[| | |]|]; try congruence.
  apply forall2_same. intros a b c (s & -> & <-) (s' & E & <-). injection E as <-. reflexivity.
Qed.
Lemma F2_In_l : forall A B (P : A -> B -> Prop) l m, Forall2 P l m -> forall x, In x l -> exists y, In y m /\ P x y.
Proof.
  intros A B P l m F. induction F as [|a b l m H F IH]; intros x Hx; [destruct Hx|]. destruct Hx as [<-|Hx]; [exists b; split; [left; reflexivity|exact H]|].
  destruct (IH x Hx) as (y & Hy & Px). exists y. split; [right; exact Hy | exact Px].
Qed.
Lemma listed_In : forall A f key (P : string -> A -> Prop) l ns n, listed_as f key P l -> names f (top [key]) ns -> In n ns ->
  exists x, In x l /\ P n x.
Proof.
  intros A f key P l ns n (ns' & N & F) N' I. rewrite (names_same _ _ _ _ N' N) in I. eapply F2_In_l; eauto.
Qed.
Lemma row_long : forall f p l k, row f p [0; 0; 0]%R l -> k <= List.length l -> 3 < k ->
  exists ns, lookup p f = Some (YSeq ns) /\ k <= List.length ns.
Proof.
  intros f p l k H K L. unfold row in H. destruct (lookup p f) as [[|s|ns|m]|]; try (subst l; cbn in K; lia).
  exists ns. split; [reflexivity|]. rewrite (F2_length _ _ _ _ _ H). exact K.
Qed.
Lemma named_In : forall A n (l : list (string * A)) a, named n l = Some a -> In (n, a) l.
Proof.
  induction l as [|[m b] l IH]; intros a H; cbn [named] in H; [discriminate|]. destruct (named n l) as [x|] eqn:E.
  - injection H as <-. right. apply IH. reflexivity.
  - destruct (String.eqb m n) eqn:X; [|discriminate]. injection H as <-. apply String.eqb_eq in X. subst m. left. reflexivity.
Qed.
Lemma listed_named : forall A f key (P : string -> A -> Prop) l n a, listed_as f key (fun m x => fst x = m /\ P m (snd x)) l ->
  named n l = Some a -> exists ns, names f (top [key]) ns /\ In n ns /\ P n a.
Proof.
  intros A f key P l n a (ns & N & F) H. apply named_In in H. destruct (F2_In_r _ _ _ _ _ F _ H) as (m & Im & E & Pm). cbn in E, Pm. subst m. eauto.
Qed.

Lemma enough_of : forall (asserts : bool) f p k l, row f p [0; 0; 0]%R l -> (asserts = true -> List.length l = 3) -> k <= List.length l -> 3 < k ->
  enough asserts f p k.
Proof.
  intros asserts f p k l H A K L. split; [destruct asserts; [specialize (A eq_refl); lia|reflexivity]|]. eapply row_long; eauto.
Qed.

Open Scope string_scope.
Section Needs.
Variables (asserts : bool) (fit : list V3 -> spline) (project : Intrinsics -> V3 -> R * R) (g : V3 -> V3) (f : ynode) (rnd : random).
Variable r : list message * world * truth.
Hypothesis runs : simulation_setup asserts fit project g f rnd = OK r.
Theorem imu_row : forall ns n, names f (top ["imu_list"]) ns -> In n ns ->
  let ext := dflt false (yes_no f (part "imu" n ["is_extrinsic"])) in
  let int := dflt false (yes_no f (part "imu" n ["is_intrinsic"])) in
  (ext || int = true -> enough asserts f (part "imu" n ["variance"]) 6) /\
  (ext && int = true -> enough asserts f (part "imu" n ["variance"]) 12) /\
  dflt 1%R (number f (part "imu" n ["rate"])) <> 0%R.
Proof.
  intros ns n N I ext int. unfold simulation_setup in runs. apply bind_OK in runs. destruct runs as [c [Hc Hs]].
  destruct (config_read _ _ _ _ _ Hc) as [_ [_ [S A]]]. destruct (setup_needs _ _ _ _ Hs) as [_ [P _]].
  destruct (listed_In _ _ _ _ _ _ _ (proj1 (se_imus _ _ _ S)) N I) as [x [X Q]]. destruct (P x X) as [P1 [P2 P3]].
  unfold ext, int. rewrite <- (ir_ext _ _ _ Q), <- (ir_int _ _ _ Q), <- (ir_rate _ _ _ Q).
  assert (T : asserts = true -> List.length (ip_var (ic_par (fst x))) = 3) by (intros Z; apply (A Z); exact X).
  split; [|split; [|exact P3]]; intros Z; eapply enough_of; try exact (ir_var _ _ _ Q); try exact T; auto; lia.
Qed.
Theorem cam_row : forall ns n, names f (top ["camera_list"]) ns -> In n ns ->
  (yes_no f (part "camera" n ["is_extrinsic"]) = Some true -> enough asserts f (part "camera" n ["variance"]) 6) /\
  dflt 1%R (number f (part "camera" n ["rate"])) <> 0%R /\
  (forall k, name_said f (part "camera" n ["tracker"]) = Some k -> exists ts, names f (top ["tracker_list"]) ts /\ In k ts) /\
  (forall k, name_said f (part "camera" n ["fiducial"]) = Some k ->
    exists bs, names f (top ["fiducial_list"]) bs /\ In k bs /\ enough asserts f (part "fiducial" k ["variance"]) 6).
Proof.
  intros ns n N I. unfold simulation_setup in runs. apply bind_OK in runs. destruct runs as [c [Hc Hs]].
  destruct (config_read _ _ _ _ _ Hc) as [_ [_ [S A]]]. destruct (setup_needs _ _ _ _ Hs) as [_ [_ [P _]]].
  destruct (listed_In _ _ _ _ _ _ _ (proj1 (se_cams _ _ _ S)) N I) as [x [X Q]]. destruct (P x X) as [P1 [P2 [P3 P4]]].
  rewrite <- (kr_rate _ _ _ Q), <- (kr_tracker _ _ _ Q), <- (kr_board _ _ _ Q). split; [|split; [exact P2|split]].
  - intros Z. rewrite (kr_ext _ _ _ Q), Z in P1. eapply enough_of; [exact (kr_var _ _ _ Q)| |auto|lia].
    intros W. apply (A W). exact X.
  - intros k E. destruct (P3 k E) as [a Ea]. destruct (listed_named _ _ _ _ _ _ _ (se_trackers _ _ _ S) Ea) as (ts & M & J & _). eauto.
  - intros k E. destruct (P4 k E) as (b & Eb & L). destruct (listed_named _ _ _ _ _ _ _ (se_boards _ _ _ S) Eb) as (bs & M & J & Bd). exists bs. split; [exact M|]. split; [exact J|].
    eapply enough_of; [exact (br_var _ _ _ Bd)| |exact L|lia]. intros W. destruct (A W) as [_ [_ A3]]. apply (A3 (k, b)). apply named_In. exact Eb.
Qed.
Theorem gps_rate : forall ns n, names f (top ["gps_list"]) ns -> In n ns -> dflt 1%R (number f (part "gps" n ["rate"])) <> 0%R.
Proof.
  intros ns n N I. unfold simulation_setup in runs. apply bind_OK in runs. destruct runs as [c [Hc Hs]].
  destruct (config_read _ _ _ _ _ Hc) as [_ [_ [S A]]]. destruct (setup_needs _ _ _ _ Hs) as [_ [_ [_ P]]].
  destruct (listed_In _ _ _ _ _ _ _ (proj1 (se_gps _ _ _ S)) N I) as [x [X Q]]. rewrite <- (gr_rate _ _ _ Q). auto.
Qed.
Theorem truth_known : In (dflt "cyclic" (said f (sim "truth_type"))) ["cyclic"; "smoother"; "spline"].
Proof.
  unfold simulation_setup in runs. apply bind_OK in runs. destruct runs as [c [Hc Hs]].
  destruct (config_read _ _ _ _ _ Hc) as [_ [S _]]. destruct (setup_needs _ _ _ _ Hs) as [P _].
  pose proof (sr_truth _ _ _ _ S) as T. inversion T as [e E|? ? ? ? ? e E|? ? ? ? ? ? E|w E]; cbn [In].
  - left. symmetry. exact E.
  - rewrite E. cbn. auto.
  - rewrite E. cbn. auto.
  - congruence.
Qed.
End Needs.
