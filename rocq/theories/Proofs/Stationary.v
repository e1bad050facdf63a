(** The stationary detection state machine over whole histories. *)
From Coq Require Import Reals List Arith Bool Lia Lra ZArith.
From Verif Require Import Base.Res Base.Mat Base.RDec Base.RSum Base.LinAlg Base.Inverse Base.Geom Base.AMap Base.RMat
  Model.TypeHelper Model.Types Model.MathHelper Model.GpsHelper Model.Matrix3 Model.Ekf Model.Updater Model.Ops
  Model.ImuUpdater Model.GpsUpdater Model.FiducialUpdater Model.MsckfUpdater Model.Sensors
  Spec.Layout Spec.History Spec.Contract Spec.Callback Spec.World Spec.Stationary Spec.KF
  Proofs.Refresh Proofs.Invariant Proofs.Named Proofs.Sizes Proofs.Scalars Proofs.Follows Proofs.BlockDiag Proofs.ImuCallback Proofs.GpsCallback
  Proofs.FidCallback Proofs.MsckfCallback Proofs.World Proofs.Ids Proofs.Demo Proofs.WorldFinals.
Import ListNotations.
Open Scope nat_scope.

(** *** The score *)
Lemma is_inv_ext : forall n A B S, eqm n n A B -> is_inv n A S -> is_inv n B S.
Proof.
  intros n A B S E [H1 H2]. split; intros i j Hi Hj; [rewrite <- H1 by auto|rewrite <- H2 by auto];
    unfold mm; apply rsum_ext; intros k Hk; rewrite E by auto; reflexivity.
Qed.

Lemma jac_dep : forall u e e0 H e1, e_state e0 = e_state e -> e_size e0 = e_size e ->
  GetZeroAccelerationJacobian u e0 = OK (H, e1) -> has_imu e (iu_id u) (iu_ext u) (iu_int u) ->
  GetZeroAccelerationJacobian u e = OK (H, e).
Proof.
  intros u e e0 H e1 ES EN E [s [Hf _]]. unfold GetZeroAccelerationJacobian in *.
  assert (Hf0 : mfind (iu_id u) (s_imu (e_state e0)) = Some s) by (rewrite ES; exact Hf).
  rewrite (get_imu_same _ _ _ Hf). rewrite (get_imu_same _ _ _ Hf0) in E. rewrite ES, EN in E.
  repeat match type of E with
  | context [bind ?x _] => destruct x; cbn [bind] in E |- *; [|discriminate] end.
  injection E as -> _. reflexivity.
Qed.

Lemma noise_block : forall root u A W N, noise_ok root 3 A -> noise_ok root 3 W -> zero_noise u A W = OK N ->
  eqm (msize u) (msize u) (ent N) (imu_noise_block A W).
Proof.
  intros root u A W N HA HW E. pose proof HA as [A1 [A2 _]]. pose proof HW as [B1 [B2 _]].
  unfold zero_noise, msize, imu_noise_block in *. destruct (iu_int u).
  - rewrite set_block_ok in E by (cbn; auto; lia). cbn [bind] in E.
    rewrite set_block_ok in E by (cbn; auto; lia). injection E as <-. intros i j Hi Hj. cbn [ent nr nc mzero mconst].
    unfold in_range.
    destruct (Nat.ltb_spec i 3), (Nat.ltb_spec j 3), (Nat.leb_spec 3 i), (Nat.leb_spec 3 j),
      (Nat.ltb_spec i (3 + 3)), (Nat.ltb_spec j (3 + 3)), (Nat.ltb_spec i (0 + 3)), (Nat.ltb_spec j (0 + 3));
      try lia; cbn [andb Nat.leb]; rewrite ?Nat.sub_0_r; reflexivity.
  - rewrite set_block_ok in E by (cbn; auto; lia). cbn [bind] in E. injection E as <-. intros i j Hi Hj. cbn [ent nr nc mzero mconst].
    unfold in_range. cbn [Nat.leb]. rewrite (proj2 (Nat.ltb_lt i (0 + 3)) Hi), (proj2 (Nat.ltb_lt j (0 + 3)) Hj).
    rewrite (proj2 (Nat.ltb_lt i 3) Hi), (proj2 (Nat.ltb_lt j 3) Hj). cbn [andb]. now rewrite !Nat.sub_0_r.
Qed.

Lemma resid_rest : forall u e s acc omg i, i < msize u ->
  ent (zero_resid u e s acc omg) i 0 = rest_residual (b_ang (s_body (e_state e))) s acc omg i.
Proof.
  intros u e s acc omg i Hi. unfold zero_resid, rest_residual, msize in *. destruct (iu_int u).
  - cbn [ent stack2]. destruct (Nat.ltb_spec i 3).
    + destruct i as [|[|[|i]]]; try lia; reflexivity.
    + destruct i as [|[|[|[|[|[|i]]]]]]; try lia; reflexivity.
  - rewrite (proj2 (Nat.ltb_lt i 3) Hi). destruct i as [|[|[|i]]]; try lia; reflexivity.
Qed.

Lemma score_spec : forall u e e0 acc A omg W x root, reachable e -> reachable e0 -> e_state e0 = e_state e -> e_cov e0 = e_cov e ->
  e_par e0 = e_par e -> noise_ok root 3 A -> noise_ok root 3 W -> imu_score u e0 acc A omg W x ->
  stationary_score u e acc A omg W x.
Proof.
  intros u e e0 acc A omg W x root Hr Hr0 ES EC EP HA HW (s & jac & N & HK & EJ & EN & Si & HI & HX).
  assert (EZ : e_size e0 = e_size e).
  { pose proof (reachable_dims e0 Hr0) as D0. pose proof (reachable_dims e Hr) as D. rewrite EC in D0. destruct D0 as [D0 _], D as [D _]. congruence. }
  destruct (zero_jac_ok u e0 s Hr0 HK) as [j2 [EJ2 [J1 J2]]]. rewrite EJ in EJ2. injection EJ2 as <-.
  pose proof HK as [Hf [F1 F2]]. rewrite ES in Hf.
  exists s, jac, e, Si. split; [exact Hf|]. split.
  { apply (jac_dep u e e0 jac e0); auto. exists s. auto. }
  fold (msize u). cbv zeta. rewrite J1, EC, EP, EZ in HI. rewrite J1 in HX. split.
  - refine (is_inv_ext _ _ _ _ _ HI). intros i j Hi Hj. unfold innov, madd, mscal.
    rewrite (noise_block root u A W N HA HW EN) by auto. reflexivity.
  - rewrite HX. f_equal. apply qf_ext; [intros i j _ _; reflexivity|]. intros i Hi. rewrite resid_rest by exact Hi. rewrite ES. reflexivity.
Qed.

(** A measurement as at rest scores zero. *)
Definition rest_acc (e : ekf) (s : ImuState) : V3 :=
  vadd (i_acc_bias s) (qrot (qmul (qinv (i_ang s)) (qinv (b_ang (s_body (e_state e))))) g_gravity).
Lemma rest_zero : forall e s i, rest_residual (b_ang (s_body (e_state e))) s (rest_acc e s) (i_omg_bias s) i = 0%R.
Proof.
  intros e s i. unfold rest_residual, rest_acc. set (g := qrot _ _). destruct (Nat.ltb i 3).
  - unfold vget, vsub, vadd. destruct i as [|[|i]]; cbn; ring.
  - unfold vget, vsub. destruct (i - 3) as [|[|k]]; cbn; ring.
Qed.
Lemma rest_score : forall u e s A W x, mfind (iu_id u) (s_imu (e_state e)) = Some s ->
  stationary_score u e (rest_acc e s) A (i_omg_bias s) W x -> x = 0%R.
Proof.
  intros u e s A W x Hf (s' & H & e1 & Si & Hf' & _ & _ & HX). rewrite Hf in Hf'. injection Hf' as <-.
  rewrite HX, qf_expand. rewrite rsum_0; [apply Rabs_R0|]. intros i Hi. apply rsum_0. intros j Hj.
  rewrite !rest_zero. ring.
Qed.

(** *** Camera callbacks do not touch the switches *)
Section Cb.
Variable svd : m2 -> m2 * m2.
Variable hull : list (Z * Z) -> list (Z * Z).
Variable ecef_to_lla : V3 -> V3.
Variable mat_quat : mat R -> quat.
Variable solve : mat R -> V3 -> V3.
Notation wstep' := (wstep svd hull ecef_to_lla mat_quat solve).
Notation deliver' := (deliver svd hull ecef_to_lla mat_quat solve).

Definition flags (e e' : ekf) : Prop := e_gravity e' = e_gravity e /\ e_lla_init e' = e_lla_init e.
Lemma flags_refl : forall e, flags e e.
Proof. unfold flags. auto. Qed.
Lemma flags_trans : forall a b c, flags a b -> flags b c -> flags a c.
Proof. unfold flags. intros a b c [A B] [C D]. split; congruence. Qed.

Lemma track_all_flags : forall l trs e t trs' e' cam ext, reachable e -> has_cam e cam ext ->
  (forall k tr, mfind k trs = Some tr -> mu_id (tk_upd tr) = cam /\ at_most (mu_ext (tk_upd tr)) ext) ->
  track_all solve trs e t l = OK (trs', e') -> went e e' /\ flags e e'.
Proof.
  induction l as [|[k tracks] l IH]; intros trs e t trs' e' cam ext Hr HC HK E; cbn [track_all] in E.
  - injection E as <- <-. auto using flags_refl, went_refl.
  - destruct tracks as [|y x]; [eapply IH; eauto|]. destruct (mfind k trs) as [tr|] eqn:F; [|discriminate].
    destruct (msckf_UpdateEKF solve _ _ _ _ _) as [[u e1]|] eqn:EU; cbn [bind] in E; [|discriminate].
    destruct (HK k tr F) as [K1 K2].
    assert (D : msckf_done (tk_upd tr) e t u e1).
    { apply (msckf_sound solve (tk_upd tr) e t (y :: x) (tk_px tr)) with (ext := ext); auto. rewrite K1. exact HC. }
    destruct D as [W B U G L].
    destruct (IH (mset k (mkTrk u (tk_px tr)) trs) e1 t trs' e' cam ext) as [W' FL]; auto.
    + apply (w_reach _ _ W).
    + apply (keeps_cam _ _ _ _ (w_keeps _ _ W) HC).
    + intros i z Hz. destruct (Nat.eq_dec i k) as [->|D].
      * rewrite mfind_mset_eq in Hz. injection Hz as <-. cbn. destruct U as [U1 [U2 _]]. rewrite U1, U2. auto.
      * rewrite mfind_mset_neq in Hz by exact D. apply (HK i z Hz).
    + split; [eapply went_trans; eauto|]. apply (flags_trans e e1 e'); [split; assumption|exact FL].
Qed.

Lemma board_all_flags : forall l fids e t fids' e' cam ext, reachable e -> has_cam e cam ext -> fids_ok e cam ext fids ->
  Forall (fun x => forall d, snd x = Some d -> errors_positive d) l ->
  board_all mat_quat fids e t l = OK (fids', e') -> flags e e'.
Proof.
  induction l as [|[k b] l IH]; intros fids e t fids' e' cam ext Hr HC HK HF E; cbn [board_all] in E.
  - injection E as <- <-. apply flags_refl.
  - inversion HF as [|? ? F1 F2]; subst. destruct (mfind k fids) as [u|] eqn:F; [|discriminate].
    destruct b as [d|]; [|eapply IH; eauto].
    destruct (fid_UpdateEKF mat_quat u e t d) as [[u' e1]|] eqn:EU; cbn [bind] in E; [|discriminate].
    destruct (HK k u F) as [K1 [K2 [K3 K4]]].
    destruct (fid_callback mat_quat u e t d ext Hr) as [u2 [e2 [E2 D]]]; auto.
    { rewrite K1. exact HC. }
    rewrite EU in E2. injection E2 as <- <-. destruct D as [W B U R G L].
    apply (flags_trans e e1 e'); [split; assumption|].
    apply (IH (mset k u' fids) e1 t fids' e' cam ext); auto.
    + apply (w_reach _ _ W).
    + apply (keeps_cam _ _ _ _ (w_keeps _ _ W) HC).
    + intros i z Hz. destruct (Nat.eq_dec i k) as [->|D].
      * rewrite mfind_mset_eq in Hz. injection Hz as <-. destruct U as [U1 [U2 [U3 U4]]].
        split; [congruence|]. split; [rewrite U4; exact K2|]. split; [|exact R].
        replace (fu_id u') with (fu_id u) by congruence. replace (fu_ext u') with (fu_ext u) by congruence.
        apply (keeps_fid _ _ _ _ (w_keeps _ _ W) K3).
      * rewrite mfind_mset_neq in Hz by exact D. destruct (HK i z Hz) as [Q1 [Q2 [Q3 Q4]]].
        split; [exact Q1|]. split; [exact Q2|]. split; [|exact Q4]. apply (keeps_fid _ _ _ _ (w_keeps _ _ W) Q3).
Qed.
Lemma sim_camera_flags : forall trs fids e id t frame tracks boards trs' fids' e', reachable e -> known e id (SCam trs fids) ->
  Forall (fun x => forall d, snd x = Some d -> errors_positive d) boards ->
  sim_camera_Callback mat_quat solve trs fids e id t frame tracks boards = OK (trs', fids', e') -> flags e e'.
Proof.
  intros trs fids e id t frame tracks boards trs' fids' e' Hr [ext [HC [HT HF]]] HB E.
  unfold sim_camera_Callback in E. rewrite local_of_split in E.
  destruct (local_went e t Hr) as [W0 [L0 [T0 [I0 [F0 [S0 [LL0 GG0]]]]]]].
  set (e0 := snd (CalculateLocalTime e t)) in *. rewrite L0 in E. clearbody e0.
  destruct (predict_went e0 (local_of e t) (w_reach _ _ W0)) as [e1 [E1 [W1 [_ [_ [_ F1]]]]]]. rewrite E1 in E. cbn [bind] in E.
  destruct (frame_went e1 id frame (w_reach _ _ W1)) as [e2 [E2 [W2 [C2 F2]]]]. rewrite E2 in E. cbn [bind] in E.
  assert (W : went e e2) by (repeat (eapply went_trans; [eassumption|]); apply went_refl; apply (w_reach _ _ W2)).
  assert (FL : flags e e2).
  { unfold frame' in F1, F2. cbn in F1. decompose [and] F1. decompose [and] F2. split; congruence. }
  pose proof (keeps_cam _ _ _ _ (w_keeps _ _ W) HC) as HC2.
  destruct (track_all solve trs e2 t tracks) as [[t3 e3]|] eqn:E3; cbn [bind] in E; [|discriminate].
  destruct (track_all_flags _ _ _ _ _ _ _ _ (w_reach _ _ W) HC2 HT E3) as [W3 FL3].
  assert (W' : went e e3) by (eapply went_trans; eauto). pose proof (keeps_cam _ _ _ _ (w_keeps _ _ W') HC) as HC3.
  destruct (board_all mat_quat fids e3 t boards) as [[f4 e4]|] eqn:E4; cbn [bind] in E; [|discriminate].
  injection E as <- <- <-. apply (flags_trans e e2); [exact FL|]. apply (flags_trans e2 e3); [exact FL3|].
  apply (board_all_flags boards fids e3 t f4 e4 id ext); auto.
  - apply (w_reach _ _ W').
  - intros k u K. destruct (HF k u K) as [P1 [P2 [P3 P4]]]. split; [exact P1|]. split; [exact P2|]. split; [|exact P4].
    apply (keeps_fid e e3); [apply (w_keeps _ _ W')|exact P3].
Qed.

Lemma camera_flags : forall c trs fids e id t image seen board trs' fids' c' e', reachable e -> known e id (SCam trs fids) ->
  (forall k d, board k = Some d -> errors_positive d) ->
  camera_Callback mat_quat solve c trs fids e id t image seen board = OK (trs', fids', c', e') -> flags e e'.
Proof.
  intros c trs fids e id t image seen board trs' fids' c' e' Hr HK HB E.
  unfold camera_Callback in E. destruct (image && negb (Nat.eqb (length trs + length fids) 0)) eqn:Q.
  - cbn [GenerateFrameID] in E.
    apply (sim_camera_flags trs fids e id t (n_frames c) (map (fun k => (k, seen k)) (keys trs))
      (map (fun k => (k, board k)) (keys fids)) trs' fids' e'); auto.
    + apply Forall_forall. intros y Hy d Hd. apply in_map_iff in Hy. destruct Hy as [k [<- _]]. apply (HB k). exact Hd.
    + unfold sim_camera_Callback. destruct (CalculateLocalTime e t) as [lt e1].
      destruct (PredictModel e1 lt) as [e2|]; cbn [bind] in *; [|discriminate].
      destruct (AugmentStateFrame e2 id (n_frames c)) as [e3|]; cbn [bind] in *; [|discriminate].
      destruct (track_all solve trs e3 t _) as [[t4 e4]|]; cbn [bind] in *; [|discriminate].
      destruct (board_all mat_quat fids e4 t _) as [[f5 e5]|]; cbn [bind] in *; [|discriminate].
      injection E as <- <- <- <-. reflexivity.
  - injection E as <- <- <- <-. apply flags_refl.
Qed.

(** *** One IMU measurement *)
Definition imu_step_spec (w : world) (id : nat) (acc : V3) (A : mat R) (omg : V3) (W : mat R) (u : imu_updater) (w' : world) : Prop :=
  exists u', mfind id (w_sensors w') = Some (SImu u') /\
    (forall k, k <> id -> mfind k (w_sensors w') = mfind k (w_sensors w)) /\
    (iu_moved u = true -> iu_moved u' = true /\ e_zero_acc (w_ekf w') = false /\ e_gravity (w_ekf w') = e_gravity (w_ekf w)) /\
    (iu_moved u = false -> exists x, stationary_score u (w_ekf w) acc A omg W x /\
       ((p_chi2 (e_par (w_ekf w)) < x)%R /\ e_gravity (w_ekf w) = true ->
          iu_moved u' = true /\ e_zero_acc (w_ekf w') = false /\ e_gravity (w_ekf w') = true) /\
       (~ ((p_chi2 (e_par (w_ekf w)) < x)%R /\ e_gravity (w_ekf w) = true) ->
          iu_moved u' = false /\ e_zero_acc (w_ekf w') = true /\ at_rest (w_ekf w') /\
          (e_gravity (w_ekf w') = true <-> e_gravity (w_ekf w) = true \/ (x < p_chi2 (e_par (w_ekf w)))%R))).

Lemma imu_step : forall w id t acc A omg W u w', winv w -> message_ok (p_root (e_par (w_ekf w))) (MImu id t acc A omg W) ->
  mfind id (w_sensors w) = Some (SImu u) ->
  deliver' w (MImu id t acc A omg W) = OK w' -> imu_step_spec w id acc A omg W u w'.
Proof.
  intros w id t acc A omg W u w' HW [HA HV] F E. pose proof HW as [R WI K]. unfold deliver in E. cbn [msg_id] in E. rewrite F in E.
  destruct (K _ _ F) as [H1 H2].
  assert (H2' : has_imu (w_ekf w) (iu_id u) (iu_ext u) (iu_int u)) by (rewrite H1; exact H2).
  destruct (imu_callback u (w_ekf w) t acc A omg W R H2' HA HV) as [[u' [e' [E' D]]]|[E' _]]; rewrite E' in E; [|discriminate].
  cbn [bind] in E. injection E as <-. unfold imu_step_spec. cbn [w_sensors w_ekf]. exists u'.
  split; [apply mfind_mset_eq|]. split; [intros k Hk; apply mfind_mset_neq; exact Hk|].
  assert (GR : e_zero_acc e' = false -> e_gravity e' = e_gravity (w_ekf w)).
  { intros Z. destruct (e_gravity (w_ekf w)) eqn:G; [apply (id_grav_keep _ _ _ _ _ _ _ _ _ D G)|].
    destruct (e_gravity e') eqn:G'; [|reflexivity]. destruct (id_grav _ _ _ _ _ _ _ _ _ D G G') as [X _]. congruence. }
  split.
  - intros M. destruct (id_moved _ _ _ _ _ _ _ _ _ D M) as [-> Z]. auto.
  - intros M. destruct (id_exact _ _ _ _ _ _ _ _ _ D M) as (e0 & x & S1 & S2 & S3 & S4 & S5 & S6).
    exists x. split; [apply (score_spec u (w_ekf w) e0 acc A omg W x (p_root (e_par (w_ekf w)))); auto|].
    destruct S6 as [[X1 [X2 [X3 X4]]]|[X1 [X2 [X3 X4]]]].
    + split; [|tauto]. intros _. rewrite (GR X4). auto.
    + split; [tauto|]. intros _. split; [exact X2|]. split; [exact X3|].
      split; [apply (id_rest _ _ _ _ _ _ _ _ _ D X3)|]. rewrite X4. destruct (Rltb x (p_chi2 (e_par (w_ekf w)))) eqn:Y.
      * apply Rltb_spec in Y. tauto.
      * apply Rltb_false in Y. split; [auto|]. intros [Z|Z]; [exact Z|lra].
Qed.

(** *** Any event *)
Lemma wstep_gravity : forall w v w', winv w -> event_ok w v -> wstep' w v = OK w' ->
  (e_gravity (w_ekf w) = true -> e_gravity (w_ekf w') = true) /\
  (e_gravity (w_ekf w) = false -> e_gravity (w_ekf w') = true ->
   v = EConf OInitGravity \/
   exists id t acc A omg W u x, v = EMsg (MImu id t acc A omg W) /\ mfind id (w_sensors w) = Some (SImu u) /\
     iu_moved u = false /\ stationary_score u (w_ekf w) acc A omg W x /\ (x < p_chi2 (e_par (w_ekf w)))%R /\
     e_zero_acc (w_ekf w') = true /\ at_rest (w_ekf w')).
Proof.
  intros w v w' HW HO E.
  assert (EQ : e_gravity (w_ekf w') = e_gravity (w_ekf w) ->
    (e_gravity (w_ekf w) = true -> e_gravity (w_ekf w') = true) /\
    (e_gravity (w_ekf w) = false -> e_gravity (w_ekf w') = true ->
     v = EConf OInitGravity \/
     exists id t acc A omg W u x, v = EMsg (MImu id t acc A omg W) /\ mfind id (w_sensors w) = Some (SImu u) /\
       iu_moved u = false /\ stationary_score u (w_ekf w) acc A omg W x /\ (x < p_chi2 (e_par (w_ekf w)))%R /\
       e_zero_acc (w_ekf w') = true /\ at_rest (w_ekf w'))) by (intros Q; split; congruence).
  destruct v as [p|p|p ts fs|m|id t image seen board|o]; cbn [wstep event_ok] in *.
  - apply EQ. destruct (imu_new_inv w p HW HO) as [q [E' [_ F]]]. rewrite E' in E. injection E as <-.
    unfold frame' in F. decompose [and] F. assumption.
  - apply EQ. destruct (gps_new_inv w p HW HO) as [q [E' [_ F]]]. rewrite E' in E. injection E as <-.
    unfold frame' in F. decompose [and] F. assumption.
  - apply EQ. destruct HO as [O1 [O2 O3]]. destruct (cam_new_inv w p ts fs HW O1 O2 O3) as [q [E' [_ F]]]. rewrite E' in E. injection E as <-.
    unfold frame' in F. decompose [and] F. assumption.
  - destruct (mfind (msg_id m) (w_sensors w)) as [s|] eqn:F.
    2:{ unfold deliver in E. rewrite F in E. injection E as <-. auto. }
    destruct m as [id t acc A omg W|id t lla N|id t frame tracks boards|id t]; cbn [msg_id] in F.
    + destruct s as [u|u|trs fids]; [|unfold deliver in E; cbn [msg_id] in E; rewrite F in E; discriminate..].
      destruct (imu_step w id t acc A omg W u w' HW HO F E) as (u' & F' & _ & HM & HN).
      destruct (iu_moved u) eqn:M.
      * apply EQ. apply HM. reflexivity.
      * destruct (HN eq_refl) as [x [SC [C1 C2]]]. clear EQ.
        destruct (Rlt_dec (p_chi2 (e_par (w_ekf w))) x) as [L|L].
        -- destruct (e_gravity (w_ekf w)) eqn:G.
           ++ destruct C1 as [_ [_ ->]]; auto. split; [auto|discriminate].
           ++ destruct C2 as [_ [Z [Q GI]]]; [intros [_ X]; discriminate|]. split; [discriminate|]. intros _ G'. right.
              apply GI in G'. destruct G' as [G'|G']; [discriminate|lra].
        -- destruct C2 as [_ [Z [Q GI]]]; [intros [X _]; contradiction|]. split; [intros G; apply GI; auto|].
           intros G G'. right. exists id, t, acc, A, omg, W, u, x. apply GI in G'. destruct G' as [G'|G']; [congruence|].
           repeat split; auto; apply Q.
    + apply EQ. unfold deliver in E. cbn [msg_id] in E. rewrite F in E. destruct s as [u|u|trs fids]; try discriminate.
      pose proof (wi_known _ HW _ _ F) as [H1 H2].
      destruct (gps_UpdateEKF svd hull ecef_to_lla u (w_ekf w) t lla N) as [[u' e']|] eqn:E'; cbn [bind] in E; [|discriminate].
      injection E as <-. cbn [w_ekf].
      apply (gd_grav u (w_ekf w) t lla u' e'). apply (gps_sound svd hull ecef_to_lla u (w_ekf w) t lla N u' e'); auto; [apply (wi_reach _ HW)|].
      rewrite H1. exact H2.
    + apply EQ. unfold deliver in E. cbn [msg_id] in E. rewrite F in E. destruct s as [u|u|trs fids]; try discriminate.
      destruct (sim_camera_Callback mat_quat solve trs fids (w_ekf w) id t frame tracks boards) as [[[a b] e']|] eqn:E'; cbn [bind] in E; [|discriminate].
      injection E as <-. cbn [w_ekf].
      apply (sim_camera_flags _ _ _ _ _ _ _ _ _ _ _ (wi_reach _ HW) (wi_known _ HW _ _ F) HO E').
    + apply EQ. unfold deliver in E. cbn [msg_id] in E. rewrite F in E. destruct s; injection E as <-; reflexivity.
  - apply EQ. destruct (mfind id (w_sensors w)) as [s|] eqn:F; [|injection E as <-; reflexivity].
    destruct s as [u|u|trs fids]; try discriminate.
    destruct (camera_Callback mat_quat solve (w_cnt w) trs fids (w_ekf w) id t image seen board) as [[[[a b] c] e']|] eqn:E'; cbn [bind] in E; [|discriminate].
    injection E as <-. cbn [w_ekf].
    apply (camera_flags _ _ _ _ _ _ _ _ _ _ _ _ _ (wi_reach _ HW) (wi_known _ HW _ _ F) HO E').
  - destruct HO as [O1 O2]. destruct (step (w_ekf w) o) as [e'|] eqn:E'; [|discriminate]. injection E as <-. cbn [w_ekf] in *.
    pose proof (step_frame' _ o e' (reachable_inv _ (wi_reach _ HW)) O2 E') as F.
    destruct o; try (exfalso; exact O1); cbn in F; try (subst e'; apply EQ; reflexivity).
    + apply EQ. unfold frame' in F. decompose [and] F. assumption.
    + subst e'. split; [auto|]. auto.
Qed.

(** The motion switch of an IMU stays on. *)
Lemma wstep_moved : forall w v w' id u, winv w -> event_ok w v -> wstep' w v = OK w' ->
  mfind id (w_sensors w) = Some (SImu u) -> (id <= n_sensors (w_cnt w)) ->
  exists u', mfind id (w_sensors w') = Some (SImu u') /\ (iu_moved u = true -> iu_moved u' = true) /\
    (iu_moved u = false -> iu_moved u' = true -> e_gravity (w_ekf w) = true /\
       exists t acc A omg W x, v = EMsg (MImu id t acc A omg W) /\ stationary_score u (w_ekf w) acc A omg W x /\
         (p_chi2 (e_par (w_ekf w)) < x)%R).
Proof.
  intros w v w' id u HW HO E F LE.
  assert (SAME : mfind id (w_sensors w') = Some (SImu u) ->
    exists u', mfind id (w_sensors w') = Some (SImu u') /\ (iu_moved u = true -> iu_moved u' = true) /\
    (iu_moved u = false -> iu_moved u' = true -> e_gravity (w_ekf w) = true /\
       exists t acc A omg W x, v = EMsg (MImu id t acc A omg W) /\ stationary_score u (w_ekf w) acc A omg W x /\
         (p_chi2 (e_par (w_ekf w)) < x)%R)) by (intros Q; exists u; repeat split; auto; congruence).
  destruct v as [p|p|p ts fs|m|i t image seen board|o]; cbn [wstep event_ok] in *.
  - apply SAME. unfold imu_new in E. cbn [new_sensor_id] in E. destruct (imu_cov_of p); cbn [bind] in E; [|discriminate].
    destruct (RegisterIMU _ _ _ _); cbn [bind] in E; [|discriminate]. injection E as <-. cbn. rewrite mfind_mset_neq by lia. exact F.
  - apply SAME. unfold gps_new in E. cbn [new_sensor_id] in E.
    destruct (RegisterGPS _ _ _ _); cbn [bind] in E; [|discriminate]. injection E as <-. cbn. rewrite mfind_mset_neq by lia. exact F.
  - apply SAME. destruct (camera_new (w_cnt w) (w_ekf w) p ts fs) as [[[[i s] c] e']|] eqn:E'; cbn [bind] in E; [|discriminate].
    injection E as <-. apply camera_new_ids in E'. destruct E' as [-> _]. cbn. rewrite mfind_mset_neq by lia. exact F.
  - unfold deliver in E. destruct (mfind (msg_id m) (w_sensors w)) as [s|] eqn:G; [|injection E as <-; auto].
    destruct m as [i t acc A omg W|i t lla N|i t frame tracks boards|i t]; cbn [msg_id] in G.
    + destruct s as [u0|u0|trs fids]; try discriminate.
      destruct (Nat.eq_dec id i) as [->|D].
      * rewrite F in G. injection G as <-.
        assert (E0 : deliver' w (MImu i t acc A omg W) = OK w') by (unfold deliver; cbn [msg_id]; rewrite F; exact E).
        destruct (imu_step w i t acc A omg W u w' HW HO F E0) as (u' & F' & _ & HM & HN). exists u'. split; [exact F'|].
        split; [intros M; apply HM; exact M|]. intros M M'. destruct (HN M) as [x [SC [C1 C2]]].
        destruct (Rlt_dec (p_chi2 (e_par (w_ekf w))) x) as [L|L].
        -- destruct (e_gravity (w_ekf w)) eqn:GG.
           ++ split; [reflexivity|]. exists t, acc, A, omg, W, x. auto.
           ++ destruct C2 as [Z _]; [intros [_ X]; discriminate|congruence].
        -- destruct C2 as [Z _]; [intros [X _]; contradiction|congruence].
      * apply SAME. destruct (imu_UpdateEKF _ _ _ _ _ _ _) as [[u' e']|]; cbn [bind] in E; [|discriminate].
        injection E as <-. cbn. rewrite mfind_mset_neq by exact D. exact F.
    + apply SAME. destruct s as [u0|u0|trs fids]; try discriminate.
      destruct (gps_UpdateEKF _ _ _ _ _ _ _ _) as [[u' e']|]; cbn [bind] in E; [|discriminate].
      injection E as <-. cbn. rewrite mfind_mset_neq; [exact F|]. intros ->. congruence.
    + apply SAME. destruct s as [u0|u0|trs fids]; try discriminate.
      destruct (sim_camera_Callback _ _ _ _ _ _ _ _ _ _) as [[[a b] e']|]; cbn [bind] in E; [|discriminate].
      injection E as <-. cbn. rewrite mfind_mset_neq; [exact F|]. intros ->. congruence.
    + apply SAME. destruct s; injection E as <-; exact F.
  - apply SAME. destruct (mfind i (w_sensors w)) as [s|] eqn:G; [|injection E as <-; exact F].
    destruct s as [u0|u0|trs fids]; try discriminate.
    destruct (camera_Callback _ _ _ _ _ _ _ _ _ _ _) as [[[[a b] c] e']|]; cbn [bind] in E; [|discriminate].
    injection E as <-. cbn. rewrite mfind_mset_neq; [exact F|]. intros ->. congruence.
  - apply SAME. destruct (step (w_ekf w) o) as [e'|] eqn:E'; [|discriminate]. injection E as <-. exact F.
Qed.

Lemma wrun_latch : forall l w w' id u, winv w -> idinv w -> events_ok svd hull ecef_to_lla mat_quat solve w l ->
  wrun svd hull ecef_to_lla mat_quat solve w l = OK w' ->
  (e_gravity (w_ekf w) = true -> e_gravity (w_ekf w') = true) /\
  (mfind id (w_sensors w) = Some (SImu u) -> iu_moved u = true ->
   exists u', mfind id (w_sensors w') = Some (SImu u') /\ iu_moved u' = true).
Proof.
  induction l as [|v l IH]; intros w w' id u HW HI HO E; cbn [wrun events_ok] in *.
  - injection E as <-. eauto.
  - destruct HO as [O1 O2]. destruct (wstep' w v) as [w1|] eqn:E1; cbn [bind] in E; [|discriminate].
    pose proof (wstep_sound svd hull ecef_to_lla mat_quat solve w v w1 HW O1 E1) as W1.
    destruct (wstep_ids svd hull ecef_to_lla mat_quat solve w v w1 HI E1) as [I1 _].
    destruct (wstep_gravity w v w1 HW O1 E1) as [G1 _]. split.
    + intros G. apply (IH w1 w' id u W1 I1 (O2 _ eq_refl) E). auto.
    + intros F M.
      assert (LE : id <= n_sensors (w_cnt w)).
      { assert (X : In id (keys (w_sensors w))) by (apply in_map_iff; exists (id, SImu u); split; [reflexivity|apply mfind_in; exact F]).
        rewrite (ii_keys _ HI) in X. apply in_seq in X. lia. }
      destruct (wstep_moved w v w1 id u HW O1 E1 F LE) as [u1 [F1 [M1 _]]].
      destruct (IH w1 w' id u1 W1 I1 (O2 _ eq_refl) E) as [_ X]. apply (X F1). auto.
Qed.
End Cb.
