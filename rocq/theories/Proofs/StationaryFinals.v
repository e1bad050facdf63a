(** Stationary detection: final statements, and a history in which one IMU
    has detected motion while another still applies its zero update. *)
From Coq Require Import Reals List Arith Bool Lia Lra ZArith.
From Verif Require Import Base.Res Base.Mat Base.RDec Base.RSum Base.LinAlg Base.Inverse Base.Geom Base.AMap Base.RMat
  Model.TypeHelper Model.Types Model.MathHelper Model.GpsHelper Model.Matrix3 Model.Ekf Model.Updater Model.Ops
  Model.ImuUpdater Model.GpsUpdater Model.FiducialUpdater Model.MsckfUpdater Model.Sensors
  Spec.Layout Spec.History Spec.Contract Spec.Callback Spec.World Spec.Stationary Spec.KF
  Proofs.Refresh Proofs.Invariant Proofs.Kalman Proofs.Named Proofs.Sizes Proofs.Scalars Proofs.Follows Proofs.BlockDiag Proofs.ImuCallback Proofs.GpsCallback
  Proofs.FidCallback Proofs.MsckfCallback Proofs.World Proofs.Ids Proofs.Demo Proofs.WorldFinals Proofs.Stationary.
Import ListNotations.
Open Scope nat_scope.

(** *** A large enough acceleration exceeds any threshold *)
Lemma zero_or : forall n (x : nat -> R), (forall i, i < n -> x i = 0%R) \/ nonzero n x.
Proof.
  induction n as [|n IH]; intros x; [left; intros; lia|]. destruct (IH x) as [H|[i [Hi H]]].
  - destruct (Req_dec (x n) 0) as [D|D]; [left|right; exists n; auto].
    intros i Hi. destruct (Nat.eq_dec i n) as [->|N]; [exact D|apply H; lia].
  - right. exists i. auto.
Qed.
Lemma inv_diag_pos : forall n A B, 0 < n -> spd n A -> is_inv n A B -> (0 < B 0%nat 0%nat)%R.
Proof.
  intros n A B Hn [_ HP] [I1 _].
  set (x := fun i => B i 0).
  assert (AX : forall i, i < n -> mv n A x i = if Nat.eqb i 0 then 1%R else 0%R).
  { intros i Hi. specialize (I1 i 0 Hi Hn). unfold idm in I1. rewrite <- I1. reflexivity. }
  assert (Q : qf n A x = x 0).
  { unfold qf, dot. rewrite (rsum_ext n _ (fun i => x i * (if Nat.eqb i 0 then 1 else 0))%R) by (intros i Hi; rewrite AX by exact Hi; reflexivity).
    destruct n as [|n]; [lia|]. rewrite rsum_delta_r by lia. reflexivity. }
  destruct (zero_or n x) as [Z|Z].
  - exfalso. specialize (AX 0 Hn). cbn in AX. unfold mv in AX. rewrite rsum_0 in AX; [lra|].
    intros j Hj. rewrite Z by exact Hj. ring.
  - apply HP in Z. rewrite Q in Z. exact Z.
Qed.

Lemma qf_first : forall n B c r, 0 < n -> (forall i, i < n -> r i = (if Nat.eqb i 0 then c else 0)%R) ->
  qf n B r = (c * c * B 0%nat 0%nat)%R.
Proof.
  intros n B c r Hn Hr. rewrite qf_expand.
  rewrite (rsum_ext n _ (fun i => (c * c * B 0%nat 0%nat) * (if Nat.eqb i 0 then 1 else 0))%R).
  - rewrite rsum_delta_r by exact Hn. reflexivity.
  - intros i Hi. rewrite (rsum_ext n _ (fun j => (r i * B i 0%nat * c) * (if Nat.eqb j 0 then 1 else 0))%R).
    + rewrite rsum_delta_r by exact Hn. rewrite Hr by exact Hi. destruct (Nat.eqb_spec i 0) as [->|D]; ring.
    + intros j Hj. rewrite (Hr j Hj). destruct (Nat.eqb_spec j 0) as [->|D]; ring.
Qed.

Lemma shaken : forall u e s A W k, reachable e -> p_root (e_par e) = false -> (0 < p_imu_scale (e_par e))%R ->
  knows u e s -> noise_ok false 3 A -> noise_ok false 3 W ->
  exists acc, forall x, stationary_score u e acc A (i_omg_bias s) W x -> (k < x)%R.
Proof.
  intros u e s A W k Hr HR HS HK HA HW. destruct (zero_jac_ok u e s Hr HK) as [H [EJ [J1 J2]]].
  destruct (zero_noise_ok _ u A W HA HW) as [N [EN NN]].
  set (S := innov (e_size e) (ent (e_cov e)) (ent H) (mscal (p_imu_scale (e_par e)) (imu_noise_block A W))).
  assert (SP : spd (msize u) S).
  { apply innov_spd.
    - destruct (reachable_inv e Hr) as [_ G]. unfold is_root in G. rewrite HR in G. exact G.
    - apply spd_mscal; [exact HS|]. apply (spd_ext _ (ent N)); [|apply noise_spd; exact NN].
      intros i j Hi Hj. apply (noise_block false u A W N HA HW EN); auto. }
  pose proof (inv_spd _ _ SP) as SI. set (B := finv (msize u) S) in *.
  assert (Hm : 0 < msize u) by (unfold msize; destruct (iu_int u); lia).
  pose proof (inv_diag_pos _ _ _ Hm SP SI) as BP.
  set (c := ((Rabs k + 1) / B 0%nat 0%nat + 1)%R).
  exists (vadd (rest_acc e s) (mkV3 c 0 0)). intros x (s' & H' & e1 & Si & Hf & EJ' & HI & HX).
  pose proof HK as [Hf0 _]. rewrite Hf0 in Hf. injection Hf as <-. rewrite EJ in EJ'. injection EJ' as <- <-.
  fold (msize u) in HI, HX. fold S in HI. rewrite HX.
  rewrite (qf_first (msize u) Si (- c)%R).
  - rewrite (inv_unique _ _ _ _ HI SI 0 0 Hm Hm).
    assert (C1 : (1 <= c)%R).
    { unfold c. assert (0 <= (Rabs k + 1) / B 0%nat 0%nat)%R; [|lra]. apply Rmult_le_pos; [pose proof (Rabs_pos k); lra|].
      left. apply Rinv_0_lt_compat. exact BP. }
    assert (C2 : (c * B 0%nat 0%nat = Rabs k + 1 + B 0%nat 0%nat)%R) by (unfold c; field; lra).
    replace (- c * - c * B 0%nat 0%nat)%R with (c * (c * B 0%nat 0%nat))%R by ring. rewrite C2.
    pose proof (Rle_abs k) as K. pose proof (Rabs_pos k) as K0.
    rewrite Rabs_pos_eq by (apply Rmult_le_pos; lra).
    apply Rlt_le_trans with (1 * (Rabs k + 1 + B 0%nat 0%nat))%R; [lra|]. apply Rmult_le_compat_r; lra.
  - exact Hm.
  - intros i Hi. pose proof (rest_zero e s i) as Z. unfold rest_residual in *. destruct (Nat.ltb_spec i 3) as [L|L].
    + revert Z. set (v := vsub (vsub (rest_acc e s) _) _). intros Z.
      replace (vsub (vsub (vadd (rest_acc e s) (mkV3 c 0 0)) (i_acc_bias s)) (qrot (qmul (qinv (i_ang s)) (qinv (b_ang (s_body (e_state e))))) g_gravity))
        with (vadd v (mkV3 c 0 0)).
      * destruct i as [|[|[|i]]]; try lia; cbn in *; lra.
      * unfold v, vsub, vadd. cbn. f_equal; ring.
    + rewrite Z. destruct i; [lia|reflexivity].
Qed.

(** *** Histories *)
Section Fin.
Variable svd : m2 -> m2 * m2.
Variable hull : list (Z * Z) -> list (Z * Z).
Variable ecef_to_lla : V3 -> V3.
Variable mat_quat : mat R -> quat.
Variable solve : mat R -> V3 -> V3.
Notation wstep' := (wstep svd hull ecef_to_lla mat_quat solve).
Notation wrun' := (wrun svd hull ecef_to_lla mat_quat solve).
Notation lived' := (lived svd hull ecef_to_lla mat_quat solve).
Notation events_ok' := (events_ok svd hull ecef_to_lla mat_quat solve).

Lemma lived_winv : forall w, lived' w -> winv w /\ idinv w.
Proof.
  intros w (p & q & pe & a & l & HQ & HO & E). split; [apply (wrun_sound svd hull ecef_to_lla mat_quat solve l _ w (init_winv p q pe a HQ) HO E)|].
  apply (wrun_ids svd hull ecef_to_lla mat_quat solve l _ w (init_ids _) E).
Qed.
Lemma events_app : forall l w v, events_ok' w l -> (forall w', wrun' w l = OK w' -> event_ok w' v) -> events_ok' w (l ++ [v]).
Proof.
  induction l as [|x l IH]; intros w v H1 H2; cbn [app events_ok wrun] in *; [auto|].
  destruct H1 as [H1 H3]. split; [exact H1|]. intros w' E. apply IH; [auto|]. intros w2 E2. apply H2. rewrite E. exact E2.
Qed.
Lemma wrun_app : forall l w v, wrun' w (l ++ [v]) = (let* w' := wrun' w l in wstep' w' v).
Proof.
  induction l as [|x l IH]; intros w v; cbn [app wrun].
  - cbn [bind]. destruct (wstep' w v); reflexivity.
  - destruct (wstep' w x) as [w1|]; cbn [bind]; [apply IH|reflexivity].
Qed.
Lemma lived_step : forall w v w', lived' w -> event_ok w v -> wstep' w v = OK w' -> lived' w'.
Proof.
  intros w v w' (p & q & pe & a & l & HQ & HO & E) HV E'. exists p, q, pe, a, (l ++ [v]). split; [exact HQ|]. split.
  - apply events_app; [exact HO|]. intros w2 E2. rewrite E in E2. injection E2 as <-. exact HV.
  - rewrite wrun_app, E. exact E'.
Qed.
Lemma lived_run : forall l w w', lived' w -> events_ok' w l -> wrun' w l = OK w' -> lived' w'.
Proof.
  induction l as [|v l IH]; intros w w' H HO E; cbn [wrun events_ok] in *.
  - injection E as <-. exact H.
  - destruct HO as [O1 O2]. destruct (wstep' w v) as [w1|] eqn:E1; cbn [bind] in E; [|discriminate].
    apply (IH w1); auto. eapply lived_step; eauto.
Qed.

Lemma sensor_le : forall w id s, idinv w -> mfind id (w_sensors w) = Some s -> id <= n_sensors (w_cnt w).
Proof.
  intros w id s HI F.
  assert (X : In id (keys (w_sensors w))) by (apply in_map_iff; exists (id, s); split; [reflexivity|apply mfind_in; exact F]).
  rewrite (ii_keys _ HI) in X. apply in_seq in X. lia.
Qed.
End Fin.

(** One measurement, seen from outside. *)
Lemma measurement_machine : forall svd hull ecef_to_lla mat_quat solve w id t acc A omg W u w',
  lived svd hull ecef_to_lla mat_quat solve w -> noise_ok (p_root (e_par (w_ekf w))) 3 A -> noise_ok (p_root (e_par (w_ekf w))) 3 W ->
  mfind id (w_sensors w) = Some (SImu u) ->
  wstep svd hull ecef_to_lla mat_quat solve w (EMsg (MImu id t acc A omg W)) = OK w' ->
  exists u', mfind id (w_sensors w') = Some (SImu u') /\
    (iu_moved u = true -> iu_moved u' = true /\ e_zero_acc (w_ekf w') = false /\ e_gravity (w_ekf w') = e_gravity (w_ekf w)) /\
    (iu_moved u = false -> exists x, stationary_score u (w_ekf w) acc A omg W x /\
       ((p_chi2 (e_par (w_ekf w)) < x)%R /\ e_gravity (w_ekf w) = true ->
          iu_moved u' = true /\ e_zero_acc (w_ekf w') = false /\ e_gravity (w_ekf w') = true) /\
       (~ ((p_chi2 (e_par (w_ekf w)) < x)%R /\ e_gravity (w_ekf w) = true) ->
          iu_moved u' = false /\ e_zero_acc (w_ekf w') = true /\ at_rest (w_ekf w') /\
          (e_gravity (w_ekf w') = true <-> e_gravity (w_ekf w) = true \/ (x < p_chi2 (e_par (w_ekf w)))%R))).
Proof.
  intros svd hull ecef mq solve w id t acc A omg W u w' HL HA HW F E. destruct (lived_winv _ _ _ _ _ _ HL) as [WI _].
  destruct (imu_step svd hull ecef mq solve w id t acc A omg W u w' WI (conj HA HW) F E) as (u' & F' & _ & H). exists u'. auto.
Qed.

Lemma gravity_only : forall svd hull ecef_to_lla mat_quat solve w v w',
  lived svd hull ecef_to_lla mat_quat solve w -> event_ok w v -> wstep svd hull ecef_to_lla mat_quat solve w v = OK w' ->
  (e_gravity (w_ekf w) = true -> e_gravity (w_ekf w') = true) /\
  (e_gravity (w_ekf w) = false -> e_gravity (w_ekf w') = true ->
   v = EConf OInitGravity \/
   exists id t acc A omg W u x, v = EMsg (MImu id t acc A omg W) /\ mfind id (w_sensors w) = Some (SImu u) /\
     iu_moved u = false /\ stationary_score u (w_ekf w) acc A omg W x /\ (x < p_chi2 (e_par (w_ekf w)))%R /\
     e_zero_acc (w_ekf w') = true /\ at_rest (w_ekf w')).
Proof.
  intros svd hull ecef mq solve w v w' HL HO E. destruct (lived_winv _ _ _ _ _ _ HL) as [WI _].
  apply (wstep_gravity svd hull ecef mq solve w v w' WI HO E).
Qed.

Lemma motion_latch : forall svd hull ecef_to_lla mat_quat solve w l w' id u,
  lived svd hull ecef_to_lla mat_quat solve w -> events_ok svd hull ecef_to_lla mat_quat solve w l ->
  wrun svd hull ecef_to_lla mat_quat solve w l = OK w' ->
  (e_gravity (w_ekf w) = true -> e_gravity (w_ekf w') = true) /\
  (mfind id (w_sensors w) = Some (SImu u) -> iu_moved u = true ->
   exists u', mfind id (w_sensors w') = Some (SImu u') /\ iu_moved u' = true).
Proof.
  intros svd hull ecef mq solve w l w' id u HL HO E. destruct (lived_winv _ _ _ _ _ _ HL) as [WI II].
  apply (wrun_latch svd hull ecef mq solve l w w' id u WI II HO E).
Qed.

(** After motion was detected no measurement of that IMU is taken for rest. *)
Lemma never_again : forall svd hull ecef_to_lla mat_quat solve w l w1 w2 id t acc A omg W u,
  lived svd hull ecef_to_lla mat_quat solve w -> mfind id (w_sensors w) = Some (SImu u) -> iu_moved u = true ->
  events_ok svd hull ecef_to_lla mat_quat solve w l -> wrun svd hull ecef_to_lla mat_quat solve w l = OK w1 ->
  noise_ok (p_root (e_par (w_ekf w1))) 3 A -> noise_ok (p_root (e_par (w_ekf w1))) 3 W ->
  wstep svd hull ecef_to_lla mat_quat solve w1 (EMsg (MImu id t acc A omg W)) = OK w2 ->
  e_zero_acc (w_ekf w2) = false.
Proof.
  intros svd hull ecef mq solve w l w1 w2 id t acc A omg W u HL F M HO E HA HW E2.
  destruct (motion_latch svd hull ecef mq solve w l w1 id u HL HO E) as [_ H]. destruct (H F M) as [u1 [F1 M1]].
  pose proof (lived_run svd hull ecef mq solve l w w1 HL HO E) as L1.
  destruct (measurement_machine svd hull ecef mq solve w1 id t acc A omg W u1 w2 L1 HA HW F1 E2) as [u2 [_ [X _]]].
  apply X. exact M1.
Qed.

(** *** Motion seen by one IMU is not seen by the others *)
Lemma imu_defined : forall svd hull ecef_to_lla mat_quat solve w id t acc A omg W u,
  lived svd hull ecef_to_lla mat_quat solve w -> p_root (e_par (w_ekf w)) = false -> (0 < p_imu_scale (e_par (w_ekf w)))%R ->
  mfind id (w_sensors w) = Some (SImu u) -> noise_ok false 3 A -> noise_ok false 3 W ->
  exists w', wstep svd hull ecef_to_lla mat_quat solve w (EMsg (MImu id t acc A omg W)) = OK w'.
Proof.
  intros svd hull ecef mq solve w id t acc A omg W u HL HR HS F HA HW. destruct (lived_winv _ _ _ _ _ _ HL) as [WI _].
  apply wstep_total; auto; cbn [event_ok message_ok plain_event msg_id]; [rewrite HR; auto|rewrite F; exact I].
Qed.

Lemma two_imus : forall svd hull ecef_to_lla mat_quat solve w i j u v A,
  lived svd hull ecef_to_lla mat_quat solve w -> p_root (e_par (w_ekf w)) = false -> (0 < p_imu_scale (e_par (w_ekf w)))%R ->
  (0 < p_chi2 (e_par (w_ekf w)))%R -> e_gravity (w_ekf w) = true -> i <> j ->
  mfind i (w_sensors w) = Some (SImu u) -> iu_moved u = false ->
  mfind j (w_sensors w) = Some (SImu v) -> iu_moved v = false -> noise_ok false 3 A ->
  exists acc acc' omg omg' w1 w2 u1 u2,
    wstep svd hull ecef_to_lla mat_quat solve w (EMsg (MImu i 0 acc A omg A)) = OK w1 /\
    mfind i (w_sensors w1) = Some (SImu u1) /\ iu_moved u1 = true /\
    wstep svd hull ecef_to_lla mat_quat solve w1 (EMsg (MImu j 0 acc' A omg' A)) = OK w2 /\
    mfind i (w_sensors w2) = Some (SImu u2) /\ iu_moved u2 = true /\
    e_zero_acc (w_ekf w2) = true /\ at_rest (w_ekf w2).
Proof.
  intros svd hull ecef mq solve w i j u v A HL HR HS HC HG D Fi Mi Fj Mj HA.
  destruct (lived_winv _ _ _ _ _ _ HL) as [WI II].
  destruct (wi_known _ WI _ _ Fi) as [H1 H2].
  assert (H2' : has_imu (w_ekf w) (iu_id u) (iu_ext u) (iu_int u)) by (rewrite H1; exact H2).
  apply knows_has in H2'. destruct H2' as [s HK].
  destruct (shaken u (w_ekf w) s A A (p_chi2 (e_par (w_ekf w))) (wi_reach _ WI) HR HS HK HA HA) as [acc Sh].
  destruct (imu_defined svd hull ecef mq solve w i 0%R acc A (i_omg_bias s) A u HL HR HS Fi HA HA) as [w1 E1].
  assert (HO : event_ok w (EMsg (MImu i 0 acc A (i_omg_bias s) A))) by (cbn; rewrite HR; auto).
  pose proof (lived_step _ _ _ _ _ w _ w1 HL HO E1) as L1.
  destruct (lived_winv _ _ _ _ _ _ L1) as [WI1 II1].
  pose proof (wstep_par svd hull ecef mq solve w _ w1 WI HO E1) as P1.
  assert (HR' : p_root (e_par (w_ekf w1)) = false) by congruence.
  assert (NA : noise_ok (p_root (e_par (w_ekf w))) 3 A) by (rewrite HR; exact HA).
  destruct (measurement_machine svd hull ecef mq solve w i 0%R acc A (i_omg_bias s) A u w1 HL NA NA Fi E1) as [u1 [F1 [_ X]]].
  destruct (X Mi) as [x [SC [X1 _]]]. destruct X1 as [M1 [Z1 G1]]; [split; [apply Sh; exact SC|exact HG]|].
  assert (Fj1 : mfind j (w_sensors w1) = Some (SImu v)).
  { destruct (imu_step svd hull ecef mq solve w i 0%R acc A (i_omg_bias s) A u w1 WI (conj NA NA) Fi E1) as (q & _ & O & _).
    rewrite O by auto. exact Fj. }
  destruct (wi_known _ WI1 _ _ Fj1) as [K1 K2].
  assert (K2' : has_imu (w_ekf w1) (iu_id v) (iu_ext v) (iu_int v)) by (rewrite K1; exact K2).
  apply knows_has in K2'. destruct K2' as [s1 HK1].
  assert (HS' : (0 < p_imu_scale (e_par (w_ekf w1)))%R) by congruence.
  destruct (imu_defined svd hull ecef mq solve w1 j 0%R (rest_acc (w_ekf w1) s1) A (i_omg_bias s1) A v L1 HR' HS' Fj1 HA HA) as [w2 E2].
  assert (NA' : noise_ok (p_root (e_par (w_ekf w1))) 3 A) by (rewrite HR'; exact HA).
  destruct (measurement_machine svd hull ecef mq solve w1 j 0%R (rest_acc (w_ekf w1) s1) A (i_omg_bias s1) A v w2 L1 NA' NA' Fj1 E2) as [v2 [F2 [_ Y]]].
  destruct (Y Mj) as [y [SC2 [_ Y2]]].
  assert (Y0 : y = 0%R) by (apply (rest_score v (w_ekf w1) s1 A A y); [apply HK1|exact SC2]).
  destruct Y2 as [_ [Z2 [R2 _]]]. { rewrite Y0, P1. intros [L _]. lra. }
  destruct (imu_step svd hull ecef mq solve w1 j 0%R (rest_acc (w_ekf w1) s1) A (i_omg_bias s1) A v w2 WI1 (conj NA' NA') Fj1 E2) as (q & _ & O & _).
  exists acc, (rest_acc (w_ekf w1) s1), (i_omg_bias s), (i_omg_bias s1), w1, w2, u1, u1.
  repeat (split; [first [assumption | rewrite O by auto; exact F1]|]). exact R2.
Qed.

(** Two IMUs and known gravity. *)
Lemma new_imu_world : forall svd hull ecef_to_lla mat_quat solve w p w',
  wstep svd hull ecef_to_lla mat_quat solve w (ENewImu p) = OK w' ->
  n_sensors (w_cnt w') = S (n_sensors (w_cnt w)) /\
  (exists u, mfind (S (n_sensors (w_cnt w))) (w_sensors w') = Some (SImu u) /\ iu_moved u = false) /\
  (forall k, k <> S (n_sensors (w_cnt w)) -> mfind k (w_sensors w') = mfind k (w_sensors w)).
Proof.
  intros svd hull ecef mq solve w p w' E. cbn [wstep] in E. unfold imu_new in E. cbn [new_sensor_id] in E.
  destruct (imu_cov_of p) as [cov|]; cbn [bind] in E; [|discriminate].
  destruct (RegisterIMU _ _ _ _) as [e1|]; cbn [bind] in E; [|discriminate]. injection E as <-. cbn [install w_cnt w_sensors n_sensors].
  split; [reflexivity|]. split; [eexists; split; [apply mfind_mset_eq|reflexivity]|]. intros k H. apply mfind_mset_neq. exact H.
Qed.
Lemma gravity_world : forall svd hull ecef_to_lla mat_quat solve w w',
  wstep svd hull ecef_to_lla mat_quat solve w (EConf OInitGravity) = OK w' ->
  e_gravity (w_ekf w') = true /\ w_sensors w' = w_sensors w.
Proof. intros svd hull ecef mq solve w w' E. cbn [wstep step] in E. injection E as <-. split; reflexivity. Qed.

Definition pair_events : list event := [ENewImu ex_imu; ENewImu ex_imu; EConf OInitGravity].
Lemma pair_run : forall svd hull ecef_to_lla mat_quat solve e w, winv (world_init e) ->
  wrun svd hull ecef_to_lla mat_quat solve (world_init e) pair_events = OK w ->
  e_par (w_ekf w) = e_par e /\ e_gravity (w_ekf w) = true /\
  (exists u, mfind 1 (w_sensors w) = Some (SImu u) /\ iu_moved u = false) /\
  (exists u, mfind 2 (w_sensors w) = Some (SImu u) /\ iu_moved u = false).
Proof.
  intros svd hull ecef mq solve e w WI E. unfold pair_events in *. cbn [wrun] in E.
  destruct (wstep svd hull ecef mq solve (world_init e) (ENewImu ex_imu)) as [w1|] eqn:E1; cbn [bind] in E; [|discriminate].
  destruct (wstep svd hull ecef mq solve w1 (ENewImu ex_imu)) as [w2|] eqn:E2; cbn [bind] in E; [|discriminate].
  destruct (wstep svd hull ecef mq solve w2 (EConf OInitGravity)) as [w3|] eqn:E3; cbn [bind] in E; [|discriminate].
  injection E as <-.
  pose proof (wstep_sound _ _ _ _ _ _ (ENewImu ex_imu) _ WI ex_imu_ok E1) as W1. pose proof (wstep_sound _ _ _ _ _ _ (ENewImu ex_imu) _ W1 ex_imu_ok E2) as W2.
  pose proof (wstep_par _ _ _ _ _ _ (ENewImu ex_imu) _ WI ex_imu_ok E1) as P1. pose proof (wstep_par _ _ _ _ _ _ (ENewImu ex_imu) _ W1 ex_imu_ok E2) as P2.
  pose proof (wstep_par _ _ _ _ _ _ (EConf OInitGravity) _ W2 (conj I I) E3) as P3.
  destruct (new_imu_world _ _ _ _ _ _ _ _ E1) as [N1 [[u [U1 M1]] O1]]. destruct (new_imu_world _ _ _ _ _ _ _ _ E2) as [N2 [[v [V1 M2]] O2]].
  destruct (gravity_world _ _ _ _ _ _ _ E3) as [G S]. change (n_sensors (w_cnt (world_init e))) with 0 in *.
  rewrite N1 in V1, O2. split; [change (e_par e) with (e_par (w_ekf (world_init e))); congruence|].
  split; [exact G|]. rewrite S. split; [exists u; rewrite O2 by discriminate; auto|exists v; auto].
Qed.
Lemma pair_world : forall svd hull ecef_to_lla mat_quat solve a, exists w,
  lived svd hull ecef_to_lla mat_quat solve w /\ e_par (w_ekf w) = demo_par a false /\ e_gravity (w_ekf w) = true /\
  (exists u, mfind 1 (w_sensors w) = Some (SImu u) /\ iu_moved u = false) /\
  (exists u, mfind 2 (w_sensors w) = Some (SImu u) /\ iu_moved u = false).
Proof.
  intros svd hull ecef mq solve a.
  assert (OKL : events_ok svd hull ecef mq solve (world_init (demo0 a false)) pair_events).
  { unfold pair_events. cbn [events_ok event_ok]. split; [apply ex_imu_ok|]. intros w1 _. split; [apply ex_imu_ok|].
    intros w2 _. split; [split; exact I|]. auto. }
  pose proof (init_winv (demo_par a false) demo_noise v0 0%R demo_noise_arg) as WI.
  destruct (wrun_total svd hull ecef mq solve pair_events (world_init (demo0 a false)) WI OKL) as [w E].
  { unfold pair_events. cbn [events_plain plain_event]. split; [exact I|]. intros w1 _. split; [exact I|]. intros w2 _. split; [exact I|]. auto. }
  { reflexivity. }
  { cbn. lra. }
  exists w. split; [exists (demo_par a false), demo_noise, v0, 0%R, pair_events; split; [apply demo_noise_arg|auto]|].
  exact (pair_run svd hull ecef mq solve (demo0 a false) w WI E).
Qed.

Lemma other_imu : forall svd hull ecef_to_lla mat_quat solve, exists w i v w' u,
  lived svd hull ecef_to_lla mat_quat solve w /\ event_ok w v /\
  wstep svd hull ecef_to_lla mat_quat solve w v = OK w' /\
  mfind i (w_sensors w) = Some (SImu u) /\ iu_moved u = true /\ e_gravity (w_ekf w) = true /\
  e_zero_acc (w_ekf w') = true /\ at_rest (w_ekf w').
Proof.
  intros svd hull ecef mq solve. destruct (pair_world svd hull ecef mq solve AAll) as [w [HL [P [G [[u [F1 M1]] [v [F2 M2]]]]]]].
  assert (HR : p_root (e_par (w_ekf w)) = false) by (rewrite P; reflexivity).
  destruct (two_imus svd hull ecef mq solve w 1 2 u v one3 HL HR) as (acc & acc' & omg & omg' & w1 & w2 & u1 & u2 & E1 & A1 & B1 & E2 & A2 & B2 & Z & Q); auto.
  { rewrite P. cbn. lra. }
  { rewrite P. cbn. lra. }
  { apply one3_ok. }
  assert (HO : event_ok w (EMsg (MImu 1 0 acc one3 omg one3))) by (cbn; split; apply one3_ok).
  exists w1, 1, (EMsg (MImu 2 0 acc' one3 omg' one3)), w2, u1.
  split; [apply (lived_step _ _ _ _ _ w _ w1 HL HO E1)|]. split; [cbn; split; apply one3_ok|].
  repeat (split; [assumption|]). split; [|auto].
  apply (gravity_only _ _ _ _ _ w _ w1 HL HO E1). exact G.
Qed.
