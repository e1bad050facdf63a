(** The stationary test of a square-root filter weighs with the root. *)
From Coq Require Import Reals List Arith Bool Lia Lra.
From Verif Require Import Base.Res Base.Mat Base.RSum Base.LinAlg Base.Inverse Base.Geom Base.AMap Base.RMat Base.RDec
  Model.TypeHelper Model.Types Model.MathHelper Model.Matrix3 Model.MathHelperMat Model.Ekf Model.Updater Model.Ops Model.ImuUpdater
  Model.GpsHelper Model.GpsUpdater Model.FiducialUpdater Model.MsckfUpdater Model.Sensors
  Spec.Layout Spec.History Spec.Contract Spec.KF Spec.Named Spec.Callback Spec.World Spec.Stationary
  Proofs.MatSurgery Proofs.Refresh Proofs.Wf Proofs.Register Proofs.Invariant Proofs.Kalman Proofs.BlockDiag
  Proofs.Demo Proofs.Update Proofs.AtRestSteps Proofs.BoardTurn Proofs.Named Proofs.Same Proofs.RegRefute Proofs.Follows Proofs.ImuCallback Proofs.Stationary Proofs.World Proofs.Ids Proofs.WorldFinals Proofs.StationaryFinals.
Import ListNotations.
Open Scope nat_scope.

Lemma plain_score : forall u e acc A omg W x, p_root (e_par e) = false ->
  (stationary_score u e acc A omg W x <-> meant_score u e acc A omg W x).
Proof.
  intros u e acc A omg W x P. unfold stationary_score, meant_score, covariance, stands_for. rewrite P. reflexivity.
Qed.

(** A row that only one independent quantity enters. *)
Lemma alone_row : forall m n a c P H N l q, a < m -> c < n ->
  (forall j, j < n -> P c j = if c =? j then l else 0%R) ->
  (forall j, j < n -> H a j = if c =? j then (-1)%R else 0%R) ->
  (forall i, i < m -> H i c = if a =? i then (-1)%R else 0%R) ->
  (forall i, i < m -> N a i = if a =? i then q else 0%R) ->
  forall i, i < m -> innov n P H N a i = if a =? i then (l + q)%R else 0%R.
Proof.
  intros m n a c P H N l q Ha Hc HP HH HC HN i Hi. unfold innov, madd. rewrite HN by exact Hi.
  unfold mm at 1. rewrite (rsum_single n c); [|exact Hc|].
  - unfold mm, tr. rewrite (rsum_single n c); [|exact Hc|].
    + rewrite HH, HP, HC by assumption. rewrite Nat.eqb_refl. destruct (a =? i); lra.
    + intros j Hj D. rewrite HH by exact Hj. rewrite (proj2 (Nat.eqb_neq c j)) by congruence. lra.
  - intros k Hk D. unfold mm. rewrite (rsum_single n c); [|exact Hc|].
    + rewrite HP by exact Hk. rewrite (proj2 (Nat.eqb_neq c k)) by congruence. lra.
    + intros j Hj D'. rewrite HH by exact Hj. rewrite (proj2 (Nat.eqb_neq c j)) by congruence. lra.
Qed.

(** A residual in that row only. *)
Lemma alone : forall m n a c P H N Si r l q, a < m -> c < n ->
  (forall j, j < n -> P c j = if c =? j then l else 0%R) ->
  (forall j, j < n -> H a j = if c =? j then (-1)%R else 0%R) ->
  (forall i, i < m -> H i c = if a =? i then (-1)%R else 0%R) ->
  (forall i, i < m -> N a i = if a =? i then q else 0%R) ->
  (forall i, i < m -> i <> a -> r i = 0%R) -> (0 < l + q)%R ->
  is_inv m (innov n P H N) Si -> qf m Si r = (r a * r a / (l + q))%R.
Proof.
  intros m n a c P H N Si r l q Ha Hc HP HH HC HN Hr Hp [I _].
  pose proof (alone_row m n a c P H N l q Ha Hc HP HH HC HN) as S.
  pose proof (I a a Ha Ha) as J. unfold mm in J. rewrite (rsum_single m a) in J; [|exact Ha|].
  2:{ intros i Hi D. rewrite S by exact Hi. rewrite (proj2 (Nat.eqb_neq a i)) by congruence. lra. }
  rewrite S in J by exact Ha. unfold idm in J. rewrite !Nat.eqb_refl in J.
  rewrite qf_expand. rewrite (rsum_single m a); [|exact Ha|].
  - rewrite (rsum_single m a); [|exact Ha|].
    + replace (Si a a) with (/ (l + q))%R by (apply (Rmult_eq_reg_l (l + q)); [rewrite J; field|]; lra).
      unfold Rdiv. ring.
    + intros i Hi D. rewrite (Hr i Hi D). ring.
  - intros i Hi D. apply rsum_0. intros j Hj. rewrite (Hr i Hi D). ring.
Qed.

(** The rows of the Jacobian for the gyroscope. *)
Lemma gyro_row : forall u e s H e1, GetImuState e (iu_id u) = (s, e) -> iu_ext u = false -> iu_int u = true ->
  18 <= i_index_int s -> GetZeroAccelerationJacobian u e = OK (H, e1) ->
  (forall j, ent H 3 j = if i_index_int s + 3 =? j then (-1)%R else 0%R) /\
  (forall i, i < 6 -> ent H i (i_index_int s + 3) = if 3 =? i then (-1)%R else 0%R).
Proof.
  intros u e s H e1 G X Y B J. unfold GetZeroAccelerationJacobian in J. rewrite G, X, Y in J.
  apply bind_OK in J. destruct J as [j1 [J1 J]]. apply set_block_inv in J1. destruct J1 as (_ & _ & _ & _ & ->).
  cbn [bind] in J.
  apply bind_OK in J. destruct J as [j3 [J3 J]]. injection J as <- <-.
  apply bind_OK in J3. destruct J3 as [j2 [J2 J3]]. apply set_block_inv in J2. destruct J2 as (_ & _ & _ & _ & ->).
  apply set_block_inv in J3. destruct J3 as (_ & _ & _ & _ & ->).
  assert (X1 : in_range (i_index_int s + 3) (i_index_int s + 3) 3 = true).
  { unfold in_range. apply andb_true_intro. split; [apply Nat.leb_le|apply Nat.ltb_lt]; lia. }
  assert (X2 : in_range (i_index_int s + 3) (i_index_int s + 0) 3 = false).
  { unfold in_range. apply andb_false_intro2. apply Nat.ltb_ge. lia. }
  assert (X3 : in_range (i_index_int s + 3) 9 3 = false).
  { unfold in_range. apply andb_false_intro2. apply Nat.ltb_ge. lia. }
  split; [intros k|intros i K]; cbn [ent].
  - change (in_range 3 3 3) with true. change (in_range 3 0 3) with false. cbn [andb].
    change (ent (mzero 6 (e_size e)) 3 k) with 0%R. change (3 - 3) with 0.
    unfold in_range. destruct (Nat.eqb_spec (i_index_int s + 3) k) as [<-|D].
    + rewrite Nat.leb_refl, (proj2 (Nat.ltb_lt _ _)) by lia. cbn [andb]. rewrite Nat.sub_diag. cbn. unfold mopp, idm. cbn. lra.
    + destruct (Nat.leb_spec (i_index_int s + 3) k); [|reflexivity]. cbn [andb].
      destruct (k <? _); [|reflexivity]. cbn. unfold mopp, idm.
      rewrite (proj2 (Nat.eqb_neq 0 (k - (i_index_int s + 3)))) by lia. lra.
  - rewrite X1, X2, X3, !andb_false_r, andb_true_r, Nat.sub_diag.
    change (ent (mzero 6 (e_size e)) i (i_index_int s + 3)) with 0%R. unfold m3neg, m3id, midm. cbn [ent]. unfold mopp, idm.
    do 6 (destruct i as [|i]; [cbn; lra|]). lia.
Qed.

(** The example: an IMU that calibrates its biases, entered with a root
    [l] for every bias. *)
Definition rs_imu : ImuState := imu_SetIsIntrinsic true (imu_SetIsExtrinsic false default_imu).
Definition rs_u : imu_updater := imu_updater_init 1 false true.
Definition rs_noise : mat R := scaled (1/1000) 3.

Definition rs_ready (l : R) (e : ekf) : Prop := exists s d,
  p_root (e_par e) = true /\ p_chi2 (e_par e) = 1%R /\
  p_imu_scale (e_par e) = 100%R /\ knows rs_u e s /\ i_index_int s = 18 /\ e_size e = 24 /\
  i_acc_bias s = v0 /\ i_omg_bias s = v0 /\ i_ang s = qid /\ b_ang (s_body (e_state e)) = qid /\
  (0 <= l -> forall i, 0 <= d i)%R /\ (l <> 0 -> forall i, d i <> 0)%R /\ d 21 = l /\ eqm 24 24 (ent (e_cov e)) (diagm d).

Lemma rs_reg : forall l c e1, 6 <= nr c -> 6 <= nc c ->
  (forall i j, i < 6 -> j < 6 -> ent c i j = if i =? j then l else 0%R) ->
  RegisterIMU (demo0 ANone true) 1 rs_imu c = OK e1 -> rs_ready l e1.
Proof.
  intros l c e1 Hr Hc Hd E0. set (e0 := demo0 ANone true) in *.
  destruct (RegisterIMU_ok e0 1 rs_imu c) as [e1' [E1 [W1 [S1 [N1 [_ [F1 _]]]]]]];
    [apply (reachable_inv _ (demo0_reachable ANone true))|reflexivity| |].
  { pose proof e9_pos. split; [reflexivity|]. split; [exact Hr|]. split; [exact Hc|]. cbn. auto. }
  rewrite E0 in E1. injection E1 as <-.
  assert (P : e_par e1 = demo_par ANone true) by exact (proj1 F1).
  assert (K : exists s, mfind 1 (s_imu (e_state e1)) = Some s /\ i_ext s = false /\ i_int s = true /\ i_index_int s = 18 /\
    i_acc_bias s = v0 /\ i_omg_bias s = v0 /\ i_ang s = qid).
  { rewrite S1. eexists. split; [reflexivity|]. repeat split; reflexivity. }
  destruct K as [s [K1 [K2 [K3 [K4 [K5 [K6 K7]]]]]]].
  assert (Z : e_size e1 = 24).
  { destruct N1 as [N1 _]. rewrite <- (wf_nr _ W1), N1. reflexivity. }
  exists s, (fun i => if i <? 18 then sqrt (1/100 * 1) else l).
  rewrite P. do 3 (split; [reflexivity|]). split; [split; [exact K1|split; assumption]|].
  split; [exact K4|]. split; [exact Z|]. do 3 (split; [assumption|]).
  split; [rewrite S1; reflexivity|]. split.
  { intros L i. destruct (i <? 18); [apply sqrt_pos|exact L]. }
  split.
  { intros L i. destruct (i <? 18); [|exact L]. apply Rgt_not_eq. apply sqrt_lt_R0. lra. }
  split; [reflexivity|].
  intros i j Hi Hj. destruct N1 as [A1 [A2 A3]]. rewrite A3.
  2:{ rewrite A1. exact Hi. } 2:{ rewrite A2. exact Hj. }
  change (start_gps (e_state e0)) with 18.
  unfold insert_entry, unshift. change (nr (sub_block c (imu_len rs_imu))) with 6.
  change (nc (sub_block c (imu_len rs_imu))) with 6.
  cbn [e0 demo0 EKF_init e_cov p_root demo_par ent mmap mscale midm sub_block]. unfold diagm, mscal, idm.
  destruct (Nat.ltb_spec i 18) as [I|I], (Nat.ltb_spec j 18) as [J|J].
  - destruct (i =? j); [reflexivity|]. rewrite Rmult_0_r. apply sqrt_0.
  - destruct (Nat.ltb_spec j (18 + 6)); [|lia]. rewrite (proj2 (Nat.eqb_neq i j)) by lia. reflexivity.
  - destruct (Nat.ltb_spec i (18 + 6)); [|lia]. rewrite (proj2 (Nat.eqb_neq i j)) by lia. reflexivity.
  - destruct (Nat.ltb_spec i (18 + 6)); [|lia]. destruct (Nat.ltb_spec j (18 + 6)); [|lia]. cbn [Nat.add].
    rewrite Hd by lia.
    destruct (Nat.eqb_spec i j) as [->|D]; [rewrite Nat.eqb_refl; lra|].
    rewrite (proj2 (Nat.eqb_neq (i - 18) (j - 18))) by lia. lra.
Qed.

Lemma rs_spd : spd 6 (mscal 100 (imu_noise_block rs_noise rs_noise)).
Proof.
  apply spd_mscal; [lra|]. apply (spd_ext 6 (diagm (fun _ => (1/1000)%R))).
  - intros i j Hi Hj.
    do 6 (destruct i as [|i]; [do 6 (destruct j as [|j]; [cbv -[Rmult Rdiv Rinv IZR]; try lra|]); lia|]). lia.
  - apply spd_diag. intros. lra.
Qed.

Lemma rs_any : forall e s H, mfind 1 (s_imu (e_state e)) = Some s -> i_index_int s = 18 ->
  GetZeroAccelerationJacobian rs_u e = OK (H, e) ->
  i_acc_bias s = v0 -> i_omg_bias s = v0 -> i_ang s = qid -> b_ang (s_body (e_state e)) = qid ->
  forall o P l Si, (forall j, j < 24 -> P 21 j = if 21 =? j then l else 0%R) -> (0 <= l)%R ->
  is_inv 6 (innov 24 P (ent H) (mscal 100 (imu_noise_block rs_noise rs_noise))) Si ->
  qf 6 Si (rest_residual (b_ang (s_body (e_state e))) s g_gravity (mkV3 o 0 0)) = (o * o / (l + 1/10))%R.
Proof.
  intros e s H K I J B1 B2 B3 B4 o P l Si Hl L V.
  destruct (gyro_row rs_u e s H e (get_imu_same _ _ _ K) eq_refl eq_refl) as [R1 R2]; [lia|exact J|]. rewrite I in R1, R2.
  rewrite (alone 6 24 3 21 P (ent H) (mscal 100 (imu_noise_block rs_noise rs_noise)) Si
    (rest_residual (b_ang (s_body (e_state e))) s g_gravity (mkV3 o 0 0)) l (1/10)%R).
  - unfold rest_residual. rewrite B2. cbn. field. lra.
  - lia.
  - lia.
  - exact Hl.
  - intros j _. apply R1.
  - exact R2.
  - intros i Hi. do 6 (destruct i as [|i]; [cbv -[Rmult Rdiv Rinv IZR]; try lra|]). lia.
  - intros i Hi D. unfold rest_residual. rewrite B1, B2, B3, B4, inv_qid, qmul_id, qrot_qid.
    do 6 (destruct i as [|i]; [first [exfalso; apply D; reflexivity | cbn; ring]|]). lia.
  - lra.
  - exact V.
Qed.

Lemma rs_scores : forall e s H, mfind 1 (s_imu (e_state e)) = Some s -> i_index_int s = 18 -> e_size e = 24 ->
  GetZeroAccelerationJacobian rs_u e = OK (H, e) ->
  i_acc_bias s = v0 -> i_omg_bias s = v0 -> i_ang s = qid -> b_ang (s_body (e_state e)) = qid ->
  forall o P l, psd 24 P -> (forall j, j < 24 -> P 21 j = if 21 =? j then l else 0%R) -> (0 <= l)%R ->
  exists Si, is_inv 6 (innov 24 P (ent H) (mscal 100 (imu_noise_block rs_noise rs_noise))) Si /\
    qf 6 Si (rest_residual (b_ang (s_body (e_state e))) s g_gravity (mkV3 o 0 0)) = (o * o / (l + 1/10))%R.
Proof.
  intros e s H K I Z J B1 B2 B3 B4 o P l HP Hl L.
  assert (V : is_inv 6 (innov 24 P (ent H) (mscal 100 (imu_noise_block rs_noise rs_noise)))
    (finv 6 (innov 24 P (ent H) (mscal 100 (imu_noise_block rs_noise rs_noise))))).
  { apply inv_spd. apply innov_spd; [exact HP|exact rs_spd]. }
  eexists. split; [exact V|]. apply (rs_any e s H K I J B1 B2 B3 B4 o P l); auto.
Qed.

Lemma gram_diag : forall n d S, eqm n n S (diagm d) -> eqm n n (gram n S) (diagm (fun i => (d i * d i)%R)).
Proof.
  intros n d S E i j Hi Hj. unfold gram, mm, tr. rewrite (rsum_single n i); [|exact Hi|].
  - rewrite !E by assumption. unfold diagm. rewrite Nat.eqb_refl. destruct (i =? j); ring.
  - intros k Hk D. rewrite E by assumption. unfold diagm. rewrite (proj2 (Nat.eqb_neq k i)) by exact D. ring.
Qed.

(** *** What follows for the filter *)
Lemma score_defined : forall e jac noise resid, reachable e -> nc jac = e_size e -> nr noise = nr jac -> nc noise = nr jac ->
  nr resid = nr jac -> nc resid = 1 -> psd (e_size e) (ent (e_cov e)) ->
  spd (nr jac) (mscal (p_imu_scale (e_par e)) (ent noise)) -> exists x, zero_score e jac noise resid = OK x.
Proof.
  intros e jac noise resid Hr J N1 N2 R1 R2 HP HN. destruct (reachable_inv e Hr) as [W _].
  pose proof (wf_nr _ W) as C1. pose proof (wf_nc _ W) as C2.
  unfold zero_score. rewrite mulc_ok by congruence. cbn [bind].
  rewrite mulc_ok by (cbn [nc nr mtrans]; congruence). cbn [bind].
  rewrite addc_ok by (cbn [nc nr mtrans mscale]; congruence). cbn [bind nr nc ent mtrans mscale].
  unfold invc. cbn [nr nc ent]. rewrite Nat.eqb_refl. cbn [andb].
  match goal with |- context [pivots_ok ?n ?S] => assert (PS : pivots_ok n S = true) end.
  { apply pivots_ok_spec. apply spd_pivots. rewrite C2, J.
    exact (innov_spd (e_size e) (nr jac) (ent (e_cov e)) (ent jac) _ HP HN). }
  rewrite PS. cbn [bind]. rewrite mulc_ok by (cbn [nc nr mtrans]; congruence). cbn [bind].
  rewrite mulc_ok by (cbn [nc nr mtrans]; congruence). cbn [bind]. eexists. reflexivity.
Qed.

Lemma zero_defined : forall root u e s lt acc A omg W, reachable e -> knows u e s -> p_root (e_par e) = root ->
  noise_ok root 3 A -> noise_ok root 3 W -> psd (e_size e) (ent (e_cov e)) ->
  spd (msize u) (mscal (p_imu_scale (e_par e)) (imu_noise_block A W)) ->
  ZeroAccelerationUpdate u e lt acc A omg W <> UB.
Proof.
  intros root u e s lt acc A omg W Hr HK Hroot HA HW HP HN. unfold ZeroAccelerationUpdate.
  destruct (iu_moved u) eqn:M; [discriminate|].
  pose proof HK as [Hf _]. rewrite (get_imu_same _ _ _ Hf).
  destruct (zero_jac_ok u e s Hr HK) as [jac [EJ [J1 J2]]]. rewrite EJ. cbn [bind].
  destruct (zero_noise_ok _ u A W HA HW) as [N [EN NN]]. rewrite EN. cbn [bind].
  destruct (zero_resid_shape u e s acc omg) as [R1 R2]. pose proof NN as [N1 [N2 _]].
  destruct (score_defined e jac N (zero_resid u e s acc omg) Hr J2) as [x EX]; try congruence.
  { rewrite J1. refine (spd_ext _ _ _ _ HN). intros i j Hi Hj. unfold mscal.
    rewrite (noise_block root u A W N HA HW EN) by auto. reflexivity. }
  rewrite EX. cbn [bind].
  destruct (Rltb (p_chi2 (e_par e)) x && e_gravity e) eqn:T; [discriminate|].
  set (e1 := if Rltb x (p_chi2 (e_par e)) then InitializeGravity e else e).
  assert (W1 : went e e1).
  { unfold e1. destruct (Rltb x (p_chi2 (e_par e))); [exact (proj1 (gravity_went e Hr))|apply went_refl; exact Hr]. }
  clearbody e1.
  destruct (predict_went e1 lt (w_reach _ _ W1)) as [e2 [E2 [W2 _]]]. rewrite E2. cbn [bind].
  destruct (knows_keeps u e e2 s HK) as [s2 K2]; [apply (w_keeps e e2); eapply went_trans; eauto|].
  destruct (zero_jac_ok u e2 s2 (w_reach _ _ W2) K2) as [jac2 [EJ2 [J3 J4]]]. rewrite EJ2. cbn [bind].
  assert (P2 : e_par e2 = e_par e) by (rewrite (w_par _ _ W2); apply (w_par _ _ W1)).
  destruct (kalman_went e2 jac2 (zero_resid u e s acc omg) N (w_reach _ _ W2)) as [e3 [E3 _]].
  { apply (noise_meas _ (msize u)); auto. rewrite P2, Hroot. exact NN. }
  rewrite E3. discriminate.
Qed.

Lemma imu_runs : forall root u e s t acc A omg W, reachable e -> knows u e s -> p_root (e_par e) = root ->
  noise_ok root 3 A -> noise_ok root 3 W -> psd (e_size e) (ent (e_cov e)) ->
  spd (msize u) (mscal (p_imu_scale (e_par e)) (imu_noise_block A W)) ->
  imu_UpdateEKF u e t acc A omg W <> UB.
Proof.
  intros root u e s t acc A omg W Hr HK Hroot HA HW HP HN. unfold imu_UpdateEKF. rewrite local_of_split.
  destruct (local_went e t Hr) as [W0 [L0 [_ [_ [_ [S0 _]]]]]].
  destruct (zero_scale_local e t) as [P0 C0].
  set (e0 := snd (CalculateLocalTime e t)) in *. rewrite L0. clearbody e0.
  assert (HK0 : knows u e0 s) by (unfold knows in *; rewrite S0; exact HK).
  pose proof (w_reach _ _ W0) as Hr0.
  assert (EZ : e_size e0 = e_size e).
  { pose proof (wf_nr _ (proj1 (reachable_inv e0 Hr0))) as D0. pose proof (wf_nr _ (proj1 (reachable_inv e Hr))) as D. congruence. }
  assert (Z : ZeroAccelerationUpdate u e0 (local_of e t) acc A omg W <> UB).
  { apply (zero_defined root u e0 s); auto; rewrite ?P0, ?C0, ?EZ; auto. }
  assert (HA0 : noise_ok (p_root (e_par e0)) 3 A) by (rewrite P0, Hroot; exact HA).
  assert (HW0 : noise_ok (p_root (e_par e0)) 3 W) by (rewrite P0, Hroot; exact HW).
  destruct (zero_update u e0 s (local_of e t) acc A omg W Hr0 HK0 HA0 HW0) as [[E H]|[[M E]|[M [x [HX [[X1 [X2 E]]|[X1 [e1 [E _]]]]]]]]];
    cbv zeta in E; [contradiction| | |]; rewrite E; cbn [bind].
  - change (imu_ordinary u e0 (local_of e t) acc A omg W <> UB).
    destruct (imu_ordinary_ok u e0 s (local_of e t) acc A omg W Hr0 HK0 HA0 HW0) as [e3 [E3 _]]. rewrite E3. discriminate.
  - change (imu_ordinary (moved_on u) e0 (local_of e t) acc A omg W <> UB).
    destruct (imu_ordinary_ok (moved_on u) e0 s (local_of e t) acc A omg W Hr0 HK0 HA0 HW0) as [e3 [E3 _]]. rewrite E3. discriminate.
  - discriminate.
Qed.

Lemma rs_noise_ok : noise_ok true 3 rs_noise.
Proof.
  apply (diag_noise_ok true 3 rs_noise (fun _ => (1/1000)%R)); try reflexivity; [intros; lra|].
  intros i j _ _. cbn. unfold mscal, idm, diagm. destruct (i =? j); lra.
Qed.

Lemma score_nonneg : forall o l, (0 <= l)%R -> (0 <= o * o / (l + 1/10))%R.
Proof. intros o l L. apply Rmult_le_pos; [nra|]. left. apply Rinv_0_lt_compat. lra. Qed.

Lemma rs_both : forall l e o, (0 <= l)%R -> reachable e -> rs_ready l e ->
  stationary_score rs_u e g_gravity rs_noise (mkV3 o 0 0) rs_noise (o * o / (l + 1/10)) /\
  meant_score rs_u e g_gravity rs_noise (mkV3 o 0 0) rs_noise (o * o / (l * l + 1/10)).
Proof.
  intros l e o L R1 (s & d & P & C & S & K & I & Z & B1 & B2 & B3 & B4 & D1 & DN & D2 & D3).
  destruct (zero_jac_ok rs_u e s R1 K) as [H [J _]].
  pose proof (rs_scores e s H (proj1 K) I Z J B1 B2 B3 B4 o) as Q. assert (L2 : (0 <= l * l)%R) by nra.
  destruct (Q (ent (e_cov e)) l) as [S1 [V1 Q1]]; [| |exact L|].
  { apply (psd_ext 24 (diagm d)); [intros i j Hi Hj; symmetry; auto|apply psd_diag; auto]. }
  { intros j Hj. rewrite D3 by lia. unfold diagm. destruct (Nat.eqb_spec 21 j); [exact D2|reflexivity]. }
  destruct (Q (covariance e) (l * l)%R) as [S2 [V2 Q2]]; [| |exact L2|].
  { unfold covariance, stands_for. rewrite P. apply psd_gram. }
  { intros j Hj. unfold covariance, stands_for. rewrite P, Z. rewrite (gram_diag 24 d) by (auto; lia).
    unfold diagm. destruct (Nat.eqb_spec 21 j); [rewrite D2; reflexivity|reflexivity]. }
  split.
  - exists s, H, e, S1. split; [exact (proj1 K)|]. split; [exact J|]. cbn [rs_u imu_updater_init iu_int]. rewrite Z, S.
    split; [exact V1|]. rewrite Q1. rewrite Rabs_right; [reflexivity|]. apply Rle_ge. apply score_nonneg. exact L.
  - exists s, H, e, S2. split; [exact (proj1 K)|]. split; [exact J|]. cbn [rs_u imu_updater_init iu_int]. rewrite Z, S.
    split; [exact V2|]. rewrite Q2. rewrite Rabs_right; [reflexivity|]. apply Rle_ge. apply score_nonneg. exact L2.
Qed.

(** What the callback does with it. *)
Lemma rs_acts : forall l e o t, (0 <= l)%R -> reachable e -> rs_ready l e -> e_gravity e = true ->
  exists u' e', imu_UpdateEKF rs_u e t g_gravity rs_noise (mkV3 o 0 0) rs_noise = OK (u', e') /\
    ((o * o / (l + 1/10) < 1)%R -> u' = rs_u /\ e_zero_acc e' = true /\ at_rest e') /\
    ((1 < o * o / (l + 1/10))%R -> iu_moved u' = true /\ e_zero_acc e' = false).
Proof.
  intros l e o t L R1 (s & d & P & C & S & K & I & Z & B1 & B2 & B3 & B4 & D1 & DN & D2 & D3) G.
  destruct (zero_jac_ok rs_u e s R1 K) as [H [J _]]. pose proof rs_noise_ok as N.
  assert (PS : psd 24 (ent (e_cov e))).
  { apply (psd_ext 24 (diagm d)); [intros i j Hi Hj; symmetry; auto|apply psd_diag; auto]. }
  assert (HA : noise_ok (p_root (e_par e)) 3 rs_noise) by (rewrite P; exact N).
  assert (HK : has_imu e (iu_id rs_u) (iu_ext rs_u) (iu_int rs_u)) by (apply knows_has; exists s; exact K).
  destruct (imu_callback rs_u e t g_gravity rs_noise (mkV3 o 0 0) rs_noise R1 HK HA HA) as [[u' [e' [E D]]]|[E _]].
  2:{ exfalso. revert E. apply (imu_runs true rs_u e s); auto; [rewrite Z; exact PS|rewrite S; exact rs_spd]. }
  destruct (id_exact _ _ _ _ _ _ _ _ _ D eq_refl) as (e0 & x & T1 & T2 & T3 & T4 & T5 & T6).
  pose proof (score_spec rs_u e e0 _ _ _ _ x true R1 T4 T1 T2 T3 N N T5) as X.
  assert (LT : x = (o * o / (l + 1/10))%R).
  { destruct X as (s' & H' & e1 & Si & F & J' & V & ->). rewrite (proj1 K : mfind (iu_id rs_u) _ = _) in F. injection F as <-.
    rewrite J in J'. injection J' as <- <-. cbn [rs_u imu_updater_init iu_int] in V |- *. rewrite Z, S in V.
    rewrite (rs_any e s H (proj1 K) I J B1 B2 B3 B4 o (ent (e_cov e)) l); auto.
    - apply Rabs_right. apply Rle_ge. apply score_nonneg. exact L.
    - intros j Hj. rewrite D3 by lia. unfold diagm. destruct (Nat.eqb_spec 21 j); [exact D2|reflexivity]. }
  rewrite <- LT. exists u', e'. split; [exact E|]. rewrite C, G in T6.
  destruct T6 as [[X1 [_ [X2 X3]]]|[X1 [X2 [X3 _]]]].
  - split; [intros; lra|]. auto.
  - split; [|intros Y; exfalso; apply X1; auto]. intros _.
    destruct (id_rest _ _ _ _ _ _ _ _ _ D X3) as [_ [-> RS]]. split; [reflexivity|]. split; [exact X3|exact RS].
Qed.

(** *** A history that leads there *)
Definition rs_params (l : R) : ImuParams := mkIP false true e9 e9 e9 e9 v0 qid v0 v0 [l; l; l; l; l; l].

Lemma rs_params_ok : forall l, imu_params_ok (rs_params l).
Proof. intros l. pose proof e9_pos. unfold imu_params_ok. cbn. repeat split; intros; try discriminate; try lra; auto. Qed.

Lemma rs_cov : forall l, (1/2 <= l)%R -> exists c, imu_cov_of (rs_params l) = OK c /\ 6 <= nr c /\ 6 <= nc c /\
  forall i j, i < 6 -> j < 6 -> ent c i j = if i =? j then l else 0%R.
Proof.
  intros l L. assert (M : MinBoundVector (ip_var (rs_params l)) (1 / 1000000) = [l; l; l; l; l; l]).
  { unfold MinBoundVector. cbn [ip_var rs_params map].
    replace (Rltb l (1/1000000)) with false; [reflexivity|]. symmetry. apply Rltb_false. lra. }
  unfold imu_cov_of. rewrite M. eexists. split; [reflexivity|]. split; [cbn; lia|]. split; [cbn; lia|].
  intros i j Hi Hj. cbn [diag_of ent]. unfold diagm. destruct (i =? j); [|reflexivity].
  do 6 (destruct i as [|i]; [reflexivity|]). lia.
Qed.

Lemma rs_world : forall svd hull ecef_to_lla mat_quat solve l, (1/2 <= l)%R -> exists w,
  lived svd hull ecef_to_lla mat_quat solve w /\ mfind 1 (w_sensors w) = Some (SImu rs_u) /\
  e_gravity (w_ekf w) = true /\ rs_ready l (w_ekf w).
Proof.
  intros svd hull ecef mq solve l L. destruct (rs_cov l L) as [c [Ec [C1 [C2 C3]]]].
  destruct (RegisterIMU_ok (demo0 ANone true) 1 rs_imu c) as [e1 [E1 _]];
    [apply (reachable_inv _ (demo0_reachable ANone true))|reflexivity| |].
  { pose proof e9_pos. split; [reflexivity|]. split; [exact C1|]. split; [exact C2|]. cbn. auto. }
  assert (RD : rs_ready l e1) by (apply (rs_reg l c e1); auto).
  assert (S1 : exists w1, wstep svd hull ecef mq solve (world_init (demo0 ANone true)) (ENewImu (rs_params l)) = OK w1 /\
    w_ekf w1 = e1 /\ mfind 1 (w_sensors w1) = Some (SImu rs_u)).
  { cbn [wstep]. unfold imu_new. change (w_ekf (world_init (demo0 ANone true))) with (demo0 ANone true).
    change (imu_state_of (rs_params l)) with rs_imu. rewrite Ec.
    change (new_sensor_id (w_cnt (world_init (demo0 ANone true)))) with (1, snd (new_sensor_id (w_cnt (world_init (demo0 ANone true))))).
    cbv iota beta. cbn [bind]. rewrite E1. cbn [bind]. eexists. split; [reflexivity|]. split; reflexivity. }
  destruct S1 as [w1 [S1 [W1 M1]]].
  assert (L0 : lived svd hull ecef mq solve (world_init (demo0 ANone true))).
  { exists (demo_par ANone true), demo_noise, v0, 0%R, []. split; [apply demo_noise_arg|]. split; [exact I|reflexivity]. }
  pose proof (lived_step _ _ _ _ _ _ (ENewImu (rs_params l)) _ L0 (rs_params_ok l) S1) as L1.
  assert (S2 : exists w2, wstep svd hull ecef mq solve w1 (EConf OInitGravity) = OK w2 /\
    w_ekf w2 = InitializeGravity (w_ekf w1) /\ w_sensors w2 = w_sensors w1).
  { cbn [wstep step bind]. eexists. split; [reflexivity|]. split; reflexivity. }
  destruct S2 as [w2 [S2 [W2 M2]]].
  exists w2. split; [exact (lived_step _ _ _ _ _ _ (EConf OInitGravity) _ L1 (conj I I) S2)|].
  rewrite W2, M2, W1. split; [exact M1|]. split; [reflexivity|]. exact RD.
Qed.

Lemma root_motion : forall svd hull ecef_to_lla mat_quat solve, exists w u acc A omg W x y,
  lived svd hull ecef_to_lla mat_quat solve w /\ p_root (e_par (w_ekf w)) = true /\
  mfind 1 (w_sensors w) = Some (SImu u) /\ iu_moved u = false /\ e_gravity (w_ekf w) = true /\
  noise_ok true 3 A /\ noise_ok true 3 W /\
  stationary_score u (w_ekf w) acc A omg W x /\ meant_score u (w_ekf w) acc A omg W y /\
  (x < p_chi2 (e_par (w_ekf w)) < y)%R /\
  forall t, exists w', wstep svd hull ecef_to_lla mat_quat solve w (EMsg (MImu 1 t acc A omg W)) = OK w' /\
    mfind 1 (w_sensors w') = Some (SImu u) /\ e_zero_acc (w_ekf w') = true /\ at_rest (w_ekf w').
Proof.
  intros svd hull ecef mq solve. destruct (rs_world svd hull ecef mq solve (1/2)) as [w [L [M [G RD]]]]; [lra|].
  assert (R1 : reachable (w_ekf w)) by (destruct (lived_winv _ _ _ _ _ _ L) as [[R1 _ _] _]; exact R1).
  destruct (rs_both (1/2) (w_ekf w) (7/10)) as [X Y]; [lra|exact R1|exact RD|].
  exists w, rs_u, g_gravity, rs_noise, (mkV3 (7/10) 0 0), rs_noise, (7/10 * (7/10) / (1/2 + 1/10))%R, (7/10 * (7/10) / (1/2 * (1/2) + 1/10))%R.
  split; [exact L|]. split; [destruct RD as (s & d & P & _); exact P|]. split; [exact M|]. split; [reflexivity|].
  split; [exact G|]. split; [apply rs_noise_ok|]. split; [apply rs_noise_ok|]. split; [exact X|]. split; [exact Y|].
  split; [destruct RD as (s & d & _ & C & _); rewrite C; lra|]. intros t.
  destruct (rs_acts (1/2) (w_ekf w) (7/10) t) as [u' [e' [E [Q _]]]]; [lra|exact R1|exact RD|exact G|].
  destruct Q as [-> [Q1 Q2]]; [lra|].
  cbn [wstep]. unfold deliver. cbn [msg_id]. rewrite M, E. cbn [bind]. eexists. split; [reflexivity|].
  cbn [w_sensors w_ekf]. split; [apply mfind_mset_eq|]. auto.
Qed.

Lemma root_alarm : forall svd hull ecef_to_lla mat_quat solve, exists w u acc A omg W x y,
  lived svd hull ecef_to_lla mat_quat solve w /\ p_root (e_par (w_ekf w)) = true /\
  mfind 1 (w_sensors w) = Some (SImu u) /\ iu_moved u = false /\ e_gravity (w_ekf w) = true /\
  noise_ok true 3 A /\ noise_ok true 3 W /\
  stationary_score u (w_ekf w) acc A omg W x /\ meant_score u (w_ekf w) acc A omg W y /\
  (y < p_chi2 (e_par (w_ekf w)) < x)%R /\
  forall t, exists w' u', wstep svd hull ecef_to_lla mat_quat solve w (EMsg (MImu 1 t acc A omg W)) = OK w' /\
    mfind 1 (w_sensors w') = Some (SImu u') /\ iu_moved u' = true /\ e_zero_acc (w_ekf w') = false.
Proof.
  intros svd hull ecef mq solve. destruct (rs_world svd hull ecef mq solve 2) as [w [L [M [G RD]]]]; [lra|].
  assert (R1 : reachable (w_ekf w)) by (destruct (lived_winv _ _ _ _ _ _ L) as [[R1 _ _] _]; exact R1).
  destruct (rs_both 2 (w_ekf w) (3/2)) as [X Y]; [lra|exact R1|exact RD|].
  exists w, rs_u, g_gravity, rs_noise, (mkV3 (3/2) 0 0), rs_noise, (3/2 * (3/2) / (2 + 1/10))%R, (3/2 * (3/2) / (2 * 2 + 1/10))%R.
  split; [exact L|]. split; [destruct RD as (s & d & P & _); exact P|]. split; [exact M|]. split; [reflexivity|].
  split; [exact G|]. split; [apply rs_noise_ok|]. split; [apply rs_noise_ok|]. split; [exact X|]. split; [exact Y|].
  split; [destruct RD as (s & d & _ & C & _); rewrite C; lra|]. intros t.
  destruct (rs_acts 2 (w_ekf w) (3/2) t) as [u' [e' [E [_ Q]]]]; [lra|exact R1|exact RD|exact G|].
  destruct Q as [Q1 Q2]; [lra|].
  cbn [wstep]. unfold deliver. cbn [msg_id]. rewrite M, E. cbn [bind]. eexists. exists u'. split; [reflexivity|].
  cbn [w_sensors w_ekf]. split; [apply mfind_mset_eq|]. auto.
Qed.

(** *** A root with a negative entry *)
Lemma rs_singular : forall e acc omg t, reachable e -> rs_ready (- (1/10)) e ->
  imu_UpdateEKF rs_u e t acc rs_noise omg rs_noise = UB.
Proof.
  intros e acc omg t R1 (s & d & P & C & S & K & I & Z & B1 & B2 & B3 & B4 & D1 & DN & D2 & D3).
  assert (HA : noise_ok (p_root (e_par e)) 3 rs_noise) by (rewrite P; exact rs_noise_ok).
  assert (HK : has_imu e (iu_id rs_u) (iu_ext rs_u) (iu_int rs_u)) by (apply knows_has; exists s; exact K).
  destruct (imu_callback rs_u e t acc rs_noise omg rs_noise R1 HK HA HA) as [[u' [e' [E D]]]|[E _]]; [exfalso|exact E].
  destruct (id_exact _ _ _ _ _ _ _ _ _ D eq_refl) as (e0 & x & T1 & T2 & T3 & T4 & T5 & _).
  pose proof (score_spec rs_u e e0 _ _ _ _ x true R1 T4 T1 T2 T3 rs_noise_ok rs_noise_ok T5) as X.
  destruct (zero_jac_ok rs_u e s R1 K) as [H [J _]].
  destruct X as (s' & H' & e1 & Si & F & J' & [V _] & _).
  rewrite J in J'. injection J' as <- <-. cbn [rs_u imu_updater_init iu_int] in V. rewrite Z, S in V.
  destruct (gyro_row rs_u e s H e (get_imu_same _ _ _ (proj1 K)) eq_refl eq_refl) as [Q1 Q2]; [lia|exact J|]. rewrite I in Q1, Q2.
  assert (W : forall i, i < 6 -> innov 24 (ent (e_cov e)) (ent H) (mscal 100 (imu_noise_block rs_noise rs_noise)) 3 i =
    if 3 =? i then (- (1/10) + 1/10)%R else 0%R).
  { apply (alone_row 6 24 3 21); [lia|lia| |intros j _; apply Q1|exact Q2|].
    - intros j Hj. rewrite D3 by lia. unfold diagm. destruct (Nat.eqb_spec 21 j); [exact D2|reflexivity].
    - intros i Hi. do 6 (destruct i as [|i]; [cbv -[Rmult Rdiv Rinv IZR]; try lra|]). lia. }
  assert (T33 : 3 < 6) by lia. pose proof (V 3 3 T33 T33) as Y. unfold mm in Y. rewrite rsum_0 in Y.
  - unfold idm in Y. rewrite Nat.eqb_refl in Y. lra.
  - intros k Hk. rewrite W by exact Hk. destruct (3 =? k); ring.
Qed.

Lemma root_singular : exists e u A W, reachable e /\ p_root (e_par e) = true /\
  has_imu e (iu_id u) (iu_ext u) (iu_int u) /\ iu_moved u = false /\ (0 < p_imu_scale (e_par e))%R /\
  noise_ok true 3 A /\ noise_ok true 3 W /\
  spd (e_size e) (covariance e) /\
  forall t acc omg, imu_UpdateEKF u e t acc A omg W = UB.
Proof.
  set (e0 := demo0 ANone true). pose (c := scaled (- (1/10)) 6).
  assert (C0 : contract e0 (ORegImu 1 rs_imu c)).
  { intros _. split; [reflexivity|]. split.
    - change (cov_arg true 6 (scaled (- (1/10)) 6)). split; [cbn; lia|]. split; [cbn; lia|]. intros i j Hij. cbn. unfold mscal, idm. destruct (Nat.eqb_spec i j); [lia|ring].
    - pose proof e9_pos. cbn. auto. }
  destruct (step_inv e0 _ (reachable_inv _ (demo0_reachable ANone true)) C0) as [e1 [E1 _]].
  pose proof (reachable_step _ _ _ (demo0_reachable ANone true) C0 E1) as R1. cbn [step] in E1.
  assert (RD : rs_ready (- (1/10)) e1).
  { apply (rs_reg (- (1/10)) c e1); [unfold c; cbn; lia|unfold c; cbn; lia| |exact E1].
    intros i j _ _. unfold c. cbn. unfold mscal, idm. destruct (i =? j); lra. }
  exists e1, rs_u, rs_noise, rs_noise. split; [exact R1|].
  pose proof RD as (s & d & P & C & S & K & I & Z & B1 & B2 & B3 & B4 & D1 & DN & D2 & D3).
  split; [exact P|]. split; [apply knows_has; exists s; exact K|]. split; [reflexivity|]. split; [rewrite S; lra|].
  split; [apply rs_noise_ok|]. split; [apply rs_noise_ok|]. split.
  - rewrite Z. unfold covariance, stands_for. rewrite P, Z.
    apply (spd_ext 24 (diagm (fun i => (d i * d i)%R))).
    + intros i j Hi Hj. symmetry. apply (gram_diag 24 d); auto.
    + apply spd_diag. intros i _. apply (Rsqr_pos_lt (d i)). apply DN. lra.
  - intros t acc omg. apply rs_singular; [exact R1|exact RD].
Qed.
