(** Stamps, the initial pose, and memory nobody wrote: witnesses. *)
From Coq Require Import Reals List Arith Bool Lia Lra ZArith String.
From Verif Require Import Base.Res Base.Mat Base.RDec Base.RSum Base.LinAlg Base.Geom Base.AMap Base.RMat
  Model.TypeHelper Model.Types Model.MathHelperMat Model.MathHelper Model.GpsHelper Model.Ekf Model.Updater Model.Ops Model.Matrix3
  Model.ImuUpdater Model.GpsUpdater Model.FiducialUpdater Model.MsckfUpdater Model.Sensors Model.RosNode
  Spec.Layout Spec.Contract Spec.Named Spec.Same Spec.KF Spec.Noise Spec.Callback Spec.World Spec.Earth Spec.Ros
  Proofs.Wf Proofs.Invariant Proofs.Named Proofs.Scalars Proofs.Noise Proofs.Follows Proofs.World Proofs.ZeroStep Proofs.Finals
  Proofs.GpsFrames Proofs.ImuCallback Proofs.GpsCallback Proofs.StationaryFinals Proofs.RosLoad Proofs.RosFinals Proofs.RosNoise.
Import ListNotations.
Open Scope nat_scope.

(** *** Stamps *)
Lemma stamps_ordered : forall a b, (0 <= st_nsec a < 1000000000)%Z -> (0 <= st_nsec b < 1000000000)%Z ->
  ((RosHeaderToTime a < RosHeaderToTime b)%R <-> earlier a b).
Proof.
  intros a b [A1 A2] [B1 B2]. unfold RosHeaderToTime, g_nsec_to_sec, earlier.
  assert (X : forall s n, (IZR s + IZR n * (1 / 1000000000) = IZR (s * 1000000000 + n) / 1000000000)%R)
    by (intros s n; rewrite plus_IZR, mult_IZR; field).
  rewrite !X. split.
  - intros H. assert (H' : (IZR (st_sec a * 1000000000 + st_nsec a) < IZR (st_sec b * 1000000000 + st_nsec b))%R) by lra.
    apply lt_IZR in H'. lia.
  - intros H. assert (H' : (st_sec a * 1000000000 + st_nsec a < st_sec b * 1000000000 + st_nsec b)%Z) by lia.
    apply IZR_lt in H'. lra.
Qed.

(** *** The initial pose *)
Lemma pose_ignored : forall asserts junk c p a, triad [0; 0; 0]%R (rc_pos_b_in_l c) -> List.length p = 3 ->
  ros_start asserts junk (placed c p a) = ros_start asserts junk c.
Proof.
  intros asserts junk c p a H1 H2. unfold triad in H1.
  unfold ros_start, ros_Initialize, placed. cbn [rc_pos_b_in_l rc_pos_e_in_g rc_ang_l_to_e get]. rewrite !get_dflt.
  destruct (to_V3_ok asserts _ H1) as [x ->]. destruct (to_V3_ok asserts _ H2) as [y ->]. reflexivity.
Qed.

(** *** Process noise *)
Definition svd0 (m : m2) : m2 * m2 := (m, m).
Definition hull0 (l : list (Z * Z)) : list (Z * Z) := l.
Definition lla0 (v : V3) : V3 := v.
Definition mq0 (_ : mat R) : quat := qid.
Definition solve0 (_ : mat R) (v : V3) : V3 := v.
Definition imu_cfg (root : bool) : RosConfig :=
  mkRosConfig None None None None None None None None None None None None None None None None None (Some root) None
    [("imu"%string, mkRawImu (Some "imu/data"%string) None None None None None None None None None None None)] [] [] [] [].
Lemma imu_cfg_ok : forall root, config_ok (imu_cfg root).
Proof.
  intros root. assert (N : (0 <= nano)%R) by (unfold nano; lra).
  unfold config_ok, triad, nonneg. cbn [imu_cfg rc_pos_b_in_l rc_pos_e_in_g rc_imus rc_cams rc_trackers rc_fids rc_gps rc_noise_pos rc_noise_vel rc_noise_ang dflt map fst].
  do 2 (split; [reflexivity|]). split; [constructor; [intros []|constructor]|]. do 4 (split; [constructor|]).
  split.
  { intros x [<-|[]]. unfold raw_imu_ok, triad, nonneg, topic_ok. cbn. repeat split; try exact N; try discriminate. lia. }
  do 3 (split; [intros x []|]). split; [intros x y []|]. repeat split; lra.
Qed.
Lemma noise_junk : exists c junk junk' n n', config_ok c /\ (forall i, (0 <= junk i)%R) /\ (forall i, (0 <= junk' i)%R) /\
  ros_start false junk c = OK n /\ ros_start false junk' c = OK n' /\ e_Q (nd_ekf n) <> e_Q (nd_ekf n').
Proof.
  pose proof (imu_cfg_ok false) as HC. set (J := fun r : R => fun _ : nat => r).
  assert (H0 : forall i, (0 <= J 0 i)%R) by (intros i; unfold J; lra). assert (H1 : forall i, (0 <= J 1 i)%R) by (intros i; unfold J; lra).
  destruct (ros_starts svd0 hull0 lla0 mq0 solve0 (J 0%R) _ HC (fun i _ => H0 i)) as [n E].
  destruct (ros_starts svd0 hull0 lla0 mq0 solve0 (J 1%R) _ HC (fun i _ => H1 i)) as [n' E'].
  exists (imu_cfg false), (J 0%R), (J 1%R), n, n'. do 5 (split; [assumption|]). intros Q.
  assert (Z : rc_imus (imu_cfg false) <> [] \/ rc_cams (imu_cfg false) <> [] \/ rc_gps (imu_cfg false) <> []) by (left; discriminate).
  pose proof (ros_noise svd0 hull0 lla0 mq0 solve0 _ _ _ _ [] _ HC (fun i _ => H0 i) Z E (Forall_nil _) eq_refl 9 9 ltac:(lia) ltac:(lia)) as A.
  pose proof (ros_noise svd0 hull0 lla0 mq0 solve0 _ _ _ _ [] _ HC (fun i _ => H1 i) Z E' (Forall_nil _) eq_refl 9 9 ltac:(lia) ltac:(lia)) as B.
  rewrite Q in A. rewrite A in B. cbn in B. unfold J in B. lra.
Qed.

(** *** The covariance of a fix *)
Definition fix_cfg : RosConfig :=
  mkRosConfig None None None None None None None None None None None None None None None None None (Some false) None
    [] [] [] [] [("gps"%string, mkRawGps (Some "fix"%string) None None None)].
Lemma fix_cfg_ok : config_ok fix_cfg.
Proof.
  unfold config_ok, triad, nonneg. cbn [fix_cfg rc_pos_b_in_l rc_pos_e_in_g rc_imus rc_cams rc_trackers rc_fids rc_gps rc_noise_pos rc_noise_vel rc_noise_ang dflt map fst].
  do 2 (split; [reflexivity|]). do 4 (split; [constructor|]). split; [constructor; [intros []|constructor]|].
  do 3 (split; [intros x []|]). split; [|split; [intros x y []|repeat split; lra]].
  intros x [<-|[]]. unfold raw_gps_ok, triad, topic_ok. cbn. repeat split. discriminate.
Qed.

Definition origin_fix : RosFix := mkRosFix (mkStamp 0 0) 0 0 0 (fun _ => 0%R).
Definition spread (r : R) : mat R := mkmat 3 3 (fun i j => if Nat.eqb i j then r else 0%R).
Lemma spread_ok : forall r, (0 < r)%R -> noise_ok false 3 (spread r).
Proof.
  intros r H. split; [reflexivity|]. split; [reflexivity|]. cbv iota.
  apply (spd_ext 3 (diagm (fun _ => r))); [|apply spd_diag; auto]. intros i j Hi Hj. unfold spread, diagm. cbn [ent]. reflexivity.
Qed.

Lemma fix_cov : forall svd hull ecef_to_lla e s t r, (0 < r)%R -> reachable e -> p_root (e_par e) = false -> p_aug (e_par e) = ANone ->
  e_gravity e = false -> e_time_init e = false -> e_lla_init e = true -> e_pos_e_in_g e = v0 -> e_size e = 18 ->
  (forall i j, i < 18 -> j < 18 -> ent (e_cov e) i j = if Nat.eqb i j then (1 / 100)%R else 0%R) ->
  mfind 1 (s_gps (e_state e)) = Some s -> g_ext s = false -> g_pos s = v0 ->
  exists u' e', gps_UpdateEKF svd hull ecef_to_lla (gps_updater_init 1 false) e t (mkV3 0 0 0) (spread r) = OK (u', e') /\
    (ent (e_cov e') 0 0 * (1 / 100 + r) = r / 100)%R.
Proof.
  intros svd hull ecef e s t r Hr0 Hr RT AU GR TI LI PE SZ CV FG EX PG.
  unfold gps_UpdateEKF, CalculateLocalTime. rewrite TI. set (e0 := with_clock e 0 t true).
  assert (R0 : reachable e0). { pose proof (local_went e t Hr) as W. cbv zeta in W. unfold CalculateLocalTime in W. rewrite TI in W. apply W. }
  destruct (predict_went e0 0%R R0) as [e1 [E1 [W1 _]]]. rewrite E1. cbn [bind].
  assert (X : e1 = with_time e0 0%R).
  { unfold PredictModel in E1. change (e_time e0) with 0%R in E1. rewrite (proj2 (Rltb_false 0 0)) in E1 by lra.
    change (e_gravity e0) with (e_gravity e) in E1. rewrite GR in E1. cbn [bind] in E1. unfold AugmentStateIfNeeded in E1.
    change (p_aug (e_par (with_time e0 0%R))) with (p_aug (e_par e)) in E1. rewrite AU in E1. injection E1 as <-. reflexivity. }
  assert (R1 : reachable e1) by apply W1.
  assert (F1 : mfind 1 (s_gps (e_state e1)) = Some s) by (rewrite X; exact FG).
  assert (P1 : p_root (e_par e1) = false) by (rewrite X; exact RT).
  assert (L1 : e_lla_init e1 = true) by (rewrite X; exact LI).
  assert (G1 : e_pos_e_in_g e1 = v0) by (rewrite X; exact PE).
  assert (S1 : e_size e1 = 18) by (rewrite X; exact SZ).
  assert (C1 : forall i j, i < 18 -> j < 18 -> ent (e_cov e1) i j = if Nat.eqb i j then (1 / 100)%R else 0%R) by (rewrite X; exact CV).
  clear X E1 W1 R0. clearbody e0. rewrite L1. cbn [negb].
  destruct (enu_total (mkV3 0 0 0) (e_pos_e_in_g e1)) as [x XE]; [unfold on_globe; cbn; lra|rewrite G1; unfold on_globe; cbn; lra|].
  rewrite XE. cbn [bind]. unfold gps_PredictMeasurement, gps_refresh at 1.
  cbn [gps_updater_init gu_first gu_id gu_ext gu_pos]. rewrite orb_true_r. rewrite (get_gps_same _ _ _ F1).
  rewrite PG. unfold gps_GetMeasurementJacobian, gps_refresh. cbn [gu_first gu_id gu_ext gu_pos].
  match goal with |- context [if negb (p_fej ?p) || false then ?a else ?b] =>
    replace (if negb (p_fej p) || false then a else b) with (mkGU 1 false false v0, e1)
      by (destruct (negb (p_fej p) || false); [rewrite (get_gps_same _ _ _ F1), PG; reflexivity|reflexivity]) end.
  cbn [gu_pos gu_ext gu_id]. rewrite S1.
  rewrite set_block_ok by (cbn [nr nc mzero mconst m3id midm]; lia). cbn [bind].
  rewrite set_block_ok by (cbn [nr nc mzero mconst m3mul]; lia). cbn [bind].
  match goal with |- context [KalmanUpdate e1 ?j ?y ?N] => set (jac := j); set (res := y) end.
  assert (HJ : forall k j, k < 3 -> j < 18 -> ent jac k j = if Nat.eqb k j then 1%R else 0%R).
  { intros k j Hk Hj. unfold jac. cbn [ent]. unfold in_range.
    destruct ((9 <=? j) && (j <? 9 + 3)) eqn:J9.
    - apply andb_true_iff in J9. destruct J9 as [J9 J12]. apply Nat.leb_le in J9. apply Nat.ltb_lt in J12.
      rewrite (proj2 (Nat.leb_le 0 k)) by lia. rewrite (proj2 (Nat.ltb_lt k (0 + 3))) by lia. cbn [andb].
      rewrite (proj2 (Nat.eqb_neq k j)) by lia. unfold m3mul. cbn [ent].
      apply rsum_0. intros a Ha. replace (mm 3 _ _ (k - 0) a) with 0%R; [ring|]. symmetry.
      apply rsum_0. intros b Hb. unfold SkewSymmetric, of_list. cbn [ent v0 vx vy vz].
      replace (nth a (nth b _ []) 0%R) with 0%R; [ring|].
      destruct b as [|[|[|]]]; [| | |lia]; destruct a as [|[|[|]]]; try lia; cbn [nth]; ring.
    - rewrite andb_false_r. rewrite (proj2 (Nat.leb_le 0 k)) by lia. rewrite (proj2 (Nat.ltb_lt k (0 + 3))) by lia. cbn [andb].
      rewrite (proj2 (Nat.leb_le 0 j)) by lia. cbn [andb]. destruct (Nat.ltb_spec j (0 + 3)) as [J3|J3].
      + unfold m3id, midm. cbn [ent]. rewrite !Nat.sub_0_r. reflexivity.
      + rewrite (proj2 (Nat.eqb_neq k j)) by lia. reflexivity. }
  assert (MA : meas_arg false (dim (e_state e1)) jac res (spread r)).
  { rewrite (dim_size e1 (proj1 (reachable_inv e1 R1))), S1. destruct (spread_ok r Hr0) as [N1 [N2 N3]].
    repeat split; try reflexivity; apply N3. }
  destruct (kalman_optimal e1 jac res (spread r) R1 P1 MA) as [e2 [K [d [E2 [GK [_ [HC [_ [_ [_ [_ [_ [_ [_ [c' EQ]]]]]]]]]]]]]]].
  change (nr jac) with 3 in GK, HC. rewrite S1 in GK, HC.
  rewrite E2. cbn [bind]. do 2 eexists. split; [reflexivity|].
  assert (CC : forall i j, i < 18 -> j < 18 -> covariance e1 i j = if Nat.eqb i j then (1 / 100)%R else 0%R).
  { intros i j Hi Hj. unfold covariance. rewrite P1. apply C1; assumption. }
  assert (C2 : covariance e2 0 0 = ent (e_cov e2) 0 0) by (unfold covariance; rewrite EQ; cbn [with_cov with_state e_par e_size e_cov]; rewrite P1; reflexivity).
  rewrite <- C2. rewrite (HC 0 0) by lia. unfold msub.
  specialize (GK 0 0 ltac:(lia) ltac:(lia)).
  assert (IN : forall l, l < 3 -> innov 18 (covariance e1) (ent jac) (ent (spread r)) l 0 = if Nat.eqb l 0 then (1 / 100 + r)%R else 0%R).
  { intros l Hl. unfold innov, madd. cbn [spread ent].
    assert (A : mm 18 (mm 18 (ent jac) (covariance e1)) (tr (ent jac)) l 0 = if Nat.eqb l 0 then (1 / 100)%R else 0%R).
    { unfold mm at 1. rewrite (rsum_single 18 0); [|lia|].
      - unfold tr. rewrite (HJ 0 0) by lia. cbn [Nat.eqb]. unfold mm. rewrite (rsum_single 18 l); [|lia|].
        + rewrite HJ, CC by lia. rewrite Nat.eqb_refl. ring.
        + intros i Hi NE. rewrite HJ by lia. rewrite (proj2 (Nat.eqb_neq l i)) by lia. ring.
      - intros i Hi NE. unfold tr. rewrite HJ by lia. rewrite (proj2 (Nat.eqb_neq 0 i)) by lia. ring. }
    rewrite A. destruct (Nat.eqb l 0); ring. }
  unfold mm at 1 in GK. rewrite (rsum_single 3 0) in GK; [|lia|intros l Hl NE; rewrite IN by lia; rewrite (proj2 (Nat.eqb_neq l 0)) by lia; ring].
  rewrite IN in GK by lia. cbn [Nat.eqb] in GK.
  unfold mm at 1 in GK. rewrite (rsum_single 18 0) in GK; [|lia|intros l Hl NE; rewrite CC by lia; rewrite (proj2 (Nat.eqb_neq 0 l)) by lia; ring].
  unfold tr in GK. rewrite CC, HJ in GK by lia. cbn [Nat.eqb] in GK.
  unfold mm at 1. rewrite (rsum_single 18 0); [|lia|intros l Hl NE; rewrite CC by lia; rewrite (proj2 (Nat.eqb_neq l 0)) by lia; ring].
  unfold mm. rewrite (rsum_single 3 0); [|lia|intros l Hl NE; rewrite HJ by lia; rewrite (proj2 (Nat.eqb_neq l 0)) by lia; ring].
  rewrite !CC, HJ by lia. cbn [Nat.eqb]. nra.
Qed.

(** The filter such a node starts with. *)
Lemma fix_start : forall junk n, ros_start false junk fix_cfg = OK n -> exists e s,
  nd_ekf n = e /\ nd_gps n = [(1, gps_updater_init 1 false)] /\ nd_gps_subs n = [("fix"%string, 1)] /\
  p_root (e_par e) = false /\ p_aug (e_par e) = ANone /\ e_gravity e = false /\ e_time_init e = false /\ e_lla_init e = true /\
  e_pos_e_in_g e = v0 /\ e_size e = 18 /\
  (forall i j, i < 18 -> j < 18 -> ent (e_cov e) i j = if Nat.eqb i j then (1 / 100)%R else 0%R) /\
  mfind 1 (s_gps (e_state e)) = Some s /\ g_ext s = false /\ g_pos s = v0.
Proof.
  intros junk n H. unfold ros_start, ros_Initialize, DeclareSensors, LoadSensors in H.
  cbn [fix_cfg rc_pos_b_in_l rc_pos_e_in_g rc_ang_l_to_e rc_imus rc_cams rc_trackers rc_fids rc_gps get to_V3 StdToEigVecX
    negb orb guard bind map fst distinct existsb andb foldM] in H.
  set (e0 := EKF_init _ _ _ _) in H. unfold LoadGps in H. opn H. injection H as ->.
  cbn [snd] in B. unfold GetGpsParameters in B. cbn [rwg_pos rwg_var rwg_stab get to_V3 StdToEigVecX negb orb guard bind] in B.
  unfold gps_new in B. cbn [nd_cnt nd_ekf nd_gps nd_gps_subs] in B. opn B. destruct x as [[[id s] c] e].
  opn B0. injection B0 as <- <- <- <-. cbn [rwg_topic get subscribe String.eqb negb guard bind app] in B. injection B as <-.
  cbn [nd_ekf nd_gps nd_gps_subs].
  unfold RegisterGPS in B1. cbn [e0 EKF_init e_state default_state s_gps mfind] in B1. fold e0 in B1.
  cbn [gps_state_of gps_SetIsExtrinsic gp_ext g_ext] in B1. cbn [bind] in B1.
  destruct (refresh_bare _ _ B1) as [BS (Q & st & a1 & a2 & a3 & a4 & a5 & EQ)].
  assert (FB : option_map bare_gps (mfind 1 (s_gps (e_state x))) = Some (mkGps v0 e9 0 0 false)).
  { rewrite (mfind_bare _ bare_gps 1 _ _ (f_equal s_gps BS)). reflexivity. }
  destruct (mfind 1 (s_gps (e_state x))) as [s|] eqn:FG; [|discriminate FB]. cbn [option_map] in FB. unfold bare_gps in FB.
  injection FB as FB1 FB2 FB3 FB4. exists x, s. do 3 (split; [reflexivity|]).
  clear BS B1. rewrite EQ in *. do 7 (split; [reflexivity|]).
  split; [|split; [exact FG|split; assumption]].
  intros i j Hi Hj. change (ent (e_cov _) i j) with (1 / 100 * ent (midm 18 18) i j)%R. unfold midm. cbn [ent].
  unfold idm; destruct (Nat.eqb i j); lra.
Qed.

Lemma fix_junk : forall svd hull ecef_to_lla mat_quat solve junk, (forall i, (0 <= junk i)%R) ->
  exists c n n1 n2 m N1 N2, config_ok c /\ ros_start false junk c = OK n /\
    ros_event_ok (dflt true (rc_root c)) (OnFix 0 m N1) /\ ros_event_ok (dflt true (rc_root c)) (OnFix 0 m N2) /\
    node_step svd hull ecef_to_lla mat_quat solve n (OnFix 0 m N1) = OK n1 /\
    node_step svd hull ecef_to_lla mat_quat solve n (OnFix 0 m N2) = OK n2 /\ e_cov (nd_ekf n1) <> e_cov (nd_ekf n2).
Proof.
  intros svd hull ecef mq solve junk HJ.
  destruct (ros_starts svd hull ecef mq solve junk _ fix_cfg_ok (fun i _ => HJ i)) as [n E].
  destruct (ros_lived svd hull ecef mq solve _ _ _ _ [] _ fix_cfg_ok (fun i _ => HJ i) E (Forall_nil _) eq_refl) as [w [L [EW _]]].
  pose proof (wi_reach _ (proj1 (lived_winv _ _ _ _ _ _ L))) as Hr. rewrite <- EW in Hr. clear L EW w.
  destruct (fix_start junk n E) as (e & s & X1 & X2 & X3 & X4 & X5 & X6 & X7 & X8 & X9 & X10 & X11 & X12 & X13 & X14). rewrite X1 in Hr.
  assert (S : forall r, (0 < r)%R -> exists n', node_step svd hull ecef mq solve n (OnFix 0 origin_fix (spread r)) = OK n' /\
    (ent (e_cov (nd_ekf n')) 0 0 * (1 / 100 + r) = r / 100)%R).
  { intros r Hp. destruct (fix_cov svd hull ecef e s (RosHeaderToTime (rf_stamp origin_fix)) r) as [u' [e' [U V]]]; try assumption.
    unfold node_step. rewrite X3. cbn [nth_error]. unfold GpsCallback. rewrite X2. cbn [mfind Nat.eqb].
    cbn [RosGpsMessage origin_fix rf_lat rf_lon rf_alt]. rewrite X1. cbn [origin_fix] in U. rewrite U. cbn [bind].
    eexists. split; [reflexivity|exact V]. }
  destruct (S 1%R) as [n1 [E1 V1]]; [lra|]. destruct (S 2%R) as [n2 [E2 V2]]; [lra|].
  exists fix_cfg, n, n1, n2, origin_fix, (spread 1), (spread 2). split; [exact fix_cfg_ok|]. split; [exact E|].
  split; [apply spread_ok; lra|]. split; [apply spread_ok; lra|]. split; [exact E1|]. split; [exact E2|].
  intros Q. rewrite Q in V1. lra.
Qed.
