(** The IMU callback. *)
From Coq Require Import Reals List Arith Bool Lia Lra.
From Verif Require Import Base.Res Base.Mat Base.RDec Base.RSum Base.LinAlg Base.Inverse Base.Geom Base.AMap Base.RMat
  Model.TypeHelper Model.Types Model.MathHelperMat Model.MathHelper Model.Matrix3 Model.Ekf Model.Updater Model.Ops
  Model.ImuUpdater
  Spec.Layout Spec.History Spec.Contract Spec.Correct Spec.Named Spec.Same Spec.Callback Spec.KF
  Proofs.Refresh Proofs.Wf Proofs.Register Proofs.Augment Proofs.Invariant Proofs.Named Proofs.Same Proofs.Update
  Proofs.Scalars Proofs.Clock Proofs.Effects Proofs.Columns Proofs.Kalman Proofs.CovGood Proofs.Follows Proofs.BlockDiag.
Import ListNotations.
Open Scope nat_scope.

(** Assigning a block keeps the shape. *)
Lemma sb : forall (m : mat R) i j p q b, i + p <= nr m -> j + q <= nc m -> nr b = p -> nc b = q ->
  exists m', set_block m i j p q b = OK m' /\ nr m' = nr m /\ nc m' = nc m.
Proof. intros. rewrite set_block_ok by auto. eexists. split; [reflexivity|]. auto. Qed.

Definition msize (u : imu_updater) : nat := if iu_int u then 6 else 3.

Definition knows (u : imu_updater) (e : ekf) (s : ImuState) : Prop :=
  mfind (iu_id u) (s_imu (e_state e)) = Some s /\ i_ext s = iu_ext u /\ i_int s = iu_int u.

Lemma knows_has : forall u e, has_imu e (iu_id u) (iu_ext u) (iu_int u) <-> exists s, knows u e s.
Proof. intros. unfold has_imu, knows. reflexivity. Qed.

Ltac sbt m' E N1 N2 :=
  match goal with
  | |- context [set_block ?m ?i ?j ?p ?q ?b] =>
      destruct (sb m i j p q b) as [m' [E [N1 N2]]];
      [ | | | | rewrite E; cbn [bind]; rewrite ?N1, ?N2 in * ]
  end.

Lemma zero_jac_ok : forall u e s, reachable e -> knows u e s ->
  exists j, GetZeroAccelerationJacobian u e = OK (j, e) /\ nr j = msize u /\ nc j = e_size e.
Proof.
  intros u e s Hr [Hf [H1 H2]]. pose proof (imu_bounds e _ _ Hr Hf) as [_ [_ [B1 B2]]].
  pose proof (size_ge e (proj1 (reachable_inv e Hr))) as G.
  unfold GetZeroAccelerationJacobian, msize. rewrite (get_imu_same _ _ _ Hf).
  rewrite H1 in B1. rewrite H2 in B2.
  match goal with |- context [set_block (mzero ?m ?n) 0 9 3 3 ?b] => set (B := b) end.
  destruct (sb (mzero (if iu_int u then 6 else 3) (e_size e)) 0 9 3 3 B) as [j1 [E1 [N1 M1]]];
    [destruct (iu_int u); cbn; lia|cbn; lia|reflexivity|reflexivity|]. rewrite E1. cbn [bind].
  cbn in N1, M1.
  assert (X : exists j2, (if iu_ext u then set_block j1 0 (i_index_ext s) 3 3
      (m3neg (SkewSymmetric (qrot (qmul (qinv (i_ang s)) (qinv (b_ang (s_body (e_state e))))) g_gravity))) else OK j1) = OK j2 /\
      nr j2 = (if iu_int u then 6 else 3) /\ nc j2 = e_size e).
  { destruct (iu_ext u); [|exists j1; auto]. specialize (B1 eq_refl).
    destruct (sb j1 0 (i_index_ext s) 3 3 (m3neg (SkewSymmetric (qrot (qmul (qinv (i_ang s)) (qinv (b_ang (s_body (e_state e))))) g_gravity))))
      as [j2 [E2 [N2 M2]]]; [rewrite N1; destruct (iu_int u); lia|lia|reflexivity|reflexivity|].
    exists j2. repeat split; congruence. }
  destruct X as [j2 [E2 [N2 M2]]]. rewrite E2. cbn [bind]. clear E2 E1 B.
  destruct (iu_int u); [|exists j2; auto]. specialize (B2 eq_refl).
  destruct (sb j2 0 (i_index_int s + 0) 3 3 (m3neg m3id)) as [j3 [E3 [N3 M3]]]; [lia|lia|reflexivity|reflexivity|].
  rewrite E3. cbn [bind].
  destruct (sb j3 3 (i_index_int s + 3) 3 3 (m3neg m3id)) as [j4 [E4 [N4 M4]]]; [lia|lia|reflexivity|reflexivity|].
  rewrite E4. cbn [bind]. exists j4. repeat split; congruence.
Qed.

Lemma noise6 : forall root A B, noise_ok root 3 A -> noise_ok root 3 B ->
  exists N, ImuUpdater.imu_noise A B = OK N /\ noise_ok root 6 N.
Proof.
  intros root A B HA HB. pose proof HA as [A1 [A2 _]]. pose proof HB as [B1 [B2 _]].
  unfold ImuUpdater.imu_noise. rewrite set_block_ok by (cbn; auto; lia). cbn [bind].
  rewrite set_block_ok by (cbn; auto; lia). eexists. split; [reflexivity|].
  apply (noise6_ok root A B); auto. intros i j Hi Hj. cbn [ent nr nc mzero mconst].
  unfold bdiag, in_range.
  destruct (Nat.ltb_spec i 3), (Nat.ltb_spec j 3), (Nat.leb_spec 3 i), (Nat.leb_spec 3 j),
    (Nat.ltb_spec i (3 + 3)), (Nat.ltb_spec j (3 + 3)), (Nat.ltb_spec i (0 + 3)), (Nat.ltb_spec j (0 + 3));
    try lia; cbn [andb Nat.leb]; rewrite ?Nat.sub_0_r; reflexivity.
Qed.

Lemma zero_noise_ok : forall root u A B, noise_ok root 3 A -> noise_ok root 3 B ->
  exists N, zero_noise u A B = OK N /\ noise_ok root (msize u) N.
Proof.
  intros root u A B HA HB. unfold zero_noise, msize. destruct (iu_int u).
  - apply (noise6 root A B HA HB).
  - pose proof HA as [A1 [A2 HA']]. rewrite set_block_ok by (cbn; auto; lia). cbn [bind]. eexists. split; [reflexivity|].
    split; [reflexivity|]. split; [reflexivity|]. cbn [ent].
    assert (E : eqm 3 3 (ent A) (fun x y : nat => if in_range x 0 3 && in_range y 0 3 then ent A (x - 0) (y - 0)
        else ent (mzero 3 3) x y)).
    { intros i j Hi Hj. unfold in_range. cbn [Nat.leb]. rewrite (proj2 (Nat.ltb_lt i (0 + 3)) Hi), (proj2 (Nat.ltb_lt j (0 + 3)) Hj).
      cbn [andb]. now rewrite !Nat.sub_0_r. }
    destruct root.
    + destruct HA' as [P1 P2]. split.
      * intros i j Hi Hj. rewrite <- E by auto. auto.
      * refine (spd_ext 3 _ _ _ P2). apply (gram_eqm 3). intros i j Hi Hj. rewrite <- E by auto. reflexivity.
    + apply (spd_ext 3 (ent A)); auto.
Qed.

Lemma zero_resid_shape : forall u e s a w, nr (zero_resid u e s a w) = msize u /\ nc (zero_resid u e s a w) = 1.
Proof. intros. unfold zero_resid, msize. destruct (iu_int u); auto. Qed.

(** The score: normalised innovation squared, with the noise scaled. *)
Definition zero_nis (e : ekf) (jac noise resid : mat R) (x : R) : Prop :=
  exists Si, is_inv (nr jac) (innov (e_size e) (ent (e_cov e)) (ent jac) (mscal (p_imu_scale (e_par e)) (ent noise))) Si /\
    x = Rabs (qf (nr jac) Si (fun i => ent resid i 0)).

Lemma score_ok : forall e jac noise resid, reachable e -> nc jac = e_size e -> nr noise = nr jac -> nc noise = nr jac ->
  nr resid = nr jac -> nc resid = 1 ->
  (exists x, zero_score e jac noise resid = OK x /\ zero_nis e jac noise resid x) \/
  (zero_score e jac noise resid = UB /\
   ~ (p_root (e_par e) = false /\ (0 < p_imu_scale (e_par e))%R /\ spd (nr jac) (ent noise))).
Proof.
  intros e jac noise resid Hr J N1 N2 R1 R2. destruct (reachable_inv e Hr) as [W G].
  pose proof (wf_nr _ W) as C1. pose proof (wf_nc _ W) as C2.
  unfold zero_score. rewrite mulc_ok by congruence. cbn [bind].
  rewrite mulc_ok by (cbn [nc nr mtrans]; congruence). cbn [bind].
  rewrite addc_ok by (cbn [nc nr mtrans mscale]; congruence). cbn [bind nr nc ent mtrans mscale].
  set (S := madd (mm (nc (e_cov e)) (mm (nc jac) (ent jac) (ent (e_cov e))) (fun i j => ent jac j i))
                 (mscal (p_imu_scale (e_par e)) (ent noise))).
  assert (ES : S = innov (e_size e) (ent (e_cov e)) (ent jac) (mscal (p_imu_scale (e_par e)) (ent noise))).
  { unfold S, innov, tr. rewrite C2, J. reflexivity. }
  unfold invc. cbn [nr nc ent]. rewrite Nat.eqb_refl. cbn [andb].
  destruct (pivots_ok (nr jac) S) eqn:P.
  - left. cbn [bind]. rewrite mulc_ok by (cbn [nc nr mtrans]; congruence). cbn [bind].
    rewrite mulc_ok by (cbn [nc nr mtrans]; congruence). cbn [bind]. eexists. split; [reflexivity|].
    exists (finv (nr jac) S). rewrite <- ES. split; [apply finv_correct; apply pivots_ok_spec; exact P|].
    cbn [nr nc ent mtrans]. f_equal. rewrite qf_expand. unfold mm. rewrite R1.
    rewrite rsum_swap.
    erewrite rsum_ext; [reflexivity|]. intros k Hk. cbv beta. rewrite <- rsum_scal_r. reflexivity.
  - right. split; [reflexivity|]. intros [Hroot [Hs HN]].
    assert (SP : spd (nr jac) S).
    { rewrite ES. apply innov_spd; [|apply spd_mscal; auto]. unfold is_root in G. rewrite Hroot in G. exact G. }
    apply spd_pivots in SP. apply pivots_ok_spec in SP. congruence.
Qed.

Definition imu_score (u : imu_updater) (e : ekf) (acc : V3) (A : mat R) (omg : V3) (W : mat R) (x : R) : Prop :=
  exists s jac noise, knows u e s /\ GetZeroAccelerationJacobian u e = OK (jac, e) /\ zero_noise u A W = OK noise /\
    zero_nis e jac noise (zero_resid u e s acc omg) x.

Definition resting (e : ekf) : Prop :=
  b_acc (s_body (e_state e)) = g_gravity /\ b_ang_vel (s_body (e_state e)) = v0 /\ b_ang_acc (s_body (e_state e)) = v0.

Definition moved_on (u : imu_updater) : imu_updater := mkIU (iu_id u) (iu_ext u) (iu_int u) true.

Lemma noise_meas : forall root m n jac r N, noise_ok root m N -> nr jac = m -> nc jac = n -> nr r = m -> nc r = 1 ->
  meas_arg root n jac r N.
Proof.
  intros root m n jac r N [N1 [N2 H]] J1 J2 R1 R2. unfold meas_arg. rewrite J1. repeat split; auto.
Qed.

Lemma noise_spd : forall m N, noise_ok false m N -> spd m (ent N).
Proof. intros m N [_ [_ H]]. exact H. Qed.

Lemma knows_keeps : forall u e e' s, knows u e s -> keeps (e_state e) (e_state e') -> exists s', knows u e' s'.
Proof. intros u e e' s [H [H1 H2]] [K _]. destruct (K _ _ H) as [y [Y [Y1 Y2]]]. exists y. repeat split; congruence. Qed.

Lemma went_score : forall u e s x A W a w, knows u e s -> imu_score u e a A w W x ->
  forall jac noise, GetZeroAccelerationJacobian u e = OK (jac, e) -> zero_noise u A W = OK noise ->
    zero_nis e jac noise (zero_resid u e s a w) x.
Proof.
  intros u e s x A W a w [H _] [s' [j [n [[H' _] [J [N Z]]]]]] jac noise J' N'.
  rewrite H in H'. injection H' as <-. rewrite J in J'. injection J' as <-. rewrite N in N'. injection N' as <-. exact Z.
Qed.

Lemma zero_update : forall u e s lt acc A omg W, reachable e -> knows u e s ->
  noise_ok (p_root (e_par e)) 3 A -> noise_ok (p_root (e_par e)) 3 W ->
  let r := ZeroAccelerationUpdate u e lt acc A omg W in
  (r = UB /\ ~ (p_root (e_par e) = false /\ (0 < p_imu_scale (e_par e))%R)) \/
  (iu_moved u = true /\ r = OK (false, u, e)) \/
  (iu_moved u = false /\ exists x, imu_score u e acc A omg W x /\
    (((p_chi2 (e_par e) < x)%R /\ e_gravity e = true /\ r = OK (false, moved_on u, e)) \/
     (~ ((p_chi2 (e_par e) < x)%R /\ e_gravity e = true) /\ exists e', r = OK (true, u, e') /\ went e e' /\
        e_time e' = Rmax lt (e_time e) /\ e_time_init e' = e_time_init e /\ e_ref_time e' = e_ref_time e /\
        resting e' /\ e_gravity e' = (if Rltb x (p_chi2 (e_par e)) then true else e_gravity e) /\
        e_lla_init e' = e_lla_init e))).
Proof.
  intros u e s lt acc A omg W Hr HK HA HW r. unfold r, ZeroAccelerationUpdate. clear r.
  destruct (iu_moved u) eqn:M; [right; left; auto|].
  pose proof HK as [Hf _]. rewrite (get_imu_same _ _ _ Hf).
  destruct (zero_jac_ok u e s Hr HK) as [jac [EJ [J1 J2]]]. rewrite EJ. cbn [bind].
  destruct (zero_noise_ok _ u A W HA HW) as [N [EN NN]]. rewrite EN. cbn [bind].
  destruct (zero_resid_shape u e s acc omg) as [R1 R2]. pose proof NN as [N1 [N2 _]].
  destruct (score_ok e jac N (zero_resid u e s acc omg) Hr J2) as [[x [EX HX]]|[EX HX]]; try congruence.
  2:{ left. rewrite EX. split; [reflexivity|]. intros [H1 H2]. apply HX. split; [exact H1|]. split; [exact H2|].
      rewrite J1. apply noise_spd. rewrite H1 in NN. exact NN. }
  right. right. split; [reflexivity|]. exists x. rewrite EX. cbn [bind].
  split; [exists s, jac, N; auto|].
  destruct (Rltb (p_chi2 (e_par e)) x && e_gravity e) eqn:T.
  { left. apply andb_true_iff in T. destruct T as [T1 T2]. apply Rltb_spec in T1. auto. }
  right. split.
  { intros [T1 T2]. rewrite (Rltb_true _ _ T1), T2 in T. discriminate. }
  set (e1 := if Rltb x (p_chi2 (e_par e)) then InitializeGravity e else e).
  assert (W1 : went e e1 /\ same_clock e e1 /\ e_gravity e1 = (if Rltb x (p_chi2 (e_par e)) then true else e_gravity e) /\
    e_lla_init e1 = e_lla_init e).
  { unfold e1. destruct (Rltb x (p_chi2 (e_par e))).
    - destruct (gravity_went e Hr). auto.
    - auto using went_refl, same_clock_refl. }
  destruct W1 as [W1 [S1 [G1 L1]]]. clearbody e1.
  destruct (predict_went e1 lt (w_reach _ _ W1)) as [e2 [E2 [W2 [T1 [T2 [T3 F2]]]]]]. rewrite E2. cbn [bind].
  destruct (knows_keeps u e e2 s HK) as [s2 K2]; [apply (w_keeps e e2); eapply went_trans; eauto|].
  destruct (zero_jac_ok u e2 s2 (w_reach _ _ W2) K2) as [jac2 [EJ2 [J3 J4]]]. rewrite EJ2. cbn [bind].
  assert (P2 : e_par e2 = e_par e) by (rewrite (w_par _ _ W2); apply (w_par _ _ W1)).
  destruct (kalman_went e2 jac2 (zero_resid u e s acc omg) N (w_reach _ _ W2)) as [e3 [E3 [W3 [S3 F3]]]].
  { apply (noise_meas _ (msize u)); auto. rewrite P2. exact NN. }
  rewrite E3. cbn [bind]. destruct (rates_went e3 g_gravity v0 v0 (w_reach _ _ W3)) as [W4 S4].
  exists (SetBodyRates e3 g_gravity v0 v0). split; [reflexivity|].
  split; [repeat (eapply went_trans; [eassumption|]); apply went_refl; apply (w_reach _ _ W4)|].
  destruct S1 as [Sa [Sb Sc]], S3 as [Sd [Se Sf]], S4 as [Sg [Sh Si]].
  split; [congruence|]. split; [congruence|]. split; [congruence|].
  split; [repeat split|]. unfold frame' in F2, F3. cbn in F2. decompose [and] F2. decompose [and] F3.
  split; [|change (e_lla_init e3 = e_lla_init e); congruence].
  change (e_gravity e3 = (if Rltb x (p_chi2 (e_par e)) then true else e_gravity e)).
  congruence.
Qed.

Lemma imu_jac_ok : forall u e s, reachable e -> knows u e s ->
  exists j, imu_GetMeasurementJacobian u e = OK (j, e) /\ nr j = 6 /\ nc j = e_size e.
Proof.
  intros u e s Hr [Hf [H1 H2]]. pose proof (imu_bounds e _ _ Hr Hf) as [_ [_ [B1 B2]]].
  pose proof (size_ge e (proj1 (reachable_inv e Hr))) as G.
  unfold imu_GetMeasurementJacobian. rewrite (get_imu_same _ _ _ Hf).
  rewrite H1 in B1. rewrite H2 in B2.
  assert (X0 : nr (mzero 6 (e_size e)) = 6 /\ nc (mzero 6 (e_size e)) = e_size e) by (split; reflexivity).
  revert X0. generalize (mzero 6 (e_size e)). intros m0 [X1 X2].
  do 4 (match goal with |- context [bind (set_block ?m ?i ?j 3 3 ?b) _] =>
    let m' := fresh "m" in let E := fresh "E" in let N1 := fresh "N" in let N2 := fresh "N" in
    destruct (sb m i j 3 3 b) as [m' [E [N1 N2]]]; [rewrite ?X1; lia|lia|reflexivity|reflexivity|];
    rewrite E; cbn [bind]; clear E; rewrite X1 in N1; rewrite X2 in N2; clear X1 X2 m; rename N1 into X1; rename N2 into X2 end).
  match goal with |- context [if iu_ext u then ?a else OK ?j] =>
    assert (Y : exists j2, (if iu_ext u then a else OK j) = OK j2 /\ nr j2 = 6 /\ nc j2 = e_size e) end.
  { destruct (iu_ext u); [|eexists; split; [reflexivity|auto]]. specialize (B1 eq_refl).
    do 2 (match goal with |- context [bind (set_block ?m ?i ?j 3 3 ?b) _] =>
      let m' := fresh "m" in let E := fresh "E" in let N1 := fresh "N" in let N2 := fresh "N" in
      destruct (sb m i j 3 3 b) as [m' [E [N1 N2]]]; [rewrite ?X1; lia|lia|reflexivity|reflexivity|];
      rewrite E; cbn [bind]; clear E; rewrite X1 in N1; rewrite X2 in N2; clear X1 X2 m; rename N1 into X1; rename N2 into X2 end).
    match goal with |- context [set_block ?m ?i ?j 3 3 ?b] =>
      destruct (sb m i j 3 3 b) as [m' [E [N1 N2]]]; [lia|lia|reflexivity|reflexivity|] end.
    rewrite E. exists m'. repeat split; congruence. }
  clear X1 X2. destruct Y as [j2 [E2 [X1 X2]]]. rewrite E2. cbn [bind]. clear E2.
  destruct (iu_int u); [|exists j2; auto]. specialize (B2 eq_refl).
  destruct (sb j2 0 (i_index_int s + 0) 3 3 m3id) as [j3 [E3 [N3 M3]]]; [lia|lia|reflexivity|reflexivity|].
  rewrite E3. cbn [bind].
  destruct (sb j3 3 (i_index_int s + 3) 3 3 m3id) as [j4 [E4 [N4 M4]]]; [lia|lia|reflexivity|reflexivity|].
  rewrite E4. cbn [bind]. exists j4. repeat split; congruence.
Qed.

Lemma local_of_split : forall e t, CalculateLocalTime e t = (fst (CalculateLocalTime e t), snd (CalculateLocalTime e t)).
Proof. intros. destruct (CalculateLocalTime e t); reflexivity. Qed.

(** The path taken when no zero-acceleration update was applied. *)
Definition imu_ordinary (u : imu_updater) (e : ekf) (lt : R) (acc : V3) (A : mat R) (omg : V3) (W : mat R) :=
  let e := SetZeroAcceleration e false in
    let '(s, e) := GetImuState e (iu_id u) in
    let* e :=
      (if Nat.eqb (length (s_imu (e_state e))) 1 then
         let rot := qmul (b_ang (s_body (e_state e))) (i_ang s) in
         OK (SetBodyRates e (qrot rot (vsub acc (i_acc_bias s))) (qrot rot (vsub omg (i_omg_bias s))) v0)
       else
         let '(pred, e) := imu_PredictMeasurement u e in
         let* resid := subc (stack2 acc omg) pred in
         let* (jac, e) := imu_GetMeasurementJacobian u e in
         let* noise := ImuUpdater.imu_noise A W in
         KalmanUpdate e jac resid noise) in
    let* e := PredictModel e lt in
    OK (u, e).

Lemma imu_ordinary_ok : forall u e0 s lt acc A omg W, reachable e0 -> knows u e0 s ->
  noise_ok (p_root (e_par e0)) 3 A -> noise_ok (p_root (e_par e0)) 3 W ->
  exists e', imu_ordinary u e0 lt acc A omg W = OK (u, e') /\ went e0 e' /\
    e_time e' = Rmax lt (e_time e0) /\ e_time_init e' = e_time_init e0 /\ e_ref_time e' = e_ref_time e0 /\
    e_zero_acc e' = false /\ e_gravity e' = e_gravity e0 /\ e_lla_init e' = e_lla_init e0.
Proof.
  intros u e0 s lt acc A omg W Hr0 HK0 HA HW. unfold imu_ordinary. cbv zeta.
  destruct (zero_went e0 false Hr0) as [Wz Sz]. set (ez := SetZeroAcceleration e0 false) in *.
  assert (HZ : e_zero_acc ez = false) by reflexivity.
  assert (Gz : e_gravity ez = e_gravity e0 /\ e_lla_init ez = e_lla_init e0) by (cbn; auto).
  assert (HKz : knows u ez s) by exact HK0.
  clearbody ez. pose proof HKz as [Hf _]. rewrite (get_imu_same _ _ _ Hf).
  assert (Y : exists e2, (if Nat.eqb (length (s_imu (e_state ez))) 1 then
         OK (SetBodyRates ez (qrot (qmul (b_ang (s_body (e_state ez))) (i_ang s)) (vsub acc (i_acc_bias s)))
              (qrot (qmul (b_ang (s_body (e_state ez))) (i_ang s)) (vsub omg (i_omg_bias s))) v0)
       else
         let '(pred, e) := imu_PredictMeasurement u ez in
         let* resid := subc (stack2 acc omg) pred in
         let* (jac, e) := imu_GetMeasurementJacobian u e in
         let* noise := ImuUpdater.imu_noise A W in
         KalmanUpdate e jac resid noise) = OK e2 /\ went ez e2 /\ same_clock ez e2 /\ e_zero_acc e2 = false /\
         e_gravity e2 = e_gravity ez /\ e_lla_init e2 = e_lla_init ez).
  { destruct (Nat.eqb _ 1).
    - eexists. split; [reflexivity|].
      match goal with |- went ez (SetBodyRates ez ?a ?b ?c) /\ _ => destruct (rates_went ez a b c (w_reach _ _ Wz)) as [Wr Sr] end.
      split; [exact Wr|]. split; [exact Sr|]. auto.
    - unfold imu_PredictMeasurement. rewrite (get_imu_same _ _ _ Hf).
      rewrite subc_ok by reflexivity. cbn [bind].
      destruct (imu_jac_ok u ez s (w_reach _ _ Wz) HKz) as [jac [EJ [J1 J2]]]. rewrite EJ. cbn [bind].
      destruct (noise6 _ A W HA HW) as [N [EN NN]]. rewrite EN. cbn [bind].
      match goal with |- context [KalmanUpdate ez jac ?r N] => destruct (kalman_went ez jac r N (w_reach _ _ Wz)) as [e3 [E3 [W3 [S3 F3]]]] end.
      { apply (noise_meas _ 6); auto. rewrite (w_par _ _ Wz). exact NN. }
      exists e3. rewrite E3. split; [reflexivity|]. unfold frame' in F3. decompose [and] F3.
      split; [exact W3|]. split; [exact S3|]. repeat split; congruence. }
  destruct Y as [e2 [E2 [W2 [S2 [Z2 [G2 L2]]]]]]. rewrite E2. cbn [bind]. clear E2.
  destruct (predict_went e2 lt (w_reach _ _ W2)) as [e3 [E3 [W3 [T1 [T2 [T3 F3]]]]]]. rewrite E3. cbn [bind].
  exists e3. split; [reflexivity|]. split; [repeat (eapply went_trans; [eassumption|]); apply went_refl; apply (w_reach _ _ W3)|].
  destruct Sz as [Sa [Sb Sc]], S2 as [Sd [Se Sf]].
  unfold frame' in F3. cbn in F3. decompose [and] F3. destruct Gz. repeat split; congruence.
Qed.

(** Everything about the IMU callback. *)
Record imu_done (u : imu_updater) (e : ekf) (t : R) (acc : V3) (A : mat R) (omg : V3) (W : mat R)
  (u' : imu_updater) (e' : ekf) : Prop := mkImuDone {
  id_went : went e e';
  id_brought : brought e t e';
  id_u : u' = u \/ (u' = moved_on u /\ e_gravity e = true);
  id_moved : iu_moved u = true -> u' = u /\ e_zero_acc e' = false;
  id_detect : iu_moved u = false -> iu_moved u' = true -> e_gravity e = true /\ e_zero_acc e' = false /\
    exists e0 x, e_state e0 = e_state e /\ e_cov e0 = e_cov e /\ e_par e0 = e_par e /\
      imu_score u e0 acc A omg W x /\ (p_chi2 (e_par e) < x)%R;
  id_rest : e_zero_acc e' = true -> iu_moved u = false /\ u' = u /\ resting e';
  id_grav : e_gravity e = false -> e_gravity e' = true -> e_zero_acc e' = true /\
    exists e0 x, e_state e0 = e_state e /\ e_cov e0 = e_cov e /\ e_par e0 = e_par e /\
      imu_score u e0 acc A omg W x /\ (x < p_chi2 (e_par e))%R;
  id_grav_keep : e_gravity e = true -> e_gravity e' = true;
  id_lla : e_lla_init e' = e_lla_init e;
  id_exact : iu_moved u = false -> exists e0 x, e_state e0 = e_state e /\ e_cov e0 = e_cov e /\ e_par e0 = e_par e /\
    reachable e0 /\ imu_score u e0 acc A omg W x /\
    (((p_chi2 (e_par e) < x)%R /\ e_gravity e = true /\ iu_moved u' = true /\ e_zero_acc e' = false) \/
     (~ ((p_chi2 (e_par e) < x)%R /\ e_gravity e = true) /\ iu_moved u' = false /\ e_zero_acc e' = true /\
      e_gravity e' = (if Rltb x (p_chi2 (e_par e)) then true else e_gravity e))) }.

Lemma clock_brought : forall e t e0 e', e_time e0 = clock_of e -> e_time_init e0 = true ->
  e_ref_time e0 = (if e_time_init e then e_ref_time e else t) ->
  e_time e' = Rmax (local_of e t) (e_time e0) -> e_time_init e' = e_time_init e0 -> e_ref_time e' = e_ref_time e0 ->
  brought e t e'.
Proof.
  intros e t e0 e' H1 H2 H3 H4 H5 H6. unfold brought. rewrite H4, H5, H6, H1, H3.
  repeat split; auto; intros ->; reflexivity.
Qed.

Lemma zero_scale_local : forall e t, e_par (snd (CalculateLocalTime e t)) = e_par e /\ e_cov (snd (CalculateLocalTime e t)) = e_cov e.
Proof. intros. unfold CalculateLocalTime. destruct (e_time_init e); auto. Qed.

Lemma imu_callback : forall u e t acc A omg W, reachable e -> has_imu e (iu_id u) (iu_ext u) (iu_int u) ->
  noise_ok (p_root (e_par e)) 3 A -> noise_ok (p_root (e_par e)) 3 W ->
  (exists u' e', imu_UpdateEKF u e t acc A omg W = OK (u', e') /\ imu_done u e t acc A omg W u' e') \/
  (imu_UpdateEKF u e t acc A omg W = UB /\ ~ (p_root (e_par e) = false /\ (0 < p_imu_scale (e_par e))%R)).
Proof.
  intros u e t acc A omg W Hr Hk HA HW. apply knows_has in Hk. destruct Hk as [s HK].
  unfold imu_UpdateEKF. rewrite local_of_split.
  destruct (local_went e t Hr) as [W0 [L0 [T0 [I0 [F0 [S0 [LL0 GG0]]]]]]].
  destruct (zero_scale_local e t) as [P0 C0].
  set (e0 := snd (CalculateLocalTime e t)) in *. rewrite L0. clearbody e0.
  assert (HK0 : knows u e0 s) by (unfold knows in *; rewrite S0; exact HK).
  pose proof (w_reach _ _ W0) as Hr0.
  rewrite <- P0 in HA, HW.
  destruct (zero_update u e0 s (local_of e t) acc A omg W Hr0 HK0 HA HW) as [[E H]|[[M E]|[M [x [HX [[X1 [X2 E]]|[X1 [e1 [E [W1 [T1 [T2 [T3 [RS [G1 L1]]]]]]]]]]]]]]];
    cbv zeta in E; rewrite E; cbn [bind].
  - right. split; [reflexivity|]. rewrite P0 in H. exact H.
  - (* moved before *)
    left.
    match goal with |- exists u' e', ?c = OK (u', e') /\ _ => assert (Y : exists e', c = OK (u, e') /\ went e e' /\ brought e t e' /\
      e_zero_acc e' = false /\ e_gravity e' = e_gravity e /\ e_lla_init e' = e_lla_init e) end.
    2:{ destruct Y as [e' [E' [Y1 [Y2 [Y3 [Y4 Y5]]]]]]. exists u, e'. split; [exact E'|].
        constructor; auto; try congruence. }
    clear E. change (exists e', imu_ordinary u e0 (local_of e t) acc A omg W = OK (u, e') /\ went e e' /\ brought e t e' /\
      e_zero_acc e' = false /\ e_gravity e' = e_gravity e /\ e_lla_init e' = e_lla_init e).
    destruct (imu_ordinary_ok u e0 s (local_of e t) acc A omg W Hr0 HK0 HA HW) as [e3 [E3 [W3 [T1 [T2 [T3 [Z3 [G3 L3]]]]]]]].
    exists e3. split; [exact E3|]. split; [eapply went_trans; eauto|].
    split; [apply (clock_brought e t e0 e3); auto; congruence|]. repeat split; congruence.
  - (* motion detected now *)
    left.
    match goal with |- exists u' e', ?c = OK (u', e') /\ _ => assert (Y : exists e', c = OK (moved_on u, e') /\ went e e' /\ brought e t e' /\
      e_zero_acc e' = false /\ e_gravity e' = e_gravity e /\ e_lla_init e' = e_lla_init e) end.
    2:{ destruct Y as [e' [E' [Y1 [Y2 [Y3 [Y4 Y5]]]]]]. exists (moved_on u), e'. split; [exact E'|].
        constructor; auto; try congruence.
        - right. split; [reflexivity|congruence].
        - intros _ _. split; [congruence|]. split; [exact Y3|]. exists e0, x. repeat split; auto. congruence.
        - intros _. exists e0, x. repeat split; auto. left. repeat split; auto; congruence. }
    clear E. change (exists e', imu_ordinary (moved_on u) e0 (local_of e t) acc A omg W = OK ((moved_on u), e') /\ went e e' /\ brought e t e' /\
      e_zero_acc e' = false /\ e_gravity e' = e_gravity e /\ e_lla_init e' = e_lla_init e).
    destruct (imu_ordinary_ok (moved_on u) e0 s (local_of e t) acc A omg W Hr0 HK0 HA HW) as [e3 [E3 [W3 [T1 [T2 [T3 [Z3 [G3 L3]]]]]]]].
    exists e3. split; [exact E3|]. split; [eapply went_trans; eauto|].
    split; [apply (clock_brought e t e0 e3); auto; congruence|]. repeat split; congruence.
  - (* stationary *)
    left. exists u, (SetZeroAcceleration e1 true). split; [reflexivity|].
    destruct (zero_went e1 true (w_reach _ _ W1)) as [Wz [Sa [Sb Sc]]].
    assert (Gz : e_gravity (SetZeroAcceleration e1 true) = e_gravity e1) by reflexivity.
    constructor.
    + repeat (eapply went_trans; [eassumption|]); apply went_refl; apply (w_reach _ _ Wz).
    + apply (clock_brought e t e0); auto; congruence.
    + auto.
    + congruence.
    + congruence.
    + auto.
    + intros Ha Hb. split; [reflexivity|]. exists e0, x. split; [exact S0|]. split; [exact C0|]. split; [exact P0|].
      split; [exact HX|]. rewrite Gz, G1, P0 in Hb. destruct (Rltb x (p_chi2 (e_par e))) eqn:Y; [apply Rltb_spec; exact Y|congruence].
    + intros Ha. rewrite Gz, G1. destruct (Rltb _ _); [reflexivity|congruence].
    + change (e_lla_init e1 = e_lla_init e). congruence.
    + intros _. exists e0, x. rewrite P0, GG0 in X1. repeat split; auto. right. split; [exact X1|]. split; [exact M|]. split; [reflexivity|].
      rewrite Gz, G1, P0, GG0. reflexivity.
Qed.
