(** What IMUs teach the filter: nothing about the common position. *)
From Coq Require Import Reals List Arith Bool Lia Lra Classical.
From Verif Require Import Base.Res Base.Mat Base.RDec Base.RSum Base.LinAlg Base.Inverse Base.Geom Base.AMap Base.RMat
  Model.TypeHelper Model.Types Model.MathHelperMat Model.MathHelper Model.Matrix3 Model.Ekf Model.Updater Model.Ops
  Model.ImuUpdater
  Spec.Layout Spec.History Spec.Contract Spec.Correct Spec.Named Spec.Same Spec.Callback Spec.KF Spec.ByName Spec.Unsure
  Proofs.Wf Proofs.Invariant Proofs.Named Proofs.Columns Proofs.Follows Proofs.ImuCallback Proofs.Sizes
  Proofs.ByName Proofs.ByNameRun Proofs.Unsure Proofs.UnsureRun.
Import ListNotations.
Open Scope nat_scope.

(** *** Filters that have not learned where they are *)
Definition good (e : ekf) : Prop := reachable e /\ exists a, twin e a /\ more a.

(** Columns of common positions. *)
Definition place (e : ekf) (c : nat) : Prop :=
  c < 3 \/ exists cam s k, In s (aug_at e cam) /\ k < 3 /\ c = a_index s + k.
Definition clear (P : nat -> Prop) (m : mat R) : Prop := forall r c, P c -> ent m r c = 0%R.
Lemma clear_zero : forall (P : nat -> Prop) m n, clear P (mzero m n).
Proof. intros P m n r c _. reflexivity. Qed.
Lemma clear_set : forall (P : nat -> Prop) (m : mat R) i j p q b m', set_block m i j p q b = OK m' -> (forall c, P c -> c < j \/ j + q <= c) -> clear P m -> clear P m'.
Proof.
  intros P m i j p q b m' H N C r c Pc. apply set_block_inv in H. destruct H as [_ [_ [_ [_ ->]]]]. cbn [ent].
  assert (in_range c j q = false) as ->.
  { unfold in_range. apply andb_false_iff. destruct (N c Pc); [left; apply Nat.leb_gt|right; apply Nat.ltb_ge]; lia. }
  rewrite andb_false_r. apply C. exact Pc.
Qed.
Lemma clear_blind : forall e jac, clear (place e) jac -> blind e jac.
Proof.
  intros e jac C v w r W _. apply rsum_0. intros i Hi. destruct (classic (place e i)) as [P|P].
  - rewrite (C r i P). apply Rmult_0_l.
  - rewrite (proj2 (proj2 W) i Hi); [apply Rmult_0_r| |].
    + destruct (le_lt_dec 3 i); [assumption|]. exfalso. apply P. left. assumption.
    + intros cam s k Hs Hk ->. apply P. right. exists cam, s, k. auto.
Qed.

(** Where the places are not. *)
Lemma place_at : forall e a c, twin e a -> place e c -> exists x, at_ (e_state e) x c /\
  match x with LBody k => k < 3 | LAug _ _ _ => True | _ => False end.
Proof.
  intros e a c T [H|[cam [s [k [Hs [Hk ->]]]]]].
  - exists (LBody c). split; [apply at_body; lia|exact H].
  - destruct (In_nth_error _ _ Hs) as [p Hp]. exists (LAug cam p k). split; [apply (clone_at e a cam p s k T Hp); lia|exact Logic.I].
Qed.
Lemma place_body : forall e a c, twin e a -> place e c -> c < 3 \/ 18 <= c.
Proof.
  intros e a c T P. destruct (place_at e a c T P) as [x [A X]]. destruct (le_lt_dec 18 c); [auto|]. left.
  pose proof (at_body (e_state e) c ltac:(lia)) as B. rewrite (at_here e a x (LBody c) c T A B) in X. exact X.
Qed.
Lemma place_slot : forall e a c j n (f : nat -> label), twin e a -> place e c ->
  (forall k, k < n -> nth_error (layout (e_state e)) (j + k) = Some (f k)) ->
  (forall k, match f k with LBody _ | LAug _ _ _ => False | _ => True end) -> c < j \/ j + n <= c.
Proof.
  intros e a c j n f T P S N. destruct (le_lt_dec j c) as [L|L]; [|auto]. destruct (le_lt_dec (j + n) c) as [M|M]; [auto|]. exfalso.
  destruct (place_at e a c T P) as [x [A X]]. specialize (S (c - j) ltac:(lia)). replace (j + (c - j)) with c in S by lia.
  specialize (N (c - j)). rewrite <- (at_here e a x (f (c - j)) c T A S) in N. destruct x; tauto.
Qed.
Lemma place_imu : forall e a u s, twin e a -> knows u e s ->
  (iu_ext u = true -> forall c, place e c -> c < i_index_ext s \/ i_index_ext s + 6 <= c) /\
  (iu_int u = true -> forall c, place e c -> c < i_index_int s \/ i_index_int s + 6 <= c).
Proof.
  intros e a u s T [F [X Y]]. destruct (partition_inv e (tw_inv _ _ T)) as [[_ [H _]] _].
  destruct (H (iu_id u) s (mfind_in _ _ _ _ F)) as [J1 [J2 _]]. split; intros B c P.
  - apply (place_slot e a c _ 6 (LImuExt (iu_id u)) T P); [|intros; exact Logic.I]. intros k Hk. apply J1; [congruence|exact Hk].
  - apply (place_slot e a c _ 6 (LImuInt (iu_id u)) T P); [|intros; exact Logic.I]. intros k Hk. apply J2; [congruence|exact Hk].
Qed.
Ltac away := let c := fresh "c" in let P := fresh "P" in intros c P;
  repeat match goal with
  | H : forall c, place _ c -> _ |- _ => pose proof (H c P); clear H end; lia.
Lemma zero_jac_blind : forall u e s a j e', twin e a -> knows u e s -> GetZeroAccelerationJacobian u e = OK (j, e') -> blind e j.
Proof.
  intros u e s a j e' T K E. apply clear_blind. pose proof K as [F [X Y]].
  pose proof (fun c => place_body e a c T) as PB. destruct (place_imu e a u s T K) as [P1 P2].
  unfold GetZeroAccelerationJacobian in E. rewrite (get_imu_same _ _ _ F) in E. cbv zeta in E.
  destruct (set_block (mzero _ _) 0 9 3 3 _) as [j1|] eqn:E1; cbn [bind] in E; [|discriminate].
  apply (clear_set (place e)) in E1; [|away|apply clear_zero].
  destruct (if iu_ext u then _ else _) as [j2|] eqn:E2; cbn [bind] in E; [|discriminate].
  assert (C2 : clear (place e) j2).
  { destruct (iu_ext u); [|injection E2 as <-; exact E1]. specialize (P1 eq_refl). apply (clear_set (place e)) in E2; [exact E2|away|exact E1]. }
  clear E1 E2. destruct (if iu_int u then _ else _) as [j3|] eqn:E3; cbn [bind] in E; [|discriminate]. injection E as <- _.
  destruct (iu_int u); [|injection E3 as <-; exact C2]. specialize (P2 eq_refl).
  destruct (set_block j2 _ _ _ _ _) as [j4|] eqn:E4; cbn [bind] in E3; [|discriminate].
  apply (clear_set (place e)) in E4; [|away|exact C2]. apply (clear_set (place e)) in E3; [exact E3|away|exact E4].
Qed.
Lemma imu_jac_blind : forall u e s a j e', twin e a -> knows u e s -> imu_GetMeasurementJacobian u e = OK (j, e') -> blind e j.
Proof.
  intros u e s a j e' T K E. apply clear_blind. pose proof K as [F [X Y]].
  pose proof (fun c => place_body e a c T) as PB. destruct (place_imu e a u s T K) as [P1 P2].
  unfold imu_GetMeasurementJacobian in E. rewrite (get_imu_same _ _ _ F) in E. cbv zeta in E.
  pose proof (clear_zero (place e) 6 (e_size e)) as C0. revert C0 E. generalize (mzero 6 (e_size e)). intros m0 C0 E.
  do 4 (match type of E with context [bind (set_block ?m ?i ?j 3 3 ?b) _] =>
    let q := fresh "m" in let Q := fresh "Q" in destruct (set_block m i j 3 3 b) as [q|] eqn:Q; cbn [bind] in E; [|discriminate];
    apply (clear_set (place e)) in Q; [|away|exact C0]; clear C0; rename Q into C0 end).
  destruct (if iu_ext u then _ else _) as [j2|] eqn:E2; cbn [bind] in E; [|discriminate].
  assert (C2 : clear (place e) j2).
  { destruct (iu_ext u); [|injection E2 as <-; exact C0]. specialize (P1 eq_refl). clear E.
    do 2 (match type of E2 with context [bind (set_block ?m ?i ?j 3 3 ?b) _] =>
      let q := fresh "m" in let Q := fresh "Q" in destruct (set_block m i j 3 3 b) as [q|] eqn:Q; cbn [bind] in E2; [|discriminate];
      apply (clear_set (place e)) in Q; [|away|exact C0]; clear C0; rename Q into C0 end).
    apply (clear_set (place e)) in E2; [exact E2|away|exact C0]. }
  clear C0 E2. destruct (if iu_int u then _ else _) as [j3|] eqn:E3; cbn [bind] in E; [|discriminate]. injection E as <- _.
  destruct (iu_int u); [|injection E3 as <-; exact C2]. specialize (P2 eq_refl).
  destruct (set_block j2 _ _ _ _ _) as [j4|] eqn:E4; cbn [bind] in E3; [|discriminate].
  apply (clear_set (place e)) in E4; [|away|exact C2]. apply (clear_set (place e)) in E3; [exact E3|away|exact E4].
Qed.

(** *** Steps *)
Definition calm_op (e : ekf) (o : op) : Prop :=
  match o with
  | ORegImu id _ _ => forall k, In k (keys (s_imu (e_state e))) -> k < id
  | ORegGps id _ _ => forall k, In k (keys (s_gps (e_state e))) -> k < id
  | ORegCam id _ _ => forall k, In k (keys (s_cam (e_state e))) -> k < id
  | ORegFid _ _ => False
  | OKalman jac _ _ => blind e jac
  | _ => True
  end.
Lemma good_step : forall e o e', good e -> contract e o -> calm_op e o -> step e o = OK e' -> good e'.
Proof.
  intros e o e' [Hr [a [T M]]] C K E. split; [apply (reachable_step e o e' Hr C E)|].
  set (c := match o with OKalman jac r n => Measure (fun i x => match told e (n_first a) x with Some j => ent jac i j | None => 0%R end) jac r n | o => Do o end).
  assert (EC : op_of c = o) by (destruct o; reflexivity).
  assert (O : in_order a c).
  { destruct o; try exact Logic.I; cbn [c in_order calm_op] in *.
    - right. intros k Hk. apply K. apply (tw_imus _ _ T). exact Hk.
    - right. intros k Hk. apply K. apply (tw_gpss _ _ T). exact Hk.
    - right. intros k Hk. apply K. apply (tw_cams _ _ T). exact Hk.
    - contradiction. }
  assert (CO : match c with Measure H jac _ _ => columns e a jac H | _ => True end).
  { destruct o; try exact Logic.I. intros i x j _ _ Hj. rewrite Hj. reflexivity. }
  exists (nm_step (p_aug (e_par e)) (taken e e') a c). split.
  - apply (step_twin e a c e' Hr T); try assumption; rewrite EC; assumption.
  - apply (step_more e a c _ T); [rewrite EC; exact C|exact O| |exact M]. revert CO. destruct o; cbn [c]; auto.
Qed.
Lemma good_init : forall p q pe an, noise_arg q -> p_root p = false -> good (EKF_init p q pe an).
Proof.
  intros p q pe an Hq RT. split; [exists p, q, pe, an, []; split; [exact Hq|]; split; [exact Logic.I|reflexivity]|].
  exists (nm_init q). split; [apply init_twin; assumption|apply init_more].
Qed.

(** *** The IMU callback *)
Lemma good_local : forall e t, good e -> good (snd (CalculateLocalTime e t)).
Proof. intros e t G. apply (good_step e (OLocalTime t) _ G); [exact Logic.I|exact Logic.I|reflexivity]. Qed.
Lemma good_predict : forall e t e', good e -> PredictModel e t = OK e' -> good e'.
Proof. intros e t e' G E. apply (good_step e (OPredict t) _ G); [exact Logic.I|exact Logic.I|exact E]. Qed.
Lemma good_rates : forall e a b c, good e -> good (SetBodyRates e a b c).
Proof. intros e a b c G. apply (good_step e (OBodyRates a b c) _ G); [exact Logic.I|exact Logic.I|reflexivity]. Qed.
Lemma good_gravity : forall e, good e -> good (InitializeGravity e).
Proof. intros e G. apply (good_step e OInitGravity _ G); [exact Logic.I|exact Logic.I|reflexivity]. Qed.
Lemma good_zero : forall e b, good e -> good (SetZeroAcceleration e b).
Proof. intros e b G. apply (good_step e (OSetZero b) _ G); [exact Logic.I|exact Logic.I|reflexivity]. Qed.
Lemma good_root : forall e, good e -> p_root (e_par e) = false.
Proof. intros e [_ [a [T _]]]. apply (tw_root _ _ T). Qed.
Lemma good_kalman : forall e jac r n e', good e -> meas_arg (p_root (e_par e)) (e_size e) jac r n -> blind e jac -> KalmanUpdate e jac r n = OK e' -> good e'.
Proof.
  intros e jac r n e' G M B E. apply (good_step e (OKalman jac r n) e' G); [|exact B|exact E].
  cbn [contract]. rewrite (dim_size e (proj1 (reachable_inv e (proj1 G)))). exact M.
Qed.
Lemma good_zero_update : forall u e s lt acc A omg W b u' e', good e -> knows u e s ->
  noise_ok (p_root (e_par e)) 3 A -> noise_ok (p_root (e_par e)) 3 W ->
  ZeroAccelerationUpdate u e lt acc A omg W = OK (b, u', e') -> good e'.
Proof.
  intros u e s lt acc A omg W b u' e' G HK HA HW E. unfold ZeroAccelerationUpdate in E.
  destruct (iu_moved u); [injection E as _ _ <-; exact G|].
  pose proof G as [Hr _]. pose proof HK as [Hf _]. rewrite (get_imu_same _ _ _ Hf) in E.
  destruct (zero_jac_ok u e s Hr HK) as [jac [EJ [J1 J2]]]. rewrite EJ in E. cbn [bind] in E.
  destruct (zero_noise_ok _ u A W HA HW) as [N [EN NN]]. rewrite EN in E. cbn [bind] in E.
  destruct (zero_score e jac N (zero_resid u e s acc omg)) as [x|]; cbn [bind] in E; [|discriminate].
  destruct (Rltb (p_chi2 (e_par e)) x && e_gravity e); [injection E as _ _ <-; exact G|].
  assert (G1 : good (if Rltb x (p_chi2 (e_par e)) then InitializeGravity e else e) /\
    knows u (if Rltb x (p_chi2 (e_par e)) then InitializeGravity e else e) s /\
    e_par (if Rltb x (p_chi2 (e_par e)) then InitializeGravity e else e) = e_par e).
  { destruct (Rltb x (p_chi2 (e_par e))); [|auto]. split; [apply good_gravity; exact G|]. split; [exact HK|reflexivity]. }
  revert G1 E. generalize (if Rltb x (p_chi2 (e_par e)) then InitializeGravity e else e). intros e1 [G1 [K1 P1]] E.
  destruct (predict_went e1 lt (proj1 G1)) as [e2 [E2 [W2 _]]]. rewrite E2 in E. cbn [bind] in E.
  destruct (knows_keeps u e1 e2 s K1 (w_keeps _ _ W2)) as [s2 K2].
  pose proof (good_predict _ _ _ G1 E2) as G2. pose proof G2 as [Hr2 [a [T2 _]]].
  destruct (zero_jac_ok u e2 s2 Hr2 K2) as [jac2 [EJ2 [J3 J4]]]. rewrite EJ2 in E. cbn [bind] in E.
  destruct (KalmanUpdate e2 jac2 (zero_resid u e s acc omg) N) as [e3|] eqn:E3; cbn [bind] in E; [|discriminate].
  injection E as _ _ <-. apply good_rates. destruct (zero_resid_shape u e s acc omg) as [R1 R2].
  rewrite <- P1, <- (w_par _ _ W2) in NN.
  apply (good_kalman e2 _ _ _ e3 G2 (noise_meas _ (msize u) _ _ _ _ NN J3 J4 R1 R2)
    (zero_jac_blind u e2 s2 a jac2 e2 T2 K2 EJ2) E3).
Qed.
Lemma good_ordinary : forall u e s lt acc A omg W u' e', good e -> knows u e s ->
  noise_ok (p_root (e_par e)) 3 A -> noise_ok (p_root (e_par e)) 3 W ->
  imu_ordinary u e lt acc A omg W = OK (u', e') -> good e'.
Proof.
  intros u e s lt acc A omg W u' e' G HK HA HW E. unfold imu_ordinary in E. cbv zeta in E.
  pose proof (good_zero e false G) as Gz. assert (HKz : knows u (SetZeroAcceleration e false) s) by exact HK.
  assert (Pz : e_par (SetZeroAcceleration e false) = e_par e) by reflexivity.
  revert Gz HKz Pz E. generalize (SetZeroAcceleration e false). intros ez Gz HKz Pz E.
  pose proof HKz as [Hf _]. rewrite (get_imu_same _ _ _ Hf) in E.
  match type of E with bind ?x _ = _ => destruct x as [e2|] eqn:E2; cbn [bind] in E; [|discriminate] end.
  assert (G2 : good e2).
  { destruct (Nat.eqb _ 1); [injection E2 as <-; apply good_rates; exact Gz|].
    unfold imu_PredictMeasurement in E2. rewrite (get_imu_same _ _ _ Hf) in E2. rewrite subc_ok in E2 by reflexivity. cbn [bind] in E2.
    pose proof Gz as [Hr [a [T _]]].
    destruct (imu_jac_ok u ez s Hr HKz) as [jac [EJ [J1 J2]]]. rewrite EJ in E2. cbn [bind] in E2.
    destruct (noise6 _ A W HA HW) as [N [EN NN]]. rewrite EN in E2. cbn [bind] in E2.
    apply (good_kalman ez jac _ N e2 Gz) in E2; [exact E2| |apply (imu_jac_blind u ez s a jac ez T HKz EJ)].
    apply (noise_meas _ 6); auto. rewrite Pz. exact NN. }
  destruct (PredictModel e2 lt) as [e3|] eqn:E3; cbn [bind] in E; [|discriminate]. injection E as _ <-. apply (good_predict _ _ _ G2 E3).
Qed.
Lemma good_imu : forall u e t acc A omg W u' e', good e -> has_imu e (iu_id u) (iu_ext u) (iu_int u) ->
  noise_ok (p_root (e_par e)) 3 A -> noise_ok (p_root (e_par e)) 3 W ->
  imu_UpdateEKF u e t acc A omg W = OK (u', e') -> good e'.
Proof.
  intros u e t acc A omg W u' e' G HI HA HW E. apply knows_has in HI. destruct HI as [s HK].
  unfold imu_UpdateEKF in E. rewrite local_of_split in E.
  pose proof (good_local e t G) as G0. destruct (local_went e t (proj1 G)) as [_ [_ [_ [_ [_ [S0 _]]]]]].
  pose proof (proj1 (zero_scale_local e t)) as P0.
  revert G0 S0 P0 E. generalize (snd (CalculateLocalTime e t)), (fst (CalculateLocalTime e t)). intros e0 lt G0 S0 P0 E.
  assert (K0 : knows u e0 s) by (unfold knows; rewrite S0; exact HK). rewrite <- P0 in HA, HW.
  destruct (ZeroAccelerationUpdate u e0 lt acc A omg W) as [[[b u1] e1]|] eqn:E1; cbn [bind] in E; [|discriminate].
  pose proof (good_zero_update _ _ _ _ _ _ _ _ _ _ _ G0 K0 HA HW E1) as G1.
  destruct b; [injection E as _ <-; apply good_zero; exact G1|].
  destruct (zero_update u e0 s lt acc A omg W (proj1 G0) K0 HA HW) as [[Z _]|[[_ Z]|[_ [x [_ [[_ [_ Z]]|[_ [e'' [Z _]]]]]]]]];
    rewrite Z in E1; try discriminate; injection E1 as <- <-.
  - apply (good_ordinary u e0 s lt acc A omg W u' e' G0 K0 HA HW E).
  - apply (good_ordinary (moved_on u) e0 s lt acc A omg W u' e' G0 K0 HA HW E).
Qed.
