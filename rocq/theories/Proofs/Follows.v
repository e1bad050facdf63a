(** Sequences of calls made by callbacks. *)
From Coq Require Import Reals List Arith Bool Lia Lra.
From Verif Require Import Base.Res Base.Mat Base.RDec Base.LinAlg Base.Geom Base.AMap Base.RMat
  Model.TypeHelper Model.Types Model.MathHelperMat Model.Ekf Model.Updater Model.Ops
  Spec.Layout Spec.History Spec.Contract Spec.Correct Spec.Named Spec.Same Spec.Callback
  Proofs.Refresh Proofs.Wf Proofs.Register Proofs.Augment Proofs.Invariant Proofs.Named Proofs.Same Proofs.Update
  Proofs.Scalars Proofs.Clock Proofs.Effects.
Import ListNotations.
Open Scope nat_scope.

Lemma follows_refl : forall e, follows e e.
Proof. intros e. exists []. repeat split; auto. Qed.

Lemma respects_app : forall l l' e e1, respects e l -> run e l = OK e1 -> respects e1 l' -> respects e (l ++ l').
Proof.
  induction l as [|o l IH]; intros l' e e1 H E H'; cbn [respects run app] in *.
  - injection E as ->. exact H'.
  - destruct H as [C H]. split; [exact C|]. intros e2 E2. rewrite E2 in E. cbn [bind] in E. eapply IH; eauto.
Qed.
Lemma run_app : forall l l' e, run e (l ++ l') = bind (run e l) (fun e1 => run e1 l').
Proof.
  induction l as [|o l IH]; intros l' e; cbn [run app]; [reflexivity|].
  destruct (step e o) as [e1|]; cbn [bind]; [apply IH|reflexivity].
Qed.

Lemma follows_trans : forall a b c, follows a b -> follows b c -> follows a c.
Proof.
  intros a b c [l [F1 [R1 E1]]] [l' [F2 [R2 E2]]]. exists (l ++ l'). split; [apply Forall_app; auto|].
  split; [eapply respects_app; eauto|]. rewrite run_app, E1. exact E2.
Qed.

Lemma follows_step : forall e o e', callback_op o -> contract e o -> step e o = OK e' -> follows e e'.
Proof.
  intros e o e' H C E. exists [o]. split; [auto|]. split; [split; [exact C|intros; exact I]|].
  cbn. rewrite E. reflexivity.
Qed.

Lemma follows_reachable : forall e e', follows e e' -> reachable e -> reachable e'.
Proof.
  intros e e' [l [_ [R E]]]. revert e R E. induction l as [|o l IH]; intros e R E Hr; cbn [respects run] in *.
  - injection E as <-. exact Hr.
  - destruct R as [C R]. destruct (step e o) as [e1|] eqn:E1; cbn [bind] in *; [|discriminate].
    apply (IH e1); auto. eapply reachable_step; eauto.
Qed.

(** *** Sensors stay known *)
Definition keeps (s s' : State) : Prop :=
  (forall id x, mfind id (s_imu s) = Some x -> exists y, mfind id (s_imu s') = Some y /\ i_ext y = i_ext x /\ i_int y = i_int x) /\
  (forall id x, mfind id (s_gps s) = Some x -> exists y, mfind id (s_gps s') = Some y /\ g_ext y = g_ext x) /\
  (forall id x, mfind id (s_cam s) = Some x -> exists y, mfind id (s_cam s') = Some y /\ c_ext y = c_ext x) /\
  (forall id x, mfind id (s_fid s) = Some x -> exists y, mfind id (s_fid s') = Some y /\ f_ext y = f_ext x) /\
  keys (s_imu s') = keys (s_imu s) /\ keys (s_gps s') = keys (s_gps s) /\ keys (s_cam s') = keys (s_cam s) /\
  keys (s_fid s') = keys (s_fid s).

Lemma keeps_trans : forall a b c, keeps a b -> keeps b c -> keeps a c.
Proof.
  intros a b c [A1 [A2 [A3 [A4 [A5 [A6 [A7 A8]]]]]]] [B1 [B2 [B3 [B4 [B5 [B6 [B7 B8]]]]]]]. repeat split; intros.
  - destruct (A1 _ _ H) as [y [Y [Y1 Y2]]]. destruct (B1 _ _ Y) as [z [Z [Z1 Z2]]]. exists z. repeat split; congruence.
  - destruct (A2 _ _ H) as [y [Y Y1]]. destruct (B2 _ _ Y) as [z [Z Z1]]. exists z. split; congruence.
  - destruct (A3 _ _ H) as [y [Y Y1]]. destruct (B3 _ _ Y) as [z [Z Z1]]. exists z. split; congruence.
  - destruct (A4 _ _ H) as [y [Y Y1]]. destruct (B4 _ _ Y) as [z [Z Z1]]. exists z. split; congruence.
  - congruence.
  - congruence.
  - congruence.
  - congruence.
Qed.
Lemma keeps_same : forall s s', s_imu s' = s_imu s -> s_gps s' = s_gps s -> s_cam s' = s_cam s -> s_fid s' = s_fid s -> keeps s s'.
Proof.
  intros s s' H1 H2 H3 H4. unfold keeps. rewrite H1, H2, H3, H4. repeat split; intros id x H; exists x; auto.
Qed.

Lemma mfind_map : forall A B (f : nat * A -> nat * B) (g : A -> B) k m, (forall x, f x = (fst x, g (snd x))) ->
  mfind k (map f m) = option_map g (mfind k m).
Proof.
  intros A B f g k m H. induction m as [|[k' v] t IH]; [reflexivity|]. cbn [map]. rewrite H. cbn [fst snd mfind].
  destruct (Nat.eqb k k'); [reflexivity|exact IH].
Qed.

Lemma mfind_bare : forall A (f : A -> A) k m m', on_map f m' = on_map f m ->
  option_map f (mfind k m') = option_map f (mfind k m).
Proof.
  intros A f k m m' H. rewrite <- !(mfind_map _ _ (fun x => (fst x, f (snd x))) f) by reflexivity.
  unfold on_map in H. rewrite H. reflexivity.
Qed.
Lemma keys_bare : forall A (f : A -> A) m, keys (on_map f m) = keys m.
Proof. intros A f m. unfold keys, on_map. rewrite map_map. reflexivity. Qed.

Lemma keeps_bare : forall s s', bare s' = bare s -> keeps s s'.
Proof.
  intros s s' H. pose proof (f_equal s_imu H) as H1. pose proof (f_equal s_gps H) as H2.
  pose proof (f_equal s_cam H) as H3. pose proof (f_equal s_fid H) as H4. cbn [bare s_imu s_gps s_cam s_fid] in *.
  repeat split; intros.
  - pose proof (mfind_bare _ _ id _ _ H1) as X. rewrite H0 in X. cbn in X. destruct (mfind id (s_imu s')) as [y|]; [|discriminate].
    exists y. cbn in X. split; [reflexivity|]. injection X; intros; auto.
  - pose proof (mfind_bare _ _ id _ _ H2) as X. rewrite H0 in X. cbn in X. destruct (mfind id (s_gps s')) as [y|]; [|discriminate].
    exists y. cbn in X. split; [reflexivity|]. injection X; intros; auto.
  - pose proof (mfind_bare _ _ id _ _ H3) as X. rewrite H0 in X. cbn in X. destruct (mfind id (s_cam s')) as [y|]; [|discriminate].
    exists y. cbn in X. split; [reflexivity|]. injection X; intros; auto.
  - pose proof (mfind_bare _ _ id _ _ H4) as X. rewrite H0 in X. cbn in X. destruct (mfind id (s_fid s')) as [y|]; [|discriminate].
    exists y. cbn in X. split; [reflexivity|]. injection X; intros; auto.
  - rewrite <- (keys_bare _ bare_imu), H1, keys_bare. reflexivity.
  - rewrite <- (keys_bare _ bare_gps), H2, keys_bare. reflexivity.
  - rewrite <- (keys_bare _ bare_cam), H3, keys_bare. reflexivity.
  - rewrite <- (keys_bare _ bare_fid), H4, keys_bare. reflexivity.
Qed.
Lemma keeps_ix : forall s, keeps s (ix_state s).
Proof. intros s. apply keeps_bare. apply bare_ix. Qed.

Lemma keeps_correct : forall d s, keeps s (correct d s).
Proof.
  intros d s. unfold keeps, correct. cbn [s_imu s_gps s_cam s_fid]. repeat split; intros id x H || idtac.
  - rewrite (mfind_map _ _ _ (correct_imu d)), H by reflexivity. cbn. eexists. split; [reflexivity|].
    unfold correct_imu. destruct (i_ext x) eqn:E1; cbn [i_int imu_with_pose]; destruct (i_int x) eqn:E2; cbn; auto.
  - rewrite (mfind_map _ _ _ (correct_gps d)), H by reflexivity. cbn. eexists. split; [reflexivity|].
    unfold correct_gps. destruct (g_ext x) eqn:E1; cbn; auto.
  - rewrite (mfind_map _ _ _ (correct_cam d)), H by reflexivity. cbn. eexists. split; [reflexivity|].
    unfold correct_cam. destruct (c_ext x) eqn:E1; cbn; auto.
  - rewrite (mfind_map _ _ _ (correct_fid d)), H by reflexivity. cbn. eexists. split; [reflexivity|].
    unfold correct_fid. destruct (f_ext x) eqn:E1; cbn; auto.
  - unfold keys. rewrite map_map. reflexivity.
  - unfold keys. rewrite map_map. reflexivity.
  - unfold keys. rewrite map_map. reflexivity.
  - unfold keys. rewrite map_map. reflexivity.
Qed.

Lemma rems_keeps : forall e e', rems e e' -> keeps (e_state e) (e_state e').
Proof.
  intros e e' H. induction H as [e|e i e1 e2 R1 _ IH]; [apply keeps_same; reflexivity|].
  apply (keeps_trans _ (e_state e1)); [|exact IH]. destruct R1 as [_ [_ [S _]]]. rewrite S.
  apply (keeps_trans _ (state_with_aug (e_state e) (mset 0 (erase i (aug_at e 0)) (s_aug (e_state e)))));
    [apply keeps_same; reflexivity|apply keeps_ix].
Qed.

Lemma augment_keeps : forall e e', wf e -> AugmentStateIfNeeded e = OK e' -> keeps (e_state e) (e_state e').
Proof.
  intros e e' W E. destruct (AugmentStateIfNeeded_ok e W) as [e2 [E2 [_ [H1 H2]]]].
  rewrite E in E2. injection E2 as <-.
  assert (HT : timed e \/ ~ timed e).
  { unfold timed. destruct (p_aug (e_par e)); auto; right; intros [|]; discriminate. }
  destruct HT as [HT|HT].
  - destruct (H2 HT) as [needed [em [_ [_ [_ [R [_ HC]]]]]]].
    assert (K : keeps (e_state e) (e_state em)).
    { apply (keeps_trans _ (e_state (touch_aug e 0))); [apply keeps_same; reflexivity|apply rems_keeps; exact R]. }
    destruct (needed && e_frame_recv e); [|subst e'; exact K].
    destruct HC as [_ [S _]]. apply (keeps_trans _ (e_state em)); [exact K|]. rewrite S.
    eapply keeps_trans; [|apply keeps_ix]. apply keeps_same; reflexivity.
  - rewrite (H1 HT). apply keeps_same; reflexivity.
Qed.

(** Getters are used for known sensors only. *)
Definition no_new_imu (e : ekf) (o : op) : Prop :=
  match o with
  | OGetImu id => mfind id (s_imu (e_state e)) <> None
  | OGetGps id => mfind id (s_gps (e_state e)) <> None
  | OGetCam id => mfind id (s_cam (e_state e)) <> None
  | _ => True
  end.

Lemma mtouch_present : forall A (d : A) k m, mfind k m <> None -> mtouch d k m = m.
Proof. intros A d k m H. unfold mtouch. destruct (mfind k m); [reflexivity|congruence]. Qed.
Lemma mfind_touch : forall A (d : A) k id m x, mfind id m = Some x -> mfind id (mtouch d k m) = Some x.
Proof.
  intros A d k id m x H. unfold mtouch. destruct (mfind k m) eqn:E; [exact H|].
  rewrite mfind_mset_neq; [exact H|]. congruence.
Qed.

Lemma step_keeps : forall e o e', inv e -> contract e o -> step e o = OK e' -> callback_op o -> no_new_imu e o ->
  keeps (e_state e) (e_state e').
Proof.
  intros e o e' I C E K N. pose proof (step_frame' e o e' I C E) as F.
  destruct o; try (exfalso; exact K); cbn [step] in *.
  - destruct (predict_full e t e' I E) as [[_ ->]|[_ [e1 [H1 [I1 H2]]]]]; [apply keeps_same; reflexivity|].
    apply (keeps_trans _ (e_state e1)); [|apply (augment_keeps e1 e' (proj1 I1) H2)]. unfold model_step in H1.
    destruct (e_gravity e); [destruct H1 as [c [_ ->]]|subst e1]; apply keeps_same; reflexivity.
  - destruct (AugmentStateFrame_ok e cam frame (proj1 I)) as [e2 [E2 [_ [_ [_ [H1 H2]]]]]].
    rewrite E in E2. injection E2 as <-. destruct (per_frame e cam).
    + destruct (H2 eq_refl) as [S _]. rewrite S. eapply keeps_trans; [|apply keeps_ix]. apply keeps_same; reflexivity.
    + rewrite (H1 eq_refl). apply keeps_same; reflexivity.
  - apply (augment_keeps e e' (proj1 I) E).
  - destruct (Refresh_wf e (wf_pre _ (proj1 I)) (wf_nr _ (proj1 I)) (wf_nc _ (proj1 I))) as [e2 [E2 [_ [S _]]]].
    rewrite E in E2. injection E2 as <-. rewrite S. apply keeps_ix.
  - destruct (kalman_full e jac residual noise I C) as [e2 [Kg [E2 [_ [_ [_ [_ [_ [_ [[d [_ [_ [_ S]]]] _]]]]]]]]]].
    rewrite E in E2. injection E2 as <-. rewrite S. apply keeps_correct.
  - injection E as <-. cbn in N. apply keeps_same; try reflexivity. cbn. apply mtouch_present. exact N.
  - injection E as <-. cbn in N. apply keeps_same; try reflexivity. cbn. apply mtouch_present. exact N.
  - injection E as <-. cbn in N. apply keeps_same; try reflexivity. cbn. apply mtouch_present. exact N.
  - destruct (query_ok e cam frame t C) as [s [e2 [E2 [k ->]]]]. rewrite E2 in E. injection E as <-. apply keeps_same; reflexivity.
  - subst e'. apply keeps_same; reflexivity.
  - subst e'. apply keeps_same; reflexivity.
  - subst e'. apply keeps_same; reflexivity.
  - subst e'. unfold CalculateLocalTime. destruct (e_time_init e); apply keeps_same; reflexivity.
  - subst e'. unfold AttemptGpsInitialization.
    destruct (Nat.leb 4 _); [destruct (align _ _) as [[? ?]|]|]; apply keeps_same; reflexivity.
Qed.

Lemma keeps_imu : forall e e' id x y, keeps (e_state e) (e_state e') -> has_imu e id x y -> has_imu e' id x y.
Proof. intros e e' id x y [K _] [s [H [<- <-]]]. destruct (K _ _ H) as [z Z]. exists z. tauto. Qed.
Lemma keeps_gps : forall e e' id x, keeps (e_state e) (e_state e') -> has_gps e id x -> has_gps e' id x.
Proof. intros e e' id x [_ [K _]] [s [H <-]]. destruct (K _ _ H) as [z Z]. exists z. tauto. Qed.
Lemma keeps_cam : forall e e' id x, keeps (e_state e) (e_state e') -> has_cam e id x -> has_cam e' id x.
Proof. intros e e' id x [_ [_ [K _]]] [s [H <-]]. destruct (K _ _ H) as [z Z]. exists z. tauto. Qed.
Lemma keeps_fid : forall e e' id x, keeps (e_state e) (e_state e') -> has_fid e id x -> has_fid e' id x.
Proof. intros e e' id x [_ [_ [_ [K _]]]] [s [H <-]]. destruct (K _ _ H) as [z Z]. exists z. tauto. Qed.

(** *** One call after another *)
Record went (e e' : ekf) : Prop := mkWent {
  w_follows : follows e e';
  w_reach : reachable e';
  w_keeps : keeps (e_state e) (e_state e');
  w_par : e_par e' = e_par e }.

Lemma went_refl : forall e, reachable e -> went e e.
Proof. intros e H. constructor; auto using follows_refl. apply keeps_same; reflexivity. Qed.
Lemma went_trans : forall a b c, went a b -> went b c -> went a c.
Proof.
  intros a b c [F1 R1 K1 P1] [F2 R2 K2 P2]. constructor; auto.
  - eapply follows_trans; eauto.
  - eapply keeps_trans; eauto.
  - congruence.
Qed.

Lemma par_step : forall e o e', inv e -> contract e o -> step e o = OK e' -> callback_op o -> e_par e' = e_par e.
Proof.
  intros e o e' I C E K. pose proof (step_frame' e o e' I C E) as F.
  destruct o; try (exfalso; exact K); unfold frame' in F; try (subst e'; reflexivity); try (apply F; fail).
  - subst e'. unfold CalculateLocalTime. destruct (e_time_init e); reflexivity.
  - subst e'. unfold AttemptGpsInitialization. destruct (Nat.leb 4 _); [destruct (align _ _) as [[? ?]|]|]; reflexivity.
Qed.

Lemma went_step : forall e o e', reachable e -> callback_op o -> contract e o -> no_new_imu e o ->
  step e o = OK e' -> went e e'.
Proof.
  intros e o e' R K C N E. pose proof (reachable_inv e R) as I. constructor.
  - eapply follows_step; eauto.
  - eapply reachable_step; eauto.
  - eapply step_keeps; eauto.
  - eapply par_step; eauto.
Qed.

(** What the members of the clock do. *)
Definition same_clock (e e' : ekf) : Prop :=
  e_time e' = e_time e /\ e_time_init e' = e_time_init e /\ e_ref_time e' = e_ref_time e.
Lemma same_clock_refl : forall e, same_clock e e.
Proof. intros; repeat split. Qed.
Lemma same_clock_trans : forall a b c, same_clock a b -> same_clock b c -> same_clock a c.
Proof. unfold same_clock. intros a b c [A1 [A2 A3]] [B1 [B2 B3]]. repeat split; congruence. Qed.
Lemma frame'_clock : forall e e', frame' e e' -> same_clock e e'.
Proof. unfold frame', same_clock. tauto. Qed.

Lemma kalman_went : forall e jac r noise, reachable e -> meas_arg (p_root (e_par e)) (e_size e) jac r noise ->
  exists e', KalmanUpdate e jac r noise = OK e' /\ went e e' /\ same_clock e e' /\ frame' e e'.
Proof.
  intros e jac r noise R M. pose proof (reachable_inv e R) as I.
  assert (C : contract e (OKalman jac r noise)) by (cbn [contract]; rewrite (dim_size e (proj1 I)); exact M).
  destruct (step_inv e _ I C) as [e' [E _]]. exists e'.
  split; [exact E|]. split; [apply (went_step e (OKalman jac r noise)); auto; exact Logic.I|].
  pose proof (step_frame' e _ e' I C E) as F. cbn in F. split; [apply frame'_clock|]; exact F.
Qed.

Lemma predict_went : forall e t, reachable e -> exists e', PredictModel e t = OK e' /\ went e e' /\
  e_time e' = Rmax t (e_time e) /\ e_time_init e' = e_time_init e /\ e_ref_time e' = e_ref_time e /\
  frame' (with_time e (Rmax t (e_time e))) e'.
Proof.
  intros e t R. pose proof (reachable_inv e R) as I. destruct (step_inv e (OPredict t) I Logic.I) as [e' [E _]].
  exists e'. split; [exact E|]. split; [apply (went_step e (OPredict t)); auto; exact Logic.I|].
  pose proof (step_frame' e (OPredict t) e' I Logic.I E) as F. cbn in F.
  assert (X : (if Rltb t (e_time e) then e_time e else t) = Rmax t (e_time e)).
  { destruct (Rltb t (e_time e)) eqn:X; [apply Rltb_spec in X; rewrite Rmax_right by lra; reflexivity|].
    apply Rltb_false in X. rewrite Rmax_left by lra. reflexivity. }
  rewrite X in F. unfold frame' in F |- *. cbn in F |- *. tauto.
Qed.

Lemma local_went : forall e t, reachable e ->
  let r := CalculateLocalTime e t in
  went e (snd r) /\ fst r = local_of e t /\ e_time (snd r) = clock_of e /\ e_time_init (snd r) = true /\
  e_ref_time (snd r) = (if e_time_init e then e_ref_time e else t) /\ e_state (snd r) = e_state e /\
  e_lla_init (snd r) = e_lla_init e /\ e_gravity (snd r) = e_gravity e.
Proof.
  intros e t R r. assert (W : went e (snd r)) by (apply (went_step e (OLocalTime t)); auto; exact I).
  split; [exact W|]. unfold r, CalculateLocalTime, local_of, clock_of.
  destruct (e_time_init e) eqn:T; cbn; repeat split; auto.
Qed.

Lemma zero_went : forall e b, reachable e -> went e (SetZeroAcceleration e b) /\ same_clock e (SetZeroAcceleration e b).
Proof. intros e b R. split; [apply (went_step e (OSetZero b)); auto; exact I|repeat split]. Qed.
Lemma rates_went : forall e a b c, reachable e -> went e (SetBodyRates e a b c) /\ same_clock e (SetBodyRates e a b c).
Proof. intros e a b c R. split; [apply (went_step e (OBodyRates a b c)); auto; exact I|repeat split]. Qed.
Lemma gravity_went : forall e, reachable e -> went e (InitializeGravity e) /\ same_clock e (InitializeGravity e).
Proof. intros e R. split; [apply (went_step e OInitGravity); auto; exact I|repeat split]. Qed.

(** Reading a known sensor changes nothing. *)
Lemma with_state_id : forall e, with_state e (e_state e) = e.
Proof. intros [ ]. reflexivity. Qed.
Lemma get_imu_same : forall e id s, mfind id (s_imu (e_state e)) = Some s -> GetImuState e id = (s, e).
Proof.
  intros e id s H. unfold GetImuState, mget. rewrite H. rewrite mtouch_present by congruence.
  replace (state_with_imu (e_state e) (s_imu (e_state e))) with (e_state e) by (destruct (e_state e); reflexivity).
  now rewrite with_state_id.
Qed.
Lemma get_gps_same : forall e id s, mfind id (s_gps (e_state e)) = Some s -> GetGpsState e id = (s, e).
Proof.
  intros e id s H. unfold GetGpsState, mget. rewrite H. rewrite mtouch_present by congruence.
  replace (state_with_gps (e_state e) (s_gps (e_state e))) with (e_state e) by (destruct (e_state e); reflexivity).
  now rewrite with_state_id.
Qed.
Lemma get_cam_same : forall e id s, mfind id (s_cam (e_state e)) = Some s -> GetCamState e id = (s, e).
Proof.
  intros e id s H. unfold GetCamState, mget. rewrite H. rewrite mtouch_present by congruence.
  replace (state_with_cam (e_state e) (s_cam (e_state e))) with (e_state e) by (destruct (e_state e); reflexivity).
  now rewrite with_state_id.
Qed.
