(** The GPS callback. *)
From Coq Require Import Reals List Arith Bool Lia Lra.
From Verif Require Import Base.Res Base.Mat Base.RDec Base.RSum Base.LinAlg Base.Inverse Base.Geom Base.AMap Base.RMat
  Model.TypeHelper Model.Types Model.MathHelperMat Model.MathHelper Model.Matrix3 Model.GpsHelper Model.Ekf Model.Updater Model.Ops
  Model.GpsUpdater
  Spec.Layout Spec.History Spec.Contract Spec.Correct Spec.Named Spec.Same Spec.Callback Spec.KF Spec.Earth
  Proofs.Refresh Proofs.Wf Proofs.Register Proofs.Augment Proofs.Invariant Proofs.Named Proofs.Same Proofs.Update
  Proofs.Scalars Proofs.Clock Proofs.Effects Proofs.Columns Proofs.Kalman Proofs.CovGood Proofs.Follows Proofs.BlockDiag
  Proofs.ImuCallback Proofs.GpsFrames.
Import ListNotations.
Open Scope nat_scope.

Definition gknows (u : gps_updater) (e : ekf) (s : GpsState) : Prop :=
  mfind (gu_id u) (s_gps (e_state e)) = Some s /\ g_ext s = gu_ext u.
Definition gsame (u u' : gps_updater) : Prop := gu_id u' = gu_id u /\ gu_ext u' = gu_ext u.

Lemma gsame_knows : forall u u' e s, gsame u u' -> gknows u e s -> gknows u' e s.
Proof. intros u u' e s [H1 H2] [K1 K2]. split; congruence. Qed.
Lemma gknows_keeps : forall u e e' s, gknows u e s -> keeps (e_state e) (e_state e') -> exists s', gknows u e' s'.
Proof. intros u e e' s [H H1] [_ [K _]]. destruct (K _ _ H) as [y [Y Y1]]. exists y. split; congruence. Qed.

Lemma gps_refresh_same : forall u e s, gknows u e s -> exists u', gps_refresh u e = (u', e) /\ gsame u u'.
Proof.
  intros u e s [H _]. unfold gps_refresh. destruct (negb _ || _).
  - rewrite (get_gps_same _ _ _ H). eexists. split; [reflexivity|]. split; reflexivity.
  - exists u. split; [reflexivity|]. split; reflexivity.
Qed.

Lemma gps_jac_ok : forall u e s, reachable e -> gknows u e s ->
  exists j u', gps_GetMeasurementJacobian u e = OK (j, u', e) /\ gsame u u' /\ nr j = 3 /\ nc j = e_size e.
Proof.
  intros u e s Hr HK. unfold gps_GetMeasurementJacobian.
  destruct (gps_refresh_same u e s HK) as [u' [E' S']]. rewrite E'.
  pose proof (gsame_knows _ _ _ _ S' HK) as [Hf He].
  pose proof (size_ge e (proj1 (reachable_inv e Hr))) as G.
  destruct (sb (mzero 3 (e_size e)) 0 0 3 3 m3id) as [j1 [E1 [N1 M1]]]; [cbn; lia|cbn; lia|reflexivity|reflexivity|].
  cbn in N1, M1. rewrite E1. cbn [bind].
  match goal with |- context [set_block j1 0 9 3 3 ?b] => destruct (sb j1 0 9 3 3 b) as [j2 [E2 [N2 M2]]] end;
    [lia|lia|reflexivity|reflexivity|]. rewrite E2. cbn [bind].
  destruct (gu_ext u') eqn:X.
  - rewrite (get_gps_same _ _ _ Hf). pose proof (gps_bounds e _ s Hr Hf He) as B.
    match goal with |- context [set_block j2 0 ?i 3 3 ?b] => destruct (sb j2 0 i 3 3 b) as [j3 [E3 [N3 M3]]] end;
      [lia|lia|reflexivity|reflexivity|]. rewrite E3. cbn [bind]. exists j3, u'. repeat split; try congruence; apply S'.
  - exists j2, u'. repeat split; try congruence; apply S'.
Qed.

Lemma multi_rows_sound : forall ecef xyz u e s ref h i jac resid j r u' e', reachable e -> gknows u e s ->
  multi_rows u e ref h ecef xyz i jac resid = OK (j, r, u', e') ->
  e' = e /\ gsame u u' /\ nr j = nr jac /\ nc j = nc jac /\ nr r = nr resid /\ nc r = nc resid.
Proof.
  induction ecef as [|p ecef IH]; intros xyz u e s ref h i jac resid j r u' e' Hr HK E.
  - cbn in E. injection E as <- <- <- <-. repeat split; reflexivity.
  - destruct xyz as [|x xyz]; [discriminate|]. cbn [multi_rows] in E.
    destruct (ecef_to_enu p ref) as [g|]; [|discriminate]. cbn [bind] in E.
    destruct (gps_jac_ok u e s Hr HK) as [j1 [u1 [E1 [S1 [N1 M1]]]]]. rewrite E1 in E. cbn [bind] in E.
    destruct (set_block jac (3 * i) 0 3 (e_size e) j1) as [jac'|] eqn:E2; [|discriminate]. cbn [bind] in E.
    destruct (set_block resid (3 * i) 0 3 1 _) as [resid'|] eqn:E3; [|discriminate]. cbn [bind] in E.
    destruct (IH _ _ _ s _ _ _ _ _ _ _ _ _ Hr (gsame_knows _ _ _ _ S1 HK) E) as [-> [S2 [A [B [C D]]]]].
    assert (X : forall T (m : mat T) i j p q b m', set_block m i j p q b = OK m' -> nr m' = nr m /\ nc m' = nc m).
    { intros T m a b c d m1 m' Hs. unfold set_block, guard in Hs. destruct (_ && _ && _ && _); [|discriminate].
      injection Hs as <-. split; reflexivity. }
    destruct (X _ _ _ _ _ _ _ _ E2), (X _ _ _ _ _ _ _ _ E3). destruct S1, S2.
    repeat split; congruence.
Qed.

Lemma compress_shape : forall j r j' r', CompressMeasurements j r = OK (j', r') -> nr r = nr j -> nc r = 1 ->
  nc j' = nc j /\ nr r' = nr j' /\ nc r' = 1.
Proof.
  intros j r j' r' E H1 H2. unfold CompressMeasurements in E. destruct (Nat.leb _ _).
  - unfold guard in E. destruct (_ && _); [|discriminate]. cbn [bind] in E.
    destruct (givens_all _ _ _) as [H q]. injection E as <- <-. repeat split; reflexivity.
  - injection E as <- <-. auto.
Qed.
Lemma compress_total : forall j r, nr r = nr j -> nc r = 1 -> exists j' r', CompressMeasurements j r = OK (j', r').
Proof.
  intros j r H1 H2. unfold CompressMeasurements. rewrite H1, H2, Nat.eqb_refl. cbn [Nat.eqb andb guard bind].
  destruct (Nat.leb _ _); [|eauto]. destruct (givens_all _ _ _); eauto.
Qed.

Lemma multi_sound : forall u e s u' e', reachable e -> gknows u e s -> MultiUpdateEKF u e = OK (u', e') ->
  gsame u u' /\ went e e' /\ same_clock e e' /\ frame' e e'.
Proof.
  intros u e s u' e' Hr HK E. unfold MultiUpdateEKF in E.
  destruct (multi_rows _ _ _ _ _ _ _ _ _) as [[[[j r] u1] e1]|] eqn:E1; [|discriminate]. cbn [bind] in E.
  destruct (multi_rows_sound _ _ _ _ s _ _ _ _ _ _ _ _ _ Hr HK E1) as [-> [S1 [A [B [C D]]]]]. cbn in A, B, C, D.
  destruct (CompressMeasurements j r) as [[j2 r2]|] eqn:E2; [|discriminate]. cbn [bind] in E.
  destruct (compress_shape _ _ _ _ E2) as [X [Y Z]]; [congruence|congruence|].
  destruct (Nat.leb (nr r2) 1).
  - injection E as <- <-. split; [exact S1|]. split; [apply went_refl; exact Hr|]. split; [apply same_clock_refl|repeat split].
  - destruct (kalman_went e j2 r2 (midm (nr r2) (nr r2)) Hr) as [e2 [E3 [W [S F]]]].
    { apply (noise_meas _ (nr r2)); [|congruence|congruence|reflexivity|exact Z].
      apply (diag_noise_ok _ _ _ (fun _ => 1%R)); [reflexivity|reflexivity|intros; lra|].
      intros a b Ha Hb. reflexivity. }
    rewrite E3 in E. cbn [bind] in E. injection E as <- <-. auto.
Qed.

(** Everything about the GPS callback. *)
Record gps_done (u : gps_updater) (e : ekf) (t : R) (lla : V3) (u' : gps_updater) (e' : ekf) : Prop := mkGpsDone {
  gd_went : went e e';
  gd_brought : brought e t e';
  gd_u : gsame u u';
  gd_grav : e_gravity e' = e_gravity e;
  gd_zero : e_zero_acc e' = e_zero_acc e;
  gd_samples : e_gps_time e' = e_gps_time e ++ (if e_lla_init e then [] else [local_of e t]);
  gd_keep : e_lla_init e = true -> e_lla_init e' = true /\ e_pos_e_in_g e' = e_pos_e_in_g e /\ e_ang_l_to_e e' = e_ang_l_to_e e;
  gd_four : e_lla_init e = false -> e_lla_init e' = true -> 4 <= length (e_gps_time e') }.

Section Cb.
Variable svd : m2 -> m2 * m2.
Variable hull : list (Z * Z) -> list (Z * Z).
Variable ecef_to_lla : V3 -> V3.

Lemma attempt_sound : forall e t lla e', reachable e -> AttemptGps svd hull ecef_to_lla e t lla = OK e' ->
  went e e' /\ same_clock e e' /\ e_gravity e' = e_gravity e /\ e_zero_acc e' = e_zero_acc e /\
  e_gps_time e' = e_gps_time e ++ [t] /\ e_state e' = e_state e /\ e_cov e' = e_cov e /\
  (e_lla_init e = false -> e_lla_init e' = true -> 4 <= length (e_gps_time e')).
Proof.
  intros e t lla e' Hr E. unfold AttemptGps in E. destruct (lla_to_ecef lla) as [c|]; [|discriminate]. cbn [bind] in E.
  match type of E with bind ?x _ = _ => destruct x as [r|]; [|discriminate] end. cbn [bind] in E.
  injection E as E. set (o := OGpsSample (fun _ => c) (fun _ _ => r) t lla).
  assert (ES : step e o = OK e') by (cbn [step o]; rewrite E; reflexivity).
  split; [apply (went_step e o); auto; try exact Logic.I|].
  pose proof (step_gps e o e' (reachable_inv e Hr) Logic.I ES) as [H1 H2]. cbn [sample_time o] in H1.
  subst e'. unfold AttemptGpsInitialization in *.
  destruct (Nat.leb 4 _); [destruct r as [[p a]|]|]; cbn; unfold same_clock; cbn; repeat split; auto; apply H2; exact Logic.I.
Qed.

Lemma gps_sound : forall u e t lla N u' e', reachable e -> has_gps e (gu_id u) (gu_ext u) ->
  noise_ok (p_root (e_par e)) 3 N -> gps_UpdateEKF svd hull ecef_to_lla u e t lla N = OK (u', e') ->
  gps_done u e t lla u' e'.
Proof.
  intros u e t lla N u' e' Hr [s HK] HN E. change (gknows u e s) in HK.
  unfold gps_UpdateEKF in E. rewrite local_of_split in E.
  destruct (local_went e t Hr) as [W0 [L0 [T0 [I0 [F0 [S0 [LL0 GG0]]]]]]].
  assert (X0 : e_gps_time (snd (CalculateLocalTime e t)) = e_gps_time e /\ e_zero_acc (snd (CalculateLocalTime e t)) = e_zero_acc e /\
    e_pos_e_in_g (snd (CalculateLocalTime e t)) = e_pos_e_in_g e /\ e_ang_l_to_e (snd (CalculateLocalTime e t)) = e_ang_l_to_e e)
    by (unfold CalculateLocalTime; destruct (e_time_init e); auto).
  destruct X0 as [Q0 [Z0 [A0 B0]]].
  set (e0 := snd (CalculateLocalTime e t)) in *. rewrite L0 in E. clearbody e0.
  destruct (predict_went e0 (local_of e t) (w_reach _ _ W0)) as [e1 [E1 [W1 [T1 [T2 [T3 F1]]]]]].
  rewrite E1 in E. cbn [bind] in E. unfold frame' in F1. cbn in F1.
  destruct F1 as [_ [_ [_ [_ [_ [_ [D1 [D2 [D3 [D4 [_ [_ [D5 D6]]]]]]]]]]]]].
  assert (W : went e e1) by (eapply went_trans; eauto).
  destruct (gknows_keeps u e e1 s HK (w_keeps _ _ W)) as [s1 HK1]. pose proof (w_reach _ _ W) as Hr1.
  destruct (e_lla_init e1) eqn:LI; cbn [negb] in E.
  - destruct (lla_to_enu lla (e_pos_e_in_g e1)) as [g|]; [|discriminate]. cbn [bind] in E.
    unfold gps_PredictMeasurement in E. destruct (gps_refresh_same u e1 s1 HK1) as [u1 [E2 S1]]. rewrite E2 in E.
    pose proof (gsame_knows _ _ _ _ S1 HK1) as HK2.
    destruct (gps_jac_ok u1 e1 s1 Hr1 HK2) as [j [u2 [E3 [S2 [J1 J2]]]]]. rewrite E3 in E. cbn [bind] in E.
    match type of E with bind (KalmanUpdate _ _ ?r _) _ = _ => destruct (kalman_went e1 j r N Hr1) as [e2 [E4 [W2 [S F]]]] end.
    { apply (noise_meas _ 3); auto. rewrite (w_par _ _ W). exact HN. }
    rewrite E4 in E. cbn [bind] in E. injection E as <- <-.
    unfold frame' in F. decompose [and] F. destruct S as [Sa [Sb Sc]]. destruct S1, S2.
    constructor; try congruence.
    + eapply went_trans; eauto.
    + apply (clock_brought e t e0); auto; congruence.
    + split; congruence.
    + replace (e_lla_init e) with true by congruence. rewrite app_nil_r. congruence.
    + intros _. split; [congruence|]. split; congruence.
  - destruct (AttemptGps svd hull ecef_to_lla e1 (local_of e t) lla) as [e2|] eqn:E2; [|discriminate]. cbn [bind] in E.
    destruct (attempt_sound _ _ _ _ Hr1 E2) as [W2 [[Sa [Sb Sc]] [G2 [Z2 [Q2 [_ [_ K2]]]]]]].
    assert (X : gsame u u' /\ went e2 e' /\ same_clock e2 e' /\ frame' e2 e').
    { destruct (e_lla_init e2).
      - destruct (gknows_keeps u e1 e2 s1 HK1 (w_keeps _ _ W2)) as [s2 HK2].
        apply (multi_sound u e2 s2); auto. apply (w_reach _ _ W2).
      - injection E as <- <-. split; [split; reflexivity|]. split; [apply went_refl, (w_reach _ _ W2)|]. split; [apply same_clock_refl|repeat split]. }
    destruct X as [Su [W3 [[Sd [Se Sf]] F]]]. unfold frame' in F. decompose [and] F.
    constructor; try congruence.
    + eapply went_trans; [exact W|]. eapply went_trans; eauto.
    + apply (clock_brought e t e0); auto; congruence.
    + replace (e_lla_init e) with false by congruence. congruence.
    + intros _ H'. replace (e_gps_time e') with (e_gps_time e2) by congruence. apply K2; [exact LI|congruence].
Qed.

(** With a reference the callback always succeeds for positions on the
    globe; while fewer than four samples are at hand too. *)
Lemma enu_total : forall p ref, on_globe p -> on_globe ref -> exists x, lla_to_enu p ref = OK x.
Proof.
  intros p ref H1 H2. destruct (lla_ok p H1) as [a A]. destruct (lla_ok ref H2) as [b B].
  unfold lla_to_enu. rewrite A. cbn [bind]. unfold ecef_to_enu. rewrite B. cbn [bind]. eauto.
Qed.

Lemma gps_total : forall u e t lla N, reachable e -> has_gps e (gu_id u) (gu_ext u) ->
  noise_ok (p_root (e_par e)) 3 N -> on_globe lla ->
  (if e_lla_init e then on_globe (e_pos_e_in_g e) else length (e_gps_time e) < 3) ->
  exists u' e', gps_UpdateEKF svd hull ecef_to_lla u e t lla N = OK (u', e').
Proof.
  intros u e t lla N Hr [s HK] HN HL HC. change (gknows u e s) in HK.
  unfold gps_UpdateEKF. rewrite local_of_split.
  destruct (local_went e t Hr) as [W0 [L0 [T0 [I0 [F0 [S0 [LL0 GG0]]]]]]].
  assert (X0 : e_gps_time (snd (CalculateLocalTime e t)) = e_gps_time e /\ e_zero_acc (snd (CalculateLocalTime e t)) = e_zero_acc e /\
    e_pos_e_in_g (snd (CalculateLocalTime e t)) = e_pos_e_in_g e /\ e_ang_l_to_e (snd (CalculateLocalTime e t)) = e_ang_l_to_e e)
    by (unfold CalculateLocalTime; destruct (e_time_init e); auto).
  destruct X0 as [Q0 [Z0 [A0 B0]]].
  set (e0 := snd (CalculateLocalTime e t)) in *. rewrite L0. clearbody e0.
  destruct (predict_went e0 (local_of e t) (w_reach _ _ W0)) as [e1 [E1 [W1 [T1 [T2 [T3 F1]]]]]].
  rewrite E1. cbn [bind]. unfold frame' in F1. cbn in F1.
  destruct F1 as [_ [_ [_ [_ [_ [_ [D1 [D2 [D3 [D4 [_ [_ [D5 D6]]]]]]]]]]]]].
  assert (W : went e e1) by (eapply went_trans; eauto).
  destruct (gknows_keeps u e e1 s HK (w_keeps _ _ W)) as [s1 HK1]. pose proof (w_reach _ _ W) as Hr1.
  replace (e_lla_init e) with (e_lla_init e1) in HC by congruence.
  destruct (e_lla_init e1) eqn:LI; cbn [negb].
  - destruct (enu_total lla (e_pos_e_in_g e1) HL) as [x X]; [rewrite D2, A0; exact HC|]. rewrite X. cbn [bind].
    unfold gps_PredictMeasurement. destruct (gps_refresh_same u e1 s1 HK1) as [u1 [E2 S1]]. rewrite E2.
    pose proof (gsame_knows _ _ _ _ S1 HK1) as HK2.
    destruct (gps_jac_ok u1 e1 s1 Hr1 HK2) as [j [u2 [E3 [S2 [J1 J2]]]]]. rewrite E3. cbn [bind].
    match goal with |- context [KalmanUpdate _ _ ?r _] => destruct (kalman_went e1 j r N Hr1) as [e2 [E4 [W2 [S F]]]] end.
    { apply (noise_meas _ 3); auto. rewrite (w_par _ _ W). exact HN. }
    rewrite E4. cbn [bind]. eauto.
  - unfold AttemptGps. destruct (lla_ok lla HL) as [c C]. rewrite C. cbn [bind].
    rewrite app_length. cbn [length]. rewrite D4, Q0.
    assert (HC' : Nat.leb 4 (length (e_gps_time e) + 1) = false) by (apply Nat.leb_gt; lia). rewrite HC'. cbn [bind].
    unfold AttemptGpsInitialization. cbn [e_gps_time with_gps_samples]. rewrite app_length. cbn [length]. rewrite D4, Q0, HC'.
    cbn [e_lla_init with_gps_samples]. rewrite LI. eauto.
Qed.
End Cb.
