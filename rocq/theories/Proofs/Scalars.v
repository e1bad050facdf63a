(** Effect of every call on the clock, the switches and the settings. *)
From Coq Require Import Reals List Arith Bool Lia Lra.
From Verif Require Import Base.Res Base.Mat Base.RDec Base.LinAlg Base.Geom Base.AMap Base.RMat
  Model.TypeHelper Model.Types Model.MathHelperMat Model.Ekf Model.Updater Model.Ops
  Spec.Layout Spec.History Spec.Contract Spec.Correct Spec.Named Spec.Same
  Proofs.Refresh Proofs.Wf Proofs.Register Proofs.Augment Proofs.Invariant Proofs.Named Proofs.Same Proofs.Update.
Import ListNotations.
Open Scope nat_scope.

Lemma reg_frame : forall e o e', inv e -> contract e o -> step e o = OK e' ->
  match o with ORegImu _ _ _ | ORegGps _ _ _ | ORegCam _ _ _ | ORegFid _ _ => True | _ => False end -> frame e e'.
Proof.
  intros e o e' I C E H. destruct o; try (exfalso; exact H); cbn [step] in E.
  - destruct (mfind id (s_imu (e_state e))) eqn:Ef.
    + rewrite reg_imu_dup in E by congruence. injection E as <-. apply frame_refl.
    + destruct (reg_imu_fresh e id st cov e' I C Ef E) as [_ [_ [F _]]]. exact F.
  - destruct (mfind id (s_gps (e_state e))) eqn:Ef.
    + rewrite reg_gps_dup in E by congruence. injection E as <-. apply frame_refl.
    + destruct (reg_gps_fresh e id st cov e' I C Ef E) as [_ [_ [F _]]]. exact F.
  - destruct (mfind id (s_cam (e_state e))) eqn:Ef.
    + rewrite reg_cam_dup in E by congruence. injection E as <-. apply frame_refl.
    + destruct (reg_cam_fresh e id st cov e' I C Ef E) as [_ [_ F]]. exact F.
  - destruct (mfind (f_id st) (s_fid (e_state e))) eqn:Ef.
    + rewrite reg_fid_dup in E by congruence. injection E as <-. apply frame_refl.
    + destruct (reg_fid_fresh e st cov e' I C Ef E) as [_ [_ [F _]]]. exact F.
Qed.

(** Time-based augmentation changes [e_aug_prev] and [e_frame_recv] only. *)
Definition frame' (e e' : ekf) : Prop :=
  e_par e' = e_par e /\ e_time e' = e_time e /\ e_ref_time e' = e_ref_time e /\
  e_time_init e' = e_time_init e /\ e_max_len e' = e_max_len e /\ e_bodyQ e' = e_bodyQ e /\
  e_lla_init e' = e_lla_init e /\ e_pos_e_in_g e' = e_pos_e_in_g e /\
  e_ang_l_to_e e' = e_ang_l_to_e e /\ e_gps_time e' = e_gps_time e /\
  e_gps_ecef e' = e_gps_ecef e /\ e_gps_xyz e' = e_gps_xyz e /\
  e_gravity e' = e_gravity e /\ e_zero_acc e' = e_zero_acc e.

Lemma frame_frame' : forall e e', frame e e' -> frame' e e'.
Proof. unfold frame, frame'. tauto. Qed.
Lemma frame'_trans : forall a b c, frame' a b -> frame' b c -> frame' a c.
Proof.
  unfold frame'. intros a b c H1 H2. decompose [and] H1. decompose [and] H2. clear H1 H2.
  repeat split; congruence.
Qed.
Lemma frame'_refl : forall e, frame' e e.
Proof. intros. repeat split. Qed.

Lemma augment_frame' : forall e e', wf e -> AugmentStateIfNeeded e = OK e' -> frame' e e' /\ cam_frame e e'.
Proof.
  intros e e' W E. destruct (AugmentStateIfNeeded_ok e W) as [e2 [E2 [_ [H1 H2]]]].
  rewrite E in E2. injection E2 as <-.
  assert (HT : timed e \/ ~ timed e).
  { unfold timed. destruct (p_aug (e_par e)); auto; right; intros [|]; discriminate. }
  destruct HT as [HT|HT].
  - destruct (H2 HT) as [needed [em [_ [_ [_ [R [_ HC]]]]]]]. destruct (rems_frame _ _ R) as [F1 G1].
    assert (F0 : frame' e em /\ cam_frame e em).
    { split; [apply frame_frame'; exact F1|exact G1]. }
    destruct (needed && e_frame_recv e).
    + destruct HC as [_ [_ [_ [_ [_ [_ [F2 G2]]]]]]]. split.
      * apply (frame'_trans e em e'); [apply F0|]. unfold frame, frame' in *. tauto.
      * apply (cam_frame_trans e em e'); [apply F0|exact G2].
    + subst e'. exact F0.
  - rewrite (H1 HT). split; repeat split.
Qed.

(** Prediction: first the model, then augmentation. *)
Definition model_step (e : ekf) (t : R) (e1 : ekf) : Prop :=
  if e_gravity e
  then exists c, predict_cov e (t - e_time e)%R = OK c /\ e1 = with_time (with_cov (with_state e (state_with_body (e_state e) (predict_body e (t - e_time e)%R))) c) t
  else e1 = with_time e t.

Lemma predict_full : forall e t e', inv e -> PredictModel e t = OK e' ->
  ((t < e_time e)%R /\ e' = e) \/
  ((e_time e <= t)%R /\ exists e1, model_step e t e1 /\ inv e1 /\ AugmentStateIfNeeded e1 = OK e').
Proof.
  intros e t e' I E. unfold PredictModel in E. destruct (Rltb t (e_time e)) eqn:Et.
  { left. apply Rltb_spec in Et. injection E as <-. auto. }
  right. apply Rltb_false in Et. split; [exact Et|]. unfold model_step. destruct (e_gravity e).
  - destruct (predict_cov_good e (t - e_time e)%R I ltac:(lra)) as [c [Ec [C1 [C2 C3]]]]. rewrite Ec in E. cbn [bind] in E.
    eexists. split; [eexists; split; [exact Ec|reflexivity]|]. split; [|exact E]. split.
    + apply body_wf; auto; [apply I|]. destruct (wf_ix _ (proj1 I)) as [X _]. exact X.
    + exact C3.
  - cbn [bind] in E. eexists. split; [reflexivity|]. split; [|exact E]. split; [apply time_wf; apply I|apply I].
Qed.

Lemma step_frame' : forall e o e', inv e -> contract e o -> step e o = OK e' ->
  match o with
  | ORegImu _ _ _ | ORegGps _ _ _ | ORegCam _ _ _ | ORegFid _ _ | OFrame _ _ | OAugment | ORefresh
  | OKalman _ _ _ | OGetImu _ | OGetGps _ | OGetCam _ | OGetAug _ _ _ => frame' e e'
  | OPredict t => frame' (with_time e (if Rltb t (e_time e) then e_time e else t)) e'
  | OInit t b => e' = Initialize e t b
  | OSetNoise q => e' = SetBodyProcessNoise e q
  | OSetLen n => e' = SetMaxTrackLength e n
  | OSetGps p a => e' = SetGpsReference e p a
  | OSetZero b => e' = SetZeroAcceleration e b
  | OBodyRates a w wd => e' = SetBodyRates e a w wd
  | OInitGravity => e' = InitializeGravity e
  | OLocalTime t => e' = snd (CalculateLocalTime e t)
  | OGpsSample f al t p => e' = AttemptGpsInitialization f al e t p
  end.
Proof.
  intros e o e' I C E. destruct o; try (apply frame_frame'; refine (reg_frame _ _ _ I C E _); exact Logic.I);
    cbn [step] in E; try (injection E as <-; first [reflexivity|repeat split]; fail).
  - (* predict *)
    destruct (predict_full e t e' I E) as [[H ->]|[H [e1 [H1 [I1 H2]]]]].
    + rewrite (Rltb_true _ _ H). repeat split.
    + rewrite (Rltb_ff _ _ H). destruct (augment_frame' e1 e' (proj1 I1) H2) as [F _].
      apply (frame'_trans _ e1); [|exact F]. unfold model_step in H1.
      destruct (e_gravity e); [destruct H1 as [c [_ ->]]|subst e1]; repeat split.
  - (* frame *)
    destruct (AugmentStateFrame_ok e cam frame (proj1 I)) as [e2 [E2 [_ [F _]]]].
    rewrite E in E2. injection E2 as <-. unfold History.frame, frame' in *. cbn in F. tauto.
  - apply (augment_frame' e e' (proj1 I) E).
  - destruct (Refresh_wf e (wf_pre _ (proj1 I)) (wf_nr _ (proj1 I)) (wf_nc _ (proj1 I))) as [e2 [E2 H]].
    rewrite E in E2. injection E2 as <-. apply frame_frame'. tauto.
  - destruct (kalman_full e jac residual noise I C) as [e2 [K [E2 [_ [_ [_ [_ [_ [_ [_ [c' Hc]]]]]]]]]]].
    rewrite E in E2. injection E2 as <-. rewrite Hc. repeat split.
  - destruct (query_ok e cam frame t C) as [s [e2 [E2 [k ->]]]]. rewrite E2 in E. injection E as <-. repeat split.
Qed.
