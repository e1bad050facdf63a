(** Every call that respects the contract succeeds and keeps the filter
    consistent. *)
From Coq Require Import Reals List Arith Bool Lia Lra.
From Verif Require Import Base.Res Base.Mat Base.RDec Base.RSum Base.LinAlg Base.Geom Base.AMap Base.RMat
  Model.TypeHelper Model.Types Model.MathHelperMat Model.QR Model.Ekf Model.Updater Model.Ops
  Spec.Layout Spec.History Spec.Correct Spec.KF Spec.Contract
  Proofs.MatSurgery Proofs.QRProofs Proofs.Refresh Proofs.Wf Proofs.Register Proofs.AugCov Proofs.Augment
  Proofs.PlusVec Proofs.Predict Proofs.Kalman Proofs.CovGood.
Import ListNotations.
Open Scope nat_scope.

Definition inv (e : ekf) : Prop := wf e /\ good (is_root e) (e_size e) (ent (e_cov e)).

Lemma frame_root : forall e e', frame e e' -> is_root e' = is_root e.
Proof. intros e e' [H _]. unfold is_root. now rewrite H. Qed.

Lemma dim_size : forall e, wf e -> dim (e_state e) = e_size e.
Proof. intros e W. unfold dim. rewrite layout_length. symmetry. apply pre_size. apply wf_pre. exact W. Qed.

Lemma insert_inv : forall e e' sub pos, inv e -> wf e' -> frame e e' ->
  is_insert (e_cov e) sub (e_cov e') pos -> pos <= e_size e -> nr sub = nc sub ->
  good (is_root e) (nr sub) (ent sub) -> inv e'.
Proof.
  intros e e' sub pos [W G] W' F HI Hp Hs Gs. split; [exact W'|].
  rewrite (frame_root _ _ F). rewrite <- (wf_nr _ W').
  pose proof (wf_nr _ W) as N1. pose proof (wf_nc _ W) as N2.
  eapply insert_good; eauto; rewrite ?N1, ?N2; auto.
Qed.

Lemma cov_arg_good : forall root n c, cov_arg root n c -> good root n (ent (sub_block c n)).
Proof. intros [|] n c [_ [_ H]]; exact H. Qed.

Lemma start_bounds : forall e, wf e -> start_gps (e_state e) <= e_size e /\ start_cam (e_state e) <= e_size e /\
  start_fid (e_state e) <= e_size e.
Proof.
  intros e W. rewrite (pre_size _ (wf_pre _ W)). unfold tot, start_aug, start_fid, start_cam. lia.
Qed.

(** *** Registration *)
Lemma reg_imu_inv : forall e id st c, inv e -> contract e (ORegImu id st c) ->
  exists e', RegisterIMU e id st c = OK e' /\ inv e'.
Proof.
  intros e id st c I C. cbn [contract] in C. destruct (mfind id (s_imu (e_state e))) as [x|] eqn:E.
  - exists e. unfold RegisterIMU. rewrite E. auto.
  - destruct (C eq_refl) as [H1 [H2 [H3 H4]]]. rewrite imu_labels_length in H1. cbn [snd] in H1.
    destruct H2 as [H2 [H2' H2'']].
    destruct (RegisterIMU_ok e id st c) as [e' [E' [W' [_ [HI [_ [F _]]]]]]]; [apply I|exact E|repeat split; tauto|].
    exists e'. split; [exact E'|]. destruct (start_bounds e (proj1 I)) as [B1 _].
    eapply insert_inv; eauto. apply cov_arg_good. rewrite <- H1. repeat split; auto.
Qed.

Lemma reg_gps_inv : forall e id st c, inv e -> contract e (ORegGps id st c) ->
  exists e', RegisterGPS e id st c = OK e' /\ inv e'.
Proof.
  intros e id st c I C. cbn [contract] in C. destruct (mfind id (s_gps (e_state e))) as [x|] eqn:E.
  - exists e. unfold RegisterGPS. rewrite E. auto.
  - destruct (C eq_refl) as [H1 [H2 H3]]. rewrite gps_labels_length in H1. cbn [snd] in H1.
    destruct H2 as [H2 [H2' H2'']].
    destruct (RegisterGPS_ok e id st c) as [e' [E' [W' [_ [HI [_ [F _]]]]]]]; [apply I|exact E|repeat split; tauto|].
    exists e'. split; [exact E'|]. destruct (start_bounds e (proj1 I)) as [_ [B1 _]].
    eapply insert_inv; eauto. apply cov_arg_good. rewrite <- H1. repeat split; auto.
Qed.

Lemma reg_cam_inv : forall e id st c, inv e -> contract e (ORegCam id st c) ->
  exists e', RegisterCamera e id st c = OK e' /\ inv e'.
Proof.
  intros e id st c I C. cbn [contract] in C. destruct (mfind id (s_cam (e_state e))) as [x|] eqn:E.
  - exists e. unfold RegisterCamera. rewrite E. auto.
  - destruct (C eq_refl) as [H1 [H2 H3]]. rewrite cam_labels_length in H1. cbn [snd] in H1.
    destruct H2 as [H2 [H2' H2'']].
    destruct (RegisterCamera_ok e id st c) as [e' [E' [W' [_ [HI [_ [F _]]]]]]]; [apply I|exact E|repeat split; tauto|].
    exists e'. split; [exact E'|]. destruct (start_bounds e (proj1 I)) as [_ [_ B1]].
    eapply insert_inv; eauto. apply cov_arg_good. rewrite <- H1. repeat split; auto.
Qed.

Lemma reg_fid_inv : forall e st c, inv e -> contract e (ORegFid st c) ->
  exists e', RegisterFiducial e st c = OK e' /\ inv e'.
Proof.
  intros e st c I C. cbn [contract] in C. destruct (mfind (f_id st) (s_fid (e_state e))) as [x|] eqn:E.
  - exists e. unfold RegisterFiducial. rewrite E. auto.
  - destruct (C eq_refl) as [H1 [H2 H3]]. rewrite fid_labels_length in H1. cbn [snd] in H1.
    destruct H2 as [H2 [H2' H2'']].
    destruct (RegisterFiducial_ok e st c) as [e' [E' [W' [_ [HI [_ [F _]]]]]]]; [apply I|exact E|repeat split; tauto|].
    exists e'. split; [exact E'|].
    eapply insert_inv; eauto. apply cov_arg_good. rewrite <- H1. repeat split; auto.
Qed.

(** *** Augmentation *)
Lemma rem1_inv : forall e i e', inv e -> rem1 e i e' -> inv e'.
Proof.
  intros e i e' [W G] [Hi [W' [_ [Hz [Hx [_ [ER [_ [F _]]]]]]]]]. split; [exact W'|].
  rewrite (frame_root _ _ F).
  pose proof (wf_nr _ W) as N1. pose proof (wf_nc _ W) as N2. rewrite <- N1 in G.
  destruct (remove_good (is_root e) (e_cov e) _ _ 6 (eq_trans N1 (eq_sym N2)) Hx ER G) as [_ [_ G']].
  rewrite <- (wf_nr _ W'). exact G'.
Qed.

Lemma rems_inv : forall e e', rems e e' -> inv e -> inv e'.
Proof. intros e e' H. induction H; auto. intros I. apply IHrems. eapply rem1_inv; eauto. Qed.

Lemma touch_inv : forall e k, inv e -> inv (touch_aug e k).
Proof. intros e k [W G]. split; [apply touch_aug_wf; exact W|exact G]. Qed.

Lemma clone_good : forall root e (c c' : mat R) x n, nr c = n -> nc c = n ->
  12 <= x <= nr c -> AugmentCovariance root c x = OK c' -> good root n (ent c) ->
  wf e -> e_cov e = c' -> good root (e_size e) (ent (e_cov e)).
Proof.
  intros root e c c' x n N1 N2 Hx E G W Ec. subst n.
  destruct (augment_good root c c' x ltac:(congruence) Hx E G) as [_ [_ G']].
  rewrite <- (wf_nr _ W), Ec. exact G'.
Qed.

Lemma augment_inv : forall e, inv e -> exists e', AugmentStateIfNeeded e = OK e' /\ inv e'.
Proof.
  intros e I. destruct (AugmentStateIfNeeded_ok e (proj1 I)) as [e' [E [W' [H1 H2]]]].
  exists e'. split; [exact E|].
  assert (HT : timed e \/ ~ timed e).
  { unfold timed. destruct (p_aug (e_par e)); auto; right; intros [|]; discriminate. }
  destruct HT as [HT|HT]; [|rewrite (H1 HT); exact I].
  destruct (H2 HT) as [needed [em [_ [_ [Wm [Rm [_ HC]]]]]]].
  assert (Im : inv em) by (eapply rems_inv; [exact Rm|apply touch_inv; exact I]).
  destruct (needed && e_frame_recv e); [|subst; exact Im].
  destruct HC as [_ [_ [Hz [Hx [EA [_ [F _]]]]]]].
  split; [exact W'|]. rewrite (frame_root _ _ F).
  change (is_root (with_frame_recv (with_aug_prev em (Some (e_time em))) false)) with (is_root em).
  destruct Im as [_ Gm].
  eapply clone_good; [apply (wf_nr _ Wm)|apply (wf_nc _ Wm)|exact Hx|exact EA|exact Gm|exact W'|reflexivity].
Qed.

Lemma recv_inv : forall e b, inv e -> inv (with_frame_recv e b).
Proof.
  intros e b [W G]. split; [|exact G]. destruct W as [P ? ? ? ? ? ?]. constructor; auto.
  destruct P; constructor; auto.
Qed.

Lemma frame_inv : forall e cam f, inv e -> exists e', AugmentStateFrame e cam f = OK e' /\ inv e'.
Proof.
  intros e cam f I. destruct (AugmentStateFrame_ok e cam f (proj1 I)) as [e' [E [W' [F [_ [H1 H2]]]]]].
  exists e'. split; [exact E|]. destruct (per_frame e cam) eqn:PF.
  2:{ rewrite (H1 eq_refl). apply recv_inv. exact I. }
  destruct (H2 eq_refl) as [_ [_ [H3 H4]]]. clear H1 H2. split; [exact W'|].
  rewrite (frame_root _ _ F). change (is_root (with_frame_recv e true)) with (is_root e).
  destruct I as [W G]. pose proof (wf_nr _ W) as N1. pose proof (wf_nc _ W) as N2.
  destruct (Nat.lt_ge_cases (length (aug_at e cam)) (e_max_len e)) as [L|L].
  - destruct (H3 L) as [_ [Hx EA]].
    eapply clone_good; [exact N1|exact N2|exact Hx|exact EA|exact G|exact W'|reflexivity].
  - destruct (H4 L) as [_ [Hr [rc [ER [Hx EA]]]]]. rewrite <- N1 in G.
    destruct (remove_good (is_root e) (e_cov e) _ _ 6 (eq_trans N1 (eq_sym N2)) Hr ER G) as [M1 [M2 G']].
    eapply (clone_good (is_root e) e' rc _ _ (nr rc)); [reflexivity|congruence|exact Hx|exact EA|exact G'|exact W'|reflexivity].
Qed.

(** *** Prediction *)
Lemma body_wf : forall e b c t, wf e -> b_index b = 0 -> nr c = e_size e -> nc c = e_size e ->
  wf (with_time (with_cov (with_state e (state_with_body (e_state e) b)) c) t).
Proof.
  intros e b c t [P W2 ? ? ? ? ?] Hb Hr Hc. constructor; ekf_cbn; auto.
  - destruct P. constructor; ekf_cbn; auto.
  - unfold indexed in *. destruct W2 as [_ X]. split; [exact Hb|exact X].
Qed.

Lemma time_wf : forall e t, wf e -> wf (with_time e t).
Proof. intros e t [P ? ? ? ? ? ?]. constructor; auto. destruct P; constructor; auto. Qed.

Lemma size_ge : forall e, wf e -> 18 <= e_size e.
Proof.
  intros e W. rewrite (pre_size _ (wf_pre _ W)). unfold tot, start_aug, start_fid, start_cam, start_gps. lia.
Qed.

Lemma predict_cov_good : forall e dt, inv e -> (0 <= dt)%R ->
  exists c, predict_cov e dt = OK c /\ nr c = e_size e /\ nc c = e_size e /\
    good (is_root e) (e_size e) (ent c).
Proof.
  intros e dt [W G] Hdt. destruct W as [P W2 W3 W4 W5 W6 W7] eqn:EW. pose proof (size_ge e W) as H18. clear EW.
  destruct (is_root e) eqn:ER.
  - destruct (predict_root_dims e dt ER W3 W4 W5 W6 H18) as [c [E [C1 [C2 C3]]]].
    exists c. repeat split; auto.
  - destruct (predict_std_ok e dt ER W3 W4 W5 W6 H18) as [c [E [C1 [C2 C3]]]].
    exists c. split; [exact E|]. split; [exact C1|]. split; [exact C2|].
    cbn [good] in *. eapply psd_ext; [intros i j Hi Hj; symmetry; apply C3; auto|].
    apply predicted_psd; auto.
Qed.

Lemma predict_inv : forall e t, inv e -> exists e', PredictModel e t = OK e' /\ inv e'.
Proof.
  intros e t I. unfold PredictModel. destruct (Rltb t (e_time e)) eqn:Et; [exists e; auto|].
  apply Rltb_false in Et.
  destruct (e_gravity e).
  - destruct (predict_cov_good e (t - e_time e) I ltac:(lra)) as [c [-> [C1 [C2 C3]]]]. cbn [bind].
    apply augment_inv. split.
    + apply body_wf; auto; [apply I|]. destruct (wf_ix _ (proj1 I)) as [X _]. exact X.
    + exact C3.
  - cbn [bind]. apply augment_inv. split; [apply time_wf; apply I|apply I].
Qed.

(** *** Measurement update *)
Lemma kalman_inv : forall e jac r noise, inv e -> contract e (OKalman jac r noise) ->
  exists e', KalmanUpdate e jac r noise = OK e' /\ inv e'.
Proof.
  intros e jac r noise [W G] C. cbn [contract] in C. rewrite (dim_size e W) in C.
  destruct C as [J [R1 [R2 [N1 [N2 HN]]]]]. fold (is_root e) in HN.
  pose proof (wf_nr _ W) as C1. pose proof (wf_nc _ W) as C2. unfold KalmanUpdate.
  assert (HK : exists g c', (if is_root e then kalman_root (e_cov e) jac noise
    else kalman_std (e_cov e) jac noise) = OK (g, c') /\ nr g = e_size e /\ nc g = nr jac /\
    nr c' = e_size e /\ nc c' = e_size e /\ good (is_root e) (e_size e) (ent c')).
  { destruct (is_root e); cbn [good] in *.
    - destruct HN as [HN1 HN2].
      destruct (kalman_root_ok (e_size e) (nr jac) (e_cov e) jac noise) as [g [c' [E [G1 [G2 [G3 [G4 [G5 _]]]]]]]]; auto.
      exists g, c'. repeat split; auto.
    - destruct (kalman_std_ok (e_size e) (nr jac) (e_cov e) jac noise) as [g [c' [E [G1 [G2 [G3 [G4 [_ G6]]]]]]]]; auto.
      exists g, c'. do 5 (split; [assumption|]).
      eapply psd_ext; [intros i j Hi Hj; symmetry; apply G6; auto|].
      apply joseph_psd; auto. apply spd_psd; auto. }
  destruct HK as [g [c' [-> [G1 [G2 [G3 [G4 G5]]]]]]]. cbn [bind].
  rewrite mulc_ok by lia. cbn [bind].
  rewrite state_plus_ok; cbn [nr nc]; [|apply W|exact R2|].
  2:{ rewrite G1. rewrite (pre_size _ (wf_pre _ W)). lia. }
  cbn [bind]. eexists. split; [reflexivity|]. split; [apply correct_wf; auto|]. exact G5.
Qed.

(** *** The rest *)
Lemma refresh_inv : forall e, inv e -> exists e', RefreshIndices e = OK e' /\ inv e'.
Proof.
  intros e [W G]. destruct (Refresh_wf e (wf_pre _ W) (wf_nr _ W) (wf_nc _ W)) as [e' [E [W' [_ [Ec [Ez [_ [F _]]]]]]]].
  exists e'. split; [exact E|]. split; [exact W'|]. rewrite (frame_root _ _ F), Ez, Ec. exact G.
Qed.

(** Reading an unknown sensor adds an entry without error states. *)
Lemma touch_imu_wf : forall e id, wf e ->
  wf (with_state e (state_with_imu (e_state e) (mtouch default_imu id (s_imu (e_state e))))).
Proof.
  intros e id W. unfold mtouch. destruct (mfind id (s_imu (e_state e))) as [x|] eqn:E.
  - destruct W as [P ? ? ? ? ? ?]; constructor; auto; destruct P; constructor; auto.
  - destruct W as [P W2 ? ? ? ? ?].
    assert (HS : sum_len imu_len (mset id default_imu (s_imu (e_state e))) = sum_len imu_len (s_imu (e_state e))).
    { rewrite sum_len_mset by auto. cbn. lia. }
    assert (HX : start_gps (state_with_imu (e_state e) (mset id default_imu (s_imu (e_state e)))) = start_gps (e_state e)).
    { unfold start_gps. ekf_cbn. now rewrite HS. }
    constructor; ekf_cbn; auto.
    + destruct P. constructor; ekf_cbn; auto.
      * destruct pre_sorted as [X1 X2]. split; [apply mset_sorted; auto|exact X2].
      * destruct pre_sizes as [X1 X2]. split; [apply Forall_mset; auto|exact X2].
      * rewrite pre_size. unfold tot, start_aug, start_fid, start_cam. rewrite HX. reflexivity.
      * congruence.
      * apply nonneg_noise_split in pre_noise. apply nonneg_noise_split. ekf_cbn.
        destruct pre_noise as [X1 [X2 X3]]. split; [exact X1|]. split; [|exact X3].
        destruct (mset_fresh _ id default_imu _ E) as [l [r [E1 [E2 _]]]]. rewrite E2. rewrite E1 in X2.
        rewrite flat_map_app in *. exact X2.
    + destruct W2 as [X1 [X2 X3]]. unfold indexed. ekf_cbn. split; [exact X1|]. split.
      * destruct (mset_fresh _ id default_imu _ E) as [l [r [E1 [E2 _]]]]. rewrite E2. rewrite E1 in X2.
        apply imus_at_app in X2. apply imus_at_app. destruct X2 as [X2 X2']. split; [exact X2|].
        cbn [imus_at]. repeat split; try (intros; discriminate).
        replace (imu_len default_imu) with 0 by reflexivity. rewrite Nat.add_0_r. exact X2'.
      * unfold start_aug, start_fid, start_cam in *. rewrite HX. exact X3.
Qed.

Lemma touch_gps_wf : forall e id, wf e ->
  wf (with_state e (state_with_gps (e_state e) (mtouch default_gps id (s_gps (e_state e))))).
Proof.
  intros e id W. unfold mtouch. destruct (mfind id (s_gps (e_state e))) as [x|] eqn:E.
  - destruct W as [P ? ? ? ? ? ?]; constructor; auto; destruct P; constructor; auto.
  - destruct W as [P W2 ? ? ? ? ?].
    assert (HS : sum_len gps_len (mset id default_gps (s_gps (e_state e))) = sum_len gps_len (s_gps (e_state e))).
    { rewrite sum_len_mset by auto. cbn. lia. }
    assert (HX : start_cam (state_with_gps (e_state e) (mset id default_gps (s_gps (e_state e)))) = start_cam (e_state e)).
    { unfold start_cam, start_gps. ekf_cbn. now rewrite HS. }
    constructor; ekf_cbn; auto.
    + destruct P. constructor; ekf_cbn; auto.
      * destruct pre_sorted as [X0 [X1 X2]]. split; [exact X0|]. split; [apply mset_sorted; auto|exact X2].
      * destruct pre_sizes as [X0 [X1 X2]]. split; [exact X0|]. split; [apply Forall_mset; auto|exact X2].
      * rewrite pre_size. unfold tot, start_aug, start_fid. rewrite HX. reflexivity.
      * congruence.
      * apply nonneg_noise_split in pre_noise. apply nonneg_noise_split. ekf_cbn.
        destruct pre_noise as [X1 [X0 [X2 X3]]]. split; [exact X1|]. split; [exact X0|]. split; [|exact X3].
        destruct (mset_fresh _ id default_gps _ E) as [l [r [E1 [E2 _]]]]. rewrite E2. rewrite E1 in X2.
        rewrite flat_map_app in *. exact X2.
    + destruct W2 as [X1 [X0 [X2 X3]]]. unfold indexed. ekf_cbn. split; [exact X1|]. split; [exact X0|]. split.
      * destruct (mset_fresh _ id default_gps _ E) as [l [r [E1 [E2 _]]]]. rewrite E2. rewrite E1 in X2.
        apply gpss_at_app in X2. apply gpss_at_app. destruct X2 as [X2 X2']. split; [exact X2|].
        cbn [gpss_at]. repeat split; try (intros; discriminate).
        replace (gps_len default_gps) with 0 by reflexivity. rewrite Nat.add_0_r. exact X2'.
      * unfold start_aug, start_fid in *. rewrite HX. exact X3.
Qed.

Lemma touch_cam_wf : forall e id, wf e ->
  wf (with_state e (state_with_cam (e_state e) (mtouch default_cam id (s_cam (e_state e))))).
Proof.
  intros e id W. unfold mtouch. destruct (mfind id (s_cam (e_state e))) as [x|] eqn:E.
  - destruct W as [P ? ? ? ? ? ?]; constructor; auto; destruct P; constructor; auto.
  - destruct W as [P W2 ? ? ? ? ?].
    assert (HS : sum_len cam_len (mset id default_cam (s_cam (e_state e))) = sum_len cam_len (s_cam (e_state e))).
    { rewrite sum_len_mset by auto. cbn. lia. }
    assert (HX : start_fid (state_with_cam (e_state e) (mset id default_cam (s_cam (e_state e)))) = start_fid (e_state e)).
    { unfold start_fid, start_cam, start_gps. ekf_cbn. now rewrite HS. }
    constructor; ekf_cbn; auto.
    + destruct P. constructor; ekf_cbn; auto.
      * destruct pre_sorted as [X [X0 [X1 X2]]]. split; [exact X|]. split; [exact X0|]. split; [apply mset_sorted; auto|exact X2].
      * destruct pre_sizes as [X [X0 [X1 X2]]]. split; [exact X|]. split; [exact X0|]. split; [apply Forall_mset; auto|exact X2].
      * rewrite pre_size. unfold tot, start_aug. rewrite HX. reflexivity.
      * congruence.
      * apply nonneg_noise_split in pre_noise. apply nonneg_noise_split. ekf_cbn.
        destruct pre_noise as [X1 [X0 [X [X2 X3]]]]. split; [exact X1|]. split; [exact X0|]. split; [exact X|]. split; [|exact X3].
        destruct (mset_fresh _ id default_cam _ E) as [l [r [E1 [E2 _]]]]. rewrite E2. rewrite E1 in X2.
        rewrite flat_map_app in *. exact X2.
    + destruct W2 as [X1 [X0 [X [X2 X3]]]]. unfold indexed. ekf_cbn. split; [exact X1|]. split; [exact X0|]. split; [exact X|]. split.
      * destruct (mset_fresh _ id default_cam _ E) as [l [r [E1 [E2 _]]]]. rewrite E2. rewrite E1 in X2.
        apply cams_at_app in X2. apply cams_at_app. destruct X2 as [X2 X2']. split; [exact X2|].
        cbn [cams_at]. repeat split; try (intros; discriminate).
        replace (cam_len default_cam) with 0 by reflexivity. rewrite Nat.add_0_r. exact X2'.
      * unfold start_aug in *. rewrite HX. exact X3.
Qed.

(** *** Clone queries *)
Lemma find_interval_ok : forall l t acc, increasing_times l ->
  (exists a, fst (fst acc) = OK a) -> exists a, fst (fst (find_interval l t acc)) = OK a.
Proof.
  induction l as [|s0 l IH]; intros t acc Hi Ha; [exact Ha|].
  destruct l as [|s1 l]; [exact Ha|].
  change (find_interval (s0 :: s1 :: l) t acc) with
    (find_interval (s1 :: l) t (if Rleb (a_time s0) t && Rleb t (a_time s1)
       then (rdiv (t - a_time s0) (a_time s1 - a_time s0), s0, s1) else acc)).
  destruct Hi as [H1 H2]. apply IH; [exact H2|].
  destruct (Rleb (a_time s0) t && Rleb t (a_time s1)); [|exact Ha].
  cbn [fst]. rewrite rdiv_ok by lra. eauto.
Qed.

Lemma back_snoc : forall A (l : list A) x, back (l ++ [x]) = OK x.
Proof.
  induction l as [|y l IH]; intros x; [reflexivity|].
  cbn [app]. specialize (IH x). destruct (l ++ [x]) eqn:E; [destruct l; discriminate|]. exact IH.
Qed.

Lemma query_ok : forall e cam f t, query_arg e cam ->
  exists s e', GetAugState e cam f t = OK (s, e') /\ exists k, e' = touch_aug e k.
Proof.
  intros e cam f t H. unfold GetAugState. fold (per_frame e cam).
  destruct (per_frame e cam) eqn:PF; [eauto|].
  destruct H as [H|[H1 H2]].
  { unfold own_window in H. unfold per_frame in PF. destruct (p_aug (e_par e)); destruct H as [H|[H H']]; try discriminate.
    subst cam. rewrite Nat.eqb_refl in PF. discriminate. }
  set (key := match p_aug (e_par e) with APrimary => e_primary e | _ => 0 end).
  rewrite aug_at_touch. change (aug_at e key) with (query_window e).
  destruct H2 as [a [l' [El Ha]]].
  assert (exists a0 r, query_window e = a0 :: r) as [a0 [r E0]] by (rewrite El; destruct l'; eexists _, _; reflexivity).
  assert (EB : back (query_window e) = OK a) by (rewrite El; apply back_snoc).
  assert (EV : vnth (query_window e) 0 = OK a0) by (rewrite E0; reflexivity).
  rewrite EB, EV. cbn [bind].
  assert (Hal : exists al s0 s1, (if Rltb t (a_time a0) then (OK 0%R, a0, default_aug)
      else if Rltb t (a_time a) then
        find_interval (query_window e) t (OK 0%R, default_aug, default_aug)
      else
        (rdiv (t - a_time a) (e_time (touch_aug e key) - a_time a), a,
         mkAug 0 0%R (b_pos (s_body (e_state (touch_aug e key)))) (b_ang (s_body (e_state (touch_aug e key)))) 0 0%R))
      = (OK al, s0, s1)).
  { change (e_time (touch_aug e key)) with (e_time e).
    destruct (Rltb t (a_time a0)); [eauto|]. destruct (Rltb t (a_time a)).
    - destruct (find_interval_ok (query_window e) t (OK 0%R, default_aug, default_aug) H1) as [x Hx]; [eexists; reflexivity|].
      destruct (find_interval (query_window e) t (OK 0%R, default_aug, default_aug)) as [[p q] w]. cbn in Hx. subst. eauto.
    - rewrite rdiv_ok by lra. eauto. }
  destruct Hal as [al [s0 [s1 Hal]]]. rewrite Hal. cbn [bind]. eauto.
Qed.

(** *** One call *)
Lemma wf_other : forall e e', wf e ->
  e_par e' = e_par e -> e_state e' = e_state e -> e_cov e' = e_cov e -> e_size e' = e_size e ->
  e_imu_size e' = e_imu_size e -> e_gps_size e' = e_gps_size e -> e_cam_size e' = e_cam_size e ->
  e_aug_size e' = e_aug_size e -> e_fid_size e' = e_fid_size e -> e_Q e' = e_Q e ->
  e_aug_prev e' = e_aug_prev e ->
  nr (e_bodyQ e') = 18 -> nonneg_noise (e_state e') (e_bodyQ e') ->
  ((p_aug (e_par e) = AAll \/ p_aug (e_par e) = APrimary) -> 1 <= e_max_len e') -> wf e'.
Proof.
  intros e e' [P W2 W3 W4 W5 W6 W7] H1 H2 H3 H4 H5 H6 H7 H8 H9 H10 H11 H12 H13 H14.
  constructor; rewrite ?H2, ?H3, ?H4, ?H10; auto.
  destruct P. constructor; unfold aug_at in *; rewrite ?H1, ?H2, ?H3, ?H4, ?H5, ?H6, ?H7, ?H8, ?H9, ?H11 in *; auto.
Qed.

Lemma noise_arg_nonneg : forall q, noise_arg q -> nonneg (body_noise q).
Proof.
  intros q [_ H]. unfold body_noise. apply Forall_forall. intros x Hx.
  apply in_map_iff in Hx. destruct Hx as [i [<- Hi]]. apply in_seq in Hi. apply H. lia.
Qed.

Theorem step_inv : forall e o, inv e -> contract e o -> exists e', step e o = OK e' /\ inv e'.
Proof.
  intros e o I C. destruct o; cbn [step].
  - apply reg_imu_inv; auto.
  - apply reg_gps_inv; auto.
  - apply reg_cam_inv; auto.
  - apply reg_fid_inv; auto.
  - apply predict_inv; auto.
  - apply frame_inv; auto.
  - apply augment_inv; auto.
  - apply refresh_inv; auto.
  - apply kalman_inv; auto.
  - eexists; split; [reflexivity|]. split; [apply touch_imu_wf; apply I|apply I].
  - eexists; split; [reflexivity|]. split; [apply touch_gps_wf; apply I|apply I].
  - eexists; split; [reflexivity|]. split; [apply touch_cam_wf; apply I|apply I].
  - destruct (query_ok e cam frame t C) as [s [e' [-> [k ->]]]]. cbn [bind].
    eexists; split; [reflexivity|]. apply touch_inv. exact I.
  - eexists; split; [reflexivity|]. destruct I as [W G]. split; [|exact G].
    destruct W as [P W2 ? ? ? ? ?]. unfold Initialize. constructor; ekf_cbn; auto.
    + destruct P. constructor; ekf_cbn; auto.
    + unfold indexed in *. destruct W2 as [_ X]. split; [exact C|exact X].
  - eexists; split; [reflexivity|]. destruct I as [W G]. split; [|exact G].
    apply (wf_other e); auto; [apply C| |apply (pre_len _ (wf_pre _ W))].
    pose proof (pre_noise _ (wf_pre _ W)) as N. apply nonneg_noise_split in N. apply nonneg_noise_split.
    split; [apply noise_arg_nonneg; exact C|apply N].
  - eexists; split; [reflexivity|]. destruct I as [W G]. split; [|exact G].
    apply (wf_other e); auto; [apply (pre_bq _ (wf_pre _ W))|apply (pre_noise _ (wf_pre _ W))].
  - eexists; split; [reflexivity|]. destruct I as [W G]. split; [|exact G].
    apply (wf_other e); auto; [apply (pre_bq _ (wf_pre _ W))|apply (pre_noise _ (wf_pre _ W))|apply (pre_len _ (wf_pre _ W))].
  - eexists; split; [reflexivity|]. destruct I as [W G]. split; [|exact G].
    apply (wf_other e); auto; [apply (pre_bq _ (wf_pre _ W))|apply (pre_noise _ (wf_pre _ W))|apply (pre_len _ (wf_pre _ W))].
  - eexists; split; [reflexivity|]. destruct I as [W G]. split; [|exact G].
    destruct W as [P W2 ? ? ? ? ?]. unfold SetBodyRates. constructor; ekf_cbn; auto.
    destruct P. constructor; ekf_cbn; auto.
  - eexists; split; [reflexivity|]. destruct I as [W G]. split; [|exact G].
    apply (wf_other e); auto; [apply (pre_bq _ (wf_pre _ W))|apply (pre_noise _ (wf_pre _ W))|apply (pre_len _ (wf_pre _ W))].
  - eexists; split; [reflexivity|]. unfold CalculateLocalTime. destruct (e_time_init e); [exact I|]. cbn [snd].
    destruct I as [W G]. split; [|exact G].
    apply (wf_other e); auto; [apply (pre_bq _ (wf_pre _ W))|apply (pre_noise _ (wf_pre _ W))|apply (pre_len _ (wf_pre _ W))].
  - eexists; split; [reflexivity|]. destruct I as [W G].
    assert (X : forall e', e_par e' = e_par e -> e_state e' = e_state e -> e_cov e' = e_cov e -> e_size e' = e_size e ->
      wf e' -> inv e').
    { intros e' X1 X2 X3 X4 X5. split; [exact X5|]. unfold is_root. rewrite X1, X3, X4. exact G. }
    unfold AttemptGpsInitialization.
    destruct (4 <=? _); [destruct (align _ _) as [[p a]|]|]; apply X; try reflexivity;
      (apply (wf_other e); auto; [apply (pre_bq _ (wf_pre _ W))|apply (pre_noise _ (wf_pre _ W))|apply (pre_len _ (wf_pre _ W))]).
Qed.

(** *** Construction *)
Theorem init_inv : forall p q pe a, noise_arg q -> inv (EKF_init p q pe a).
Proof.
  intros p q pe a H. split.
  - constructor.
    + constructor; try reflexivity.
      * repeat split; constructor.
      * repeat split; constructor.
      * apply H.
      * apply nonneg_noise_split. split; [apply noise_arg_nonneg; exact H|]. repeat split; constructor.
      * intros _ X. destruct (X eq_refl).
      * intros _. cbn. lia.
    + repeat split.
    + cbn. destruct (p_root p); reflexivity.
    + cbn. destruct (p_root p); reflexivity.
    + reflexivity.
    + reflexivity.
    + intros i Hi. cbn. lra.
  - unfold is_root. cbn [EKF_init e_par e_size e_cov]. destruct (p_root p); cbn [good].
    + intros i j Hij. cbn. unfold mscal, idm. destruct (Nat.eqb_spec i j); [lia|].
      rewrite Rmult_0_r. apply sqrt_0.
    + cbn [ent mscale midm]. apply psd_mscal; [lra|]. apply psd_idm.
Qed.

Theorem run_inv : forall l e, inv e -> respects e l -> exists e', run e l = OK e' /\ inv e'.
Proof.
  induction l as [|o l IH]; intros e I H; cbn [run respects] in *; [eauto|].
  destruct H as [H1 H2]. destruct (step_inv e o I H1) as [e1 [E1 I1]].
  rewrite E1. cbn [bind]. apply IH; auto.
Qed.
