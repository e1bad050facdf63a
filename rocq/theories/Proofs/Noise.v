(** The stored process noise over histories of calls. *)
From Coq Require Import Reals List Arith Bool Lia Lra.
From Verif Require Import Base.Res Base.Mat Base.RDec Base.LinAlg Base.Geom Base.AMap Base.RMat
  Model.TypeHelper Model.Types Model.MathHelperMat Model.Ekf Model.Updater Model.Ops
  Spec.Layout Spec.History Spec.Contract Spec.Correct Spec.Named Spec.Same Spec.Noise
  Proofs.Refresh Proofs.Wf Proofs.Register Proofs.Augment Proofs.Invariant Proofs.Named Proofs.Same Proofs.Update Proofs.Scalars.
Import ListNotations.
Open Scope nat_scope.

(** *** What a successful refresh returns *)
Ltac diags H := repeat match type of H with context [set_diag3 ?a ?b ?c] =>
  let q := fresh "q" in destruct (set_diag3 a b c) as [q|]; cbn [bind] in H; [|discriminate] end.

Lemma imu_len_is : forall s, imu_len s = (if i_ext s then 6 else 0) + (if i_int s then 6 else 0).
Proof. reflexivity. Qed.
Lemma gps_len_is : forall s, gps_len s = if g_ext s then 3 else 0.
Proof. reflexivity. Qed.
Lemma cam_len_is : forall s, cam_len s = if c_ext s then 6 else 0.
Proof. reflexivity. Qed.
Lemma fid_len_is : forall s, fid_len s = if f_ext s then 6 else 0.
Proof. reflexivity. Qed.
Lemma refresh_imus_is : forall m cur Q m' c' Q', refresh_imus m cur Q = OK (m', c', Q') ->
  m' = ix_imus m cur /\ c' = cur + sum_len imu_len m.
Proof.
  induction m as [|[k s] t IH]; intros cur Q m' c' Q' H; cbn [refresh_imus ix_imus] in *.
  - injection H as <- <- _. unfold sum_len. cbn. auto.
  - rewrite sum_len_cons.
    cbv zeta in H. cbn [i_ext imu_with_index] in H.
    change g_imu_extrinsic_state_size with 6 in *. change g_imu_intrinsic_state_size with 6 in *.
    destruct (i_ext s) eqn:Ee; destruct (i_int s) eqn:Ei;
      repeat (diags H; cbn [bind i_int i_index i_index_ext i_index_int imu_with_index] in H; rewrite ?Ei in H);
      destruct (refresh_imus t _ _) as [[[t' c3] q3]|] eqn:R; cbn [bind] in H; try discriminate;
      injection H as <- <- _; apply IH in R; destruct R as [-> ->]; rewrite imu_len_is, Ee, Ei; cbn [Nat.add];
      rewrite ?Nat.add_0_r; (split; [|lia]).
    + replace (cur + 12) with (cur + 6 + 6) by lia. reflexivity.
    + reflexivity.
    + reflexivity.
    + reflexivity.
Qed.
Lemma refresh_gpss_is : forall m cur Q m' c' Q', refresh_gpss m cur Q = OK (m', c', Q') ->
  m' = ix_gpss m cur /\ c' = cur + sum_len gps_len m.
Proof.
  induction m as [|[k s] t IH]; intros cur Q m' c' Q' H; cbn [refresh_gpss ix_gpss] in *.
  - injection H as <- <- _. unfold sum_len. cbn. auto.
  - rewrite sum_len_cons. cbv zeta in H. cbn [g_ext gps_with_index] in H. change g_gps_extrinsic_state_size with 3 in *.
    destruct (g_ext s) eqn:Ee; diags H; cbn [bind] in H;
      destruct (refresh_gpss t _ _) as [[[t' c3] q3]|] eqn:R; cbn [bind] in H; try discriminate;
      injection H as <- <- _; apply IH in R; destruct R as [-> ->]; rewrite gps_len_is, Ee;
      rewrite ?Nat.add_0_r; split; try lia; reflexivity.
Qed.
Lemma refresh_cams_is : forall m cur Q m' c' Q', refresh_cams m cur Q = OK (m', c', Q') ->
  m' = ix_cams m cur /\ c' = cur + sum_len cam_len m.
Proof.
  induction m as [|[k s] t IH]; intros cur Q m' c' Q' H; cbn [refresh_cams ix_cams] in *.
  - injection H as <- <- _. unfold sum_len. cbn. auto.
  - rewrite sum_len_cons. cbv zeta in H. cbn [c_ext cam_with_index] in H. change g_cam_extrinsic_state_size with 6 in *.
    destruct (c_ext s) eqn:Ee; diags H; cbn [bind] in H;
      destruct (refresh_cams t _ _) as [[[t' c3] q3]|] eqn:R; cbn [bind] in H; try discriminate;
      injection H as <- <- _; apply IH in R; destruct R as [-> ->]; rewrite cam_len_is, Ee;
      rewrite ?Nat.add_0_r; split; try lia; reflexivity.
Qed.
Lemma refresh_fids_is : forall m cur Q m' c' Q', refresh_fids m cur Q = OK (m', c', Q') ->
  m' = ix_fids m cur /\ c' = cur + sum_len fid_len m.
Proof.
  induction m as [|[k s] t IH]; intros cur Q m' c' Q' H; cbn [refresh_fids ix_fids] in *.
  - injection H as <- <- _. unfold sum_len. cbn. auto.
  - rewrite sum_len_cons. cbv zeta in H. cbn [f_ext fid_with_index] in H. change g_fid_extrinsic_state_size with 6 in *.
    destruct (f_ext s) eqn:Ee; diags H; cbn [bind] in H;
      destruct (refresh_fids t _ _) as [[[t' c3] q3]|] eqn:R; cbn [bind] in H; try discriminate;
      injection H as <- <- _; apply IH in R; destruct R as [-> ->]; rewrite fid_len_is, Ee;
      rewrite ?Nat.add_0_r; split; try lia; reflexivity.
Qed.

Lemma Refresh_is : forall e e', RefreshIndices e = OK e' ->
  e_state e' = ix_state (e_state e) /\ e_size e' = e_size e /\ e_bodyQ e' = e_bodyQ e /\ e_par e' = e_par e.
Proof.
  intros e e' H. unfold RefreshIndices in H. cbv zeta in H.
  destruct (set_block _ _ _ _ _ _) as [Q0|]; cbn [bind] in H; [|discriminate].
  destruct (refresh_imus _ _ _) as [[[im c1] Q1]|] eqn:E1; cbn [bind] in H; [|discriminate].
  destruct (refresh_gpss _ _ _) as [[[gm c2] Q2]|] eqn:E2; cbn [bind] in H; [|discriminate].
  destruct (refresh_cams _ _ _) as [[[cm c3] Q3]|] eqn:E3; cbn [bind] in H; [|discriminate].
  destruct (refresh_fids _ _ _) as [[[fm c4] Q4]|] eqn:E4; cbn [bind] in H; [|discriminate].
  rewrite refresh_augs_ok in H.
  apply refresh_imus_is in E1. apply refresh_gpss_is in E2. apply refresh_cams_is in E3. apply refresh_fids_is in E4.
  destruct E1 as [-> ->], E2 as [-> ->], E3 as [-> ->], E4 as [-> ->].
  destruct (if is_root e then msqrt Q4 else OK Q4) as [Q5|]; cbn [bind] in H; [|discriminate].
  injection H as <-. split; [reflexivity|]. repeat split.
Qed.

Lemma ix_noise : forall s q, noise_list (ix_state s) q = noise_list s q.
Proof.
  intros s q. unfold noise_list, ix_state. cbn [s_imu s_gps s_cam s_fid]. f_equal. f_equal; [|f_equal; [|f_equal]].
  - generalize 18. induction (s_imu s) as [|[k x] t IH]; intros c; cbn [ix_imus flat_map]; [reflexivity|]. now rewrite IH.
  - generalize (start_gps s). induction (s_gps s) as [|[k x] t IH]; intros c; cbn [ix_gpss flat_map]; [reflexivity|]. now rewrite IH.
  - generalize (start_cam s). induction (s_cam s) as [|[k x] t IH]; intros c; cbn [ix_cams flat_map]; [reflexivity|]. now rewrite IH.
  - generalize (start_fid s). induction (s_fid s) as [|[k x] t IH]; intros c; cbn [ix_fids flat_map]; [reflexivity|]. now rewrite IH.
Qed.

(** *** The stored noise matches the configuration *)
Definition tuned (e : ekf) : Prop := isdiag (e_size e) (e_Q e) (noise_mat e).
(** Everything [tuned] looks at is the same. *)
Definition same_q (a b : ekf) : Prop :=
  e_Q b = e_Q a /\ e_size b = e_size a /\ e_bodyQ b = e_bodyQ a /\ e_par b = e_par a /\
  noise_list (e_state b) (e_bodyQ b) = noise_list (e_state a) (e_bodyQ a).
Lemma same_q_tuned : forall a b, same_q a b -> tuned a -> tuned b.
Proof.
  intros a b (H1 & H2 & H3 & H4 & H5) T. unfold tuned, noise_mat, is_root in *. rewrite H1, H2, H4, H5. exact T.
Qed.
Lemma same_q_refl : forall a, same_q a a.
Proof. repeat split. Qed.
Lemma same_q_trans : forall a b c, same_q a b -> same_q b c -> same_q a c.
Proof. unfold same_q. intros a b c H1 H2. decompose [and] H1. decompose [and] H2. repeat split; congruence. Qed.

Definition refreshed (e' : ekf) : Prop := exists e0 e1, RefreshIndices e0 = OK e1 /\ same_q e1 e'.
Lemma start_len : forall s q, length (noise_list s q) = start_aug s.
Proof.
  intros s q. unfold noise_list. rewrite !app_length.
  rewrite (flat_map_length_sum _ _ imu_noise imu_len _ imu_noise_length), (flat_map_length_sum _ _ gps_noise gps_len _ gps_noise_length),
    (flat_map_length_sum _ _ cam_noise cam_len _ cam_noise_length), (flat_map_length_sum _ _ fid_noise fid_len _ fid_noise_length).
  unfold body_noise. rewrite map_length, seq_length. unfold start_aug, start_fid, start_cam, start_gps. lia.
Qed.
Lemma refreshed_tuned : forall e, pre e -> refreshed e -> tuned e.
Proof.
  intros e P (e0 & e1 & R & S). apply (same_q_tuned e1 e S). destruct S as (S1 & S2 & S3 & S4 & S5).
  destruct (Refresh_is e0 e1 R) as (R1 & R2 & R3 & R4).
  assert (N : noise_list (e_state e0) (e_bodyQ e0) = noise_list (e_state e) (e_bodyQ e)).
  { rewrite S5, R1, R3, ix_noise. reflexivity. }
  destruct (Refresh_ok e0) as [Q' [E D]].
  - rewrite <- R3, <- S3. apply (pre_bq _ P).
  - rewrite <- (start_len (e_state e0) (e_bodyQ e0)), N, start_len, <- R2, <- S2, (pre_size _ P). unfold tot. lia.
  - intros _. unfold nonneg_noise. rewrite N. apply (pre_noise _ P).
  - rewrite R in E. injection E as E. unfold tuned. rewrite R2.
    replace (e_Q e1) with Q' by (rewrite E; reflexivity).
    replace (noise_mat e1) with (noise_mat e0); [exact D|]. unfold noise_mat, is_root. rewrite R4, R1, R3, ix_noise. reflexivity.
Qed.

(** *** Every call either refreshes or leaves the noise alone *)
Lemma refreshed_refresh : forall e0 e1, RefreshIndices e0 = OK e1 -> refreshed e1.
Proof. intros e0 e1 H. exists e0, e1. split; [exact H|apply same_q_refl]. Qed.

Lemma reg_refreshed : forall e o e', refreshing e o -> step e o = OK e' -> refreshed e'.
Proof.
  intros e o e' F E. destruct o; try (exfalso; exact F); cbn [step refreshing] in *.
  - unfold RegisterIMU in E. rewrite F in E. cbv zeta in E. destruct (if i_ext st || i_int st then _ else _); cbn [bind] in E; [|discriminate].
    eapply refreshed_refresh; exact E.
  - unfold RegisterGPS in E. rewrite F in E. cbv zeta in E. destruct (if g_ext st then _ else _); cbn [bind] in E; [|discriminate].
    eapply refreshed_refresh; exact E.
  - unfold RegisterCamera in E. rewrite F in E. destruct (rdiv _ _); cbn [bind] in E; [|discriminate].
    cbv zeta in E. destruct (if c_ext st then _ else _); cbn [bind] in E; [|discriminate].
    eapply refreshed_refresh; exact E.
  - unfold RegisterFiducial in E. rewrite F in E. cbv zeta in E. destruct (if f_ext st then _ else _); cbn [bind] in E; [|discriminate].
    eapply refreshed_refresh; exact E.
  - eapply refreshed_refresh; exact E.
Qed.

Lemma prune_refreshed : forall k e e', prune k e = OK e' -> e' = e \/ refreshed e'.
Proof.
  induction k as [|i IH]; intros e e' H; cbn [prune] in H; [injection H as <-; auto|].
  cbv zeta in H. destruct (vnth _ _) as [nxt|]; cbn [bind] in H; [|discriminate]. destruct (_ && _); [|apply IH; exact H].
  destruct (usub _ _) as [sz|]; cbn [bind] in H; [|discriminate]. destruct (usub _ _) as [asz|]; cbn [bind] in H; [|discriminate].
  destruct (vnth _ i) as [old|]; cbn [bind] in H; [|discriminate]. destruct (RemoveFromMatrix _ _ _ _ _) as [c|]; cbn [bind] in H; [|discriminate].
  destruct (RefreshIndices _) as [e1|] eqn:R; cbn [bind] in H; [|discriminate].
  destruct (IH _ _ H) as [->|X]; [|auto]. right. eapply refreshed_refresh; exact R.
Qed.

Lemma augment_refreshed : forall e e', AugmentStateIfNeeded e = OK e' -> same_q e e' \/ refreshed e'.
Proof.
  intros e e' H. unfold AugmentStateIfNeeded in H.
  assert (X : forall e', (let e := touch_aug e 0 in
      let* needed := aug_needed e in
      let* e := prune (length (aug_at e 0) - 1) e in
      if needed && e_frame_recv e then
        let e := with_aug_prev e (Some (e_time e)) in
        let e := set_aug e 0 (aug_at e 0 ++ [clone_of e 0]) in
        let e := with_aug_sizes e (e_size e + g_aug_state_size) (e_aug_size e + g_aug_state_size) in
        let* e := RefreshIndices e in
        let* last := back (aug_at e 0) in
        let* c := AugmentCovariance (is_root e) (e_cov e) (a_index last) in
        OK (with_frame_recv (with_cov e c) false)
      else OK e) = OK e' -> same_q e e' \/ refreshed e').
  { clear H. clear e'. intros e' H. cbv zeta in H. destruct (aug_needed _) as [nd|]; cbn [bind] in H; [|discriminate].
    destruct (prune _ _) as [ep|] eqn:P; cbn [bind] in H; [|discriminate].
    destruct (nd && e_frame_recv ep).
    - destruct (RefreshIndices _) as [er|] eqn:R; cbn [bind] in H; [|discriminate].
      destruct (back _) as [la|]; cbn [bind] in H; [|discriminate].
      destruct (AugmentCovariance _ _ _) as [c|]; cbn [bind] in H; [|discriminate]. injection H as <-.
      right. eexists _, er. split; [exact R|]. repeat split.
    - injection H as <-. destruct (prune_refreshed _ _ _ P) as [->|Y]; [left|auto]. repeat split. }
  destruct (p_aug (e_par e)); try (injection H as <-; left; apply same_q_refl); apply X; exact H.
Qed.

Lemma frame_refreshed : forall e c f e', AugmentStateFrame e c f = OK e' -> same_q e e' \/ refreshed e'.
Proof.
  intros e cam f e' H. unfold AugmentStateFrame in H. cbv zeta in H. destruct (_ || _).
  - destruct (if _ <=? _ then _ else _) as [e1|]; cbn [bind] in H; [|discriminate].
    destruct (RefreshIndices e1) as [er|] eqn:R; cbn [bind] in H; [|discriminate].
    destruct (back _) as [la|]; cbn [bind] in H; [|discriminate].
    destruct (AugmentCovariance _ _ _) as [c|]; cbn [bind] in H; [|discriminate]. injection H as <-.
    right. eexists _, er. split; [exact R|]. repeat split.
  - injection H as <-. left. repeat split.
Qed.

Lemma correct_noise : forall d s q, noise_list (correct d s) q = noise_list s q.
Proof.
  intros d s q. unfold noise_list, correct. cbn [s_imu s_gps s_cam s_fid]. f_equal.
  assert (M : forall A (f : nat * A -> list R) (g : nat * A -> nat * A) m, (forall x, f (g x) = f x) -> flat_map f (map g m) = flat_map f m).
  { intros A f g m H. induction m as [|x m IH]; cbn; [reflexivity|]. now rewrite H, IH. }
  rewrite !M; [reflexivity| | | |]; intros [k x]; cbn.
  - unfold fid_noise, correct_fid. cbn. destruct (f_ext x) eqn:E; cbn; rewrite ?E; reflexivity.
  - unfold cam_noise, correct_cam. cbn. destruct (c_ext x) eqn:E; cbn; rewrite ?E; reflexivity.
  - unfold gps_noise, correct_gps. cbn. destruct (g_ext x) eqn:E; cbn; rewrite ?E; reflexivity.
  - unfold imu_noise, correct_imu. cbn. destruct (i_ext x) eqn:E; cbn; destruct (i_int x) eqn:E2; cbn; rewrite ?E, ?E2; reflexivity.
Qed.

Lemma touch_noise : forall A (f : nat * A -> list R) k d m, f (k, d) = [] -> flat_map f (mtouch d k m) = flat_map f m.
Proof.
  intros A f k d m H. unfold mtouch. destruct (mfind k m) eqn:E; [reflexivity|].
  destruct (mset_fresh _ k d m E) as [l [r [E1 [E2 _]]]]. rewrite E2, E1. rewrite !flat_map_app. cbn [flat_map].
  rewrite H. reflexivity.
Qed.

Lemma step_noise : forall e o e', inv e -> contract e o -> keeps_noise o -> step e o = OK e' ->
  same_q e e' \/ refreshed e'.
Proof.
  intros e o e' I C K E. pose proof E as E0. destruct o; cbn [step keeps_noise] in *; try contradiction;
    try (injection E as <-; left; repeat split; fail).
  - destruct (mfind id (s_imu (e_state e))) eqn:F; [|right; exact (reg_refreshed e (ORegImu id st cov) e' F E0)].
    rewrite reg_imu_dup in E by congruence. injection E as <-. left. apply same_q_refl.
  - destruct (mfind id (s_gps (e_state e))) eqn:F; [|right; exact (reg_refreshed e (ORegGps id st cov) e' F E0)].
    rewrite reg_gps_dup in E by congruence. injection E as <-. left. apply same_q_refl.
  - destruct (mfind id (s_cam (e_state e))) eqn:F; [|right; exact (reg_refreshed e (ORegCam id st cov) e' F E0)].
    rewrite reg_cam_dup in E by congruence. injection E as <-. left. apply same_q_refl.
  - destruct (mfind (f_id st) (s_fid (e_state e))) eqn:F; [|right; exact (reg_refreshed e (ORegFid st cov) e' F E0)].
    rewrite reg_fid_dup in E by congruence. injection E as <-. left. apply same_q_refl.
  - destruct (predict_full e t e' I E) as [[H ->]|[H [e1 [H1 [I1 H2]]]]]; [left; apply same_q_refl|].
    assert (S : same_q e e1).
    { unfold model_step in H1. destruct (e_gravity e); [destruct H1 as [c [_ ->]]|subst e1]; repeat split. }
    destruct (augment_refreshed e1 e' H2) as [X|X]; [left|auto]. apply (same_q_trans e e1); auto.
  - apply (frame_refreshed e cam frame). exact E.
  - apply augment_refreshed. exact E.
  - right. eapply refreshed_refresh; exact E.
  - destruct (kalman_full e jac residual noise I C) as [e2 [Kk [E2 [_ [_ [_ [_ [_ [_ [[d [_ [_ [_ Hd]]]] [c' Hc]]]]]]]]]]].
    rewrite E in E2. injection E2 as <-. left. rewrite Hd in Hc. rewrite Hc.
    split; [reflexivity|]. split; [reflexivity|]. split; [reflexivity|]. split; [reflexivity|]. apply correct_noise.
  - injection E as <-. left. repeat split. unfold noise_list. cbn [e_state e_bodyQ with_state state_with_imu s_imu s_gps s_cam s_fid GetImuState snd].
    rewrite (touch_noise _ imu_noise) by reflexivity. reflexivity.
  - injection E as <-. left. repeat split. unfold noise_list. cbn [e_state e_bodyQ with_state state_with_gps s_imu s_gps s_cam s_fid GetGpsState snd].
    rewrite (touch_noise _ gps_noise) by reflexivity. reflexivity.
  - injection E as <-. left. repeat split. unfold noise_list. cbn [e_state e_bodyQ with_state state_with_cam s_imu s_gps s_cam s_fid GetCamState snd].
    rewrite (touch_noise _ cam_noise) by reflexivity. reflexivity.
  - destruct (query_ok e cam frame t C) as [s [e2 [E2 [k ->]]]]. rewrite E2 in E. injection E as <-. left. repeat split.
  - injection E as <-. left. unfold CalculateLocalTime. destruct (e_time_init e); repeat split.
  - injection E as <-. left. unfold AttemptGpsInitialization. destruct (4 <=? _); [destruct (align _ _) as [[p a]|]|]; repeat split.
Qed.

(** *** Names *)
Lemma in_mfind : forall A (m : amap A) k x, sorted m -> In (k, x) m -> mfind k m = Some x.
Proof.
  unfold sorted. induction m as [|[j y] m IH]; intros k x S H; [destruct H|]. cbn [keys map fst mfind] in *.
  inversion S as [|? ? S1 S2]; subst. destruct H as [H|H].
  - injection H as -> ->. rewrite Nat.eqb_refl. reflexivity.
  - destruct (Nat.eqb_spec k j) as [->|D]; [|apply IH; auto]. exfalso.
    rewrite Forall_forall in S2. assert (X : In j (keys m)) by (apply in_map_iff; exists (j, x); auto).
    specialize (S2 j X). lia.
Qed.
Lemma rate_flat : forall A B (f : nat * A -> list label) (g : nat * A -> list B) (h : label -> B) m,
  (forall x, In x m -> map h (f x) = g x) -> map h (flat_map f m) = flat_map g m.
Proof.
  intros A B f g h m H. induction m as [|x m IH]; [reflexivity|]. cbn [flat_map]. rewrite map_app, H by (left; auto).
  rewrite IH by (intros; apply H; right; auto). reflexivity.
Qed.

Lemma rates : forall s q, sorted_state s ->
  map (own_rate s q) (layout s) = noise_list s q ++ repeat 0%R (length (flat_map aug_labels (s_aug s))).
Proof.
  intros s q (S1 & S2 & S3 & S4 & _). unfold layout, noise_list. rewrite !map_app.
  rewrite (rate_flat _ _ imu_labels imu_noise), (rate_flat _ _ gps_labels gps_noise), (rate_flat _ _ cam_labels cam_noise),
    (rate_flat _ _ fid_labels fid_noise).
  - assert (Z : forall m, map (own_rate s q) (flat_map aug_labels m) = repeat 0%R (length (flat_map aug_labels m))).
    { intros m. induction m as [|[k l] m IH]; [reflexivity|]. cbn [flat_map]. rewrite map_app, app_length, repeat_app, IH. f_equal.
      unfold aug_labels. cbn [fst snd]. generalize (seq 0 (length l)). intros p. induction p as [|x p IHp]; [reflexivity|].
      cbn [flat_map]. rewrite map_app, app_length, repeat_app, IHp. reflexivity. }
    rewrite Z, <- !app_assoc, map_map. reflexivity.
  - intros [k x] H. apply (in_mfind _ _ _ _ S4) in H. unfold fid_labels, fid_noise. cbn [fst snd]. destruct (f_ext x); [|reflexivity].
    cbn. rewrite H. reflexivity.
  - intros [k x] H. apply (in_mfind _ _ _ _ S3) in H. unfold cam_labels, cam_noise. cbn [fst snd]. destruct (c_ext x); [|reflexivity].
    cbn. rewrite H. reflexivity.
  - intros [k x] H. apply (in_mfind _ _ _ _ S2) in H. unfold gps_labels, gps_noise. cbn [fst snd]. destruct (g_ext x); [|reflexivity].
    cbn. rewrite H. reflexivity.
  - intros [k x] H. apply (in_mfind _ _ _ _ S1) in H. unfold imu_labels, imu_noise. cbn [fst snd].
    destruct (i_ext x), (i_int x); cbn; rewrite ?H; reflexivity.
Qed.

Lemma tuned_configured : forall e, wf e -> tuned e -> configured e.
Proof.
  intros e W (T1 & T2 & T3). pose proof (dim_size e W) as D. unfold configured. rewrite D. split; [exact T1|]. split; [exact T2|].
  intros i j a b Ha Hb.
  assert (L : forall k c, nth_error (layout (e_state e)) k = Some c -> k < e_size e).
  { intros k c H. rewrite <- D. apply nth_error_Some. congruence. }
  rewrite (T3 i j (L _ _ Ha) (L _ _ Hb)). destruct (Nat.eqb_spec i j) as [<-|N]; [|reflexivity].
  assert (V : nth i (noise_list (e_state e) (e_bodyQ e)) 0%R = own_rate (e_state e) (e_bodyQ e) a).
  { pose proof (map_nth_error (own_rate (e_state e) (e_bodyQ e)) _ _ Ha) as M.
    rewrite (rates _ _ (pre_sorted _ (wf_pre _ W))) in M.
    destruct (Nat.lt_ge_cases i (length (noise_list (e_state e) (e_bodyQ e)))) as [H|H].
    - rewrite nth_error_app1 in M by exact H. apply nth_error_nth with (d := 0%R) in M. exact M.
    - rewrite nth_overflow by exact H. rewrite nth_error_app2 in M by exact H.
      apply nth_error_In in M. apply repeat_spec in M. auto. }
  unfold noise_mat, is_root. destruct (p_root (e_par e)); [|exact V]. rewrite <- V.
  rewrite <- sqrt_0 at 1. rewrite map_nth. reflexivity.
Qed.

Lemma configured_tuned : forall e, wf e -> configured e -> tuned e.
Proof.
  intros e W (T1 & T2 & T3). pose proof (dim_size e W) as D. rewrite D in *. split; [exact T1|]. split; [exact T2|].
  intros i j Hi Hj.
  assert (L : forall k, k < e_size e -> exists c, nth_error (layout (e_state e)) k = Some c).
  { intros k H. rewrite <- D in H. unfold dim in H. apply nth_error_Some in H. destruct (nth_error _ k); [eauto|congruence]. }
  destruct (L i Hi) as [a Ha]. destruct (L j Hj) as [b Hb]. rewrite (T3 i j a b Ha Hb).
  destruct (Nat.eqb_spec i j) as [<-|N]; [|reflexivity].
  assert (V : nth i (noise_list (e_state e) (e_bodyQ e)) 0%R = own_rate (e_state e) (e_bodyQ e) a).
  { pose proof (map_nth_error (own_rate (e_state e) (e_bodyQ e)) _ _ Ha) as M.
    rewrite (rates _ _ (pre_sorted _ (wf_pre _ W))) in M.
    destruct (Nat.lt_ge_cases i (length (noise_list (e_state e) (e_bodyQ e)))) as [H|H].
    - rewrite nth_error_app1 in M by exact H. apply nth_error_nth with (d := 0%R) in M. exact M.
    - rewrite nth_overflow by exact H. rewrite nth_error_app2 in M by exact H.
      apply nth_error_In in M. apply repeat_spec in M. auto. }
  unfold noise_mat, is_root. destruct (p_root (e_par e)); [|symmetry; exact V]. rewrite <- V.
  rewrite <- sqrt_0 at 2. rewrite map_nth. reflexivity.
Qed.

(** *** Final statements *)
Lemma refreshing_configured : forall e o e', reachable e -> contract e o -> refreshing e o -> step e o = OK e' -> configured e'.
Proof.
  intros e o e' Hr C F E. pose proof (reachable_inv e Hr) as I. destruct (step_inv e o I C) as [e2 [E2 I2]].
  rewrite E in E2. injection E2 as <-. apply tuned_configured; [apply I2|]. apply refreshed_tuned; [apply I2|].
  eapply reg_refreshed; eauto.
Qed.

Lemma configured_step : forall e o e', reachable e -> contract e o -> keeps_noise o -> configured e -> step e o = OK e' -> configured e'.
Proof.
  intros e o e' Hr C K F E. pose proof (reachable_inv e Hr) as I. destruct (step_inv e o I C) as [e2 [E2 I2]].
  rewrite E in E2. injection E2 as <-. apply tuned_configured; [apply I2|].
  destruct (step_noise e o e' I C K E) as [S|S]; [|apply refreshed_tuned; [apply I2|exact S]].
  apply (same_q_tuned e e' S). apply configured_tuned; [apply I|exact F].
Qed.

Lemma configured_run : forall l e e', reachable e -> respects e l -> Forall keeps_noise l -> configured e -> run e l = OK e' -> configured e'.
Proof.
  induction l as [|o l IH]; intros e e' Hr R K F E; cbn [run respects] in *; [injection E as <-; exact F|].
  destruct R as [C R]. inversion K as [|? ? K1 K2]; subst. destruct (step e o) as [e1|] eqn:S; cbn [bind] in E; [|discriminate].
  apply (IH e1 e'); auto; [|eapply configured_step; eauto].
  eapply reachable_step; eauto.
Qed.

Lemma configured_history : forall e o l e1 e', reachable e -> contract e o -> refreshing e o -> step e o = OK e1 ->
  respects e1 l -> Forall keeps_noise l -> run e1 l = OK e' -> configured e'.
Proof.
  intros e o l e1 e' Hr C F S R K E. apply (configured_run l e1 e'); auto.
  - eapply reachable_step; eauto.
  - eapply refreshing_configured; eauto.
Qed.

(** Before the first registration *)
Definition dormant (e : ekf) : Prop := silent e /\ ~ timed e.
Lemma untimed_augment : forall e, ~ timed e -> AugmentStateIfNeeded e = OK e.
Proof.
  intros e T. unfold AugmentStateIfNeeded. unfold timed in T. destruct (p_aug (e_par e)); try reflexivity; exfalso; apply T; auto.
Qed.

Lemma dormant_step : forall e o e', inv e -> contract e o -> dormant e -> plain_call o -> step e o = OK e' -> dormant e'.
Proof.
  intros e o e' I C D P E. destruct o; cbn [step plain_call] in *; try contradiction;
    try (injection E as <-; exact D).
  - unfold PredictModel in E. destruct (Rltb t (e_time e)); [injection E as <-; exact D|].
    destruct (e_gravity e); cbn [bind] in E; [destruct (predict_cov _ _); cbn [bind] in E; [|discriminate]|];
      (rewrite untimed_augment in E by (apply D); injection E as <-; exact D).
  - rewrite untimed_augment in E by (apply D). injection E as <-. exact D.
  - destruct (kalman_full e jac residual noise I C) as [e2 [Kk [E2 [_ [_ [_ [_ [_ [_ [[d [_ [_ [_ Hd]]]] [c' Hc]]]]]]]]]]].
    rewrite E in E2. injection E2 as <-. rewrite Hd in Hc. rewrite Hc. exact D.
  - destruct (query_ok e cam frame t C) as [s [e2 [E2 [k ->]]]]. rewrite E2 in E. injection E as <-.
    exact D.
  - injection E as <-. unfold CalculateLocalTime. destruct (e_time_init e); exact D.
  - injection E as <-. unfold AttemptGpsInitialization. destruct (4 <=? _); [destruct (align _ _) as [[p a]|]|]; exact D.
Qed.

Lemma init_dormant : forall p q pe a, ~ timed (EKF_init p q pe a) -> dormant (EKF_init p q pe a).
Proof. intros p q pe a T. split; [intros i j; reflexivity|exact T]. Qed.

Lemma dormant_run : forall l e e', inv e -> respects e l -> dormant e -> Forall plain_call l -> run e l = OK e' -> dormant e'.
Proof.
  induction l as [|o l IH]; intros e e' I R D P E; cbn [run respects] in *; [injection E as <-; exact D|].
  destruct R as [C R]. inversion P as [|? ? P1 P2]; subst. destruct (step_inv e o I C) as [e1 [S I1]]. rewrite S in E. cbn [bind] in E.
  apply (IH e1 e' I1); auto. exact (dormant_step e o e1 I C D P1 S).
Qed.

Lemma silent_history : forall p q pe a l e, noise_arg q -> ~ timed (EKF_init p q pe a) ->
  respects (EKF_init p q pe a) l -> Forall plain_call l ->
  run (EKF_init p q pe a) l = OK e -> silent e.
Proof.
  intros p q pe a l e N T R P E. apply (dormant_run l (EKF_init p q pe a) e); auto; [apply init_inv; exact N|apply init_dormant; exact T].
Qed.

(** The body noise has no effect. *)
Definition bq (q : mat R) (r : res ekf) : res ekf := match r with OK e => OK (with_bodyQ e q) | UB => UB end.
Lemma bq_step : forall e o q, dormant e -> plain_call o -> keeps_noise o -> step (with_bodyQ e q) o = bq q (step e o).
Proof.
  intros e o q D P K. destruct o; cbn [step plain_call keeps_noise] in *; try contradiction; try reflexivity.
  - unfold PredictModel. change (e_time (with_bodyQ e q)) with (e_time e). destruct (Rltb t (e_time e)); [reflexivity|].
    change (e_gravity (with_bodyQ e q)) with (e_gravity e).
    destruct (e_gravity e); cbn [bind].
    + change (predict_cov (with_bodyQ e q) (t - e_time e)%R) with (predict_cov e (t - e_time e)%R).
      destruct (predict_cov _ _) as [c|]; cbn [bind]; [|reflexivity].
      rewrite !untimed_augment by (apply D). reflexivity.
    + rewrite !untimed_augment by (apply D). reflexivity.
  - rewrite !untimed_augment by (apply D). reflexivity.
  - unfold KalmanUpdate. change (is_root (with_bodyQ e q)) with (is_root e). change (e_cov (with_bodyQ e q)) with (e_cov e).
    destruct (if is_root e then _ else _) as [[g c]|]; cbn [bind]; [|reflexivity].
    destruct (mulc _ _) as [u|]; cbn [bind]; [|reflexivity]. change (e_state (with_bodyQ e q)) with (e_state e).
    destruct (state_plus_vec _ _) as [s|]; reflexivity.
  - unfold GetAugState. change (e_par (with_bodyQ e q)) with (e_par e). change (e_primary (with_bodyQ e q)) with (e_primary e).
    destruct (_ || _); [reflexivity|]. cbv zeta. set (k := match p_aug (e_par e) with APrimary => e_primary e | _ => 0 end).
    change (touch_aug (with_bodyQ e q) k) with (with_bodyQ (touch_aug e k) q).
    change (aug_at (with_bodyQ (touch_aug e k) q) k) with (aug_at (touch_aug e k) k).
    destruct (vnth _ 0) as [x|]; cbn [bind]; [|reflexivity]. destruct (back _) as [y|]; cbn [bind]; [|reflexivity].
    change (e_time (with_bodyQ (touch_aug e k) q)) with (e_time (touch_aug e k)).
    change (e_state (with_bodyQ (touch_aug e k) q)) with (e_state (touch_aug e k)).
    match goal with |- context [let '(_, _) := ?p in _] => destruct p as [[al s0] s1] end.
    destruct al as [al|]; cbn [bind]; reflexivity.
  - unfold CalculateLocalTime. change (e_time_init (with_bodyQ e q)) with (e_time_init e). destruct (e_time_init e); reflexivity.
  - unfold AttemptGpsInitialization. cbv zeta. cbn [e_gps_time e_gps_xyz e_gps_ecef e_state with_gps_samples with_bodyQ].
    match goal with |- context [Nat.leb 4 ?n] => destruct (Nat.leb 4 n) end; [|reflexivity].
    destruct (align _ _) as [[p a]|]; reflexivity.
Qed.

Definition twin (e1 e2 : ekf) : Prop := exists q, e2 = with_bodyQ e1 q.
Lemma bq_run : forall l e1 e2 e1' e2', inv e1 -> respects e1 l -> dormant e1 -> Forall plain_call l -> twin e1 e2 ->
  run e1 l = OK e1' -> run e2 l = OK e2' -> twin e1' e2'.
Proof.
  induction l as [|o l IH]; intros e1 e2 e1' e2' I R D P [q ->] E1 E2; cbn [run respects] in *.
  - injection E1 as <-. injection E2 as <-. exists q. reflexivity.
  - destruct R as [C R]. inversion P as [|? ? P1 P2]; subst. destruct (step_inv e1 o I C) as [f1 [S I1]]. rewrite S in E1. cbn [bind] in E1.
    assert (K : keeps_noise o \/ exists q', o = OSetNoise q').
    { destruct o; try (left; exact Logic.I). right. eauto. }
    destruct K as [K|[q' ->]].
    + rewrite (bq_step e1 o q D P1 K), S in E2. cbn [bq bind] in E2.
      apply (IH f1 (with_bodyQ f1 q) e1' e2'); auto; [|exists q; reflexivity]. exact (dormant_step e1 o f1 I C D P1 S).
    + cbn [step] in *. injection S as <-. cbn [bind] in E2. apply (IH (SetBodyProcessNoise e1 q') (SetBodyProcessNoise (with_bodyQ e1 q) q') e1' e2'); auto.
      exists q'. reflexivity.
Qed.

Lemma noise_ineffective : forall p q1 q2 pe a l e1 e2, noise_arg q1 -> ~ timed (EKF_init p q1 pe a) ->
  respects (EKF_init p q1 pe a) l -> Forall plain_call l ->
  run (EKF_init p q1 pe a) l = OK e1 -> run (EKF_init p q2 pe a) l = OK e2 ->
  e_state e2 = e_state e1 /\ e_cov e2 = e_cov e1.
Proof.
  intros p q1 q2 pe a l e1 e2 N T R P E1 E2.
  destruct (bq_run l (EKF_init p q1 pe a) (EKF_init p q2 pe a) e1 e2 (init_inv p q1 pe a N) R (init_dormant p q1 pe a T) P) as [q ->]; auto.
  exists q2. reflexivity.
Qed.
