(** Registration of sensors: total on well-formed filters, keeps
    well-formedness, and the exact effect on state and covariance. *)
From Coq Require Import Reals List Arith Bool Lia Lra.
From Verif Require Import Base.Res Base.Mat Base.RDec Base.LinAlg Base.Geom Base.AMap Base.RMat
  Model.TypeHelper Model.Types Model.MathHelperMat Model.QR Model.Ekf Spec.Layout Spec.History
  Proofs.MatSurgery Proofs.Refresh Proofs.Wf.
Import ListNotations.
Open Scope nat_scope.

Notation nonneg := (Forall (fun x => (0 <= x)%R)).

Lemma frame_refl : forall e, frame e e.
Proof. intros. repeat split. Qed.

Lemma frame_trans : forall a b c, frame a b -> frame b c -> frame a c.
Proof.
  unfold frame. intros a b c H1 H2. decompose [and] H1. decompose [and] H2. clear H1 H2.
  repeat split; congruence.
Qed.

Lemma cam_frame_trans : forall a b c, cam_frame a b -> cam_frame b c -> cam_frame a c.
Proof.
  unfold cam_frame. intros a b c H1 H2. decompose [and] H1. decompose [and] H2. clear H1 H2.
  repeat split; congruence.
Qed.

Lemma Refresh_wf : forall e, pre e -> nr (e_cov e) = e_size e -> nc (e_cov e) = e_size e ->
  exists e', RefreshIndices e = OK e' /\ wf e' /\ e_state e' = ix_state (e_state e) /\
    e_cov e' = e_cov e /\ e_size e' = e_size e /\ isdiag (e_size e) (e_Q e') (noise_mat e) /\
    frame e e' /\ cam_frame e e'.
Proof.
  intros e P Hr Hc.
  destruct (Refresh_pre e P) as [e' [E [P2 [I2 [S2 [C2 [Z2 [_ [_ [_ [D2 [Q' X]]]]]]]]]]]].
  exists e'. split; [exact E|].
  split.
  { assert (W := pre_wf e e' (e_cov e) P E Hr Hc). rewrite <- C2 in W.
    replace (with_cov e' (e_cov e')) with e' in W; [exact W|]. destruct e'; reflexivity. }
  do 4 (split; [assumption|]). rewrite X. repeat split.
Qed.

(** [out] is [m] with a block inserted at ([pos], [pos]). *)
Definition is_insert (m sub out : mat R) (pos : nat) : Prop :=
  nr out = nr m + nr sub /\ nc out = nc m + nc sub /\
  forall i j, i < nr out -> j < nc out -> ent out i j = insert_entry 0%R sub m pos pos i j.

Lemma is_insert_empty : forall (m sub : mat R) pos, nr sub = 0 -> nc sub = 0 -> is_insert m sub m pos.
Proof.
  intros m sub pos H1 H2. repeat split; try lia. intros i j Hi Hj.
  unfold insert_entry, unshift. rewrite H1, H2, !Nat.add_0_r, !Nat.sub_0_r.
  destruct (i <? pos), (j <? pos); reflexivity.
Qed.

(** *** Folding a fresh entry into a map *)
Lemma sum_len_mset : forall A (g : A -> nat) k v m, mfind k m = None ->
  sum_len g (mset k v m) = sum_len g m + g v.
Proof.
  intros A g k v m H. destruct (mset_fresh _ k v m H) as [l [r [E [-> _]]]]. rewrite E.
  rewrite !sum_len_app, sum_len_cons. lia.
Qed.

Lemma Forall_mset : forall A (P : nat * A -> Prop) k v m, mfind k m = None ->
  Forall P m -> P (k, v) -> Forall P (mset k v m).
Proof.
  intros A P k v m H F Hp. destruct (mset_fresh _ k v m H) as [l [r [E [-> _]]]].
  rewrite E in F. apply Forall_app in F. destruct F. apply Forall_app. split; auto.
Qed.

Lemma nonneg_flat_mset : forall A (f : nat * A -> list R) k v m, mfind k m = None ->
  nonneg (flat_map f m) -> nonneg (f (k, v)) -> nonneg (flat_map f (mset k v m)).
Proof. intros. apply Forall_flat_map. apply Forall_mset; auto. now apply Forall_flat_map. Qed.

(** *** IMU *)
Definition imu_reg_ok (st : ImuState) (c : mat R) : Prop :=
  i_size st = imu_len st /\ i_size st <= nr c /\ i_size st <= nc c /\
  (i_ext st = true -> (0 <= i_pos_stab st)%R /\ (0 <= i_ang_stab st)%R) /\
  (i_int st = true -> (0 <= i_acc_stab st)%R /\ (0 <= i_omg_stab st)%R).

Lemma imu_noise_nonneg : forall k st c, imu_reg_ok st c -> nonneg (imu_noise (k, st)).
Proof.
  intros k st c [_ [_ [_ [H1 H2]]]]. unfold imu_noise, rep3. cbn [snd].
  destruct (i_ext st), (i_int st); cbn [app];
    repeat match goal with H : true = true -> _ |- _ => specialize (H eq_refl); destruct H end;
    repeat (apply Forall_cons; [assumption|]); apply Forall_nil.
Qed.

Definition sub_block (c : mat R) (n : nat) : mat R := mkmat n n (fun a b => ent c (0 + a) (0 + b)).

Lemma nonneg_noise_split : forall s q, nonneg_noise s q <->
  nonneg (body_noise q) /\ nonneg (flat_map imu_noise (s_imu s)) /\ nonneg (flat_map gps_noise (s_gps s)) /\
  nonneg (flat_map cam_noise (s_cam s)) /\ nonneg (flat_map fid_noise (s_fid s)).
Proof. intros. unfold nonneg_noise, noise_list. rewrite !Forall_app. tauto. Qed.

Ltac ekf_cbn := cbn [e_par e_state e_cov e_size e_imu_size e_gps_size e_cam_size e_aug_size e_fid_size
  e_time e_ref_time e_time_init e_max_len e_Q e_bodyQ e_lla_init e_pos_e_in_g e_ang_l_to_e e_gps_time
  e_gps_ecef e_gps_xyz e_aug_prev e_primary e_frame_period e_track_dur e_min_aug e_imu_start
  e_gps_start e_cam_start e_aug_start e_fid_start e_gravity e_zero_acc e_frame_recv
  with_state with_cov with_time with_Q with_bodyQ with_clock with_imu_sizes with_gps_sizes
  with_cam_sizes with_fid_sizes with_aug_sizes with_tracks with_periods with_primary with_starts
  with_gps_ref with_gps_samples with_aug_prev with_gravity with_zero_acc with_frame_recv
  s_body s_imu s_gps s_cam s_fid s_aug state_with_imu state_with_gps state_with_cam state_with_fid
  state_with_aug state_with_body].

Lemma RegisterIMU_ok : forall e id st c, wf e -> mfind id (s_imu (e_state e)) = None ->
  imu_reg_ok st c ->
  exists e', RegisterIMU e id st c = OK e' /\ wf e' /\
    e_state e' = ix_state (state_with_imu (e_state e) (mset id st (s_imu (e_state e)))) /\
    is_insert (e_cov e) (sub_block c (imu_len st)) (e_cov e') (start_gps (e_state e)) /\
    isdiag (e_size e') (e_Q e') (noise_mat e') /\
    frame e e' /\ cam_frame e e'.
Proof.
  intros e id st c W Hf H. pose proof (imu_noise_nonneg id st c H) as Hnn.
  destruct H as [Hs [Hr [Hc _]]]. destruct W as [P W2 W3 W4 _ _ _].
  destruct (Insert_spec R 0%R (sub_block c (imu_len st)) (e_cov e) (start_gps (e_state e)) (start_gps (e_state e)))
    as [out [EI [Ir [Ic Ient]]]];
    try (rewrite ?W3, ?W4, (pre_size _ P); unfold tot, start_aug, start_fid, start_cam; lia).
  assert (exists e1,
    (exists e0, (if i_ext st || i_int st then
           let* b := block c 0 0 (i_size st) (i_size st) in
           let* c := InsertInMatrix 0%R b (e_cov e) (18 + e_imu_size e) (18 + e_imu_size e) in
           OK (with_cov (with_state e (state_with_imu (e_state e) (mset id st (s_imu (e_state e))))) c)
         else OK (with_state e (state_with_imu (e_state e) (mset id st (s_imu (e_state e)))))) = OK e0 /\
      e1 = (let e := if i_ext st
               then with_imu_sizes e0 (e_size e0 + g_imu_extrinsic_state_size)
                      (e_imu_size e0 + g_imu_extrinsic_state_size)
               else e0 in
            if i_int st
               then with_imu_sizes e (e_size e + g_imu_intrinsic_state_size)
                      (e_imu_size e + g_imu_intrinsic_state_size)
               else e)) /\
    is_insert (e_cov e) (sub_block c (imu_len st)) (e_cov e1) (start_gps (e_state e)) /\
    e_state e1 = state_with_imu (e_state e) (mset id st (s_imu (e_state e))) /\
    e_size e1 = e_size e + imu_len st /\ e_imu_size e1 = e_imu_size e + imu_len st /\
    e_gps_size e1 = e_gps_size e /\ e_cam_size e1 = e_cam_size e /\ e_fid_size e1 = e_fid_size e /\
    e_aug_size e1 = e_aug_size e /\ frame e e1 /\ cam_frame e e1) as [e1 [[e0 [E0 Ee1]] [HI [S1 [Z1 [Z2 [Z3 [Z4 [Z5 [Z6 [F1 F2]]]]]]]]]]].
  { assert (EB : block c 0 0 (i_size st) (i_size st) = OK (sub_block c (imu_len st))).
    { rewrite Hs in *. rewrite block_ok by lia. reflexivity. }
    rewrite EB. cbn [bind]. pose proof (pre_imu _ P) as HPI. rewrite HPI. change (18 + sum_len imu_len (s_imu (e_state e))) with (start_gps (e_state e)).
    rewrite EI. cbn [bind].
    assert (HL : imu_len st = (if i_ext st then 6 else 0) + (if i_int st then 6 else 0)) by reflexivity.
    destruct (i_ext st) eqn:E1, (i_int st) eqn:E2; cbn [orb Nat.add] in *;
      eexists; (split; [eexists; split; [reflexivity|reflexivity]|]); ekf_cbn;
      change g_imu_extrinsic_state_size with 6; change g_imu_intrinsic_state_size with 6.
    - split; [split; [exact Ir|split; [exact Ic|exact Ient]]|]. repeat split; lia.
    - split; [split; [exact Ir|split; [exact Ic|exact Ient]]|]. repeat split; lia.
    - split; [split; [exact Ir|split; [exact Ic|exact Ient]]|]. repeat split; lia.
    - split; [apply is_insert_empty; exact HL|]. repeat split; lia. }
  assert (P1 : pre e1).
  { destruct P. destruct F1 as [F [_ [_ [_ [FL [FB [_ [_ [_ [_ [_ [_ [FA _]]]]]]]]]]]]].
    constructor; rewrite ?S1, ?Z1, ?Z2, ?Z3, ?Z4, ?Z5, ?Z6, ?F, ?FL, ?FB, ?FA; ekf_cbn; auto.
    - destruct pre_sorted as [X1 X2]. split; [apply mset_sorted; auto|]. exact X2.
    - destruct pre_sizes as [X1 X2]. split; [apply Forall_mset; auto|]. exact X2.
    - unfold tot, start_aug, start_fid, start_cam, start_gps in *. ekf_cbn. rewrite sum_len_mset by auto. lia.
    - rewrite sum_len_mset by auto. lia.
    - rewrite nonneg_noise_split in *. ekf_cbn. destruct pre_noise as [X1 [X2 X3]].
      split; [auto|]. split; [apply nonneg_flat_mset; auto|]. exact X3.
    - intros Ht Hne. apply pre_prev; auto. intro N. apply Hne. unfold aug_at in *. rewrite S1. exact N. }
  destruct (Refresh_wf e1 P1) as [e' [E [Wf [S' [C' [N' [D' [G1 G2]]]]]]]].
  { destruct HI as [X _]. rewrite X, Z1. cbn. lia. }
  { destruct HI as [_ [X _]]. rewrite X, Z1. cbn. lia. }
  exists e'. split.
  { unfold RegisterIMU. rewrite Hf. change g_body_state_size with 18. cbv zeta. ekf_cbn.
    rewrite E0. cbn [bind]. rewrite <- E, Ee1. reflexivity. }
  split; [exact Wf|]. split; [now rewrite S', S1|]. split; [now rewrite C'|].
  split.
  { rewrite N'. unfold noise_mat, is_root in *. rewrite S', ix_noise.
    destruct G1 as [Gp [_ [_ [_ [_ [Gb _]]]]]]. rewrite Gp, Gb. exact D'. }
  split; [eapply frame_trans; eauto|eapply cam_frame_trans; eauto].
Qed.

(** *** GPS *)
Definition gps_reg_ok (st : GpsState) (c : mat R) : Prop :=
  g_size st = gps_len st /\ g_size st <= nr c /\ g_size st <= nc c /\
  (g_ext st = true -> (0 <= g_pos_stab st)%R).

Lemma gps_noise_nonneg : forall k st c, gps_reg_ok st c -> nonneg (gps_noise (k, st)).
Proof.
  intros k st c [_ [_ [_ H1]]]. unfold gps_noise, rep3. cbn [snd].
  destruct (g_ext st); cbn [app];
    repeat match goal with H : true = true -> _ |- _ => specialize (H eq_refl) end;
    repeat (apply Forall_cons; [assumption|]); apply Forall_nil.
Qed.

(** The part common to all four: from the filter [e1] before the refresh. *)
Lemma reg_finish : forall e e1, pre e1 -> frame e e1 ->
  nr (e_cov e1) = e_size e1 -> nc (e_cov e1) = e_size e1 ->
  exists e', RefreshIndices e1 = OK e' /\ wf e' /\ e_state e' = ix_state (e_state e1) /\
    e_cov e' = e_cov e1 /\ isdiag (e_size e') (e_Q e') (noise_mat e') /\ frame e e' /\ cam_frame e1 e' /\
    e_size e' = e_size e1.
Proof.
  intros e e1 P1 F1 Hr Hc.
  destruct (Refresh_wf e1 P1 Hr Hc) as [e' [E [Wf [S' [C' [N' [D' [G1 G2]]]]]]]].
  exists e'. split; [exact E|]. split; [exact Wf|]. split; [exact S'|]. split; [exact C'|].
  split.
  { rewrite N'. unfold noise_mat, is_root in *. rewrite S', ix_noise.
    destruct G1 as [Gp [_ [_ [_ [_ [Gb _]]]]]]. rewrite Gp, Gb. exact D'. }
  split; [eapply frame_trans; eauto|]. auto.
Qed.

Lemma RegisterGPS_ok : forall e id st c, wf e -> mfind id (s_gps (e_state e)) = None ->
  gps_reg_ok st c ->
  exists e', RegisterGPS e id st c = OK e' /\ wf e' /\
    e_state e' = ix_state (state_with_gps (e_state e) (mset id st (s_gps (e_state e)))) /\
    is_insert (e_cov e) (sub_block c (gps_len st)) (e_cov e') (start_cam (e_state e)) /\
    isdiag (e_size e') (e_Q e') (noise_mat e') /\
    frame e e' /\ cam_frame e e'.
Proof.
  intros e id st c W Hf H. pose proof (gps_noise_nonneg id st c H) as Hnn.
  destruct H as [Hs [Hr [Hc _]]]. destruct W as [P W2 W3 W4 _ _ _].
  destruct (Insert_spec R 0%R (sub_block c (gps_len st)) (e_cov e) (start_cam (e_state e)) (start_cam (e_state e)))
    as [out [EI [Ir [Ic Ient]]]];
    try (rewrite ?W3, ?W4, (pre_size _ P); unfold tot, start_aug, start_fid; lia).
  assert (exists e1,
    (if g_ext st then
           let* b := block c 0 0 (g_size st) (g_size st) in
           let* c := InsertInMatrix 0%R b (e_cov e) (18 + e_imu_size e + e_gps_size e) (18 + e_imu_size e + e_gps_size e) in
           OK (with_gps_sizes (with_cov (with_state e (state_with_gps (e_state e) (mset id st (s_gps (e_state e))))) c)
                 (e_size e + g_gps_extrinsic_state_size) (e_gps_size e + g_gps_extrinsic_state_size))
         else OK (with_state e (state_with_gps (e_state e) (mset id st (s_gps (e_state e)))))) = OK e1 /\
    is_insert (e_cov e) (sub_block c (gps_len st)) (e_cov e1) (start_cam (e_state e)) /\
    e_state e1 = state_with_gps (e_state e) (mset id st (s_gps (e_state e))) /\
    e_size e1 = e_size e + gps_len st /\ e_imu_size e1 = e_imu_size e /\
    e_gps_size e1 = e_gps_size e + gps_len st /\ e_cam_size e1 = e_cam_size e /\ e_fid_size e1 = e_fid_size e /\
    e_aug_size e1 = e_aug_size e /\ frame e e1 /\ cam_frame e e1) as [e1 [E0 [HI [S1 [Z1 [Z2 [Z3 [Z4 [Z5 [Z6 [F1 F2]]]]]]]]]]].
  { assert (EB : block c 0 0 (g_size st) (g_size st) = OK (sub_block c (gps_len st))).
    { rewrite Hs in *. rewrite block_ok by lia. reflexivity. }
    rewrite EB. cbn [bind].
    replace (18 + e_imu_size e + e_gps_size e) with (start_cam (e_state e))
      by (rewrite (pre_imu _ P), (pre_gps _ P); reflexivity).
    rewrite EI. cbn [bind].
    assert (HL : gps_len st = (if g_ext st then 3 else 0)) by reflexivity.
    destruct (g_ext st) eqn:E1; eexists; (split; [reflexivity|]); ekf_cbn;
      change g_gps_extrinsic_state_size with 3.
    - split; [split; [exact Ir|split; [exact Ic|exact Ient]]|]. repeat split; lia.
    - split; [apply is_insert_empty; exact HL|]. repeat split; lia. }
  assert (P1 : pre e1).
  { destruct P. destruct F1 as [F [_ [_ [_ [FL [FB [_ [_ [_ [_ [_ [_ [FA _]]]]]]]]]]]]].
    constructor; rewrite ?S1, ?Z1, ?Z2, ?Z3, ?Z4, ?Z5, ?Z6, ?F, ?FL, ?FB, ?FA; ekf_cbn; auto.
    - destruct pre_sorted as [X1 [X2 X3]]. split; [exact X1|]. split; [apply mset_sorted; auto|]. exact X3.
    - destruct pre_sizes as [X1 [X2 X3]]. split; [exact X1|]. split; [apply Forall_mset; auto|]. exact X3.
    - unfold tot, start_aug, start_fid, start_cam, start_gps in *. ekf_cbn. rewrite sum_len_mset by auto. lia.
    - rewrite sum_len_mset by auto. lia.
    - rewrite nonneg_noise_split in *. ekf_cbn. destruct pre_noise as [X1 [X2 [X3 X4]]].
      split; [auto|]. split; [auto|]. split; [apply nonneg_flat_mset; auto|]. exact X4.
    - intros Ht Hne. apply pre_prev; auto. intro N. apply Hne. unfold aug_at in *. rewrite S1. exact N. }
  destruct (reg_finish e e1 P1 F1) as [e' [E [Wf [S' [C' [D' [G1 [G2 _]]]]]]]].
  { destruct HI as [X _]. rewrite X, Z1. cbn [nr sub_block]. lia. }
  { destruct HI as [_ [X _]]. rewrite X, Z1. cbn [nc sub_block]. lia. }
  exists e'. split.
  { unfold RegisterGPS. rewrite Hf. change g_body_state_size with 18. cbv zeta. ekf_cbn.
    rewrite E0. cbn [bind]. exact E. }
  split; [exact Wf|]. split; [now rewrite S', S1|]. split; [now rewrite C'|].
  split; [exact D'|]. split; [exact G1|]. eapply cam_frame_trans; eauto.
Qed.

(** *** Camera *)
Definition cam_reg_ok (st : CamState) (c : mat R) : Prop :=
  c_size st = cam_len st /\ c_size st <= nr c /\ c_size st <= nc c /\
  (c_ext st = true -> (0 <= c_pos_stab st)%R /\ (0 <= c_ang_stab st)%R) /\
  c_rate st <> 0%R.

Lemma cam_noise_nonneg : forall k st c, cam_reg_ok st c -> nonneg (cam_noise (k, st)).
Proof.
  intros k st c [_ [_ [_ [H1 _]]]]. unfold cam_noise, rep3. cbn [snd].
  destruct (c_ext st); cbn [app];
    repeat match goal with H : true = true -> _ |- _ => specialize (H eq_refl); destruct H end;
    repeat (apply Forall_cons; [assumption|]); apply Forall_nil.
Qed.

Lemma RegisterCamera_ok : forall e id st c, wf e -> mfind id (s_cam (e_state e)) = None ->
  cam_reg_ok st c ->
  exists e', RegisterCamera e id st c = OK e' /\ wf e' /\
    e_state e' = ix_state (state_with_cam (e_state e) (mset id st (s_cam (e_state e)))) /\
    is_insert (e_cov e) (sub_block c (cam_len st)) (e_cov e') (start_fid (e_state e)) /\
    isdiag (e_size e') (e_Q e') (noise_mat e') /\ frame e e' /\
    e_primary e' = (if Nat.eqb (e_primary e) 0 then id else e_primary e) /\
    e_frame_period e' = Rmax (e_frame_period e) (1 / c_rate st) /\
    e_track_dur e' = (Rmax (e_frame_period e) (1 / c_rate st) * INR (e_max_len e + 1))%R /\
    e_min_aug e' = Rmin (e_min_aug e) (1 / c_rate st).
Proof.
  intros e id st c W Hf H. pose proof (cam_noise_nonneg id st c H) as Hnn.
  destruct H as [Hs [Hr [Hc [_ Hrate]]]]. destruct W as [P W2 W3 W4 _ _ _].
  destruct (Insert_spec R 0%R (sub_block c (cam_len st)) (e_cov e) (start_fid (e_state e)) (start_fid (e_state e)))
    as [out [EI [Ir [Ic Ient]]]];
    try (rewrite ?W3, ?W4, (pre_size _ P); unfold tot, start_aug; lia).
  set (fp := Rmax (e_frame_period e) (1 / c_rate st)).
  set (ea := with_periods e fp (fp * INR (e_max_len e + 1)) (Rmin (e_min_aug e) (1 / c_rate st))).
  set (eb := if Nat.eqb (e_primary e) 0 then with_primary ea id else ea).
  assert (HB : e_state eb = e_state e /\ e_cov eb = e_cov e /\ e_size eb = e_size e /\
    e_imu_size eb = e_imu_size e /\ e_gps_size eb = e_gps_size e /\ e_cam_size eb = e_cam_size e /\
    e_fid_size eb = e_fid_size e /\ e_aug_size eb = e_aug_size e /\ frame e eb /\
    e_primary eb = (if Nat.eqb (e_primary e) 0 then id else e_primary e) /\ e_frame_period eb = fp /\
    e_track_dur eb = (fp * INR (e_max_len e + 1))%R /\ e_min_aug eb = Rmin (e_min_aug e) (1 / c_rate st)).
  { unfold eb, ea. destruct (Nat.eqb (e_primary e) 0); repeat split. }
  destruct HB as [B1 [B2 [B3 [B4 [B5 [B6 [B7 [B8 [BF BP]]]]]]]]].
  assert (exists e1,
    (if c_ext st then
           let* b := block c 0 0 (c_size st) (c_size st) in
           let* c := InsertInMatrix 0%R b (e_cov eb) (18 + e_imu_size e + e_gps_size e + e_cam_size e) (18 + e_imu_size e + e_gps_size e + e_cam_size e) in
           OK (with_cam_sizes (with_cov (with_state eb (state_with_cam (e_state eb) (mset id st (s_cam (e_state eb))))) c)
                 (e_size eb + g_cam_extrinsic_state_size) (e_cam_size eb + g_cam_extrinsic_state_size))
         else OK (with_state eb (state_with_cam (e_state eb) (mset id st (s_cam (e_state eb)))))) = OK e1 /\
    is_insert (e_cov e) (sub_block c (cam_len st)) (e_cov e1) (start_fid (e_state e)) /\
    e_state e1 = state_with_cam (e_state e) (mset id st (s_cam (e_state e))) /\
    e_size e1 = e_size e + cam_len st /\ e_imu_size e1 = e_imu_size e /\
    e_gps_size e1 = e_gps_size e /\ e_cam_size e1 = e_cam_size e + cam_len st /\ e_fid_size e1 = e_fid_size e /\
    e_aug_size e1 = e_aug_size e /\ frame eb e1 /\ cam_frame eb e1) as [e1 [E0 [HI [S1 [Z1 [Z2 [Z3 [Z4 [Z5 [Z6 [F1 F2]]]]]]]]]]].
  { assert (EB : block c 0 0 (c_size st) (c_size st) = OK (sub_block c (cam_len st))).
    { rewrite Hs in *. rewrite block_ok by lia. reflexivity. }
    rewrite EB. cbn [bind].
    replace (18 + e_imu_size e + e_gps_size e + e_cam_size e) with (start_fid (e_state e))
      by (rewrite (pre_imu _ P), (pre_gps _ P), (pre_cam _ P); reflexivity).
    rewrite B2, EI. cbn [bind].
    assert (HL : cam_len st = (if c_ext st then 6 else 0)) by reflexivity.
    destruct (c_ext st) eqn:E1; eexists; (split; [reflexivity|]); ekf_cbn;
      change g_cam_extrinsic_state_size with 6; rewrite ?B1, ?B2, ?B3, ?B4, ?B5, ?B6, ?B7, ?B8.
    - split; [split; [exact Ir|split; [exact Ic|exact Ient]]|]. repeat split; lia.
    - split; [apply is_insert_empty; exact HL|]. repeat split; lia. }
  assert (F0 : frame e e1) by (eapply frame_trans; eauto).
  assert (P1 : pre e1).
  { destruct P. destruct F0 as [F [_ [_ [_ [FL [FB [_ [_ [_ [_ [_ [_ [FA _]]]]]]]]]]]]].
    constructor; rewrite ?S1, ?Z1, ?Z2, ?Z3, ?Z4, ?Z5, ?Z6, ?F, ?FL, ?FB, ?FA; ekf_cbn; auto.
    - destruct pre_sorted as [X1 [X2 [X3 X4]]]. split; [exact X1|]. split; [exact X2|]. split; [apply mset_sorted; auto|]. exact X4.
    - destruct pre_sizes as [X1 [X2 [X3 X4]]]. split; [exact X1|]. split; [exact X2|]. split; [apply Forall_mset; auto|]. exact X4.
    - unfold tot, start_aug, start_fid, start_cam, start_gps in *. ekf_cbn. rewrite sum_len_mset by auto. lia.
    - rewrite sum_len_mset by auto. lia.
    - rewrite nonneg_noise_split in *. ekf_cbn. destruct pre_noise as [X1 [X2 [X3 [X4 X5]]]].
      split; [auto|]. split; [auto|]. split; [auto|]. split; [apply nonneg_flat_mset; auto|]. exact X5.
    - intros Ht Hne. apply pre_prev; auto. intro N. apply Hne. unfold aug_at in *. rewrite S1. exact N. }
  destruct (reg_finish e e1 P1 F0) as [e' [E [Wf [S' [C' [D' [G1 [G2 _]]]]]]]].
  { destruct HI as [X _]. rewrite X, Z1. cbn [nr sub_block]. lia. }
  { destruct HI as [_ [X _]]. rewrite X, Z1. cbn [nc sub_block]. lia. }
  exists e'. split.
  { unfold RegisterCamera. rewrite Hf. rewrite rdiv_ok by exact Hrate. cbn [bind].
    change g_body_state_size with 18. cbv zeta. fold fp. fold ea. fold eb.
    change (e_primary ea) with (e_primary e). fold eb.
    change (e_imu_size ea) with (e_imu_size e). change (e_gps_size ea) with (e_gps_size e).
    change (e_cam_size ea) with (e_cam_size e).
    change (e_cov (with_state eb ?x)) with (e_cov eb).
    change (e_size (with_state eb ?x)) with (e_size eb).
    change (e_cam_size (with_state eb ?x)) with (e_cam_size eb).
    rewrite E0. cbn [bind]. exact E. }
  split; [exact Wf|]. split; [now rewrite S', S1|]. split; [now rewrite C'|].
  split; [exact D'|]. split; [exact G1|].
  destruct (cam_frame_trans _ _ _ F2 G2) as [H1 [H2 [H3 H4]]]. rewrite H1, H2, H3, H4. exact BP.
Qed.

(** *** Fiducial: the block is inserted at the end of the state, while the
    refreshed indices put it before the clones. *)
Definition fid_reg_ok (st : FidState) (c : mat R) : Prop :=
  f_size st = fid_len st /\ f_size st <= nr c /\ f_size st <= nc c /\
  (f_ext st = true -> (0 <= f_pos_stab st)%R /\ (0 <= f_ang_stab st)%R).

Lemma fid_noise_nonneg : forall k st c, fid_reg_ok st c -> nonneg (fid_noise (k, st)).
Proof.
  intros k st c [_ [_ [_ H1]]]. unfold fid_noise, rep3. cbn [snd].
  destruct (f_ext st); cbn [app];
    repeat match goal with H : true = true -> _ |- _ => specialize (H eq_refl); destruct H end;
    repeat (apply Forall_cons; [assumption|]); apply Forall_nil.
Qed.

Lemma RegisterFiducial_ok : forall e st c, wf e -> mfind (f_id st) (s_fid (e_state e)) = None ->
  fid_reg_ok st c ->
  exists e', RegisterFiducial e st c = OK e' /\ wf e' /\
    e_state e' = ix_state (state_with_fid (e_state e) (mset (f_id st) st (s_fid (e_state e)))) /\
    is_insert (e_cov e) (sub_block c (fid_len st)) (e_cov e') (e_size e) /\
    isdiag (e_size e') (e_Q e') (noise_mat e') /\ frame e e' /\ cam_frame e e'.
Proof.
  intros e st c W Hf H. pose proof (fid_noise_nonneg (f_id st) st c H) as Hnn.
  destruct H as [Hs [Hr [Hc _]]]. destruct W as [P W2 W3 W4 _ _ _].
  destruct (Insert_spec R 0%R (sub_block c (fid_len st)) (e_cov e) (e_size e) (e_size e))
    as [out [EI [Ir [Ic Ient]]]]; try lia.
  assert (exists e1,
    (if f_ext st then
           let* b := block c 0 0 (f_size st) (f_size st) in
           let* c := InsertInMatrix 0%R b (e_cov e) (e_size e) (e_size e) in
           OK (with_fid_sizes (with_cov (with_state e (state_with_fid (e_state e) (mset (f_id st) st (s_fid (e_state e))))) c)
                 (e_size e + g_fid_extrinsic_state_size) (e_fid_size e + g_fid_extrinsic_state_size))
         else OK (with_state e (state_with_fid (e_state e) (mset (f_id st) st (s_fid (e_state e)))))) = OK e1 /\
    is_insert (e_cov e) (sub_block c (fid_len st)) (e_cov e1) (e_size e) /\
    e_state e1 = state_with_fid (e_state e) (mset (f_id st) st (s_fid (e_state e))) /\
    e_size e1 = e_size e + fid_len st /\ e_imu_size e1 = e_imu_size e /\
    e_gps_size e1 = e_gps_size e /\ e_cam_size e1 = e_cam_size e /\ e_fid_size e1 = e_fid_size e + fid_len st /\
    e_aug_size e1 = e_aug_size e /\ frame e e1 /\ cam_frame e e1) as [e1 [E0 [HI [S1 [Z1 [Z2 [Z3 [Z4 [Z5 [Z6 [F1 F2]]]]]]]]]]].
  { assert (EB : block c 0 0 (f_size st) (f_size st) = OK (sub_block c (fid_len st))).
    { rewrite Hs in *. rewrite block_ok by lia. reflexivity. }
    rewrite EB. cbn [bind].
    rewrite EI. cbn [bind].
    assert (HL : fid_len st = (if f_ext st then 6 else 0)) by reflexivity.
    destruct (f_ext st) eqn:E1; eexists; (split; [reflexivity|]); ekf_cbn;
      change g_fid_extrinsic_state_size with 6.
    - split; [split; [exact Ir|split; [exact Ic|exact Ient]]|]. repeat split; lia.
    - split; [apply is_insert_empty; exact HL|]. repeat split; lia. }
  assert (P1 : pre e1).
  { destruct P. destruct F1 as [F [_ [_ [_ [FL [FB [_ [_ [_ [_ [_ [_ [FA _]]]]]]]]]]]]].
    constructor; rewrite ?S1, ?Z1, ?Z2, ?Z3, ?Z4, ?Z5, ?Z6, ?F, ?FL, ?FB, ?FA; ekf_cbn; auto.
    - destruct pre_sorted as [X1 [X2 [X3 [X4 X5]]]]. do 3 (split; [assumption|]). split; [apply mset_sorted; auto|]. exact X5.
    - destruct pre_sizes as [X1 [X2 [X3 X4]]]. do 3 (split; [assumption|]). apply Forall_mset; auto.
    - unfold tot, start_aug, start_fid, start_cam, start_gps in *. ekf_cbn. rewrite sum_len_mset by auto. lia.
    - rewrite sum_len_mset by auto. lia.
    - rewrite nonneg_noise_split in *. ekf_cbn. destruct pre_noise as [X1 [X2 [X3 [X4 X5]]]].
      do 4 (split; [auto|]). apply nonneg_flat_mset; auto.
    - intros Ht Hne. apply pre_prev; auto. intro N. apply Hne. unfold aug_at in *. rewrite S1. exact N. }
  destruct (reg_finish e e1 P1 F1) as [e' [E [Wf [S' [C' [D' [G1 [G2 _]]]]]]]].
  { destruct HI as [X _]. rewrite X, Z1. cbn [nr sub_block]. lia. }
  { destruct HI as [_ [X _]]. rewrite X, Z1. cbn [nc sub_block]. lia. }
  exists e'. split.
  { unfold RegisterFiducial. rewrite Hf. cbv zeta. ekf_cbn.
    rewrite E0. cbn [bind]. exact E. }
  split; [exact Wf|]. split; [now rewrite S', S1|]. split; [now rewrite C'|].
  split; [exact D'|]. split; [exact G1|]. eapply cam_frame_trans; eauto.
Qed.

(** *** Inserting a positive semi-definite block *)
Lemma insert_psd : forall (m sub out : mat R) pos,
  is_insert m sub out pos -> pos <= nr m -> nr m = nc m -> nr sub = nc sub ->
  psd (nr m) (ent m) -> psd (nr sub) (ent sub) -> psd (nr out) (ent out).
Proof.
  intros m sub out pos [Hr [Hc He]] Hp Hs1 Hs2 P1 P2.
  eapply psd_ext; [|apply psd_madd; [apply (psd_sel (nr out) (nr m) (unshift pos (nr sub)) (ent m))
    |apply (psd_sel (nr out) (nr sub) (fun i => if in_range i pos (nr sub) then Some (i - pos) else None) (ent sub))]].
  - intros i j Hi Hj. rewrite He by lia. unfold insert_entry, madd, sel. rewrite <- Hs2.
    unfold unshift, in_range.
    destruct (i <? pos) eqn:E1; destruct (j <? pos) eqn:E2;
      destruct (i <? pos + nr sub) eqn:E3; destruct (j <? pos + nr sub) eqn:E4;
      rewrite ?Nat.ltb_lt, ?Nat.ltb_ge in *; try lia;
      repeat match goal with |- context [pos <=? ?x] =>
        first [rewrite (proj2 (Nat.leb_le pos x)) by lia | rewrite (proj2 (Nat.leb_gt pos x)) by lia] end;
      cbn [andb]; lra.
  - intros i a Hi. unfold unshift. destruct (i <? pos) eqn:E1; [intros X; injection X as <-; apply Nat.ltb_lt in E1; lia|].
    destruct (i <? pos + nr sub) eqn:E3; [discriminate|]. intros X; injection X as <-.
    apply Nat.ltb_ge in E3. lia.
  - exact P1.
  - intros i a Hi. destruct (in_range i pos (nr sub)) eqn:E; [|discriminate].
    apply in_range_spec in E. intros X; injection X as <-. lia.
  - exact P2.
Qed.
