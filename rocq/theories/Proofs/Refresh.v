(** RefreshIndices: purely functional description, and correctness of the
    index fields and of the process noise. *)
From Coq Require Import Reals List Arith Bool Lia Lra.
From Verif Require Import Base.Res Base.Mat Base.RDec Base.LinAlg Base.Geom Base.AMap Base.RMat
  Model.TypeHelper Model.Types Model.MathHelperMat Model.QR Model.Ekf Spec.Layout.
Import ListNotations.
Open Scope nat_scope.

(** *** Pure re-indexing *)
Fixpoint ix_imus (m : amap ImuState) (cur : nat) : amap ImuState :=
  match m with
  | [] => []
  | (k, s) :: t =>
      (k, imu_with_index s cur (if i_ext s then cur else i_index_ext s)
            (if i_int s then cur + (if i_ext s then 6 else 0) else i_index_int s))
      :: ix_imus t (cur + imu_len s)
  end.
Fixpoint ix_gpss (m : amap GpsState) (cur : nat) : amap GpsState :=
  match m with
  | [] => []
  | (k, s) :: t => (k, gps_with_index s cur) :: ix_gpss t (cur + gps_len s)
  end.
Fixpoint ix_cams (m : amap CamState) (cur : nat) : amap CamState :=
  match m with
  | [] => []
  | (k, s) :: t => (k, cam_with_index s cur) :: ix_cams t (cur + cam_len s)
  end.
Fixpoint ix_fids (m : amap FidState) (cur : nat) : amap FidState :=
  match m with
  | [] => []
  | (k, s) :: t => (k, fid_with_index s cur) :: ix_fids t (cur + fid_len s)
  end.
Fixpoint ix_augv (l : list AugState) (cur : nat) : list AugState :=
  match l with
  | [] => []
  | s :: t => aug_with_index s cur :: ix_augv t (cur + 6)
  end.
Fixpoint ix_augs (m : amap (list AugState)) (cur : nat) : amap (list AugState) :=
  match m with
  | [] => []
  | (k, l) :: t => (k, ix_augv l cur) :: ix_augs t (cur + 6 * length l)
  end.

Definition aug_len (l : list AugState) : nat := 6 * length l.

Definition start_gps (s : State) := 18 + sum_len imu_len (s_imu s).
Definition start_cam (s : State) := start_gps s + sum_len gps_len (s_gps s).
Definition start_fid (s : State) := start_cam s + sum_len cam_len (s_cam s).
Definition start_aug (s : State) := start_fid s + sum_len fid_len (s_fid s).
Definition tot (s : State) := start_aug s + sum_len aug_len (s_aug s).

Definition ix_state (s : State) : State :=
  mkState (body_with_index (s_body s) 0) (ix_imus (s_imu s) 18) (ix_gpss (s_gps s) (start_gps s))
    (ix_cams (s_cam s) (start_cam s)) (ix_fids (s_fid s) (start_fid s))
    (ix_augs (s_aug s) (start_aug s)).

(** *** Diagonal matrices *)
Definition isdiag (n : nat) (Q : mat R) (l : list R) : Prop :=
  nr Q = n /\ nc Q = n /\
  forall i j, i < n -> j < n -> ent Q i j = if Nat.eqb i j then nth i l 0%R else 0%R.

Lemma set_diag3_ok : forall n Q l i s, isdiag n Q l -> length l = i -> i + 3 <= n ->
  exists Q', set_diag3 Q i s = OK Q' /\ isdiag n Q' (l ++ [s; s; s]).
Proof.
  intros n Q l i s [Hr [Hc He]] Hl Hn. unfold set_diag3.
  rewrite set_block_ok by (cbn; lia). eexists. split; [reflexivity|].
  split; [exact Hr|]. split; [exact Hc|]. cbn [ent nr nc]. intros a b Ha Hb.
  unfold mscale, mscal, midm, idm. cbn [ent].
  destruct (Nat.eqb a b) eqn:E.
  - apply Nat.eqb_eq in E. subst b.
    destruct (in_range a i 3) eqn:E2.
    + apply in_range_spec in E2. cbn [andb]. rewrite Nat.eqb_refl.
      rewrite app_nth2 by lia. rewrite Hl.
      assert (D : a - i = 0 \/ a - i = 1 \/ a - i = 2) by lia.
      destruct D as [-> | [-> | ->]]; cbn; ring.
    + cbn [andb]. rewrite He by auto. rewrite Nat.eqb_refl.
      destruct (Nat.lt_ge_cases a i) as [L|L].
      * rewrite app_nth1 by lia. reflexivity.
      * assert (i + 3 <= a).
        { destruct (Nat.lt_ge_cases a (i + 3)); auto. rewrite in_range_true in E2 by lia. discriminate. }
        rewrite nth_overflow by lia. rewrite nth_overflow; [reflexivity|]. rewrite app_length. cbn. lia.
  - apply Nat.eqb_neq in E.
    destruct (in_range a i 3) eqn:E2; destruct (in_range b i 3) eqn:E3; cbn [andb];
      try (rewrite He by auto; rewrite (proj2 (Nat.eqb_neq a b)) by auto; reflexivity).
    apply in_range_spec in E2. apply in_range_spec in E3.
    rewrite (proj2 (Nat.eqb_neq (a - i) (b - i))) by lia. ring.
Qed.

(** Noise values of each block, in layout order. *)
Definition rep3 (x : R) : list R := [x; x; x].
Definition imu_noise (x : nat * ImuState) : list R :=
  (if i_ext (snd x) then rep3 (i_pos_stab (snd x)) ++ rep3 (i_ang_stab (snd x)) else []) ++
  (if i_int (snd x) then rep3 (i_acc_stab (snd x)) ++ rep3 (i_omg_stab (snd x)) else []).
Definition gps_noise (x : nat * GpsState) : list R :=
  if g_ext (snd x) then rep3 (g_pos_stab (snd x)) else [].
Definition cam_noise (x : nat * CamState) : list R :=
  if c_ext (snd x) then rep3 (c_pos_stab (snd x)) ++ rep3 (c_ang_stab (snd x)) else [].
Definition fid_noise (x : nat * FidState) : list R :=
  if f_ext (snd x) then rep3 (f_pos_stab (snd x)) ++ rep3 (f_ang_stab (snd x)) else [].
Definition body_noise (q : mat R) : list R := map (fun i => ent q i 0) (seq 0 18).

Definition noise_list (s : State) (q : mat R) : list R :=
  body_noise q ++ flat_map imu_noise (s_imu s) ++ flat_map gps_noise (s_gps s) ++
  flat_map cam_noise (s_cam s) ++ flat_map fid_noise (s_fid s).

Lemma imu_noise_length : forall x, length (imu_noise x) = imu_len (snd x).
Proof. intros [k s]. unfold imu_noise, imu_len. cbn. destruct (i_ext s), (i_int s); reflexivity. Qed.
Lemma gps_noise_length : forall x, length (gps_noise x) = gps_len (snd x).
Proof. intros [k s]. unfold gps_noise, gps_len. cbn. destruct (g_ext s); reflexivity. Qed.
Lemma cam_noise_length : forall x, length (cam_noise x) = cam_len (snd x).
Proof. intros [k s]. unfold cam_noise, cam_len. cbn. destruct (c_ext s); reflexivity. Qed.
Lemma fid_noise_length : forall x, length (fid_noise x) = fid_len (snd x).
Proof. intros [k s]. unfold fid_noise, fid_len. cbn. destruct (f_ext s); reflexivity. Qed.

Lemma flat_map_length_sum : forall A B (f : nat * A -> list B) (g : A -> nat) m,
  (forall x, length (f x) = g (snd x)) -> length (flat_map f m) = sum_len g m.
Proof.
  intros A B f g m H. induction m as [|x t IH]; [reflexivity|].
  cbn [flat_map sum_len fold_right]. rewrite app_length, H. f_equal. exact IH.
Qed.

Lemma sum_len_cons : forall A (g : A -> nat) k s t, sum_len g ((k, s) :: t) = g s + sum_len g t.
Proof. reflexivity. Qed.

Lemma refresh_imus_ok : forall m cur n Q l, isdiag n Q l -> length l = cur ->
  cur + sum_len imu_len m <= n ->
  exists Q', refresh_imus m cur Q = OK (ix_imus m cur, cur + sum_len imu_len m, Q') /\
    isdiag n Q' (l ++ flat_map imu_noise m).
Proof.
  induction m as [|[k s] t IH]; intros cur n Q l HQ Hl Hn.
  - exists Q. cbn. rewrite Nat.add_0_r, app_nil_r. auto.
  - rewrite sum_len_cons in *. cbn [refresh_imus ix_imus flat_map].
    cbv zeta. cbn [i_ext imu_with_index].
    unfold imu_noise at 1. cbn [snd].
    change g_imu_extrinsic_state_size with 6 in *. change g_imu_intrinsic_state_size with 6 in *.
    destruct (i_ext s) eqn:Ee; [|cbn [bind i_int imu_with_index]]; destruct (i_int s) eqn:Ei.
    + assert (HL : imu_len s = 12) by (unfold imu_len; rewrite Ee, Ei; reflexivity).
      rewrite HL in *.
      destruct (set_diag3_ok n Q l (cur + 0) (i_pos_stab s) HQ) as [Q1 [E1 D1]]; try lia.
      cbn [i_pos_stab imu_with_index]. rewrite E1. cbn [bind].
      destruct (set_diag3_ok n Q1 _ (cur + 3) (i_ang_stab s) D1) as [Q2 [E2 D2]];
        try (rewrite ?app_length; cbn; lia).
      cbn [i_ang_stab imu_with_index]. rewrite E2. cbn [bind i_int imu_with_index]. rewrite Ei.
      destruct (set_diag3_ok n Q2 _ (cur + 6 + 0) (i_acc_stab s) D2) as [Q3 [E3 D3]];
          try (rewrite ?app_length; cbn; lia).
      cbn [i_acc_stab imu_with_index]. rewrite E3. cbn [bind].
      destruct (set_diag3_ok n Q3 _ (cur + 6 + 3) (i_omg_stab s) D3) as [Q4 [E4 D4]];
          try (rewrite ?app_length; cbn; lia).
      cbn [i_omg_stab imu_with_index]. rewrite E4. cbn [bind].
      destruct (IH (cur + 6 + 6) n Q4 _ D4) as [Q5 [E5 D5]];
          try (rewrite ?app_length; cbn; lia).
      rewrite E5. cbn [bind]. exists Q5. split.
      * replace (cur + (12 + sum_len imu_len t)) with (cur + 6 + 6 + sum_len imu_len t) by lia.
        replace (cur + 12) with (cur + 6 + 6) by lia. reflexivity.
      * rewrite <- !app_assoc in D5. exact D5.
    + assert (HL : imu_len s = 6) by (unfold imu_len; rewrite Ee, Ei; reflexivity).
      rewrite HL in *.
      destruct (set_diag3_ok n Q l (cur + 0) (i_pos_stab s) HQ) as [Q1 [E1 D1]]; try lia.
      cbn [i_pos_stab imu_with_index]. rewrite E1. cbn [bind].
      destruct (set_diag3_ok n Q1 _ (cur + 3) (i_ang_stab s) D1) as [Q2 [E2 D2]];
        try (rewrite ?app_length; cbn; lia).
      cbn [i_ang_stab imu_with_index]. rewrite E2. cbn [bind i_int imu_with_index]. rewrite Ei.
      cbn [bind].
      destruct (IH (cur + 6) n Q2 _ D2) as [Q5 [E5 D5]];
          try (rewrite ?app_length; cbn; lia).
      rewrite E5. cbn [bind]. exists Q5. split.
      * replace (cur + (6 + sum_len imu_len t)) with (cur + 6 + sum_len imu_len t) by lia. reflexivity.
      * rewrite <- !app_assoc in D5. exact D5.
    + assert (HL : imu_len s = 6) by (unfold imu_len; rewrite Ee, Ei; reflexivity).
      rewrite HL in *.
      destruct (set_diag3_ok n Q _ (cur + 0) (i_acc_stab s) HQ) as [Q3 [E3 D3]];
          try (rewrite ?app_length; cbn; lia).
      cbn [i_acc_stab imu_with_index]. rewrite E3. cbn [bind].
      destruct (set_diag3_ok n Q3 _ (cur + 3) (i_omg_stab s) D3) as [Q4 [E4 D4]];
          try (rewrite ?app_length; cbn; lia).
      cbn [i_omg_stab imu_with_index]. rewrite E4. cbn [bind].
      destruct (IH (cur + 6) n Q4 _ D4) as [Q5 [E5 D5]];
          try (rewrite ?app_length; cbn; lia).
      rewrite E5. cbn [bind]. exists Q5. split.
      * replace (cur + (6 + sum_len imu_len t)) with (cur + 6 + sum_len imu_len t) by lia.
        rewrite Nat.add_0_r. reflexivity.
      * rewrite <- !app_assoc in D5. exact D5.
    + assert (HL : imu_len s = 0) by (unfold imu_len; rewrite Ee, Ei; reflexivity).
      rewrite HL in *. cbn [bind].
      destruct (IH cur n Q _ HQ) as [Q5 [E5 D5]]; try lia.
      rewrite E5. cbn [bind]. exists Q5. split.
      * cbn [Nat.add]. rewrite Nat.add_0_r. reflexivity.
      * exact D5.
Qed.

Lemma refresh_gpss_ok : forall m cur n Q l, isdiag n Q l -> length l = cur ->
  cur + sum_len gps_len m <= n ->
  exists Q', refresh_gpss m cur Q = OK (ix_gpss m cur, cur + sum_len gps_len m, Q') /\
    isdiag n Q' (l ++ flat_map gps_noise m).
Proof.
  induction m as [|[k s] t IH]; intros cur n Q l HQ Hl Hn.
  - exists Q. cbn. rewrite Nat.add_0_r, app_nil_r. auto.
  - rewrite sum_len_cons in *. cbn [refresh_gpss ix_gpss flat_map].
    cbv zeta. cbn [g_ext gps_with_index].
    unfold gps_noise at 1. cbn [snd].
    change g_gps_extrinsic_state_size with 3 in *.
    destruct (g_ext s) eqn:Ee.
    + assert (HL : gps_len s = 3) by (unfold gps_len; rewrite Ee; reflexivity).
      rewrite HL in *.
      destruct (set_diag3_ok n Q l cur (g_pos_stab s) HQ) as [Q1 [E1 D1]]; try lia.
      cbn [g_pos_stab gps_with_index]. rewrite E1. cbn [bind].
      destruct (IH (cur + 3) n Q1 _ D1) as [Q5 [E5 D5]]; try (rewrite ?app_length; cbn; lia).
      rewrite E5. cbn [bind]. exists Q5. split.
      * replace (cur + (3 + sum_len gps_len t)) with (cur + 3 + sum_len gps_len t) by lia. reflexivity.
      * rewrite <- !app_assoc in D5. exact D5.
    + assert (HL : gps_len s = 0) by (unfold gps_len; rewrite Ee; reflexivity).
      rewrite HL in *. cbn [bind].
      destruct (IH cur n Q _ HQ) as [Q5 [E5 D5]]; try lia.
      rewrite E5. cbn [bind]. exists Q5. split.
      * cbn [Nat.add]. rewrite Nat.add_0_r. reflexivity.
      * exact D5.
Qed.

Lemma refresh_cams_ok : forall m cur n Q l, isdiag n Q l -> length l = cur ->
  cur + sum_len cam_len m <= n ->
  exists Q', refresh_cams m cur Q = OK (ix_cams m cur, cur + sum_len cam_len m, Q') /\
    isdiag n Q' (l ++ flat_map cam_noise m).
Proof.
  induction m as [|[k s] t IH]; intros cur n Q l HQ Hl Hn.
  - exists Q. cbn. rewrite Nat.add_0_r, app_nil_r. auto.
  - rewrite sum_len_cons in *. cbn [refresh_cams ix_cams flat_map].
    cbv zeta. cbn [c_ext cam_with_index].
    unfold cam_noise at 1. cbn [snd].
    change g_cam_extrinsic_state_size with 6 in *.
    destruct (c_ext s) eqn:Ee.
    + assert (HL : cam_len s = 6) by (unfold cam_len; rewrite Ee; reflexivity).
      rewrite HL in *.
      destruct (set_diag3_ok n Q l (cur + 0) (c_pos_stab s) HQ) as [Q1 [E1 D1]]; try lia.
      cbn [c_pos_stab cam_with_index]. rewrite E1. cbn [bind].
      destruct (set_diag3_ok n Q1 _ (cur + 3) (c_ang_stab s) D1) as [Q2 [E2 D2]];
        try (rewrite ?app_length; cbn; lia).
      cbn [c_ang_stab cam_with_index]. rewrite E2. cbn [bind].
      destruct (IH (cur + 6) n Q2 _ D2) as [Q5 [E5 D5]]; try (rewrite ?app_length; cbn; lia).
      rewrite E5. cbn [bind]. exists Q5. split.
      * replace (cur + (6 + sum_len cam_len t)) with (cur + 6 + sum_len cam_len t) by lia. reflexivity.
      * rewrite <- !app_assoc in D5. exact D5.
    + assert (HL : cam_len s = 0) by (unfold cam_len; rewrite Ee; reflexivity).
      rewrite HL in *. cbn [bind].
      destruct (IH cur n Q _ HQ) as [Q5 [E5 D5]]; try lia.
      rewrite E5. cbn [bind]. exists Q5. split.
      * cbn [Nat.add]. rewrite Nat.add_0_r. reflexivity.
      * exact D5.
Qed.

Lemma refresh_fids_ok : forall m cur n Q l, isdiag n Q l -> length l = cur ->
  cur + sum_len fid_len m <= n ->
  exists Q', refresh_fids m cur Q = OK (ix_fids m cur, cur + sum_len fid_len m, Q') /\
    isdiag n Q' (l ++ flat_map fid_noise m).
Proof.
  induction m as [|[k s] t IH]; intros cur n Q l HQ Hl Hn.
  - exists Q. cbn. rewrite Nat.add_0_r, app_nil_r. auto.
  - rewrite sum_len_cons in *. cbn [refresh_fids ix_fids flat_map].
    cbv zeta. cbn [f_ext fid_with_index].
    unfold fid_noise at 1. cbn [snd].
    change g_fid_extrinsic_state_size with 6 in *.
    destruct (f_ext s) eqn:Ee.
    + assert (HL : fid_len s = 6) by (unfold fid_len; rewrite Ee; reflexivity).
      rewrite HL in *.
      destruct (set_diag3_ok n Q l (cur + 0) (f_pos_stab s) HQ) as [Q1 [E1 D1]]; try lia.
      cbn [f_pos_stab fid_with_index]. rewrite E1. cbn [bind].
      destruct (set_diag3_ok n Q1 _ (cur + 3) (f_ang_stab s) D1) as [Q2 [E2 D2]];
        try (rewrite ?app_length; cbn; lia).
      cbn [f_ang_stab fid_with_index]. rewrite E2. cbn [bind].
      destruct (IH (cur + 6) n Q2 _ D2) as [Q5 [E5 D5]]; try (rewrite ?app_length; cbn; lia).
      rewrite E5. cbn [bind]. exists Q5. split.
      * replace (cur + (6 + sum_len fid_len t)) with (cur + 6 + sum_len fid_len t) by lia. reflexivity.
      * rewrite <- !app_assoc in D5. exact D5.
    + assert (HL : fid_len s = 0) by (unfold fid_len; rewrite Ee; reflexivity).
      rewrite HL in *. cbn [bind].
      destruct (IH cur n Q _ HQ) as [Q5 [E5 D5]]; try lia.
      rewrite E5. cbn [bind]. exists Q5. split.
      * cbn [Nat.add]. rewrite Nat.add_0_r. reflexivity.
      * exact D5.
Qed.

Lemma refresh_augv_ok : forall l cur, refresh_augv l cur = (ix_augv l cur, cur + 6 * length l).
Proof.
  induction l as [|s t IH]; intros cur; cbn [refresh_augv ix_augv length].
  - f_equal. lia.
  - change g_aug_state_size with 6. rewrite IH. f_equal. lia.
Qed.

Lemma refresh_augs_ok : forall m cur,
  refresh_augs m cur = (ix_augs m cur, cur + sum_len aug_len m).
Proof.
  induction m as [|[k l] t IH]; intros cur; cbn [refresh_augs ix_augs].
  - unfold sum_len. simpl. rewrite Nat.add_0_r. reflexivity.
  - rewrite refresh_augv_ok, IH. rewrite sum_len_cons. change (aug_len l) with (6 * length l).
    rewrite Nat.add_assoc. reflexivity.
Qed.

Definition nonneg_noise (s : State) (q : mat R) : Prop := Forall (fun x => (0 <= x)%R) (noise_list s q).

(** The process noise matrix after a refresh: diagonal with the configured
    rates (their square roots in the square-root form). *)
Definition noise_mat (e : ekf) : list R :=
  if is_root e then map sqrt (noise_list (e_state e) (e_bodyQ e))
  else noise_list (e_state e) (e_bodyQ e).

Lemma Refresh_ok : forall e,
  nr (e_bodyQ e) = 18 ->
  start_aug (e_state e) <= e_size e ->
  (is_root e = true -> nonneg_noise (e_state e) (e_bodyQ e)) ->
  exists Q', RefreshIndices e =
    OK (with_Q (with_starts (with_state e (ix_state (e_state e))) 18 (start_gps (e_state e))
          (start_cam (e_state e)) (start_fid (e_state e)) (start_aug (e_state e))) Q') /\
    isdiag (e_size e) Q' (noise_mat e).
Proof.
  intros e Hq Hsz Hroot. unfold RefreshIndices. cbv zeta.
  set (s := e_state e) in *. set (n := e_size e) in *.
  unfold start_aug, start_fid, start_cam, start_gps in Hsz.
  change g_body_state_size with 18.
  rewrite set_block_ok by (cbn; lia). cbn [bind].
  match goal with |- context [refresh_imus _ _ ?q] => set (Q0 := q) end.
  assert (D0 : isdiag n Q0 (body_noise (e_bodyQ e))).
  { unfold Q0. split; [reflexivity|]. split; [reflexivity|]. cbn [ent nr nc mzero mconst mdiag].
    intros i j Hi Hj. unfold diagm, body_noise.
    destruct (Nat.lt_ge_cases i 18) as [L|L].
    - rewrite (in_range_true i 0 18) by lia.
      assert (N : nth i (map (fun a => ent (e_bodyQ e) a 0) (seq 0 18)) 0%R = ent (e_bodyQ e) i 0).
      { rewrite (nth_indep _ 0%R (ent (e_bodyQ e) 0 0)) by (rewrite map_length, seq_length; lia).
        rewrite (map_nth (fun a => ent (e_bodyQ e) a 0)). rewrite seq_nth by lia. reflexivity. }
      rewrite N. destruct (Nat.lt_ge_cases j 18) as [M|M].
      + rewrite (in_range_true j 0 18) by lia. cbn [andb]. rewrite !Nat.sub_0_r. reflexivity.
      + rewrite (in_range_false j 0 18) by lia. cbn [andb].
        rewrite (proj2 (Nat.eqb_neq i j)) by lia. reflexivity.
    - rewrite (in_range_false i 0 18) by lia. cbn [andb].
      destruct (Nat.eqb i j); [|reflexivity].
      rewrite nth_overflow; [reflexivity|]. rewrite map_length, seq_length. lia. }
  destruct (refresh_imus_ok (s_imu s) (0 + 18) n Q0 _ D0) as [Q1 [E1 D1]].
  { unfold body_noise. rewrite map_length, seq_length. reflexivity. } { lia. }
  rewrite E1. cbn [bind].
  destruct (refresh_gpss_ok (s_gps s) (0 + 18 + sum_len imu_len (s_imu s)) n Q1 _ D1) as [Q2 [E2 D2]].
  { rewrite app_length. unfold body_noise. rewrite map_length, seq_length.
    rewrite (flat_map_length_sum _ _ imu_noise imu_len) by apply imu_noise_length. reflexivity. } { lia. }
  rewrite E2. cbn [bind].
  destruct (refresh_cams_ok (s_cam s) (0 + 18 + sum_len imu_len (s_imu s) + sum_len gps_len (s_gps s)) n Q2 _ D2)
    as [Q3 [E3 D3]].
  { rewrite !app_length. unfold body_noise. rewrite map_length, seq_length.
    rewrite (flat_map_length_sum _ _ imu_noise imu_len) by apply imu_noise_length.
    rewrite (flat_map_length_sum _ _ gps_noise gps_len) by apply gps_noise_length. reflexivity. } { lia. }
  rewrite E3. cbn [bind].
  destruct (refresh_fids_ok (s_fid s)
     (0 + 18 + sum_len imu_len (s_imu s) + sum_len gps_len (s_gps s) + sum_len cam_len (s_cam s)) n Q3 _ D3)
    as [Q4 [E4 D4]].
  { rewrite !app_length. unfold body_noise. rewrite map_length, seq_length.
    rewrite (flat_map_length_sum _ _ imu_noise imu_len) by apply imu_noise_length.
    rewrite (flat_map_length_sum _ _ gps_noise gps_len) by apply gps_noise_length.
    rewrite (flat_map_length_sum _ _ cam_noise cam_len) by apply cam_noise_length. reflexivity. } { lia. }
  rewrite E4. cbn [bind]. rewrite refresh_augs_ok.
  rewrite <- !app_assoc in D4. fold (noise_list s (e_bodyQ e)) in D4.
  unfold noise_mat. fold s. destruct (is_root e) eqn:Er.
  - assert (NN : forall i j, i < nr Q4 -> j < nc Q4 -> (0 <= ent Q4 i j)%R).
    { destruct D4 as [Dr [Dc De]]. rewrite Dr, Dc. intros i j Hi Hj. rewrite De by auto.
      specialize (Hroot eq_refl). unfold nonneg_noise in Hroot.
      destruct (Nat.eqb i j); [|lra].
      destruct (Nat.lt_ge_cases i (length (noise_list s (e_bodyQ e)))) as [L|L].
      - rewrite Forall_forall in Hroot. apply Hroot. apply nth_In. exact L.
      - rewrite nth_overflow by exact L. lra. }
    rewrite msqrt_ok by exact NN. cbn [bind]. eexists. split; [reflexivity|].
    destruct D4 as [Dr [Dc De]]. split; [exact Dr|]. split; [exact Dc|].
    intros i j Hi Hj. unfold mmap. cbn [ent]. rewrite De by auto.
    destruct (Nat.eqb i j); [|apply sqrt_0].
    pose proof (map_nth sqrt (noise_list s (e_bodyQ e)) 0%R i) as MN. rewrite sqrt_0 in MN. now rewrite MN.
  - cbn [bind]. eexists. split; [reflexivity|]. exact D4.
Qed.
