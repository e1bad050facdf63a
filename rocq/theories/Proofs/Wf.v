(** Well-formedness of the filter object, and what a refresh establishes. *)
From Coq Require Import Reals List Arith Bool Lia Lra.
From Verif Require Import Base.Res Base.Mat Base.RDec Base.LinAlg Base.Geom Base.AMap Base.RMat
  Model.TypeHelper Model.Types Model.MathHelperMat Model.QR Model.Ekf Spec.Layout Proofs.Refresh.
Import ListNotations.
Open Scope nat_scope.

(** *** Index predicates *)
Fixpoint imus_at (m : amap ImuState) (cur : nat) : Prop :=
  match m with
  | [] => True
  | (_, s) :: t =>
      (i_ext s = true -> i_index_ext s = cur) /\
      (i_int s = true -> i_index_int s = cur + (if i_ext s then 6 else 0)) /\
      (i_ext s || i_int s = true -> i_index s = cur) /\
      imus_at t (cur + imu_len s)
  end.
Fixpoint gpss_at (m : amap GpsState) (cur : nat) : Prop :=
  match m with
  | [] => True
  | (_, s) :: t => (g_ext s = true -> g_index s = cur) /\ gpss_at t (cur + gps_len s)
  end.
Fixpoint cams_at (m : amap CamState) (cur : nat) : Prop :=
  match m with
  | [] => True
  | (_, s) :: t => (c_ext s = true -> c_index s = cur) /\ cams_at t (cur + cam_len s)
  end.
Fixpoint fids_at (m : amap FidState) (cur : nat) : Prop :=
  match m with
  | [] => True
  | (_, s) :: t => (f_ext s = true -> f_index s = cur) /\ fids_at t (cur + fid_len s)
  end.

(** *** Sizes of sums *)
Lemma sum_len_app : forall A (g : A -> nat) l r, sum_len g (l ++ r) = sum_len g l + sum_len g r.
Proof.
  intros A g l r. induction l as [|[k s] t IH]; [reflexivity|].
  cbn [app]. rewrite !sum_len_cons, IH. lia.
Qed.

Lemma imus_at_app : forall l r cur, imus_at (l ++ r) cur <-> imus_at l cur /\ imus_at r (cur + sum_len imu_len l).
Proof.
  induction l as [|[k s] t IH]; intros r cur; cbn [app imus_at].
  - unfold sum_len. cbn. rewrite Nat.add_0_r. tauto.
  - rewrite sum_len_cons, Nat.add_assoc, IH. tauto.
Qed.
Lemma gpss_at_app : forall l r cur, gpss_at (l ++ r) cur <-> gpss_at l cur /\ gpss_at r (cur + sum_len gps_len l).
Proof.
  induction l as [|[k s] t IH]; intros r cur; cbn [app gpss_at].
  - unfold sum_len. cbn. rewrite Nat.add_0_r. tauto.
  - rewrite sum_len_cons, Nat.add_assoc, IH. tauto.
Qed.
Lemma cams_at_app : forall l r cur, cams_at (l ++ r) cur <-> cams_at l cur /\ cams_at r (cur + sum_len cam_len l).
Proof.
  induction l as [|[k s] t IH]; intros r cur; cbn [app cams_at].
  - unfold sum_len. cbn. rewrite Nat.add_0_r. tauto.
  - rewrite sum_len_cons, Nat.add_assoc, IH. tauto.
Qed.

(** *** Re-indexing keeps everything but the indices *)
Lemma imu_len_ix : forall s a b c, imu_len (imu_with_index s a b c) = imu_len s.
Proof. reflexivity. Qed.

Lemma ix_imus_at : forall m cur, imus_at (ix_imus m cur) cur.
Proof.
  induction m as [|[k s] t IH]; intros cur; cbn [ix_imus imus_at]; [exact I|].
  cbn [i_ext i_int i_index_ext i_index_int i_index imu_with_index].
  destruct (i_ext s) eqn:E1, (i_int s) eqn:E2; repeat split; intros; try discriminate; try lia;
    change (imu_len (imu_with_index s ?a ?b ?c)) with (imu_len s); apply IH.
Qed.
Lemma ix_gpss_at : forall m cur, gpss_at (ix_gpss m cur) cur.
Proof. induction m as [|[k s] t IH]; intros cur; cbn [ix_gpss gpss_at]; [exact I|]. split; [reflexivity|apply IH]. Qed.
Lemma ix_cams_at : forall m cur, cams_at (ix_cams m cur) cur.
Proof. induction m as [|[k s] t IH]; intros cur; cbn [ix_cams cams_at]; [exact I|]. split; [reflexivity|apply IH]. Qed.
Lemma ix_fids_at : forall m cur, fids_at (ix_fids m cur) cur.
Proof. induction m as [|[k s] t IH]; intros cur; cbn [ix_fids fids_at]; [exact I|]. split; [reflexivity|apply IH]. Qed.

Lemma ix_imus_sum : forall m cur, sum_len imu_len (ix_imus m cur) = sum_len imu_len m.
Proof. induction m as [|[k s] t IH]; intros cur; cbn [ix_imus]; [reflexivity|]. rewrite !sum_len_cons, IH. reflexivity. Qed.
Lemma ix_gpss_sum : forall m cur, sum_len gps_len (ix_gpss m cur) = sum_len gps_len m.
Proof. induction m as [|[k s] t IH]; intros cur; cbn [ix_gpss]; [reflexivity|]. rewrite !sum_len_cons, IH. reflexivity. Qed.
Lemma ix_cams_sum : forall m cur, sum_len cam_len (ix_cams m cur) = sum_len cam_len m.
Proof. induction m as [|[k s] t IH]; intros cur; cbn [ix_cams]; [reflexivity|]. rewrite !sum_len_cons, IH. reflexivity. Qed.
Lemma ix_fids_sum : forall m cur, sum_len fid_len (ix_fids m cur) = sum_len fid_len m.
Proof. induction m as [|[k s] t IH]; intros cur; cbn [ix_fids]; [reflexivity|]. rewrite !sum_len_cons, IH. reflexivity. Qed.
Lemma ix_augv_length : forall l cur, length (ix_augv l cur) = length l.
Proof. induction l; intros; cbn [ix_augv length]; [reflexivity|]. now rewrite IHl. Qed.
Lemma ix_augs_sum : forall m cur, sum_len aug_len (ix_augs m cur) = sum_len aug_len m.
Proof.
  induction m as [|[k l] t IH]; intros cur; cbn [ix_augs]; [reflexivity|]. rewrite !sum_len_cons, IH.
  unfold aug_len at 1 3. rewrite ix_augv_length. reflexivity.
Qed.
Lemma ix_imus_keys : forall m cur, keys (ix_imus m cur) = keys m.
Proof. unfold keys. induction m as [|[k s] t IH]; intros cur; cbn [ix_imus map fst]; [reflexivity|]. now rewrite IH. Qed.
Lemma ix_gpss_keys : forall m cur, keys (ix_gpss m cur) = keys m.
Proof. unfold keys. induction m as [|[k s] t IH]; intros cur; cbn [ix_gpss map fst]; [reflexivity|]. now rewrite IH. Qed.
Lemma ix_cams_keys : forall m cur, keys (ix_cams m cur) = keys m.
Proof. unfold keys. induction m as [|[k s] t IH]; intros cur; cbn [ix_cams map fst]; [reflexivity|]. now rewrite IH. Qed.
Lemma ix_fids_keys : forall m cur, keys (ix_fids m cur) = keys m.
Proof. unfold keys. induction m as [|[k s] t IH]; intros cur; cbn [ix_fids map fst]; [reflexivity|]. now rewrite IH. Qed.
Lemma ix_augs_keys : forall m cur, keys (ix_augs m cur) = keys m.
Proof. unfold keys. induction m as [|[k s] t IH]; intros cur; cbn [ix_augs map fst]; [reflexivity|]. now rewrite IH. Qed.

Lemma ix_augv_idem : forall l cur cur', ix_augv (ix_augv l cur') cur = ix_augv l cur.
Proof. induction l; intros; cbn [ix_augv]; [reflexivity|]. now rewrite IHl. Qed.
Lemma ix_augs_idem : forall m cur cur', ix_augs (ix_augs m cur') cur = ix_augs m cur.
Proof.
  induction m as [|[k l] t IH]; intros; cbn [ix_augs]; [reflexivity|].
  rewrite ix_augv_idem, ix_augv_length, IH. reflexivity.
Qed.

Lemma ix_imus_noise : forall m cur, flat_map imu_noise (ix_imus m cur) = flat_map imu_noise m.
Proof. induction m as [|[k s] t IH]; intros cur; cbn [ix_imus flat_map]; [reflexivity|]. now rewrite IH. Qed.
Lemma ix_gpss_noise : forall m cur, flat_map gps_noise (ix_gpss m cur) = flat_map gps_noise m.
Proof. induction m as [|[k s] t IH]; intros cur; cbn [ix_gpss flat_map]; [reflexivity|]. now rewrite IH. Qed.
Lemma ix_cams_noise : forall m cur, flat_map cam_noise (ix_cams m cur) = flat_map cam_noise m.
Proof. induction m as [|[k s] t IH]; intros cur; cbn [ix_cams flat_map]; [reflexivity|]. now rewrite IH. Qed.
Lemma ix_fids_noise : forall m cur, flat_map fid_noise (ix_fids m cur) = flat_map fid_noise m.
Proof. induction m as [|[k s] t IH]; intros cur; cbn [ix_fids flat_map]; [reflexivity|]. now rewrite IH. Qed.

Lemma ix_noise : forall s q, noise_list (ix_state s) q = noise_list s q.
Proof.
  intros. unfold noise_list, ix_state. cbn [s_imu s_gps s_cam s_fid].
  now rewrite ix_imus_noise, ix_gpss_noise, ix_cams_noise, ix_fids_noise.
Qed.

Lemma ix_imus_labels : forall m cur, flat_map imu_labels (ix_imus m cur) = flat_map imu_labels m.
Proof. induction m as [|[k s] t IH]; intros cur; cbn [ix_imus flat_map]; [reflexivity|]. now rewrite IH. Qed.
Lemma ix_gpss_labels : forall m cur, flat_map gps_labels (ix_gpss m cur) = flat_map gps_labels m.
Proof. induction m as [|[k s] t IH]; intros cur; cbn [ix_gpss flat_map]; [reflexivity|]. now rewrite IH. Qed.
Lemma ix_cams_labels : forall m cur, flat_map cam_labels (ix_cams m cur) = flat_map cam_labels m.
Proof. induction m as [|[k s] t IH]; intros cur; cbn [ix_cams flat_map]; [reflexivity|]. now rewrite IH. Qed.
Lemma ix_fids_labels : forall m cur, flat_map fid_labels (ix_fids m cur) = flat_map fid_labels m.
Proof. induction m as [|[k s] t IH]; intros cur; cbn [ix_fids flat_map]; [reflexivity|]. now rewrite IH. Qed.
Lemma ix_augs_labels : forall m cur, flat_map aug_labels (ix_augs m cur) = flat_map aug_labels m.
Proof.
  induction m as [|[k l] t IH]; intros cur; cbn [ix_augs flat_map]; [reflexivity|]. rewrite IH.
  unfold aug_labels at 1 3. cbn [fst snd]. now rewrite ix_augv_length.
Qed.

Lemma ix_layout : forall s, layout (ix_state s) = layout s.
Proof.
  intros. unfold layout, ix_state. cbn [s_imu s_gps s_cam s_fid s_aug].
  now rewrite ix_imus_labels, ix_gpss_labels, ix_cams_labels, ix_fids_labels, ix_augs_labels.
Qed.

Lemma imu_labels_length : forall x, length (imu_labels x) = imu_len (snd x).
Proof. intros [k s]. unfold imu_labels, imu_len. cbn. destruct (i_ext s), (i_int s); reflexivity. Qed.
Lemma gps_labels_length : forall x, length (gps_labels x) = gps_len (snd x).
Proof. intros [k s]. unfold gps_labels, gps_len. cbn. destruct (g_ext s); reflexivity. Qed.
Lemma cam_labels_length : forall x, length (cam_labels x) = cam_len (snd x).
Proof. intros [k s]. unfold cam_labels, cam_len. cbn. destruct (c_ext s); reflexivity. Qed.
Lemma fid_labels_length : forall x, length (fid_labels x) = fid_len (snd x).
Proof. intros [k s]. unfold fid_labels, fid_len. cbn. destruct (f_ext s); reflexivity. Qed.
Lemma aug_labels_length : forall x, length (aug_labels x) = aug_len (snd x).
Proof.
  intros [k l]. unfold aug_labels, aug_len. cbn [fst snd].
  assert (G : forall n a, length (flat_map (fun q => six (LAug k q)) (seq a n)) = 6 * n).
  { induction n as [|n IH]; intros a; [reflexivity|].
    cbn [seq flat_map]. rewrite app_length, IH. change (length (six (LAug k a))) with 6. lia. }
  apply G.
Qed.

Lemma layout_length : forall s, length (layout s) = tot s.
Proof.
  intros s. unfold layout. rewrite !app_length, map_length, seq_length.
  rewrite (flat_map_length_sum _ _ imu_labels imu_len) by apply imu_labels_length.
  rewrite (flat_map_length_sum _ _ gps_labels gps_len) by apply gps_labels_length.
  rewrite (flat_map_length_sum _ _ cam_labels cam_len) by apply cam_labels_length.
  rewrite (flat_map_length_sum _ _ fid_labels fid_len) by apply fid_labels_length.
  rewrite (flat_map_length_sum _ _ aug_labels aug_len) by apply aug_labels_length.
  unfold tot, start_aug, start_fid, start_cam, start_gps. lia.
Qed.

(** *** Well-formedness *)
Definition sizes_ok (s : State) : Prop :=
  Forall (fun x => i_size (snd x) = imu_len (snd x)) (s_imu s) /\
  Forall (fun x => g_size (snd x) = gps_len (snd x)) (s_gps s) /\
  Forall (fun x => c_size (snd x) = cam_len (snd x)) (s_cam s) /\
  Forall (fun x => f_size (snd x) = fid_len (snd x)) (s_fid s).

Definition sorted_state (s : State) : Prop :=
  sorted (s_imu s) /\ sorted (s_gps s) /\ sorted (s_cam s) /\ sorted (s_fid s) /\ sorted (s_aug s).

Definition indexed (s : State) : Prop :=
  b_index (s_body s) = 0 /\ imus_at (s_imu s) 18 /\ gpss_at (s_gps s) (start_gps s) /\
  cams_at (s_cam s) (start_cam s) /\ fids_at (s_fid s) (start_fid s) /\
  ix_augs (s_aug s) (start_aug s) = s_aug s.

(** Everything but the indices, the covariance and the process noise matrix. *)
Record pre (e : ekf) : Prop := mkPre {
  pre_sorted : sorted_state (e_state e);
  pre_sizes : sizes_ok (e_state e);
  pre_size : e_size e = tot (e_state e);
  pre_imu : e_imu_size e = sum_len imu_len (s_imu (e_state e));
  pre_gps : e_gps_size e = sum_len gps_len (s_gps (e_state e));
  pre_cam : e_cam_size e = sum_len cam_len (s_cam (e_state e));
  pre_fid : e_fid_size e = sum_len fid_len (s_fid (e_state e));
  pre_aug : e_aug_size e = sum_len aug_len (s_aug (e_state e));
  pre_bq : nr (e_bodyQ e) = 18;
  pre_noise : nonneg_noise (e_state e) (e_bodyQ e);
  pre_prev : (p_aug (e_par e) = ATime \/ p_aug (e_par e) = AError) ->
             aug_at e 0 <> [] -> e_aug_prev e <> None;
  pre_len : (p_aug (e_par e) = AAll \/ p_aug (e_par e) = APrimary) -> 1 <= e_max_len e }.

Record wf (e : ekf) : Prop := mkWf {
  wf_pre : pre e;
  wf_ix : indexed (e_state e);
  wf_nr : nr (e_cov e) = e_size e;
  wf_nc : nc (e_cov e) = e_size e;
  wf_Qr : nr (e_Q e) = e_size e;
  wf_Qc : nc (e_Q e) = e_size e;
  wf_Qnn : forall i, i < e_size e -> (0 <= ent (e_Q e) i i)%R }.

Lemma ix_indexed : forall s, indexed (ix_state s).
Proof.
  intros s. unfold indexed, start_aug, start_fid, start_cam, start_gps, ix_state.
  cbn [s_body s_imu s_gps s_cam s_fid s_aug b_index body_with_index].
  rewrite ix_imus_sum, ix_gpss_sum, ix_cams_sum, ix_fids_sum.
  fold (start_gps s). fold (start_cam s). fold (start_fid s). fold (start_aug s).
  split; [reflexivity|]. split; [apply ix_imus_at|]. split; [apply ix_gpss_at|].
  split; [apply ix_cams_at|]. split; [apply ix_fids_at|]. apply ix_augs_idem.
Qed.

Lemma ix_tot : forall s, tot (ix_state s) = tot s.
Proof. intros. now rewrite <- !layout_length, ix_layout. Qed.

Lemma ix_sorted : forall s, sorted_state s -> sorted_state (ix_state s).
Proof.
  intros s H. unfold sorted_state, sorted, ix_state in *. cbn [s_imu s_gps s_cam s_fid s_aug].
  now rewrite ix_imus_keys, ix_gpss_keys, ix_cams_keys, ix_fids_keys, ix_augs_keys.
Qed.

Lemma ix_sizes : forall s, sizes_ok s -> sizes_ok (ix_state s).
Proof.
  intros s [H1 [H2 [H3 H4]]]. unfold sizes_ok, ix_state. cbn [s_imu s_gps s_cam s_fid].
  repeat split.
  - revert H1. generalize 18. induction (s_imu s) as [|[k x] t IH]; intros c H1; cbn [ix_imus]; constructor;
      inversion H1; subst; [assumption|]. apply IH; assumption.
  - revert H2. generalize (start_gps s). induction (s_gps s) as [|[k x] t IH]; intros c H2; cbn [ix_gpss]; constructor;
      inversion H2; subst; [assumption|]. apply IH; assumption.
  - revert H3. generalize (start_cam s). induction (s_cam s) as [|[k x] t IH]; intros c H3; cbn [ix_cams]; constructor;
      inversion H3; subst; [assumption|]. apply IH; assumption.
  - revert H4. generalize (start_fid s). induction (s_fid s) as [|[k x] t IH]; intros c H4; cbn [ix_fids]; constructor;
      inversion H4; subst; [assumption|]. apply IH; assumption.
Qed.

Lemma ix_augs_find : forall m k cur,
  match mfind k m with
  | Some l => exists c, mfind k (ix_augs m cur) = Some (ix_augv l c)
  | None => mfind k (ix_augs m cur) = None
  end.
Proof.
  induction m as [|[k' l] t IH]; intros k cur; cbn [mfind ix_augs]; [reflexivity|].
  destruct (Nat.eqb k k'); [eauto|]. apply IH.
Qed.

Lemma ix_aug_at_nil : forall m k cur, mget [] k (ix_augs m cur) = [] <-> mget [] k m = [].
Proof.
  intros m k cur. unfold mget. pose proof (ix_augs_find m k cur) as H.
  destruct (mfind k m) as [l|].
  - destruct H as [c ->]. destruct l; cbn; split; auto; discriminate.
  - now rewrite H.
Qed.

(** What RefreshIndices establishes. *)
Lemma Refresh_pre : forall e, pre e ->
  exists e', RefreshIndices e = OK e' /\ pre e' /\ indexed (e_state e') /\
    e_state e' = ix_state (e_state e) /\ e_cov e' = e_cov e /\ e_size e' = e_size e /\
    e_par e' = e_par e /\ e_time e' = e_time e /\ e_bodyQ e' = e_bodyQ e /\
    isdiag (e_size e) (e_Q e') (noise_mat e) /\
    (exists Q', e' = with_Q (with_starts (with_state e (ix_state (e_state e))) 18 (start_gps (e_state e))
          (start_cam (e_state e)) (start_fid (e_state e)) (start_aug (e_state e))) Q').
Proof.
  intros e P. destruct P.
  destruct (Refresh_ok e) as [Q' [E D]]; auto.
  { rewrite pre_size0. unfold tot. lia. }
  rewrite E. eexists. split; [reflexivity|].
  cbn [e_state e_cov e_size e_par e_time e_Q e_bodyQ with_Q with_starts with_state].
  split; [|split; [apply ix_indexed|]].
  - constructor; cbn [e_state e_cov e_size e_par e_time e_Q e_bodyQ e_imu_size e_gps_size e_cam_size
      e_fid_size e_aug_size e_max_len e_aug_prev with_Q with_starts with_state]; auto.
    + apply ix_sorted; auto.
    + apply ix_sizes; auto.
    + rewrite ix_tot. auto.
    + cbn [s_imu ix_state]. now rewrite ix_imus_sum.
    + cbn [s_gps ix_state]. now rewrite ix_gpss_sum.
    + cbn [s_cam ix_state]. now rewrite ix_cams_sum.
    + cbn [s_fid ix_state]. now rewrite ix_fids_sum.
    + cbn [s_aug ix_state]. now rewrite ix_augs_sum.
    + unfold nonneg_noise. rewrite ix_noise. auto.
    + intros Ht Hne. apply pre_prev0; auto. intro N. apply Hne. unfold aug_at in *.
      cbn [e_state with_Q with_starts with_state s_aug ix_state]. apply ix_aug_at_nil. exact N.
  - repeat split; auto; try apply D. eauto.
Qed.

Lemma isdiag_nonneg : forall n Q l, isdiag n Q l -> Forall (fun x => (0 <= x)%R) l ->
  forall i, i < n -> (0 <= ent Q i i)%R.
Proof.
  intros n Q l [_ [_ H]] F i Hi. rewrite H by auto. rewrite Nat.eqb_refl.
  destruct (Nat.lt_ge_cases i (length l)) as [L|L].
  - rewrite Forall_forall in F. apply F. apply nth_In. exact L.
  - rewrite nth_overflow by exact L. lra.
Qed.

Lemma noise_mat_nonneg : forall e, nonneg_noise (e_state e) (e_bodyQ e) ->
  Forall (fun x => (0 <= x)%R) (noise_mat e).
Proof.
  intros e H. unfold noise_mat. destruct (is_root e); [|exact H].
  rewrite Forall_forall. intros x Hx. apply in_map_iff in Hx. destruct Hx as [y [<- _]]. apply sqrt_pos.
Qed.

(** A refresh followed by setting a covariance of the right size is
    well-formed. *)
Lemma pre_wf : forall e e' c, pre e -> RefreshIndices e = OK e' ->
  nr c = e_size e -> nc c = e_size e -> wf (with_cov e' c).
Proof.
  intros e e' c P E Hr Hc.
  destruct (Refresh_pre e P) as [e2 [E2 [P2 [I2 [S2 [C2 [Z2 [_ [_ [_ [D2 _]]]]]]]]]]].
  rewrite E in E2. injection E2 as <-.
  destruct P2. constructor; cbn [e_state e_cov e_size e_Q with_cov]; try congruence; auto.
  - constructor; auto.
  - destruct D2. congruence.
  - destruct D2 as [_ [D _]]. congruence.
  - rewrite Z2. eapply isdiag_nonneg; eauto. apply noise_mat_nonneg. apply P.
Qed.

(** *** The index fields agree with the layout specification *)
Lemma nth_error_mid : forall A (p q r : list A) c k, length p = c -> k < length q ->
  nth_error (p ++ q ++ r) (c + k) = nth_error q k.
Proof.
  intros A p q r c k <- Hk. rewrite nth_error_app2 by lia.
  replace (length p + k - length p) with k by lia. apply nth_error_app1. exact Hk.
Qed.

Lemma six_nth : forall f k, k < 6 -> nth_error (six f) k = Some (f k).
Proof. intros f k H. do 6 (destruct k; [reflexivity|]). lia. Qed.
Lemma three_nth : forall f k, k < 3 -> nth_error (three f) k = Some (f k).
Proof. intros f k H. do 3 (destruct k; [reflexivity|]). lia. Qed.

Lemma imus_index : forall m cur p r, length p = cur -> imus_at m cur ->
  forall id x, In (id, x) m ->
  (i_ext x = true -> forall k, k < 6 ->
     nth_error (p ++ flat_map imu_labels m ++ r) (i_index_ext x + k) = Some (LImuExt id k)) /\
  (i_int x = true -> forall k, k < 6 ->
     nth_error (p ++ flat_map imu_labels m ++ r) (i_index_int x + k) = Some (LImuInt id k)) /\
  (i_ext x = true -> i_index x = i_index_ext x) /\
  (i_ext x = false -> i_int x = true -> i_index x = i_index_int x).
Proof.
  induction m as [|[k0 s] t IH]; intros cur p r Hp H id x Hin; [destruct Hin|].
  cbn [imus_at] in H. destruct H as [H1 [H2 [H3 H4]]].
  destruct Hin as [E|Hin].
  - injection E as -> ->. cbn [flat_map].
    assert (HL : imu_labels (id, x) = (if i_ext x then six (LImuExt id) else []) ++
      (if i_int x then six (LImuInt id) else [])) by reflexivity. rewrite HL.
    split; [|split; [|split]].
    + intros Ee k Hk. rewrite H1 by auto. rewrite Ee.
      rewrite <- !app_assoc. rewrite nth_error_mid by (auto; cbn; lia). apply six_nth; auto.
    + intros Ei k Hk. rewrite H2 by auto. rewrite Ei. destruct (i_ext x).
      * rewrite <- !app_assoc. rewrite app_assoc.
        rewrite nth_error_mid by (rewrite ?app_length; cbn; lia). apply six_nth; auto.
      * cbn [app]. rewrite <- !app_assoc. rewrite Nat.add_0_r.
        rewrite nth_error_mid by (auto; cbn; lia). apply six_nth; auto.
    + intros Ee. rewrite H1, H3 by (rewrite ?Ee; auto). reflexivity.
    + intros Ee Ei. rewrite H2, H3 by (rewrite ?Ee, ?Ei; auto). rewrite Ee. lia.
  - cbn [flat_map]. rewrite <- app_assoc, app_assoc.
    apply (IH (cur + imu_len s)); auto. rewrite app_length, imu_labels_length. cbn. lia.
Qed.

Lemma gpss_index : forall m cur p r, length p = cur -> gpss_at m cur ->
  forall id x, In (id, x) m -> g_ext x = true -> forall k, k < 3 ->
  nth_error (p ++ flat_map gps_labels m ++ r) (g_index x + k) = Some (LGps id k).
Proof.
  induction m as [|[k0 s] t IH]; intros cur p r Hp H id x Hin Ex k Hk; [destruct Hin|].
  cbn [gpss_at] in H. destruct H as [H1 H4]. destruct Hin as [E|Hin].
  - injection E as -> ->. cbn [flat_map].
    assert (HL : gps_labels (id, x) = if g_ext x then three (LGps id) else []) by reflexivity. rewrite HL.
    rewrite H1 by auto. rewrite Ex. rewrite <- !app_assoc.
    rewrite nth_error_mid by (auto; cbn; lia). apply three_nth; auto.
  - cbn [flat_map]. rewrite <- app_assoc, app_assoc.
    apply (IH (cur + gps_len s)); auto. rewrite app_length, gps_labels_length. cbn. lia.
Qed.

Lemma cams_index : forall m cur p r, length p = cur -> cams_at m cur ->
  forall id x, In (id, x) m -> c_ext x = true -> forall k, k < 6 ->
  nth_error (p ++ flat_map cam_labels m ++ r) (c_index x + k) = Some (LCam id k).
Proof.
  induction m as [|[k0 s] t IH]; intros cur p r Hp H id x Hin Ex k Hk; [destruct Hin|].
  cbn [cams_at] in H. destruct H as [H1 H4]. destruct Hin as [E|Hin].
  - injection E as -> ->. cbn [flat_map].
    assert (HL : cam_labels (id, x) = if c_ext x then six (LCam id) else []) by reflexivity. rewrite HL.
    rewrite H1 by auto. rewrite Ex. rewrite <- !app_assoc.
    rewrite nth_error_mid by (auto; cbn; lia). apply six_nth; auto.
  - cbn [flat_map]. rewrite <- app_assoc, app_assoc.
    apply (IH (cur + cam_len s)); auto. rewrite app_length, cam_labels_length. cbn. lia.
Qed.

Lemma fids_index : forall m cur p r, length p = cur -> fids_at m cur ->
  forall id x, In (id, x) m -> f_ext x = true -> forall k, k < 6 ->
  nth_error (p ++ flat_map fid_labels m ++ r) (f_index x + k) = Some (LFid id k).
Proof.
  induction m as [|[k0 s] t IH]; intros cur p r Hp H id x Hin Ex k Hk; [destruct Hin|].
  cbn [fids_at] in H. destruct H as [H1 H4]. destruct Hin as [E|Hin].
  - injection E as -> ->. cbn [flat_map].
    assert (HL : fid_labels (id, x) = if f_ext x then six (LFid id) else []) by reflexivity. rewrite HL.
    rewrite H1 by auto. rewrite Ex. rewrite <- !app_assoc.
    rewrite nth_error_mid by (auto; cbn; lia). apply six_nth; auto.
  - cbn [flat_map]. rewrite <- app_assoc, app_assoc.
    apply (IH (cur + fid_len s)); auto. rewrite app_length, fid_labels_length. cbn. lia.
Qed.

Lemma aug_list_nth : forall l cur pos a, nth_error (ix_augv l cur) pos = Some a -> a_index a = cur + 6 * pos.
Proof.
  induction l as [|s t IH]; intros cur pos a H; destruct pos; cbn [ix_augv nth_error] in H; try discriminate.
  - injection H as <-. cbn. lia.
  - apply IH in H. lia.
Qed.

Lemma aug_labels_nth : forall key n pos k p0, pos < n -> k < 6 ->
  nth_error (flat_map (fun q => six (LAug key q)) (seq p0 n)) (6 * pos + k) = Some (LAug key (p0 + pos) k).
Proof.
  induction n as [|n IH]; intros pos k p0 Hp Hk; [lia|].
  cbn [seq flat_map]. destruct pos.
  - cbn [Nat.mul Nat.add]. rewrite nth_error_app1 by (cbn; lia). rewrite Nat.add_0_r. apply six_nth; auto.
  - replace (6 * S pos + k) with (6 + (6 * pos + k)) by lia.
    rewrite nth_error_app2 by (cbn; lia). change (length (six (LAug key p0))) with 6.
    replace (6 + (6 * pos + k) - 6) with (6 * pos + k) by lia.
    rewrite IH by lia. f_equal. f_equal. lia.
Qed.

Lemma augs_index : forall m cur p r, length p = cur -> ix_augs m cur = m ->
  forall key l pos a, In (key, l) m -> nth_error l pos = Some a -> forall k, k < 6 ->
  nth_error (p ++ flat_map aug_labels m ++ r) (a_index a + k) = Some (LAug key pos k).
Proof.
  induction m as [|[k0 s] t IH]; intros cur p r Hp H key l pos a Hin Hnth k Hk; [destruct Hin|].
  cbn [ix_augs] in H. injection H as H1 H2. destruct Hin as [E|Hin].
  - injection E as -> ->. cbn [flat_map].
    assert (Ha : a_index a = cur + 6 * pos) by (rewrite <- H1 in Hnth; eapply aug_list_nth; eauto).
    assert (Hlen : pos < length l) by (apply nth_error_Some; congruence).
    rewrite Ha, <- Nat.add_assoc. rewrite <- !app_assoc.
    rewrite nth_error_mid; auto.
    + unfold aug_labels. cbn [fst snd]. rewrite aug_labels_nth by auto. reflexivity.
    + rewrite aug_labels_length. unfold aug_len. cbn [snd]. lia.
  - cbn [flat_map]. rewrite <- app_assoc, app_assoc.
    apply (IH (cur + 6 * length s)) with (l := l); auto.
    rewrite app_length, aug_labels_length. unfold aug_len. cbn [snd]. lia.
Qed.

Lemma indexed_correct : forall s, indexed s -> index_fields_correct s.
Proof.
  intros s [H0 [H1 [H2 [H3 [H4 H5]]]]].
  assert (LI : length (flat_map imu_labels (s_imu s)) = sum_len imu_len (s_imu s))
    by (apply flat_map_length_sum; apply imu_labels_length).
  assert (LG : length (flat_map gps_labels (s_gps s)) = sum_len gps_len (s_gps s))
    by (apply flat_map_length_sum; apply gps_labels_length).
  assert (LC : length (flat_map cam_labels (s_cam s)) = sum_len cam_len (s_cam s))
    by (apply flat_map_length_sum; apply cam_labels_length).
  assert (LF : length (flat_map fid_labels (s_fid s)) = sum_len fid_len (s_fid s))
    by (apply flat_map_length_sum; apply fid_labels_length).
  unfold index_fields_correct. split; [exact H0|]. unfold layout.
  split; [|split; [|split; [|split]]].
  - intros id x Hin. eapply imus_index; eauto.
  - intros id x Hin Ex k Hk. rewrite app_assoc. apply (gpss_index _ (start_gps s)); auto.
    rewrite app_length, map_length, seq_length, LI. reflexivity.
  - intros id x Hin Ex k Hk. rewrite app_assoc. rewrite (app_assoc (_ ++ _)).
    apply (cams_index _ (start_cam s)); auto. rewrite !app_length, map_length, seq_length, LI, LG. reflexivity.
  - intros id x Hin Ex k Hk. rewrite app_assoc. rewrite (app_assoc (_ ++ _)). rewrite (app_assoc (_ ++ _)).
    apply (fids_index _ (start_fid s)); auto. rewrite !app_length, map_length, seq_length, LI, LG, LC. reflexivity.
  - intros key l pos a Hin Hn k Hk. rewrite app_assoc. rewrite (app_assoc (_ ++ _)).
    rewrite (app_assoc (_ ++ _)). rewrite (app_assoc (_ ++ _)).
    rewrite <- (app_nil_r (flat_map aug_labels (s_aug s))).
    apply (augs_index _ (start_aug s)) with (l := l); auto. rewrite !app_length, map_length, seq_length, LI, LG, LC, LF. reflexivity.
Qed.
