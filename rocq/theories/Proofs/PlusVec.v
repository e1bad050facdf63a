(** [State += vector] applies each segment to the estimate that owns it. *)
From Coq Require Import Reals List Arith Bool Lia Lra.
From Verif Require Import Base.Res Base.Mat Base.RDec Base.LinAlg Base.Geom Base.AMap Base.RMat
  Model.TypeHelper Model.Types Model.Ekf Spec.Layout Spec.History Spec.Correct
  Proofs.Refresh Proofs.Wf Proofs.Register.
Import ListNotations.
Open Scope nat_scope.

Lemma seg3_ok : forall r i, nc r = 1 -> i + 3 <= nr r -> seg3 r i = OK (segv r i).
Proof.
  intros r i Hc Hr. unfold seg3. rewrite block_ok by lia. cbn [bind]. unfold segv. cbn [ent].
  now rewrite !Nat.add_0_r.
Qed.

Ltac pair_fin := rewrite ?Nat.add_0_r; first [reflexivity | apply f_equal; apply f_equal2; [reflexivity|lia]].

Lemma imus_plus_ok : forall m r idx, nc r = 1 -> idx + sum_len imu_len m <= nr r -> imus_at m idx ->
  imus_plus_vec m r idx = OK (map (on_snd (correct_imu r)) m, idx + sum_len imu_len m).
Proof.
  induction m as [|[k s] t IH]; intros r idx Hc Hr H; cbn [imus_plus_vec map].
  - unfold sum_len. cbn. now rewrite Nat.add_0_r.
  - cbn [imus_at] in H. destruct H as [H1 [H2 [_ H4]]]. rewrite sum_len_cons in *.
    assert (HL : imu_len s = (if i_ext s then 6 else 0) + (if i_int s then 6 else 0)) by reflexivity.
    unfold on_snd at 1. cbn [fst snd]. unfold correct_imu at 1.
    change g_imu_extrinsic_state_size with 6. change g_imu_intrinsic_state_size with 6.
    assert (IH' := IH r (idx + imu_len s) Hc ltac:(lia) H4). clear IH H4.
    destruct (i_ext s) eqn:E1; destruct (i_int s) eqn:E2; rewrite ?H1, ?H2 by reflexivity;
      cbn [i_int imu_with_pose i_index_int]; rewrite ?E2, ?H2 by reflexivity;
      rewrite HL, ?Nat.add_0_r in *; cbn [Nat.add] in *;
      cbn [bind]; repeat (rewrite seg3_ok by lia; cbn [bind]); cbn [bind i_acc_bias i_omg_bias imu_with_pose].
    + replace (idx + 6 + 6) with (idx + 12) by lia. rewrite IH'. cbn [bind]. pair_fin.
    + rewrite IH'. cbn [bind]. pair_fin.
    + rewrite IH'. cbn [bind]. pair_fin.
    + rewrite IH'. cbn [bind]. pair_fin.
Qed.

Lemma gpss_plus_ok : forall m r idx, nc r = 1 -> idx + sum_len gps_len m <= nr r -> gpss_at m idx ->
  gpss_plus_vec m r idx = OK (map (on_snd (correct_gps r)) m, idx + sum_len gps_len m).
Proof.
  induction m as [|[k s] t IH]; intros r idx Hc Hr H; cbn [gpss_plus_vec map].
  - unfold sum_len. cbn. now rewrite Nat.add_0_r.
  - cbn [gpss_at] in H. destruct H as [H1 H4]. rewrite sum_len_cons in *.
    assert (HL : gps_len s = (if g_ext s then 3 else 0)) by reflexivity.
    unfold on_snd at 1. cbn [fst snd]. unfold correct_gps at 1.
    change g_gps_extrinsic_state_size with 3.
    assert (IH' := IH r (idx + gps_len s) Hc ltac:(lia) H4). clear IH H4.
    destruct (g_ext s) eqn:E1; rewrite ?H1 by reflexivity; rewrite HL, ?Nat.add_0_r in *; cbn [Nat.add] in *;
      repeat (rewrite seg3_ok by lia; cbn [bind]); cbn [bind]; rewrite IH'; cbn [bind]; pair_fin.
Qed.

Lemma cams_plus_ok : forall m r idx, nc r = 1 -> idx + sum_len cam_len m <= nr r -> cams_at m idx ->
  cams_plus_vec m r idx = OK (map (on_snd (correct_cam r)) m, idx + sum_len cam_len m).
Proof.
  induction m as [|[k s] t IH]; intros r idx Hc Hr H; cbn [cams_plus_vec map].
  - unfold sum_len. cbn. now rewrite Nat.add_0_r.
  - cbn [cams_at] in H. destruct H as [H1 H4]. rewrite sum_len_cons in *.
    assert (HL : cam_len s = (if c_ext s then 6 else 0)) by reflexivity.
    unfold on_snd at 1. cbn [fst snd]. unfold correct_cam at 1.
    change g_cam_extrinsic_state_size with 6.
    assert (IH' := IH r (idx + cam_len s) Hc ltac:(lia) H4). clear IH H4.
    destruct (c_ext s) eqn:E1; rewrite ?H1 by reflexivity; rewrite HL, ?Nat.add_0_r in *; cbn [Nat.add] in *;
      repeat (rewrite seg3_ok by lia; cbn [bind]); cbn [bind]; rewrite IH'; cbn [bind]; pair_fin.
Qed.

Lemma fids_plus_ok : forall m r idx, nc r = 1 -> idx + sum_len fid_len m <= nr r -> fids_at m idx ->
  fids_plus_vec m r idx = OK (map (on_snd (correct_fid r)) m, idx + sum_len fid_len m).
Proof.
  induction m as [|[k s] t IH]; intros r idx Hc Hr H; cbn [fids_plus_vec map].
  - unfold sum_len. cbn. now rewrite Nat.add_0_r.
  - cbn [fids_at] in H. destruct H as [H1 H4]. rewrite sum_len_cons in *.
    assert (HL : fid_len s = (if f_ext s then 6 else 0)) by reflexivity.
    unfold on_snd at 1. cbn [fst snd]. unfold correct_fid at 1.
    change g_fid_extrinsic_state_size with 6.
    assert (IH' := IH r (idx + fid_len s) Hc ltac:(lia) H4). clear IH H4.
    destruct (f_ext s) eqn:E1; rewrite ?H1 by reflexivity; rewrite HL, ?Nat.add_0_r in *; cbn [Nat.add] in *;
      repeat (rewrite seg3_ok by lia; cbn [bind]); cbn [bind]; rewrite IH'; cbn [bind]; pair_fin.
Qed.

Lemma augv_plus_ok : forall l r idx, nc r = 1 -> idx + aug_len l <= nr r -> ix_augv l idx = l ->
  augv_plus_vec l r idx = OK (map (correct_aug r) l, idx + aug_len l).
Proof.
  unfold aug_len. induction l as [|s t IH]; intros r idx Hc Hr H; cbn [augv_plus_vec map length] in *.
  - now rewrite Nat.mul_0_r, Nat.add_0_r.
  - cbn [ix_augv] in H. injection H as H1 H2.
    assert (Hi : a_index s = idx) by (rewrite <- H1; reflexivity).
    unfold correct_aug at 1. rewrite Hi, Nat.add_0_r.
    repeat (rewrite seg3_ok by lia; cbn [bind]). change g_aug_state_size with 6.
    rewrite IH by (auto; lia). cbn [bind]. f_equal. f_equal. lia.
Qed.

Lemma augs_plus_ok : forall m r idx, nc r = 1 -> idx + sum_len aug_len m <= nr r -> ix_augs m idx = m ->
  augs_plus_vec m r idx = OK (map (on_snd (map (correct_aug r))) m, idx + sum_len aug_len m).
Proof.
  induction m as [|[k l] t IH]; intros r idx Hc Hr H; cbn [augs_plus_vec map].
  - unfold sum_len. cbn. now rewrite Nat.add_0_r.
  - cbn [ix_augs] in H. injection H as H1 H2. rewrite sum_len_cons in *.
    rewrite augv_plus_ok by (auto; lia). cbn [bind].
    change (idx + aug_len l) with (idx + 6 * length l) in *.
    rewrite IH by (auto; unfold aug_len in Hr at 1; lia). cbn [bind].
    unfold on_snd at 2. cbn [fst snd]. f_equal. f_equal. unfold aug_len at 2. lia.
Qed.

Lemma state_plus_ok : forall s r, indexed s -> nc r = 1 -> tot s <= nr r ->
  state_plus_vec s r = OK (correct r s).
Proof.
  intros s r [_ [H1 [H2 [H3 [H4 H5]]]]] Hc Hr. unfold state_plus_vec.
  change g_body_state_size with 18.
  assert (Ht : tot s = 18 + sum_len imu_len (s_imu s) + sum_len gps_len (s_gps s) + sum_len cam_len (s_cam s)
     + sum_len fid_len (s_fid s) + sum_len aug_len (s_aug s)) by reflexivity.
  rewrite block_ok by lia. cbn [bind]. unfold body_plus_vec.
  repeat (rewrite seg3_ok by (cbn [nr nc]; lia); cbn [bind]).
  rewrite imus_plus_ok by (auto; lia). cbn [bind].
  rewrite gpss_plus_ok by (auto; lia). cbn [bind].
  rewrite cams_plus_ok by (auto; lia). cbn [bind].
  rewrite fids_plus_ok by (auto; lia). cbn [bind].
  rewrite augs_plus_ok by (auto; lia). reflexivity.
Qed.

(** *** The correction keeps keys, flags, sizes, indices and noise rates *)
Lemma correct_imu_frame : forall r s, let s' := correct_imu r s in
  i_ext s' = i_ext s /\ i_int s' = i_int s /\ i_size s' = i_size s /\ i_index s' = i_index s /\
  i_index_ext s' = i_index_ext s /\ i_index_int s' = i_index_int s /\
  forall k, imu_noise (k, s') = imu_noise (k, s).
Proof.
  intros r s. unfold correct_imu. destruct s as [? ? ? ? ? ? ? ? ? ? ? ? [|] [|]]; cbn; repeat split.
Qed.
Lemma correct_gps_frame : forall r s, let s' := correct_gps r s in
  g_ext s' = g_ext s /\ g_size s' = g_size s /\ g_index s' = g_index s /\
  forall k, gps_noise (k, s') = gps_noise (k, s).
Proof.
  intros r s. assert (E : g_ext s = true \/ g_ext s = false) by (destruct (g_ext s); auto).
  unfold correct_gps, gps_noise. destruct E as [E|E]; rewrite E; cbn; rewrite ?E; repeat split.
Qed.
Lemma correct_cam_frame : forall r s, let s' := correct_cam r s in
  c_ext s' = c_ext s /\ c_size s' = c_size s /\ c_index s' = c_index s /\
  forall k, cam_noise (k, s') = cam_noise (k, s).
Proof.
  intros r s. assert (E : c_ext s = true \/ c_ext s = false) by (destruct (c_ext s); auto).
  unfold correct_cam, cam_noise. destruct E as [E|E]; rewrite E; cbn; rewrite ?E; repeat split.
Qed.
Lemma correct_fid_frame : forall r s, let s' := correct_fid r s in
  f_ext s' = f_ext s /\ f_size s' = f_size s /\ f_index s' = f_index s /\
  forall k, fid_noise (k, s') = fid_noise (k, s).
Proof.
  intros r s. assert (E : f_ext s = true \/ f_ext s = false) by (destruct (f_ext s); auto).
  unfold correct_fid, fid_noise. destruct E as [E|E]; rewrite E; cbn; rewrite ?E; repeat split.
Qed.

Lemma map_on_snd : forall A (f : A -> A) k v t, map (on_snd f) ((k, v) :: t) = (k, f v) :: map (on_snd f) t.
Proof. reflexivity. Qed.

Lemma keys_on_snd : forall A (f : A -> A) m, keys (map (on_snd f) m) = keys m.
Proof. intros. unfold keys. rewrite map_map. apply map_ext. intros [k v]; reflexivity. Qed.

Lemma sum_len_on_snd : forall A (g : A -> nat) (f : A -> A) m, (forall x, g (f x) = g x) ->
  sum_len g (map (on_snd f) m) = sum_len g m.
Proof.
  intros A g f m H. induction m as [|[k v] t IH]; [reflexivity|]. rewrite map_on_snd.
  rewrite !sum_len_cons, H, IH. reflexivity.
Qed.

Lemma imu_len_correct : forall r s, imu_len (correct_imu r s) = imu_len s.
Proof. intros. unfold imu_len. destruct (correct_imu_frame r s) as [-> [-> _]]. reflexivity. Qed.
Lemma gps_len_correct : forall r s, gps_len (correct_gps r s) = gps_len s.
Proof. intros. unfold gps_len. destruct (correct_gps_frame r s) as [-> _]. reflexivity. Qed.
Lemma cam_len_correct : forall r s, cam_len (correct_cam r s) = cam_len s.
Proof. intros. unfold cam_len. destruct (correct_cam_frame r s) as [-> _]. reflexivity. Qed.
Lemma fid_len_correct : forall r s, fid_len (correct_fid r s) = fid_len s.
Proof. intros. unfold fid_len. destruct (correct_fid_frame r s) as [-> _]. reflexivity. Qed.
Lemma aug_len_correct : forall r l, aug_len (map (correct_aug r) l) = aug_len l.
Proof. intros. unfold aug_len. now rewrite map_length. Qed.

Lemma correct_starts : forall r s,
  start_gps (correct r s) = start_gps s /\ start_cam (correct r s) = start_cam s /\
  start_fid (correct r s) = start_fid s /\ start_aug (correct r s) = start_aug s /\
  tot (correct r s) = tot s /\
  sum_len imu_len (s_imu (correct r s)) = sum_len imu_len (s_imu s) /\
  sum_len gps_len (s_gps (correct r s)) = sum_len gps_len (s_gps s) /\
  sum_len cam_len (s_cam (correct r s)) = sum_len cam_len (s_cam s) /\
  sum_len fid_len (s_fid (correct r s)) = sum_len fid_len (s_fid s) /\
  sum_len aug_len (s_aug (correct r s)) = sum_len aug_len (s_aug s).
Proof.
  intros r s.
  assert (H1 : sum_len imu_len (s_imu (correct r s)) = sum_len imu_len (s_imu s))
    by (apply sum_len_on_snd; apply imu_len_correct).
  assert (H2 : sum_len gps_len (s_gps (correct r s)) = sum_len gps_len (s_gps s))
    by (apply sum_len_on_snd; apply gps_len_correct).
  assert (H3 : sum_len cam_len (s_cam (correct r s)) = sum_len cam_len (s_cam s))
    by (apply sum_len_on_snd; apply cam_len_correct).
  assert (H4 : sum_len fid_len (s_fid (correct r s)) = sum_len fid_len (s_fid s))
    by (apply sum_len_on_snd; apply fid_len_correct).
  assert (H5 : sum_len aug_len (s_aug (correct r s)) = sum_len aug_len (s_aug s))
    by (apply sum_len_on_snd; apply aug_len_correct).
  unfold tot, start_aug, start_fid, start_cam, start_gps. rewrite H1, H2, H3, H4, H5. repeat split.
Qed.

Lemma flat_map_on_snd : forall A B (f : nat * A -> list B) (g : A -> A) m,
  (forall k x, f (k, g x) = f (k, x)) -> flat_map f (map (on_snd g) m) = flat_map f m.
Proof.
  intros A B f g m H. induction m as [|[k x] t IH]; [reflexivity|]. rewrite map_on_snd.
  cbn [flat_map]. now rewrite H, IH.
Qed.

Lemma correct_noise : forall r s q, noise_list (correct r s) q = noise_list s q.
Proof.
  intros r s q. unfold noise_list, correct. cbn [s_imu s_gps s_cam s_fid].
  rewrite !flat_map_on_snd; [reflexivity|..]; intros k x.
  - apply correct_fid_frame.
  - apply correct_cam_frame.
  - apply correct_gps_frame.
  - apply correct_imu_frame.
Qed.

Lemma correct_sorted : forall r s, sorted_state s -> sorted_state (correct r s).
Proof.
  intros r s H. unfold sorted_state, sorted, correct in *. cbn [s_imu s_gps s_cam s_fid s_aug].
  rewrite !keys_on_snd. exact H.
Qed.

Lemma Forall_on_snd : forall A (P Q : nat * A -> Prop) f m, (forall x, P x -> Q (on_snd f x)) ->
  Forall P m -> Forall Q (map (on_snd f) m).
Proof.
  intros A P Q f m H F. induction F; cbn [map]; constructor; auto.
Qed.

Lemma correct_sizes : forall r s, sizes_ok s -> sizes_ok (correct r s).
Proof.
  intros r s [H1 [H2 [H3 H4]]]. unfold sizes_ok, correct. cbn [s_imu s_gps s_cam s_fid].
  split; [|split; [|split]]; (eapply Forall_on_snd; [|eassumption]); intros [k x]; unfold on_snd; cbn [fst snd]; intros E.
  - rewrite imu_len_correct. rewrite <- E. apply correct_imu_frame.
  - rewrite gps_len_correct. rewrite <- E. apply correct_gps_frame.
  - rewrite cam_len_correct. rewrite <- E. apply correct_cam_frame.
  - rewrite fid_len_correct. rewrite <- E. apply correct_fid_frame.
Qed.

Lemma correct_imus_at : forall r m c, imus_at m c -> imus_at (map (on_snd (correct_imu r)) m) c.
Proof.
  induction m as [|[k s] t IH]; intros c H; [exact I|]. rewrite map_on_snd. cbn [imus_at] in *.
  destruct (correct_imu_frame r s) as [E1 [E2 [E3 [E4 [E5 [E6 _]]]]]].
  rewrite E1, E2, E4, E5, E6, imu_len_correct. destruct H as [H1 [H2 [H3 H4]]]. auto.
Qed.
Lemma correct_gpss_at : forall r m c, gpss_at m c -> gpss_at (map (on_snd (correct_gps r)) m) c.
Proof.
  induction m as [|[k s] t IH]; intros c H; [exact I|]. rewrite map_on_snd. cbn [gpss_at] in *.
  destruct (correct_gps_frame r s) as [E1 [E2 [E3 _]]].
  rewrite E1, E3, gps_len_correct. destruct H as [H1 H2]. auto.
Qed.
Lemma correct_cams_at : forall r m c, cams_at m c -> cams_at (map (on_snd (correct_cam r)) m) c.
Proof.
  induction m as [|[k s] t IH]; intros c H; [exact I|]. rewrite map_on_snd. cbn [cams_at] in *.
  destruct (correct_cam_frame r s) as [E1 [E2 [E3 _]]].
  rewrite E1, E3, cam_len_correct. destruct H as [H1 H2]. auto.
Qed.
Lemma correct_fids_at : forall r m c, fids_at m c -> fids_at (map (on_snd (correct_fid r)) m) c.
Proof.
  induction m as [|[k s] t IH]; intros c H; [exact I|]. rewrite map_on_snd. cbn [fids_at] in *.
  destruct (correct_fid_frame r s) as [E1 [E2 [E3 _]]].
  rewrite E1, E3, fid_len_correct. destruct H as [H1 H2]. auto.
Qed.
Lemma correct_augv_ix : forall r l c, ix_augv l c = l -> ix_augv (map (correct_aug r) l) c = map (correct_aug r) l.
Proof.
  induction l as [|a t IH]; intros c H; [reflexivity|]. cbn [map ix_augv] in *. injection H as H1 H2.
  rewrite IH by auto. f_equal. rewrite <- H1. reflexivity.
Qed.
Lemma correct_augs_ix : forall r m c, ix_augs m c = m ->
  ix_augs (map (on_snd (map (correct_aug r))) m) c = map (on_snd (map (correct_aug r))) m.
Proof.
  induction m as [|[k l] t IH]; intros c H; [reflexivity|]. rewrite map_on_snd. cbn [ix_augs] in *.
  injection H as H1 H2. rewrite map_length, IH by auto. rewrite correct_augv_ix by auto. reflexivity.
Qed.

Lemma correct_indexed : forall r s, indexed s -> indexed (correct r s).
Proof.
  intros r s [H0 [H1 [H2 [H3 [H4 H5]]]]].
  destruct (correct_starts r s) as [E1 [E2 [E3 [E4 _]]]].
  unfold indexed. rewrite E1, E2, E3, E4. cbn [correct s_body s_imu s_gps s_cam s_fid s_aug].
  split; [exact H0|]. split; [apply correct_imus_at; auto|]. split; [apply correct_gpss_at; auto|].
  split; [apply correct_cams_at; auto|]. split; [apply correct_fids_at; auto|]. apply correct_augs_ix; auto.
Qed.

Lemma mfind_on_snd : forall A (f : A -> A) k m,
  mfind k (map (on_snd f) m) = match mfind k m with Some x => Some (f x) | None => None end.
Proof.
  induction m as [|[k' v] t IH]; [reflexivity|]. rewrite map_on_snd. cbn [mfind].
  destruct (Nat.eqb k k'); [reflexivity|exact IH].
Qed.

Lemma correct_wf : forall e r c, wf e -> nr c = e_size e -> nc c = e_size e ->
  wf (with_cov (with_state e (correct r (e_state e))) c).
Proof.
  intros e r c [P W2 W3 W4 W5 W6 W7] Hr Hc.
  destruct (correct_starts r (e_state e)) as [_ [_ [_ [_ [T [T1 [T2 [T3 [T4 T5]]]]]]]]].
  constructor; ekf_cbn; auto.
  - destruct P. constructor; ekf_cbn; auto; try congruence.
    + apply correct_sorted; auto.
    + apply correct_sizes; auto.
    + unfold nonneg_noise. rewrite correct_noise. auto.
    + intros Ht Hne. apply pre_prev; auto. intro N. apply Hne. unfold aug_at, mget in *. ekf_cbn.
      cbn [correct s_aug]. rewrite mfind_on_snd. destruct (mfind 0 (s_aug (e_state e))); [|reflexivity].
      rewrite N. reflexivity.
  - apply correct_indexed; auto.
Qed.

Lemma correct_layout : forall r s, layout (correct r s) = layout s.
Proof.
  intros r s. unfold layout, correct. cbn [s_imu s_gps s_cam s_fid s_aug].
  rewrite !flat_map_on_snd; [reflexivity|..]; intros k x.
  - unfold aug_labels. cbn [fst snd]. now rewrite map_length.
  - unfold fid_labels. cbn [fst snd]. destruct (correct_fid_frame r x) as [-> _]. reflexivity.
  - unfold cam_labels. cbn [fst snd]. destruct (correct_cam_frame r x) as [-> _]. reflexivity.
  - unfold gps_labels. cbn [fst snd]. destruct (correct_gps_frame r x) as [-> _]. reflexivity.
  - unfold imu_labels. cbn [fst snd]. destruct (correct_imu_frame r x) as [-> [-> _]]. reflexivity.
Qed.
