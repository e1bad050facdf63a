(** Corrections by label, and setting the state from a vector. *)
From Coq Require Import Reals List Arith Bool Lia Lra.
From Verif Require Import Base.Res Base.Mat Base.RDec Base.LinAlg Base.Geom Base.AMap Base.RMat
  Model.TypeHelper Model.Types Model.Ekf Model.Ops Spec.Layout Spec.History Spec.Contract Spec.Correct Spec.Vector
  Proofs.Refresh Proofs.Wf Proofs.Register Proofs.PlusVec Proofs.Invariant Proofs.Rotations Proofs.Named Proofs.Sizes
  Proofs.Vector Proofs.Finals.
Import ListNotations.
Open Scope nat_scope.

Lemma find_map : forall A (f : A -> A) m k, mfind k (map (on_snd f) m) = option_map f (mfind k m).
Proof.
  intros A f m k. induction m as [|[j x] t IH]; [reflexivity|]. cbn [map]. unfold on_snd at 1. cbn [fst snd mfind].
  destruct (k =? j); [reflexivity|exact IH].
Qed.
Lemma vget_add : forall a b k, vget (vadd a b) k = (vget a k + vget b k)%R.
Proof. intros a b [|[|k]]; reflexivity. Qed.
Lemma vget_segv : forall r i k, k < 3 -> vget (segv r i) k = ent r (i + k) 0.
Proof. intros r i [|[|[|k]]] H; try lia; cbn; rewrite ?Nat.add_0_r; reflexivity. Qed.

Lemma nth_unique : forall (l : list label) i j a, NoDup l -> nth_error l i = Some a -> nth_error l j = Some a -> i = j.
Proof.
  intros l i j a H Hi Hj. rewrite NoDup_nth_error in H. apply H; [|congruence]. apply nth_error_Some. congruence.
Qed.

(** A pose whose first scalar is at [ix]. *)
Lemma pose_move : forall p q dp dq k, (k <? 3) = true ->
  pose_scalar (vadd p dp) (qmul q dq) k = (pose_scalar p q k + vget dp k)%R.
Proof. intros p q dp dq k H. unfold pose_scalar. rewrite H. apply vget_add. Qed.
Lemma pair_move : forall a b da db k, pair_scalar (vadd a da) (vadd b db) k = (pair_scalar a b k + pair_scalar da db k)%R.
Proof. intros. unfold pair_scalar. destruct (k <? 3); apply vget_add. Qed.
Lemma pair_segv : forall r i k, k < 6 -> pair_scalar (segv r i) (segv r (i + 3)) k = ent r (i + k) 0.
Proof.
  intros r i k H. unfold pair_scalar. destruct (Nat.ltb_spec k 3); rewrite vget_segv by lia; [reflexivity|].
  f_equal. lia.
Qed.

Lemma layout_correct : forall r s, layout (correct r s) = layout s.
Proof.
  intros r s. unfold layout, correct. cbn [s_imu s_gps s_cam s_fid s_aug].
  assert (L : forall A (f : nat * A -> list label) (g : A -> A) m, (forall k x, f (k, g x) = f (k, x)) ->
     flat_map f (map (on_snd g) m) = flat_map f m).
  { intros A f g m H. induction m as [|[k x] t IH]; [reflexivity|]. cbn [map flat_map]. unfold on_snd at 1. cbn [fst snd].
    rewrite H, IH. reflexivity. }
  rewrite !L; [reflexivity| | | | |].
  - intros k l. unfold aug_labels. cbn [fst snd]. rewrite map_length. reflexivity.
  - intros k x. unfold fid_labels, correct_fid. cbn [fst snd]. destruct (f_ext x) eqn:E; cbn; rewrite ?E; reflexivity.
  - intros k x. unfold cam_labels, correct_cam. cbn [fst snd]. destruct (c_ext x) eqn:E; cbn; rewrite ?E; reflexivity.
  - intros k x. unfold gps_labels, correct_gps. cbn [fst snd]. destruct (g_ext x) eqn:E; cbn; rewrite ?E; reflexivity.
  - intros k x. unfold imu_labels, correct_imu. cbn [fst snd].
    destruct (i_ext x) eqn:E; cbn [i_int imu_with_pose]; destruct (i_int x) eqn:E2; cbn; rewrite ?E, ?E2; reflexivity.
Qed.

Lemma correct_scalar : forall s r i a, index_fields_correct s -> NoDup (layout s) -> sorted_state s ->
  nth_error (layout s) i = Some a -> linear a = true -> estimate (correct r s) a = (estimate s a + ent r i 0)%R.
Proof.
  intros s r i a [_ [H1 [H2 [H3 [H4 H5]]]]] ND [S1 [S2 [S3 [S4 S5]]]] Hi Hl.
  pose proof (layout_names s a (nth_error_In _ _ Hi)) as N.
  destruct a as [k|id k|id k|id k|id k|id k|key pos k]; cbn [names linear] in *.
  - assert (P : nth_error (layout s) k = Some (LBody k)).
    { unfold layout. rewrite nth_error_app1 by (rewrite map_length, seq_length; exact N).
      rewrite nth_error_map. replace (nth_error (seq 0 18) k) with (Some k); [reflexivity|].
      symmetry. rewrite (nth_error_nth' _ 0) by (rewrite seq_length; exact N). rewrite seq_nth by exact N. reflexivity. }
    rewrite (nth_unique _ _ _ _ ND Hi P). cbn [correct estimate s_body correct_body b_pos b_vel b_acc b_ang b_ang_vel b_ang_acc].
    destruct (Nat.ltb_spec k 6).
    { rewrite pair_move. f_equal. rewrite (pair_segv r 0) by lia. reflexivity. }
    destruct (Nat.ltb_spec k 12).
    { assert (K : (k - 6 <? 3) = true).
      { apply Nat.ltb_lt. apply negb_true_iff, andb_false_iff in Hl. destruct Hl as [Hl|Hl].
        - apply Nat.leb_gt in Hl. lia.
        - lia. }
      rewrite pose_move by exact K. f_equal. apply Nat.ltb_lt in K. rewrite vget_segv by lia. f_equal. lia. }
    rewrite pair_move. f_equal. rewrite (pair_segv r 12) by lia. f_equal. lia.
  - destruct N as [x [N1 [N2 N3]]]. destruct (H1 _ _ N1) as [J _]. rewrite (nth_unique _ _ _ _ ND Hi (J N2 k N3)).
    unfold estimate, correct. cbn [s_imu]. rewrite find_map, (sorted_find _ _ _ _ S1 N1). cbn [option_map].
    unfold correct_imu. rewrite N2. cbn [i_int imu_with_pose].
    destruct (i_int x); cbn [i_pos i_ang imu_with_bias imu_with_pose]; rewrite pose_move by exact Hl; f_equal;
      apply vget_segv; apply Nat.ltb_lt; exact Hl.
  - destruct N as [x [N1 [N2 N3]]]. destruct (H1 _ _ N1) as [_ [J _]]. rewrite (nth_unique _ _ _ _ ND Hi (J N2 k N3)).
    unfold estimate, correct. cbn [s_imu]. rewrite find_map, (sorted_find _ _ _ _ S1 N1). cbn [option_map].
    unfold correct_imu. destruct (i_ext x); cbn [i_int imu_with_pose]; rewrite N2; cbn [i_acc_bias i_omg_bias imu_with_bias imu_with_pose i_index_int];
      rewrite pair_move; f_equal; apply pair_segv; exact N3.
  - destruct N as [x [N1 [N2 N3]]]. rewrite (nth_unique _ _ _ _ ND Hi (H2 _ _ N1 N2 k N3)).
    unfold estimate, correct. cbn [s_gps]. rewrite find_map, (sorted_find _ _ _ _ S2 N1). cbn [option_map].
    unfold correct_gps. rewrite N2. cbn [g_pos gps_with_pos]. rewrite vget_add. f_equal. apply vget_segv. exact N3.
  - destruct N as [x [N1 [N2 N3]]]. rewrite (nth_unique _ _ _ _ ND Hi (H3 _ _ N1 N2 k N3)).
    unfold estimate, correct. cbn [s_cam]. rewrite find_map, (sorted_find _ _ _ _ S3 N1). cbn [option_map].
    unfold correct_cam. rewrite N2. cbn [c_pos c_ang cam_with_pose]. rewrite pose_move by exact Hl. f_equal. apply vget_segv.
    apply Nat.ltb_lt. exact Hl.
  - destruct N as [x [N1 [N2 N3]]]. rewrite (nth_unique _ _ _ _ ND Hi (H4 _ _ N1 N2 k N3)).
    unfold estimate, correct. cbn [s_fid]. rewrite find_map, (sorted_find _ _ _ _ S4 N1). cbn [option_map].
    unfold correct_fid. rewrite N2. cbn [f_pos f_ang fid_with_pose]. rewrite pose_move by exact Hl. f_equal. apply vget_segv.
    apply Nat.ltb_lt. exact Hl.
  - destruct N as [l [x [N1 [N2 N3]]]]. rewrite (nth_unique _ _ _ _ ND Hi (H5 _ _ _ _ N1 N2 k N3)).
    unfold estimate, correct, mget. cbn [s_aug]. rewrite find_map, (sorted_find _ _ _ _ S5 N1). cbn [option_map].
    rewrite nth_error_map, N2. cbn [option_map].
    unfold correct_aug. cbn [a_pos a_ang aug_with_pose]. rewrite pose_move by exact Hl. f_equal. apply vget_segv.
    apply Nat.ltb_lt. exact Hl.
Qed.

Lemma correct_orientation : forall s r i a q, index_fields_correct s -> NoDup (layout s) -> sorted_state s ->
  nth_error (layout s) i = Some a -> orientation s a = Some q ->
  orientation (correct r s) a = Some (qmul q (RotVecToQuat (segv r i))).
Proof.
  intros s r i a q [_ [H1 [H2 [H3 [H4 H5]]]]] ND [S1 [S2 [S3 [S4 S5]]]] Hi Hq.
  pose proof (layout_names s a (nth_error_In _ _ Hi)) as N.
  destruct a as [k|id k|id k|id k|id k|id k|key pos k]; cbn [names orientation] in *; try discriminate.
  - do 10 (destruct k as [|k]; try discriminate). injection Hq as <-.
    assert (P : nth_error (layout s) 9 = Some (LBody 9)) by reflexivity.
    rewrite (nth_unique _ _ _ _ ND Hi P). reflexivity.
  - do 4 (destruct k as [|k]; try discriminate).
    destruct N as [x [N1 [N2 N3]]]. destruct (H1 _ _ N1) as [J _]. rewrite (nth_unique _ _ _ _ ND Hi (J N2 3 N3)).
    unfold correct. cbn [s_imu]. rewrite find_map. rewrite (sorted_find _ _ _ _ S1 N1) in *. cbn [option_map] in *. injection Hq as <-.
    unfold correct_imu. rewrite N2. cbn [i_int imu_with_pose].
    destruct (i_int x); reflexivity.
  - do 4 (destruct k as [|k]; try discriminate).
    destruct N as [x [N1 [N2 N3]]]. rewrite (nth_unique _ _ _ _ ND Hi (H3 _ _ N1 N2 3 N3)).
    unfold correct. cbn [s_cam]. rewrite find_map. rewrite (sorted_find _ _ _ _ S3 N1) in *. cbn [option_map] in *. injection Hq as <-.
    unfold correct_cam. rewrite N2. reflexivity.
  - do 4 (destruct k as [|k]; try discriminate).
    destruct N as [x [N1 [N2 N3]]]. rewrite (nth_unique _ _ _ _ ND Hi (H4 _ _ N1 N2 3 N3)).
    unfold correct. cbn [s_fid]. rewrite find_map. rewrite (sorted_find _ _ _ _ S4 N1) in *. cbn [option_map] in *. injection Hq as <-.
    unfold correct_fid. rewrite N2. reflexivity.
  - do 4 (destruct k as [|k]; try discriminate).
    destruct N as [l [x [N1 [N2 N3]]]]. rewrite (nth_unique _ _ _ _ ND Hi (H5 _ _ _ _ N1 N2 3 N3)).
    unfold correct, mget in *. cbn [s_aug]. rewrite find_map. rewrite (sorted_find _ _ _ _ S5 N1) in *. cbn [option_map] in *.
    rewrite nth_error_map. rewrite N2 in *. cbn [option_map] in *. injection Hq as <-. reflexivity.
Qed.

Lemma correct_fixed : forall s r, fixed_untouched s (correct r s).
Proof.
  intros s r. unfold fixed_untouched, correct. cbn [s_imu s_gps s_cam s_fid]. repeat split.
  - intros id x H. rewrite find_map, H. cbn [option_map]. eexists. split; [reflexivity|]. unfold correct_imu. split; intros E.
    + rewrite E. destruct (i_int x); split; reflexivity.
    + destruct (i_ext x); cbn [i_int imu_with_pose]; rewrite E; split; reflexivity.
  - intros id x H E. rewrite find_map, H. cbn [option_map]. unfold correct_gps. rewrite E. reflexivity.
  - intros id x H E. rewrite find_map, H. cbn [option_map]. unfold correct_cam. rewrite E. reflexivity.
  - intros id x H E. rewrite find_map, H. cbn [option_map]. unfold correct_fid. rewrite E. reflexivity.
Qed.

Lemma plus_lands : forall e r, reachable e -> nc r = 1 -> e_size e <= nr r ->
  exists s', state_plus_vec (e_state e) r = OK s' /\ layout s' = layout (e_state e) /\
    (forall i a, nth_error (layout (e_state e)) i = Some a -> linear a = true ->
       estimate s' a = (estimate (e_state e) a + ent r i 0)%R) /\
    (forall i a q, nth_error (layout (e_state e)) i = Some a -> orientation (e_state e) a = Some q ->
       orientation s' a = Some (qmul q (RotVecToQuat (segv r i)))) /\
    fixed_untouched (e_state e) s'.
Proof.
  intros e r Hr Hc Hn. destruct (reachable_inv e Hr) as [W _]. destruct (partition_ok e Hr) as [P1 [P2 P3]].
  exists (correct r (e_state e)). split.
  { apply state_plus_ok; [apply W|exact Hc|]. rewrite <- (pre_size _ (wf_pre _ W)). exact Hn. }
  split; [apply layout_correct|]. pose proof (pre_sorted _ (wf_pre _ W)) as HS. split; [|split].
  - intros i a H1 H2. apply correct_scalar; assumption.
  - intros i a q H1 H2. apply correct_orientation; assumption.
  - apply correct_fixed.
Qed.
Lemma plus_reads : forall e r r', reachable e -> nc r = 1 -> nc r' = 1 -> e_size e <= nr r -> e_size e <= nr r' ->
  (forall i, i < e_size e -> ent r i 0 = ent r' i 0) -> state_plus_vec (e_state e) r = state_plus_vec (e_state e) r'.
Proof.
  intros e r r' Hr C1 C2 N1 N2 H. destruct (reachable_inv e Hr) as [W _]. destruct (partition_ok e Hr) as [P1 [P2 P3]].
  assert (T : tot (e_state e) = e_size e) by (symmetry; apply (pre_size _ (wf_pre _ W))).
  rewrite !state_plus_ok by (assumption || apply W || lia). f_equal. apply correct_ext; [exact P1|].
  unfold dim. rewrite P3. exact H.
Qed.

(** *** SetState *)
Lemma two_blocks : forall T r idx (K : V3 -> V3 -> res T), nc r = 1 -> idx + 6 <= nr r ->
  (let* b := block r idx 0 6 1 in let* p := seg3 b 0 in let* a := seg3 b 3 in K p a) = K (segv r idx) (segv r (idx + 3)).
Proof.
  intros T r idx K Hc Hr. rewrite block_ok by lia. cbn [bind]. rewrite seg3_ok by (cbn [nr nc]; lia). cbn [bind].
  rewrite seg3_ok by (cbn [nr nc]; lia). cbn [bind]. unfold segv. cbn [ent]. rewrite Nat.add_0_r.
  rewrite <- !Nat.add_assoc. reflexivity.
Qed.
Lemma imus_set_ok : forall m r idx, nc r = 1 -> idx + sum_len imu_len m <= nr r -> imus_at m idx ->
  imus_SetState m r idx = OK (map (on_snd (assign_imu r)) m, idx + sum_len imu_len m).
Proof.
  induction m as [|[k s] t IH]; intros r idx Hc Hr H; cbn [imus_SetState map].
  - unfold sum_len. cbn. now rewrite Nat.add_0_r.
  - cbn [imus_at] in H. destruct H as [H1 [H2 [_ H4]]]. rewrite sum_len_cons in *.
    assert (HL : imu_len s = (if i_ext s then 6 else 0) + (if i_int s then 6 else 0)) by reflexivity.
    unfold on_snd at 1. cbn [fst snd]. unfold assign_imu at 1.
    change g_imu_extrinsic_state_size with 6. change g_imu_intrinsic_state_size with 6.
    assert (IH' := IH r (idx + imu_len s) Hc ltac:(lia) H4). clear IH H4.
    destruct (i_ext s) eqn:E1; destruct (i_int s) eqn:E2; rewrite ?H1, ?H2 by reflexivity;
      cbn [i_int imu_with_pose i_index_int]; rewrite ?E2, ?H2 by reflexivity;
      rewrite HL, ?Nat.add_0_r in *; cbn [Nat.add] in *;
      cbn [bind]; rewrite ?two_blocks by lia; cbn [bind]; rewrite ?two_blocks by lia; cbn [bind].
    + replace (idx + 6 + 6) with (idx + 12) by lia. rewrite IH'. cbn [bind]. pair_fin.
    + rewrite IH'. cbn [bind]. pair_fin.
    + rewrite IH'. cbn [bind]. pair_fin.
    + rewrite IH'. cbn [bind]. pair_fin.
Qed.
Lemma gpss_set_ok : forall m r idx, nc r = 1 -> idx + sum_len gps_len m <= nr r -> gpss_at m idx ->
  gpss_SetState m r idx = OK (map (on_snd (assign_gps r)) m, idx + sum_len gps_len m).
Proof.
  induction m as [|[k s] t IH]; intros r idx Hc Hr H; cbn [gpss_SetState map].
  - unfold sum_len. cbn. now rewrite Nat.add_0_r.
  - cbn [gpss_at] in H. destruct H as [H1 H4]. rewrite sum_len_cons in *.
    assert (HL : gps_len s = (if g_ext s then 3 else 0)) by reflexivity.
    unfold on_snd at 1. cbn [fst snd]. unfold assign_gps at 1.
    change g_gps_extrinsic_state_size with 3.
    assert (IH' := IH r (idx + gps_len s) Hc ltac:(lia) H4). clear IH H4.
    destruct (g_ext s) eqn:E1; rewrite ?H1 by reflexivity; rewrite HL, ?Nat.add_0_r in *; cbn [Nat.add] in *;
      repeat (rewrite seg3_ok by lia; cbn [bind]); cbn [bind]; rewrite IH'; cbn [bind]; pair_fin.
Qed.
Lemma cams_set_ok : forall m r idx, nc r = 1 -> idx + sum_len cam_len m <= nr r -> cams_at m idx ->
  cams_SetState m r idx = OK (map (on_snd (assign_cam r)) m, idx + sum_len cam_len m).
Proof.
  induction m as [|[k s] t IH]; intros r idx Hc Hr H; cbn [cams_SetState map].
  - unfold sum_len. cbn. now rewrite Nat.add_0_r.
  - cbn [cams_at] in H. destruct H as [H1 H4]. rewrite sum_len_cons in *.
    assert (HL : cam_len s = (if c_ext s then 6 else 0)) by reflexivity.
    unfold on_snd at 1. cbn [fst snd]. unfold assign_cam at 1.
    change g_cam_extrinsic_state_size with 6.
    assert (IH' := IH r (idx + cam_len s) Hc ltac:(lia) H4). clear IH H4.
    destruct (c_ext s) eqn:E1; rewrite ?H1 by reflexivity; rewrite HL, ?Nat.add_0_r in *; cbn [Nat.add] in *;
      rewrite ?two_blocks by lia; cbn [bind]; rewrite IH'; cbn [bind]; pair_fin.
Qed.
Lemma fids_set_ok : forall m r idx, nc r = 1 -> idx + sum_len fid_len m <= nr r -> fids_at m idx ->
  fids_SetState m r idx = OK (map (on_snd (assign_fid r)) m, idx + sum_len fid_len m).
Proof.
  induction m as [|[k s] t IH]; intros r idx Hc Hr H; cbn [fids_SetState map].
  - unfold sum_len. cbn. now rewrite Nat.add_0_r.
  - cbn [fids_at] in H. destruct H as [H1 H4]. rewrite sum_len_cons in *.
    assert (HL : fid_len s = (if f_ext s then 6 else 0)) by reflexivity.
    unfold on_snd at 1. cbn [fst snd]. unfold assign_fid at 1.
    change g_fid_extrinsic_state_size with 6.
    assert (IH' := IH r (idx + fid_len s) Hc ltac:(lia) H4). clear IH H4.
    destruct (f_ext s) eqn:E1; rewrite ?H1 by reflexivity; rewrite HL, ?Nat.add_0_r in *; cbn [Nat.add] in *;
      rewrite ?two_blocks by lia; cbn [bind]; rewrite IH'; cbn [bind]; pair_fin.
Qed.
Lemma set_ok : forall s r, indexed s -> nc r = 1 -> start_aug s <= nr r -> SetState s r = OK (assign r s).
Proof.
  intros s r [_ [H1 [H2 [H3 [H4 H5]]]]] Hc Hr. unfold SetState.
  change g_body_state_size with 18.
  assert (Ht : start_aug s = 18 + sum_len imu_len (s_imu s) + sum_len gps_len (s_gps s) + sum_len cam_len (s_cam s)
     + sum_len fid_len (s_fid s)) by reflexivity.
  rewrite block_ok by lia. cbn [bind]. unfold body_SetState.
  repeat (rewrite seg3_ok by (cbn [nr nc]; lia); cbn [bind]).
  rewrite imus_set_ok by (auto; lia). cbn [bind].
  rewrite gpss_set_ok by (auto; lia). cbn [bind].
  rewrite cams_set_ok by (auto; lia). cbn [bind].
  rewrite fids_set_ok by (auto; lia). reflexivity.
Qed.

Lemma segv_est : forall s v i (f : nat -> label) (a : V3),
  (forall j b, nth_error (layout s) j = Some b -> ent v j 0 = estimate s b) ->
  (forall k, k < 3 -> nth_error (layout s) (i + k) = Some (f k)) ->
  (forall k, k < 3 -> estimate s (f k) = vget a k) -> segv v i = a.
Proof.
  intros s v i f [x y z] H1 H2 H3. unfold segv.
  pose proof (H1 _ _ (H2 0 ltac:(lia))) as A0. pose proof (H1 _ _ (H2 1 ltac:(lia))) as A1. pose proof (H1 _ _ (H2 2 ltac:(lia))) as A2.
  rewrite Nat.add_0_r in A0. rewrite A0, A1, A2, !H3 by lia. reflexivity.
Qed.

(** Six labels in a row, as two groups of three. *)
Lemma segv_pose : forall s v i (f : nat -> label) (p : V3) (q : V3),
  (forall j b, nth_error (layout s) j = Some b -> ent v j 0 = estimate s b) ->
  (forall k, k < 6 -> nth_error (layout s) (i + k) = Some (f k)) ->
  (forall k, k < 6 -> estimate s (f k) = if k <? 3 then vget p k else vget q (k - 3)) ->
  segv v i = p /\ segv v (i + 3) = q.
Proof.
  intros s v i f p q H1 H2 H3. split.
  - apply (segv_est s v i f p H1); [intros k Hk; apply H2; lia|]. intros k Hk. rewrite H3 by lia.
    rewrite (proj2 (Nat.ltb_lt _ _)) by lia. reflexivity.
  - apply (segv_est s v (i + 3) (fun k => f (3 + k)) q H1).
    + intros k Hk. rewrite <- Nat.add_assoc. apply H2. lia.
    + intros k Hk. rewrite H3 by lia. rewrite (proj2 (Nat.ltb_ge _ _)) by lia. f_equal. lia.
Qed.

Lemma assign_back : forall s v, index_fields_correct s -> sorted_state s ->
  (forall j b, nth_error (layout s) j = Some b -> ent v j 0 = estimate s b) -> reoriented s (assign v s).
Proof.
  intros s v [_ [H1 [H2 [H3 [H4 _]]]]] [S1 [S2 [S3 [S4 S5]]]] Hv. unfold reoriented, assign. cbn [s_body s_imu s_gps s_cam s_fid s_aug].
  assert (LB : forall k, k < 18 -> nth_error (layout s) k = Some (LBody k)).
  { intros k N. unfold layout. rewrite nth_error_app1 by (rewrite map_length, seq_length; exact N).
    rewrite nth_error_map. replace (nth_error (seq 0 18) k) with (Some k); [reflexivity|].
    symmetry. rewrite (nth_error_nth' _ 0) by (rewrite seq_length; exact N). rewrite seq_nth by exact N. reflexivity. }
  split; [|split; [|split; [|split; [|split; [|reflexivity]]]]].
  - unfold assign_body.
    destruct (segv_pose s v 0 (fun k => LBody k) (b_pos (s_body s)) (b_vel (s_body s)) Hv) as [-> E1].
    { intros k Hk. apply LB. lia. }
    { intros k Hk. cbn [estimate]. rewrite (proj2 (Nat.ltb_lt _ _)) by lia. reflexivity. }
    change (0 + 3) with 3 in E1. rewrite E1.
    destruct (segv_pose s v 6 (fun k => LBody (6 + k)) (b_acc (s_body s)) (QuatToRotVec (b_ang (s_body s))) Hv) as [-> E2].
    { intros k Hk. apply LB. lia. }
    { intros k Hk. cbn [estimate]. rewrite (proj2 (Nat.ltb_ge _ _)) by lia. rewrite (proj2 (Nat.ltb_lt _ _)) by lia.
      replace (6 + k - 6) with k by lia. reflexivity. }
    change (6 + 3) with 9 in E2. rewrite E2.
    destruct (segv_pose s v 12 (fun k => LBody (12 + k)) (b_ang_vel (s_body s)) (b_ang_acc (s_body s)) Hv) as [-> E3].
    { intros k Hk. apply LB. lia. }
    { intros k Hk. cbn [estimate]. rewrite (proj2 (Nat.ltb_ge _ _)) by lia. rewrite (proj2 (Nat.ltb_ge _ _)) by lia.
      replace (12 + k - 12) with k by lia. reflexivity. }
    change (12 + 3) with 15 in E3. rewrite E3. reflexivity.
  - apply map_snd_ext. intros id x Hx. destruct (H1 _ _ Hx) as [J1 [J2 _]]. pose proof (sorted_find _ _ _ _ S1 Hx) as F.
    unfold assign_imu.
    assert (X : i_ext x = true -> segv v (i_index_ext x) = i_pos x /\ segv v (i_index_ext x + 3) = QuatToRotVec (i_ang x)).
    { intros E. apply (segv_pose s v _ (LImuExt id) _ _ Hv (J1 E)). intros k _. cbn [estimate]. rewrite F. reflexivity. }
    assert (Y : i_int x = true -> segv v (i_index_int x) = i_acc_bias x /\ segv v (i_index_int x + 3) = i_omg_bias x).
    { intros E. apply (segv_pose s v _ (LImuInt id) _ _ Hv (J2 E)). intros k _. cbn [estimate]. rewrite F. reflexivity. }
    destruct x as [xp xa ab ob ps ex it s1 s2 s3 s4 s5 [|] [|]]; cbn in *.
    all: try (destruct (X eq_refl) as [X1 X2]; rewrite X1, X2); try (destruct (Y eq_refl) as [Y1 Y2]; rewrite Y1, Y2); reflexivity.
  - transitivity (map (on_snd (fun x : GpsState => x)) (s_gps s)).
    + apply map_snd_ext. intros id x Hx. unfold assign_gps. destruct (g_ext x) eqn:E; [|reflexivity].
      rewrite (segv_est s v (g_index x) (LGps id) (g_pos x) Hv (H2 _ _ Hx E)).
      * destruct x. reflexivity.
      * intros k _. cbn [estimate]. rewrite (sorted_find _ _ _ _ S2 Hx). reflexivity.
    + clear. induction (s_gps s) as [|[k x] t IH]; [reflexivity|]. cbn [map]. rewrite IH. reflexivity.
  - apply map_snd_ext. intros id x Hx. unfold assign_cam. destruct (c_ext x) eqn:E; [|reflexivity].
    destruct (segv_pose s v _ (LCam id) (c_pos x) (QuatToRotVec (c_ang x)) Hv (H3 _ _ Hx E)) as [-> ->]; [|reflexivity].
    intros k _. cbn [estimate]. rewrite (sorted_find _ _ _ _ S3 Hx). reflexivity.
  - apply map_snd_ext. intros id x Hx. unfold assign_fid. destruct (f_ext x) eqn:E; [|reflexivity].
    destruct (segv_pose s v _ (LFid id) (f_pos x) (QuatToRotVec (f_ang x)) Hv (H4 _ _ Hx E)) as [-> ->]; [|reflexivity].
    intros k _. cbn [estimate]. rewrite (sorted_find _ _ _ _ S4 Hx). reflexivity.
Qed.

Lemma vector_and_back : forall e v, reachable e -> no_bias_only (e_state e) -> ToVector (e_state e) = OK v ->
  exists s', SetState (e_state e) v = OK s' /\ reoriented (e_state e) s'.
Proof.
  intros e v Hr Hb Hv. destruct (reachable_inv e Hr) as [W _]. destruct (partition_ok e Hr) as [P1 [P2 P3]].
  pose proof (pre_sorted _ (wf_pre _ W)) as HS. pose proof (pre_sizes _ (wf_pre _ W)) as HZ.
  assert (HW : written (e_state e) = layout (e_state e)) by (apply written_all; assumption).
  destruct (Nat.leb_spec (length (written (e_state e))) (GetStateSize (e_state e))) as [L|L].
  2: { rewrite written_overflow in Hv by assumption. discriminate. }
  destruct (written_ok _ HS HZ L) as [v' [E [E1 [E2 [E3 E4]]]]]. rewrite Hv in E. injection E as <-.
  exists (assign v (e_state e)). split.
  - apply set_ok; [apply W|exact E2|]. rewrite E1. unfold GetStateSize, start_aug, start_fid, start_cam, start_gps.
    change g_body_state_size with 18. lia.
  - apply assign_back; [exact P1|exact HS|]. intros j b Hj. apply E3. rewrite HW. exact Hj.
Qed.

Lemma through_qid : through_vector qid = qid.
Proof.
  unfold through_vector. rewrite quat_rotvec_id. apply RotVec_small. replace (vnorm v0) with 0%R; [lra|].
  unfold vnorm, vnorm2, vdot, v0. cbn. rewrite <- sqrt_0 at 1. f_equal. ring.
Qed.
Lemma canonical_kept : forall q, canonical q -> through_vector q = q.
Proof.
  intros q [H1 [H2 [H3|H3]]].
  - subst q. apply through_qid.
  - unfold through_vector. destruct (quat_roundtrip q H1 H3) as [-> _].
    destruct (Rltb (qw q) 0) eqn:E; [|reflexivity]. apply Rltb_spec in E. lra.
Qed.
Lemma reoriented_same : forall s s', sorted_state s -> all_canonical s -> reoriented s s' -> s' = s.
Proof.
  intros s s' [S1 [S2 [S3 [S4 S5]]]] [C1 [C2 [C3 C4]]] [R1 [R2 [R3 [R4 [R5 R6]]]]].
  assert (ID : forall A (f : A -> A) (m : amap A), sorted m -> (forall k x, mfind k m = Some x -> f x = x) -> map (on_snd f) m = m).
  { intros A f m Sm H. transitivity (map (on_snd (fun x : A => x)) m).
    - apply map_snd_ext. intros k x Hx. apply (H k). apply sorted_find; assumption.
    - clear. induction m as [|[k x] t IH]; [reflexivity|]. cbn [map]. rewrite IH. reflexivity. }
  destruct s as [b im gm cm fm am], s' as [b' im' gm' cm' fm' am']. cbn [s_body s_imu s_gps s_cam s_fid s_aug] in *.
  f_equal; try assumption.
  - rewrite R1, canonical_kept by exact C1. destruct b. reflexivity.
  - rewrite R2. apply ID; [exact S1|]. intros k x Hx. destruct (i_ext x) eqn:E; [|reflexivity].
    rewrite canonical_kept by (apply (C2 _ _ Hx E)). destruct x. reflexivity.
  - rewrite R4. apply ID; [exact S3|]. intros k x Hx. destruct (c_ext x) eqn:E; [|reflexivity].
    rewrite canonical_kept by (apply (C3 _ _ Hx E)). destruct x. reflexivity.
  - rewrite R5. apply ID; [exact S4|]. intros k x Hx. destruct (f_ext x) eqn:E; [|reflexivity].
    rewrite canonical_kept by (apply (C4 _ _ Hx E)). destruct x. reflexivity.
Qed.
Lemma vector_identity : forall e v, reachable e -> no_bias_only (e_state e) -> all_canonical (e_state e) ->
  ToVector (e_state e) = OK v -> SetState (e_state e) v = OK (e_state e).
Proof.
  intros e v Hr Hb Hc Hv. destruct (vector_and_back e v Hr Hb Hv) as [s' [E Hs]]. rewrite E. f_equal.
  apply reoriented_same; [|exact Hc|exact Hs]. apply (pre_sorted _ (wf_pre _ (proj1 (reachable_inv e Hr)))).
Qed.
