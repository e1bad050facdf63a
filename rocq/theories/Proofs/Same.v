(** Re-indexing changes nothing but index members. *)
From Coq Require Import Reals List Arith Bool Lia.
From Verif Require Import Base.Res Base.Mat Base.Geom Base.AMap Base.RMat
  Model.TypeHelper Model.Types Model.MathHelperMat Model.QR Model.Ekf Model.Ops
  Spec.Layout Spec.History Spec.Contract Spec.Same
  Proofs.Refresh Proofs.Wf Proofs.Register Proofs.Augment Proofs.Invariant.
Import ListNotations.
Open Scope nat_scope.

Lemma on_map_cons : forall A (f : A -> A) k v m, on_map f ((k, v) :: m) = (k, f v) :: on_map f m.
Proof. reflexivity. Qed.

Lemma bare_ix_imus : forall m c, on_map bare_imu (ix_imus m c) = on_map bare_imu m.
Proof. induction m as [|[k s] t IH]; intros c; cbn [ix_imus]; [reflexivity|]. rewrite !on_map_cons, IH. reflexivity. Qed.
Lemma bare_ix_gpss : forall m c, on_map bare_gps (ix_gpss m c) = on_map bare_gps m.
Proof. induction m as [|[k s] t IH]; intros c; cbn [ix_gpss]; [reflexivity|]. rewrite !on_map_cons, IH. reflexivity. Qed.
Lemma bare_ix_cams : forall m c, on_map bare_cam (ix_cams m c) = on_map bare_cam m.
Proof. induction m as [|[k s] t IH]; intros c; cbn [ix_cams]; [reflexivity|]. rewrite !on_map_cons, IH. reflexivity. Qed.
Lemma bare_ix_fids : forall m c, on_map bare_fid (ix_fids m c) = on_map bare_fid m.
Proof. induction m as [|[k s] t IH]; intros c; cbn [ix_fids]; [reflexivity|]. rewrite !on_map_cons, IH. reflexivity. Qed.
Lemma bare_ix_augv : forall l c, map bare_aug (ix_augv l c) = map bare_aug l.
Proof. induction l as [|a t IH]; intros c; cbn [ix_augv map]; [reflexivity|]. rewrite IH. reflexivity. Qed.
Lemma bare_ix_augs : forall m c, on_map (map bare_aug) (ix_augs m c) = on_map (map bare_aug) m.
Proof.
  induction m as [|[k s] t IH]; intros c; cbn [ix_augs]; [reflexivity|].
  rewrite !on_map_cons, IH, bare_ix_augv. reflexivity.
Qed.

Lemma bare_ix : forall s, bare (ix_state s) = bare s.
Proof.
  intros s. unfold bare, ix_state. cbn [s_body s_imu s_gps s_cam s_fid s_aug].
  rewrite bare_ix_imus, bare_ix_gpss, bare_ix_cams, bare_ix_fids, bare_ix_augs. reflexivity.
Qed.

Lemma mfind_on_map : forall A (f : A -> A) k m, mfind k (on_map f m) = option_map f (mfind k m).
Proof.
  induction m as [|[k' v] t IH]; [reflexivity|]. rewrite on_map_cons. cbn [mfind].
  destruct (Nat.eqb k k'); [reflexivity|exact IH].
Qed.

Lemma stores_mset : forall A (f : A -> A) m m' id x, on_map f m' = on_map f (mset id x m) -> stores f m m' id x.
Proof.
  intros A f m m' id x E k. rewrite <- mfind_on_map, E, mfind_on_map.
  destruct (Nat.eqb_spec k id) as [->|H].
  - rewrite mfind_mset_eq. reflexivity.
  - rewrite mfind_mset_neq by auto. reflexivity.
Qed.

Lemma reg_imu_dup : forall e id st c, mfind id (s_imu (e_state e)) <> None -> RegisterIMU e id st c = OK e.
Proof. intros e id st c H. unfold RegisterIMU. destruct (mfind id (s_imu (e_state e))); [reflexivity|congruence]. Qed.
Lemma reg_gps_dup : forall e id st c, mfind id (s_gps (e_state e)) <> None -> RegisterGPS e id st c = OK e.
Proof. intros e id st c H. unfold RegisterGPS. destruct (mfind id (s_gps (e_state e))); [reflexivity|congruence]. Qed.
Lemma reg_cam_dup : forall e id st c, mfind id (s_cam (e_state e)) <> None -> RegisterCamera e id st c = OK e.
Proof. intros e id st c H. unfold RegisterCamera. destruct (mfind id (s_cam (e_state e))); [reflexivity|congruence]. Qed.
Lemma reg_fid_dup : forall e st c, mfind (f_id st) (s_fid (e_state e)) <> None -> RegisterFiducial e st c = OK e.
Proof. intros e st c H. unfold RegisterFiducial. destruct (mfind (f_id st) (s_fid (e_state e))); [reflexivity|congruence]. Qed.

Lemma bare_parts : forall s s', bare s' = bare s ->
  bare_body (s_body s') = bare_body (s_body s) /\ on_map bare_imu (s_imu s') = on_map bare_imu (s_imu s) /\
  on_map bare_gps (s_gps s') = on_map bare_gps (s_gps s) /\ on_map bare_cam (s_cam s') = on_map bare_cam (s_cam s) /\
  on_map bare_fid (s_fid s') = on_map bare_fid (s_fid s) /\
  on_map (map bare_aug) (s_aug s') = on_map (map bare_aug) (s_aug s).
Proof. intros s s' H. unfold bare in H. injection H as H1 H2 H3 H4 H5 H6 H7 H8 H9 H10 H11. repeat split; auto.
  unfold bare_body. congruence. Qed.

(** What a registration of one kind keeps. *)
Lemma reg_imu_fresh : forall e id st c e', inv e -> contract e (ORegImu id st c) ->
  mfind id (s_imu (e_state e)) = None -> RegisterIMU e id st c = OK e' ->
  stores bare_imu (s_imu (e_state e)) (s_imu (e_state e')) id st /\
  bare (state_with_imu (e_state e') []) = bare (state_with_imu (e_state e) []) /\
  frame e e' /\ cam_frame e e'.
Proof.
  intros e id st c e' I C Hf E. destruct (C Hf) as [H1 [H2 [H3 H4]]].
  rewrite imu_labels_length in H1. cbn [snd] in H1. destruct H2 as [H2 [H2' _]].
  destruct (RegisterIMU_ok e id st c) as [e2 [E2 [_ [S' [_ [_ [F G]]]]]]]; [apply I|exact Hf|repeat split; tauto|].
  rewrite E in E2. injection E2 as <-.
  assert (B : bare (e_state e') = bare (state_with_imu (e_state e) (mset id st (s_imu (e_state e))))) by (rewrite S'; apply bare_ix).
  destruct (bare_parts _ _ B) as [B1 [B2 [B3 [B4 [B5 B6]]]]]. cbn [state_with_imu s_body s_imu s_gps s_cam s_fid s_aug] in *.
  split; [apply stores_mset; exact B2|]. split; [|auto].
  unfold bare. cbn [state_with_imu s_body s_imu s_gps s_cam s_fid s_aug]. now rewrite B1, B3, B4, B5, B6.
Qed.

Lemma reg_gps_fresh : forall e id st c e', inv e -> contract e (ORegGps id st c) ->
  mfind id (s_gps (e_state e)) = None -> RegisterGPS e id st c = OK e' ->
  stores bare_gps (s_gps (e_state e)) (s_gps (e_state e')) id st /\
  bare (state_with_gps (e_state e') []) = bare (state_with_gps (e_state e) []) /\
  frame e e' /\ cam_frame e e'.
Proof.
  intros e id st c e' I C Hf E. destruct (C Hf) as [H1 [H2 H3]].
  rewrite gps_labels_length in H1. cbn [snd] in H1. destruct H2 as [H2 [H2' _]].
  destruct (RegisterGPS_ok e id st c) as [e2 [E2 [_ [S' [_ [_ [F G]]]]]]]; [apply I|exact Hf|repeat split; tauto|].
  rewrite E in E2. injection E2 as <-.
  assert (B : bare (e_state e') = bare (state_with_gps (e_state e) (mset id st (s_gps (e_state e))))) by (rewrite S'; apply bare_ix).
  destruct (bare_parts _ _ B) as [B1 [B2 [B3 [B4 [B5 B6]]]]]. cbn [state_with_gps s_body s_imu s_gps s_cam s_fid s_aug] in *.
  split; [apply stores_mset; exact B3|]. split; [|auto].
  unfold bare. cbn [state_with_gps s_body s_imu s_gps s_cam s_fid s_aug]. now rewrite B1, B2, B4, B5, B6.
Qed.

Lemma reg_cam_fresh : forall e id st c e', inv e -> contract e (ORegCam id st c) ->
  mfind id (s_cam (e_state e)) = None -> RegisterCamera e id st c = OK e' ->
  stores bare_cam (s_cam (e_state e)) (s_cam (e_state e')) id st /\
  bare (state_with_cam (e_state e') []) = bare (state_with_cam (e_state e) []) /\
  frame e e'.
Proof.
  intros e id st c e' I C Hf E. destruct (C Hf) as [H1 [H2 [H3 H4]]].
  rewrite cam_labels_length in H1. cbn [snd] in H1. destruct H2 as [H2 [H2' _]].
  destruct (RegisterCamera_ok e id st c) as [e2 [E2 [_ [S' [_ [_ [F G]]]]]]]; [apply I|exact Hf|repeat split; tauto|].
  rewrite E in E2. injection E2 as <-.
  assert (B : bare (e_state e') = bare (state_with_cam (e_state e) (mset id st (s_cam (e_state e))))) by (rewrite S'; apply bare_ix).
  destruct (bare_parts _ _ B) as [B1 [B2 [B3 [B4 [B5 B6]]]]]. cbn [state_with_cam s_body s_imu s_gps s_cam s_fid s_aug] in *.
  split; [apply stores_mset; exact B4|]. split; [|auto].
  unfold bare. cbn [state_with_cam s_body s_imu s_gps s_cam s_fid s_aug]. now rewrite B1, B2, B3, B5, B6.
Qed.

Lemma reg_fid_fresh : forall e st c e', inv e -> contract e (ORegFid st c) ->
  mfind (f_id st) (s_fid (e_state e)) = None -> RegisterFiducial e st c = OK e' ->
  stores bare_fid (s_fid (e_state e)) (s_fid (e_state e')) (f_id st) st /\
  bare (state_with_fid (e_state e') []) = bare (state_with_fid (e_state e) []) /\
  frame e e' /\ cam_frame e e'.
Proof.
  intros e st c e' I C Hf E. destruct (C Hf) as [H1 [H2 H3]].
  rewrite fid_labels_length in H1. cbn [snd] in H1. destruct H2 as [H2 [H2' _]].
  destruct (RegisterFiducial_ok e st c) as [e2 [E2 [_ [S' [_ [_ [F G]]]]]]]; [apply I|exact Hf|repeat split; tauto|].
  rewrite E in E2. injection E2 as <-.
  assert (B : bare (e_state e') = bare (state_with_fid (e_state e) (mset (f_id st) st (s_fid (e_state e))))) by (rewrite S'; apply bare_ix).
  destruct (bare_parts _ _ B) as [B1 [B2 [B3 [B4 [B5 B6]]]]]. cbn [state_with_fid s_body s_imu s_gps s_cam s_fid s_aug] in *.
  split; [apply stores_mset; exact B5|]. split; [|auto].
  unfold bare. cbn [state_with_fid s_body s_imu s_gps s_cam s_fid s_aug]. now rewrite B1, B2, B3, B4, B6.
Qed.
