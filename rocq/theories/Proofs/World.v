(** Histories of sensor callbacks. *)
From Coq Require Import Reals List Arith Bool Lia Lra ZArith.
From Verif Require Import Base.Res Base.Mat Base.RDec Base.LinAlg Base.Geom Base.AMap Base.RMat
  Model.TypeHelper Model.Types Model.MathHelperMat Model.MathHelper Model.GpsHelper Model.Ekf Model.Updater Model.Ops
  Model.Matrix3 Model.ImuUpdater Model.GpsUpdater Model.FiducialUpdater Model.MsckfUpdater Model.Sensors
  Spec.Layout Spec.History Spec.Contract Spec.Correct Spec.Named Spec.Same Spec.Callback Spec.World
  Proofs.MatSurgery Proofs.Refresh Proofs.Wf Proofs.Register Proofs.Augment Proofs.Invariant Proofs.Named Proofs.Same Proofs.Update
  Proofs.Scalars Proofs.Clock Proofs.Effects Proofs.Follows Proofs.ImuCallback Proofs.GpsCallback Proofs.FidCallback
  Proofs.MsckfCallback.
Import ListNotations.
Open Scope nat_scope.

(** *** Registrations keep what is there *)
Definition grows (e e' : ekf) : Prop :=
  (forall id x y, has_imu e id x y -> has_imu e' id x y) /\
  (forall id x, has_gps e id x -> has_gps e' id x) /\
  (forall id x, has_cam e id x -> has_cam e' id x) /\
  (forall id x, has_fid e id x -> has_fid e' id x).
Lemma grows_trans : forall a b c, grows a b -> grows b c -> grows a c.
Proof. unfold grows. intros a b c [A1 [A2 [A3 A4]]] [B1 [B2 [B3 B4]]]. repeat split; auto. Qed.
Lemma grows_refl : forall a, grows a a.
Proof. unfold grows. tauto. Qed.
Lemma keeps_grows : forall e e', keeps (e_state e) (e_state e') -> grows e e'.
Proof.
  intros e e' K. repeat split; intros.
  - eapply keeps_imu; eauto.
  - eapply keeps_gps; eauto.
  - eapply keeps_cam; eauto.
  - eapply keeps_fid; eauto.
Qed.

(** Ids known to the filter as sensors. *)
Definition within (n : nat) (e : ekf) : Prop :=
  (forall k, In k (keys (s_imu (e_state e))) -> k <= n) /\
  (forall k, In k (keys (s_gps (e_state e))) -> k <= n) /\
  (forall k, In k (keys (s_cam (e_state e))) -> k <= n).
Lemma keeps_within : forall n e e', keeps (e_state e) (e_state e') -> within n e -> within n e'.
Proof.
  intros n e e' [_ [_ [_ [_ [K1 [K2 [K3 _]]]]]]] H. unfold within. rewrite K1, K2, K3. exact H.
Qed.
Lemma within_le : forall n m e, within n e -> n <= m -> within m e.
Proof. intros n m e [A [B C]] H. repeat split; intros k K; [apply A in K|apply B in K|apply C in K]; lia. Qed.
Lemma within_new : forall n e, within n e -> mfind (S n) (s_imu (e_state e)) = None /\
  mfind (S n) (s_gps (e_state e)) = None /\ mfind (S n) (s_cam (e_state e)) = None.
Proof.
  intros n e [A [B C]]. repeat split; apply mfind_none; intros K; [apply A in K|apply B in K|apply C in K]; lia.
Qed.

Lemma ix_of_keeps : forall (e e' : ekf) s, e_state e' = ix_state s -> keeps s (e_state e').
Proof. intros e e' s ->. apply keeps_ix. Qed.

Lemma reg_frame_par : forall e o e', inv e -> contract e o -> step e o = OK e' -> is_reg o -> frame' e e'.
Proof. intros e o e' I C E H. pose proof (step_frame' e o e' I C E) as F. destruct o; try (exfalso; exact H); exact F. Qed.

Lemma has_keeps_state : forall s e' , keeps s (e_state e') ->
  (forall id x, mfind id (s_imu s) = Some x -> has_imu e' id (i_ext x) (i_int x)) /\
  (forall id x, mfind id (s_gps s) = Some x -> has_gps e' id (g_ext x)) /\
  (forall id x, mfind id (s_cam s) = Some x -> has_cam e' id (c_ext x)) /\
  (forall id x, mfind id (s_fid s) = Some x -> has_fid e' id (f_ext x)).
Proof.
  intros s e' [K1 [K2 [K3 [K4 _]]]]. repeat split; intros id x H.
  - destruct (K1 _ _ H) as [y Y]. exists y. exact Y.
  - destruct (K2 _ _ H) as [y Y]. exists y. exact Y.
  - destruct (K3 _ _ H) as [y Y]. exists y. exact Y.
  - destruct (K4 _ _ H) as [y Y]. exists y. exact Y.
Qed.

(** The maps after a registration. *)
Lemma grows_of : forall e e' s, keeps s (e_state e') ->
  (forall id x, mfind id (s_imu (e_state e)) = Some x -> mfind id (s_imu s) = Some x) ->
  (forall id x, mfind id (s_gps (e_state e)) = Some x -> mfind id (s_gps s) = Some x) ->
  (forall id x, mfind id (s_cam (e_state e)) = Some x -> mfind id (s_cam s) = Some x) ->
  (forall id x, mfind id (s_fid (e_state e)) = Some x -> mfind id (s_fid s) = Some x) -> grows e e'.
Proof.
  intros e e' s K H1 H2 H3 H4. destruct (has_keeps_state s e' K) as [A [B [C D]]]. repeat split.
  - intros id x y [z [Z [<- <-]]]. apply A. auto.
  - intros id x [z [Z <-]]. apply B. auto.
  - intros id x [z [Z <-]]. apply C. auto.
  - intros id x [z [Z <-]]. apply D. auto.
Qed.
Lemma mfind_mset_keep : forall A id k (v : A) m x, mfind k m = None -> mfind id m = Some x -> mfind id (mset k v m) = Some x.
Proof. intros A id k v m x N H. rewrite mfind_mset_neq; [exact H|]. intros ->. congruence. Qed.

Lemma within_of : forall n (e e' : ekf) s, keeps s (e_state e') ->
  (forall k, In k (keys (s_imu s)) -> k <= n) -> (forall k, In k (keys (s_gps s)) -> k <= n) ->
  (forall k, In k (keys (s_cam s)) -> k <= n) -> within n e' .
Proof.
  intros n e e' s [_ [_ [_ [_ [K1 [K2 [K3 _]]]]]]] A B C. unfold within. rewrite K1, K2, K3. auto.
Qed.

Record registered (n : nat) (e e' : ekf) : Prop := mkReg {
  rg_reach : reachable e'; rg_grows : grows e e'; rg_within : within n e'; rg_frame : frame' e e' }.

Lemma reg_imu_world : forall e n st c, reachable e -> within n e -> imu_arg (p_root (e_par e)) st c ->
  exists e', RegisterIMU e (S n) st c = OK e' /\ registered (S n) e e' /\ has_imu e' (S n) (i_ext st) (i_int st).
Proof.
  intros e n st c Hr HW HA. pose proof (reachable_inv e Hr) as I. destruct (within_new n e HW) as [N [_ _]].
  assert (C : contract e (ORegImu (S n) st c)) by (intros _; exact HA).
  destruct (step_inv e _ I C) as [e' [E _]]. exists e'. split; [exact E|].
  destruct (reg_state e _ e' I C E Logic.I) as [->|ES].
  { exfalso. cbn [step] in E. destruct HA as [H1 [H2 [H3 H4]]]. rewrite imu_labels_length in H1. destruct H2 as [H2 [H2' _]].
    destruct (RegisterIMU_ok e (S n) st c) as [e2 [E2 [_ [S' _]]]]; [apply I|exact N|repeat split; tauto|].
    rewrite E in E2. injection E2 as <-.
    pose proof (keeps_ix (state_with_imu (e_state e) (mset (S n) st (s_imu (e_state e))))) as K.
    rewrite <- S' in K. destruct K as [K _]. destruct (K (S n) st) as [y [Y _]]; [cbn; apply mfind_mset_eq|]. congruence. }
  cbn [reg_effect] in ES. pose proof (ix_of_keeps e e' _ ES) as K.
  split; [constructor|].
  - eapply reachable_step; eauto.
  - apply (grows_of e e' _ K); cbn; auto. intros id x H. apply mfind_mset_keep; auto.
  - destruct HW as [W1 [W2 W3]]. apply (within_of _ e e' _ K); cbn; intros k H.
    + apply mset_keys_in in H. destruct H as [->|H]; [lia|]. apply W1 in H. lia.
    + apply W2 in H. lia.
    + apply W3 in H. lia.
  - apply (reg_frame_par e _ e' I C E Logic.I).
  - apply (proj1 (has_keeps_state _ e' K) (S n) st). cbn. apply mfind_mset_eq.
Qed.

Lemma reg_gps_world : forall e n st c, reachable e -> within n e -> gps_arg (p_root (e_par e)) st c ->
  exists e', RegisterGPS e (S n) st c = OK e' /\ registered (S n) e e' /\ has_gps e' (S n) (g_ext st).
Proof.
  intros e n st c Hr HW HA. pose proof (reachable_inv e Hr) as I. destruct (within_new n e HW) as [_ [N _]].
  assert (C : contract e (ORegGps (S n) st c)) by (intros _; exact HA).
  destruct (step_inv e _ I C) as [e' [E _]]. exists e'. split; [exact E|].
  destruct (reg_state e _ e' I C E Logic.I) as [->|ES].
  { exfalso. cbn [step] in E. destruct HA as [H1 [H2 H3]]. rewrite gps_labels_length in H1. destruct H2 as [H2 [H2' _]].
    destruct (RegisterGPS_ok e (S n) st c) as [e2 [E2 [_ [S' _]]]]; [apply I|exact N|repeat split; tauto|].
    rewrite E in E2. injection E2 as <-.
    pose proof (keeps_ix (state_with_gps (e_state e) (mset (S n) st (s_gps (e_state e))))) as K.
    rewrite <- S' in K. destruct K as [_ [K _]]. destruct (K (S n) st) as [y [Y _]]; [cbn; apply mfind_mset_eq|]. congruence. }
  cbn [reg_effect] in ES. pose proof (ix_of_keeps e e' _ ES) as K.
  split; [constructor|].
  - eapply reachable_step; eauto.
  - apply (grows_of e e' _ K); cbn; auto. intros id x H. apply mfind_mset_keep; auto.
  - destruct HW as [W1 [W2 W3]]. apply (within_of _ e e' _ K); cbn; intros k H.
    + apply W1 in H. lia.
    + apply mset_keys_in in H. destruct H as [->|H]; [lia|]. apply W2 in H. lia.
    + apply W3 in H. lia.
  - apply (reg_frame_par e _ e' I C E Logic.I).
  - apply (proj1 (proj2 (has_keeps_state _ e' K)) (S n) st). cbn. apply mfind_mset_eq.
Qed.

Lemma reg_cam_world : forall e n st c, reachable e -> within n e -> cam_arg (p_root (e_par e)) st c ->
  exists e', RegisterCamera e (S n) st c = OK e' /\ registered (S n) e e' /\ has_cam e' (S n) (c_ext st).
Proof.
  intros e n st c Hr HW HA. pose proof (reachable_inv e Hr) as I. destruct (within_new n e HW) as [_ [_ N]].
  assert (C : contract e (ORegCam (S n) st c)) by (intros _; exact HA).
  destruct (step_inv e _ I C) as [e' [E _]]. exists e'. split; [exact E|].
  destruct (reg_state e _ e' I C E Logic.I) as [->|ES].
  { exfalso. cbn [step] in E. destruct HA as [H1 [H2 [H3 H4]]]. rewrite cam_labels_length in H1. destruct H2 as [H2 [H2' _]].
    destruct (RegisterCamera_ok e (S n) st c) as [e2 [E2 [_ [S' _]]]]; [apply I|exact N|repeat split; tauto|].
    rewrite E in E2. injection E2 as <-.
    pose proof (keeps_ix (state_with_cam (e_state e) (mset (S n) st (s_cam (e_state e))))) as K.
    rewrite <- S' in K. destruct K as [_ [_ [K _]]]. destruct (K (S n) st) as [y [Y _]]; [cbn; apply mfind_mset_eq|]. congruence. }
  cbn [reg_effect] in ES. pose proof (ix_of_keeps e e' _ ES) as K.
  split; [constructor|].
  - eapply reachable_step; eauto.
  - apply (grows_of e e' _ K); cbn; auto. intros id x H. apply mfind_mset_keep; auto.
  - destruct HW as [W1 [W2 W3]]. apply (within_of _ e e' _ K); cbn; intros k H.
    + apply W1 in H. lia.
    + apply W2 in H. lia.
    + apply mset_keys_in in H. destruct H as [->|H]; [lia|]. apply W3 in H. lia.
  - apply (reg_frame_par e _ e' I C E Logic.I).
  - apply (proj1 (proj2 (proj2 (has_keeps_state _ e' K))) (S n) st). cbn. apply mfind_mset_eq.
Qed.

Lemma reg_fid_world : forall e n st c, reachable e -> within n e -> fid_arg (p_root (e_par e)) st c ->
  (forall s, mfind (f_id st) (s_fid (e_state e)) = Some s -> f_ext s = f_ext st) ->
  exists e', RegisterFiducial e st c = OK e' /\ registered n e e' /\ has_fid e' (f_id st) (f_ext st) /\
    (forall k s, mfind k (s_fid (e_state e')) = Some s -> (k = f_id st /\ f_ext s = f_ext st) \/ has_fid e k (f_ext s)).
Proof.
  intros e n st c Hr HW HA HF. pose proof (reachable_inv e Hr) as I.
  assert (C : contract e (ORegFid st c)) by (intros _; exact HA).
  destruct (mfind (f_id st) (s_fid (e_state e))) as [s|] eqn:N.
  - exists e. rewrite reg_fid_dup by congruence. split; [reflexivity|]. split; [|split].
    + constructor; auto using grows_refl. repeat split.
    + exists s. auto.
    + intros k s0 H. right. exists s0. auto.
  - destruct (step_inv e _ I C) as [e' [E _]]. exists e'. split; [exact E|]. cbn [step] in E.
    pose proof HA as [H1 [H2 H3]]. rewrite fid_labels_length in H1. destruct H2 as [H2 [H2' _]].
    destruct (RegisterFiducial_ok e st c) as [e2 [E2 [_ [ES _]]]]; [apply I|exact N|repeat split; tauto|].
    rewrite E in E2. injection E2 as <-. pose proof (ix_of_keeps e e' _ ES) as K.
    split; [constructor|split].
    + apply (reachable_step e (ORegFid st c)); auto.
    + apply (grows_of e e' _ K); cbn; auto. intros id x H. apply mfind_mset_keep; auto.
    + destruct HW as [W1 [W2 W3]]. apply (within_of _ e e' _ K); cbn; auto.
    + apply (reg_frame_par e (ORegFid st c) e' I C E Logic.I).
    + apply (proj2 (proj2 (proj2 (has_keeps_state _ e' K))) (f_id st) st). cbn. apply mfind_mset_eq.
    + intros k s H. set (m := mset (f_id st) st (s_fid (e_state e))) in *.
      assert (Hk : In k (keys m)).
      { destruct K as [_ [_ [_ [_ [_ [_ [_ K]]]]]]]. cbn [s_fid state_with_fid] in K. rewrite <- K.
        destruct (mfind k (s_fid (e_state e'))) eqn:X; [|discriminate]. apply mfind_in in X. apply (in_map fst) in X. exact X. }
      destruct (mfind k m) as [x|] eqn:X; [|apply mfind_none in X; contradiction].
      destruct K as [_ [_ [_ [K _]]]]. destruct (K k x) as [y [Y1 Y2]]; [exact X|]. rewrite H in Y1. injection Y1 as <-.
      rewrite Y2. destruct (Nat.eq_dec k (f_id st)) as [->|D].
      * left. unfold m in X. rewrite mfind_mset_eq in X. injection X as <-. auto.
      * right. unfold m in X. rewrite mfind_mset_neq in X by exact D. exists x. auto.
Qed.

(** *** Arguments of the constructors *)
Lemma diag_cov_arg : forall root k n f (c : mat R), k <= n -> nr c = n -> nc c = n -> ent c = diagm f ->
  (forall i, i < k -> (0 <= f i)%R) -> cov_arg root k c.
Proof.
  intros root k n f c H N1 N2 E HP. unfold cov_arg. rewrite E. split; [lia|]. split; [lia|]. destruct root.
  - intros i j Hij. unfold diagm. destruct (Nat.eqb_spec i j); [lia|reflexivity].
  - apply psd_diag. exact HP.
Qed.

Lemma bounded_nth : forall v i, i < length v -> (0 <= nth i (MinBoundVector v (1 / 1000000)) 0)%R.
Proof.
  intros v i H. unfold MinBoundVector. set (f := fun x : R => if Rltb x (1 / 1000000) then (1 / 1000000)%R else x).
  rewrite (nth_indep _ 0%R (f 0%R)) by (rewrite map_length; exact H). rewrite map_nth. unfold f.
  destruct (Rltb (nth i v 0%R) (1 / 1000000)) eqn:E; [lra|]. apply Rltb_false in E. lra.
Qed.
Lemma nth_firstn : forall A (l : list A) n i d, i < n -> nth i (firstn n l) d = nth i l d.
Proof.
  intros A l. induction l as [|x l IH]; intros [|n] [|i] d H; cbn; auto; try lia. apply IH. lia.
Qed.

Lemma imu_params_arg : forall root p, imu_params_ok p -> exists cov, imu_cov_of p = OK cov /\ imu_arg root (imu_state_of p) cov.
Proof.
  intros root p [H1 [H2 H3]]. unfold imu_cov_of, imu_arg.
  assert (L : length (MinBoundVector (ip_var p) (1 / 1000000)) = length (ip_var p)) by apply map_length.
  assert (S : i_size (imu_state_of p) = length (imu_labels (0, imu_state_of p))).
  { rewrite imu_labels_length. unfold imu_state_of. cbn. destruct (ip_ext p), (ip_int p); reflexivity. }
  assert (Q : (i_ext (imu_state_of p) = true -> (0 <= i_pos_stab (imu_state_of p) /\ 0 <= i_ang_stab (imu_state_of p))%R) /\
    (i_int (imu_state_of p) = true -> (0 <= i_acc_stab (imu_state_of p) /\ 0 <= i_omg_stab (imu_state_of p))%R)).
  { unfold imu_state_of. cbn. auto. }
  assert (Z : i_size (imu_state_of p) = (if ip_ext p then 6 else 0) + (if ip_int p then 6 else 0)).
  { unfold imu_state_of. cbn. destruct (ip_ext p), (ip_int p); reflexivity. }
  assert (X : forall n, n <= length (ip_var p) -> n = i_size (imu_state_of p) ->
    exists cov, (let* w := head_segment n (MinBoundVector (ip_var p) (1 / 1000000)) in OK (diag_of w)) = OK cov /\
      cov_arg root (i_size (imu_state_of p)) cov).
  { intros n Hn Hz. unfold head_segment, guard. rewrite L. rewrite (proj2 (Nat.leb_le _ _) Hn). cbn [bind]. eexists. split; [reflexivity|].
    rewrite <- Hz. apply (diag_cov_arg root n n (fun i => nth i (firstn n (MinBoundVector (ip_var p) (1 / 1000000))) 0%R)); auto.
    - cbn. rewrite firstn_length. lia.
    - cbn. rewrite firstn_length. lia.
    - intros i Hi. rewrite nth_firstn by exact Hi. apply bounded_nth. lia. }
  destruct (ip_ext p) eqn:Ex, (ip_int p) eqn:In; cbn [andb orb].
  - destruct (X 12) as [c [E A]]; [lia|lia|]. exists c. tauto.
  - destruct (X 6) as [c [E A]]; [lia|lia|]. exists c. tauto.
  - destruct (X 6) as [c [E A]]; [lia|lia|]. exists c. tauto.
  - eexists. split; [reflexivity|]. split; [exact S|]. split; [|exact Q]. rewrite Z. cbn. split; [lia|]. split; [lia|].
    destruct root; [intros; lia|]. split; [intros i j Hi; lia|]. intros x. unfold qf. cbn. lra.
Qed.

Lemma gps_params_arg : forall root p, gps_params_ok p -> gps_arg root (gps_state_of p) (mdiag (v3mat (gp_var p))).
Proof.
  intros root p H. unfold gps_arg, gps_state_of. cbn [g_size g_ext gps_SetIsExtrinsic g_pos_stab].
  rewrite gps_labels_length. cbn [g_ext]. split; [destruct (gp_ext p); reflexivity|]. split; [|intros E; apply (H E)].
  destruct (gp_ext p) eqn:E.
  - destruct (H E) as [_ [X [Y Z]]]. apply (diag_cov_arg root 3 3 (fun i => ent (v3mat (gp_var p)) i 0)); auto.
    intros [|[|[|i]]] Hi; cbn; auto; lia.
  - apply (diag_cov_arg root 0 3 (fun i => ent (v3mat (gp_var p)) i 0)); auto; intros; lia.
Qed.

Lemma cam_params_arg : forall root p, cam_params_ok p ->
  cam_arg root (cam_state_of p) (diag_of (MinBoundVector (cp_var p) (1 / 1000000))).
Proof.
  intros root p [HR H]. unfold cam_arg, cam_state_of. cbn [c_size c_ext cam_SetIsExtrinsic c_pos_stab c_ang_stab c_rate].
  assert (L : length (MinBoundVector (cp_var p) (1 / 1000000)) = length (cp_var p)) by apply map_length.
  rewrite cam_labels_length. cbn [c_ext]. split; [destruct (cp_ext p); reflexivity|]. split; [|split; [|exact HR]].
  - destruct (cp_ext p) eqn:E.
    + destruct (H eq_refl) as [_ [_ H6]].
      apply (diag_cov_arg root 6 (length (cp_var p)) (fun i => nth i (MinBoundVector (cp_var p) (1 / 1000000)) 0%R)); auto.
      intros i Hi. apply bounded_nth. lia.
    + apply (diag_cov_arg root 0 (length (cp_var p)) (fun i => nth i (MinBoundVector (cp_var p) (1 / 1000000)) 0%R)); auto; intros; lia.
  - intros E. destruct (H E) as [A [B _]]. auto.
Qed.

Lemma fid_params_arg : forall root p, 6 <= length (fp_var p) -> Forall (fun x => (0 <= x)%R) (fp_var p) ->
  fid_arg root (fid_state_of p) (diag_of (fp_var p)).
Proof.
  intros root p H6 HF. unfold fid_arg, fid_state_of. cbn [f_size f_ext fid_SetIsExtrinsic f_pos_stab f_ang_stab].
  rewrite fid_labels_length. cbn [f_ext]. split; [destruct (fp_ext p); reflexivity|]. split.
  - apply (diag_cov_arg root _ (length (fp_var p)) (fun i => nth i (fp_var p) 0%R)); auto.
    + destruct (fp_ext p); [exact H6|lia].
    + intros i Hi. rewrite Forall_forall in HF. apply HF. apply nth_In. destruct (fp_ext p); unfold g_imu_extrinsic_state_size in *; cbn in Hi; lia.
  - intros _. unfold e9. lra.
Qed.

(** *** What every sensor object relies on *)
Definition known (e : ekf) (id : nat) (s : sensor) : Prop :=
  match s with
  | SImu u => iu_id u = id /\ has_imu e id (iu_ext u) (iu_int u)
  | SGps u => gu_id u = id /\ has_gps e id (gu_ext u)
  | SCam trs fids => exists ext, has_cam e id ext /\
      (forall k tr, mfind k trs = Some tr -> mu_id (tk_upd tr) = id /\ at_most (mu_ext (tk_upd tr)) ext) /\
      (forall k u, mfind k fids = Some u -> fu_cam u = id /\ at_most (fu_cam_ext u) ext /\ has_fid e (fu_id u) (fu_ext u) /\ fid_ready u)
  end.
Lemma known_grows : forall e e' id s, grows e e' -> known e id s -> known e' id s.
Proof.
  intros e e' id s [G1 [G2 [G3 G4]]] H. destruct s; cbn in *.
  - destruct H; auto.
  - destruct H; auto.
  - destruct H as [x [A [B C]]]. exists x. split; auto. split; auto. intros k u K. destruct (C k u K) as [C1 [C2 [C3 C4]]]. auto.
Qed.

Record winv (w : world) : Prop := mkWinv {
  wi_reach : reachable (w_ekf w);
  wi_within : within (n_sensors (w_cnt w)) (w_ekf w);
  wi_known : forall id s, mfind id (w_sensors w) = Some s -> known (w_ekf w) id s }.

Lemma install_inv : forall w id s c e, winv w -> n_sensors (w_cnt w) <= n_sensors c -> reachable e ->
  within (n_sensors c) e -> grows (w_ekf w) e -> known e id s -> winv (install w (id, s, c, e)).
Proof.
  intros w id s c e [R W K] L R' W' G Kn. constructor; cbn; auto. intros i x H.
  destruct (Nat.eq_dec i id) as [->|D].
  - rewrite mfind_mset_eq in H. injection H as <-. exact Kn.
  - rewrite mfind_mset_neq in H by exact D. apply (known_grows (w_ekf w)); auto.
Qed.

(** *** Constructors *)
Lemma trackers_known : forall ps c cam ext m m' c', add_trackers c cam ps m = (m', c') ->
  Forall (fun t => at_most (tp_cam_ext t) ext) ps ->
  (forall k tr, mfind k m = Some tr -> mu_id (tk_upd tr) = cam /\ at_most (mu_ext (tk_upd tr)) ext) ->
  n_sensors c' = n_sensors c /\ forall k tr, mfind k m' = Some tr -> mu_id (tk_upd tr) = cam /\ at_most (mu_ext (tk_upd tr)) ext.
Proof.
  induction ps as [|p ps IH]; intros c cam ext m m' c' E F H; cbn in E.
  - injection E as <- <-. auto.
  - inversion F as [|? ? F1 F2]; subst. apply IH with (ext := ext) in E; auto.
    intros k tr K. destruct (Nat.eq_dec k (S (n_trackers c))) as [->|D].
    + rewrite mfind_mset_eq in K. injection K as <-. cbn. auto.
    + rewrite mfind_mset_neq in K by exact D. eauto.
Qed.

Lemma fids_known : forall ps c e cam ext m n, reachable e -> within n e ->
  Forall (fid_params_ok e ext ps) ps ->
  (forall k u, mfind k m = Some u -> fu_cam u = cam /\ at_most (fu_cam_ext u) ext /\ has_fid e (fu_id u) (fu_ext u) /\ fid_ready u) ->
  exists m' c' e', add_fiducials c e cam ps m = OK (m', c', e') /\ registered n e e' /\ n_sensors c' = n_sensors c /\
    (forall k u, mfind k m' = Some u -> fu_cam u = cam /\ at_most (fu_cam_ext u) ext /\ has_fid e' (fu_id u) (fu_ext u) /\ fid_ready u).
Proof.
  induction ps as [|p ps IH]; intros c e cam ext m n Hr HW F H; cbn [add_fiducials].
  - exists m, c, e. split; [reflexivity|]. split; [constructor; auto using grows_refl; repeat split|]. auto.
  - inversion F as [|? ? [F1 [F2 [F3 [F4 F5]]]] F6]; subst. unfold fid_new. cbn [new_tracker_id].
    unfold guard. rewrite (proj2 (Nat.leb_le _ _) F1). cbn [bind].
    destruct (reg_fid_world e n (fid_state_of p) (diag_of (fp_var p)) Hr HW) as [e1 [E1 [R1 [Hf Hb]]]];
      [apply fid_params_arg; auto|exact F4|]. rewrite E1. cbn [bind].
    destruct (IH (mkCnt (n_sensors c) (S (n_trackers c)) (n_frames c) (n_features c)) e1 cam ext
      (mset (S (n_trackers c)) (fid_updater_init (fp_id p) cam (fp_ext p) (fp_cam_ext p)) m) n
      (rg_reach _ _ _ R1) (rg_within _ _ _ R1)) as [m' [c' [e' [E' [R' [N' K']]]]]].
    + rewrite Forall_forall in F6 |- *. intros q Hq. destruct (F6 q Hq) as [Q1 [Q2 [Q3 [Q4 Q5]]]].
      split; [exact Q1|]. split; [exact Q2|]. split; [exact Q3|]. split.
      * intros s Hs. destruct (Hb _ _ Hs) as [[K1 K2]|[s' [S1 S2]]].
        -- rewrite K2. cbn. symmetry. apply F5; [right; exact Hq|exact K1].
        -- rewrite <- S2. apply Q4. exact S1.
      * intros r Hr'. apply Q5. right. exact Hr'.
    + intros k u K. destruct (Nat.eq_dec k (S (n_trackers c))) as [->|D].
      * rewrite mfind_mset_eq in K. injection K as <-. cbn. split; [reflexivity|]. split; [exact F3|].
        split; [exact Hf|left; reflexivity].
      * rewrite mfind_mset_neq in K by exact D. destruct (H _ _ K) as [A [B [C D']]]. destruct R1 as [_ [_ [_ [_ G]]] _ _]. auto.
    + exists m', c', e'. split; [exact E'|]. split; [|split; [exact N'|exact K']].
      destruct R1 as [A1 A2 A3 A4], R' as [B1 B2 B3 B4]. constructor; auto.
      * eapply grows_trans; eauto.
      * eapply frame'_trans; eauto.
Qed.

Lemma imu_new_inv : forall w p, winv w -> imu_params_ok p ->
  exists q, imu_new (w_cnt w) (w_ekf w) p = OK q /\ winv (install w q) /\ frame' (w_ekf w) (w_ekf (install w q)).
Proof.
  intros w p [R W K] H. destruct (imu_params_arg (p_root (e_par (w_ekf w))) p H) as [cov [E A]].
  unfold imu_new. cbn [new_sensor_id]. rewrite E. cbn [bind].
  destruct (reg_imu_world (w_ekf w) _ _ _ R W A) as [e' [E' [[R' G' W' F'] Hh]]]. rewrite E'. cbn [bind]. eexists. split; [reflexivity|].
  split; [|exact F']. apply install_inv; auto; [constructor; auto|cbn; lia|]. cbn. split; [reflexivity|exact Hh].
Qed.
Lemma gps_new_inv : forall w p, winv w -> gps_params_ok p ->
  exists q, gps_new (w_cnt w) (w_ekf w) p = OK q /\ winv (install w q) /\ frame' (w_ekf w) (w_ekf (install w q)).
Proof.
  intros w p [R W K] H. unfold gps_new. cbn [new_sensor_id].
  destruct (reg_gps_world (w_ekf w) _ _ _ R W (gps_params_arg (p_root (e_par (w_ekf w))) p H)) as [e' [E' [[R' G' W' F'] Hh]]].
  rewrite E'. cbn [bind]. eexists. split; [reflexivity|].
  split; [|exact F']. apply install_inv; auto; [constructor; auto|cbn; lia|]. cbn. split; [reflexivity|exact Hh].
Qed.
Lemma cam_new_inv : forall w p ts fs, winv w -> cam_params_ok p -> Forall (fun t => at_most (tp_cam_ext t) (cp_ext p)) ts ->
  Forall (fid_params_ok (w_ekf w) (cp_ext p) fs) fs ->
  exists q, camera_new (w_cnt w) (w_ekf w) p ts fs = OK q /\ winv (install w q) /\ frame' (w_ekf w) (w_ekf (install w q)).
Proof.
  intros w p ts fs [R W K] H HT HF. unfold camera_new, cam_new. cbn [new_sensor_id].
  set (root := p_root (e_par (w_ekf w))).
  destruct (reg_cam_world (w_ekf w) _ _ _ R W (cam_params_arg root p H)) as [e1 [E1 [[R1 G1 W1 F1] Hh]]].
  rewrite E1. cbn [bind].
  destruct (add_trackers _ _ ts []) as [trs c2] eqn:E2.
  apply trackers_known with (ext := cp_ext p) in E2; [|exact HT|intros k tr X; discriminate]. destruct E2 as [N2 T2]. cbn [n_sensors] in N2.
  assert (HS : s_fid (e_state (w_ekf w)) = [] \/ True) by auto.
  destruct (fids_known fs c2 e1 (S (n_sensors (w_cnt w))) (cp_ext p) [] (S (n_sensors (w_cnt w))) R1 W1) as [m' [c' [e' [E' [[R' G' W' F'] [N' K']]]]]].
  - rewrite Forall_forall in HF |- *. intros q Hq. destruct (HF q Hq) as [Q1 [Q2 [Q3 [Q4 Q5]]]].
    split; [exact Q1|]. split; [exact Q2|]. split; [exact Q3|]. split; [|exact Q5].
    intros s Hs. pose proof (reachable_inv _ R) as I.
    assert (C : contract (w_ekf w) (ORegCam (S (n_sensors (w_cnt w))) (cam_state_of p) (diag_of (MinBoundVector (cp_var p) (1 / 1000000)))))
      by (intros _; apply cam_params_arg; exact H).
    destruct (reg_state (w_ekf w) _ e1 I C E1 Logic.I) as [->|ES]; [apply Q4; exact Hs|].
    pose proof (ix_of_keeps (w_ekf w) e1 _ ES) as KK. cbn [reg_effect] in KK.
    assert (Hk : In (fp_id q) (keys (s_fid (e_state (w_ekf w))))).
    { destruct KK as [_ [_ [_ [_ [_ [_ [_ KK]]]]]]]. cbn [s_fid state_with_cam] in KK. rewrite <- KK.
      apply mfind_in in Hs. apply (in_map fst) in Hs. exact Hs. }
    destruct (mfind (fp_id q) (s_fid (e_state (w_ekf w)))) as [x|] eqn:X; [|apply mfind_none in X; contradiction].
    destruct KK as [_ [_ [_ [KK _]]]]. destruct (KK (fp_id q) x X) as [y [Y1 Y2]]. rewrite Hs in Y1. injection Y1 as <-.
    rewrite Y2. apply Q4. reflexivity.
  - intros k u X; discriminate.
  - rewrite E'. cbn [bind]. eexists. split; [reflexivity|]. split; [|eapply frame'_trans; eauto].
    apply install_inv; auto; [constructor; auto|lia|rewrite N', N2; exact W'|eapply grows_trans; eauto|].
    cbn. exists (cp_ext p). split; [|split; [exact T2|exact K']]. destruct G' as [_ [_ [G' _]]]. apply G'. exact Hh.
Qed.

(** *** Callbacks *)
Lemma brought_again : forall e t e1 e2, brought e t e1 -> brought e1 t e2 -> brought e t e2.
Proof.
  intros e t e1 e2 [A1 [A2 [A3 A4]]] [B1 [B2 [B3 B4]]]. unfold brought, local_of, clock_of in *. rewrite A2 in *.
  assert (Q : e_ref_time e2 = e_ref_time e1) by auto.
  destruct (e_time_init e) eqn:T.
  - rewrite B1, A1, (A3 eq_refl), Q, (A3 eq_refl). repeat split; auto; [|discriminate].
    apply Rmax_right. apply Rmax_l.
  - rewrite B1, A1, (A4 eq_refl), Q, (A4 eq_refl). repeat split; auto; [|discriminate].
    unfold Rmax; repeat destruct (Rle_dec _ _); lra.
Qed.
Lemma brought_clock : forall e t e1 e2, brought e t e1 -> same_clock e1 e2 -> brought e t e2.
Proof. intros e t e1 e2 [A1 [A2 [A3 A4]]] [B1 [B2 B3]]. unfold brought. rewrite B1, B2, B3. auto. Qed.

Section Cb.
Variable svd : m2 -> m2 * m2.
Variable hull : list (Z * Z) -> list (Z * Z).
Variable ecef_to_lla : V3 -> V3.
Variable mat_quat : mat R -> quat.
Variable solve : mat R -> V3 -> V3.

Lemma track_all_sound : forall l trs e t trs' e' cam ext e0, reachable e -> has_cam e cam ext -> brought e0 t e ->
  (forall k tr, mfind k trs = Some tr -> mu_id (tk_upd tr) = cam /\ at_most (mu_ext (tk_upd tr)) ext) ->
  track_all solve trs e t l = OK (trs', e') ->
  went e e' /\ brought e0 t e' /\
  (forall k tr, mfind k trs' = Some tr -> mu_id (tk_upd tr) = cam /\ at_most (mu_ext (tk_upd tr)) ext).
Proof.
  induction l as [|[k tracks] l IH]; intros trs e t trs' e' cam ext e0 Hr HC HB HK E; cbn [track_all] in E.
  - injection E as <- <-. auto using went_refl.
  - destruct tracks as [|tr0 tracks]; [apply (IH trs e t trs' e' cam ext e0); auto|].
    destruct (mfind k trs) as [tr|] eqn:F; [|discriminate]. destruct (HK _ _ F) as [K1 K2].
    destruct (msckf_UpdateEKF solve (tk_upd tr) e t (tr0 :: tracks) (tk_px tr)) as [[u e1]|] eqn:E1; cbn [bind] in E; [|discriminate].
    assert (HC' : has_cam e (mu_id (tk_upd tr)) ext) by (rewrite K1; exact HC).
    destruct (msckf_sound solve (tk_upd tr) e t _ _ u e1 ext Hr HC' E1) as [W B M _ _].
    destruct M as [M1 [M2 _]].
    destruct (IH (mset k (mkTrk u (tk_px tr)) trs) e1 t trs' e' cam ext e0) as [W2 [B2 K']]; auto.
    + apply (w_reach _ _ W).
    + apply (keeps_cam e e1); [apply (w_keeps _ _ W)|exact HC].
    + eapply brought_again; eauto.
    + intros k' tr' F'. destruct (Nat.eq_dec k' k) as [->|D].
      * rewrite mfind_mset_eq in F'. injection F' as <-. cbn. rewrite M1, M2. auto.
      * rewrite mfind_mset_neq in F' by exact D. eauto.
    + split; [eapply went_trans; eauto|]. auto.
Qed.

Definition fids_ok (e : ekf) (cam : nat) (ext : bool) (fids : amap fid_updater) : Prop :=
  forall k u, mfind k fids = Some u -> fu_cam u = cam /\ at_most (fu_cam_ext u) ext /\ has_fid e (fu_id u) (fu_ext u) /\ fid_ready u.

Lemma board_all_sound : forall l fids e t cam ext e0, reachable e -> has_cam e cam ext -> brought e0 t e -> fids_ok e cam ext fids ->
  Forall (fun x => forall d, snd x = Some d -> errors_positive d) l ->
  (exists fids' e', board_all mat_quat fids e t l = OK (fids', e') /\ went e e' /\ brought e0 t e' /\ fids_ok e' cam ext fids' /\
     (forall k, mfind k fids' = None <-> mfind k fids = None)) \/
  (board_all mat_quat fids e t l = UB /\ ~ (forall x, In x l -> mfind (fst x) fids <> None)).
Proof.
  induction l as [|[k b] l IH]; intros fids e t cam ext e0 Hr HC HB HK HF; cbn [board_all].
  - left. exists fids, e. split; [reflexivity|]. split; [apply went_refl; exact Hr|]. split; [exact HB|]. split; [exact HK|]. reflexivity.
  - inversion HF as [|? ? F1 F2]; subst. destruct (mfind k fids) as [u|] eqn:F.
    + destruct (HK _ _ F) as [K1 [K2 [K3 K4]]]. destruct b as [d|].
      * assert (HC' : has_cam e (fu_cam u) ext) by (rewrite K1; exact HC).
        destruct (fid_callback mat_quat u e t d ext Hr HC' K2 K3 K4 (F1 d eq_refl)) as [u' [e1 [E1 [W B U Rd _ _]]]].
        rewrite E1. cbn [bind]. destruct U as [U1 [U2 [U3 U4]]].
        assert (KE : forall x, mfind x (mset k u' fids) = None <-> mfind x fids = None).
        { intros x. destruct (Nat.eq_dec x k) as [->|D]; [rewrite mfind_mset_eq; split; congruence|].
          rewrite mfind_mset_neq by exact D. reflexivity. }
        destruct (IH (mset k u' fids) e1 t cam ext e0) as [[fids' [e' [E' [W' [B' [K' KK]]]]]]|[E' N']]; auto.
        -- apply (w_reach _ _ W).
        -- apply (keeps_cam e e1); [apply (w_keeps _ _ W)|exact HC].
        -- eapply brought_again; eauto.
        -- intros k' x F'. destruct (Nat.eq_dec k' k) as [->|D].
           ++ rewrite mfind_mset_eq in F'. injection F' as <-. split; [congruence|]. split; [rewrite U4; exact K2|].
              split; [|exact Rd]. rewrite U1, U3. apply (keeps_fid e e1); [apply (w_keeps _ _ W)|exact K3].
           ++ rewrite mfind_mset_neq in F' by exact D. destruct (HK _ _ F') as [P1 [P2 [P3 P4]]].
              split; [exact P1|]. split; [exact P2|]. split; [|exact P4]. apply (keeps_fid e e1); [apply (w_keeps _ _ W)|exact P3].
        -- left. exists fids', e'. split; [exact E'|]. split; [eapply went_trans; eauto|]. split; [exact B'|]. split; [exact K'|].
           intros x. rewrite KK. apply KE.
        -- right. split; [exact E'|]. intros H. apply N'. intros x Hx Z. apply KE in Z. apply (H x); [right; exact Hx|exact Z].
      * destruct (IH fids e t cam ext e0) as [H|[E' N']]; auto.
        right. split; [exact E'|]. intros H. apply N'. intros x Hx. apply H. right. exact Hx.
    + right. split; [reflexivity|]. intros H. apply (H (k, b)); [left; reflexivity|exact F].
Qed.

Lemma frame_went : forall e cam f, reachable e -> exists e', AugmentStateFrame e cam f = OK e' /\ went e e' /\ same_clock e e' /\ frame' e e'.
Proof.
  intros e cam f R. pose proof (reachable_inv e R) as I. destruct (step_inv e (OFrame cam f) I Logic.I) as [e' [E _]].
  exists e'. split; [exact E|]. split; [apply (went_step e (OFrame cam f)); auto; exact Logic.I|].
  pose proof (step_frame' e (OFrame cam f) e' I Logic.I E) as F. split; [apply frame'_clock|]; exact F.
Qed.

Lemma local_predict : forall e t, reachable e -> exists e1, PredictModel (snd (CalculateLocalTime e t)) (fst (CalculateLocalTime e t)) = OK e1 /\
  went e e1 /\ brought e t e1.
Proof.
  intros e t Hr. destruct (local_went e t Hr) as [W0 [L0 [T0 [I0 [F0 [S0 [LL0 GG0]]]]]]].
  set (e0 := snd (CalculateLocalTime e t)) in *. rewrite L0. clearbody e0.
  destruct (predict_went e0 (local_of e t) (w_reach _ _ W0)) as [e1 [E1 [W1 [T1 [T2 [T3 F1]]]]]].
  exists e1. split; [exact E1|]. split; [eapply went_trans; eauto|]. apply (clock_brought e t e0); auto.
Qed.

Lemma sim_camera_sound : forall trs fids e id t frame tracks boards trs' fids' e', reachable e -> known e id (SCam trs fids) ->
  Forall (fun x => forall d, snd x = Some d -> errors_positive d) boards ->
  sim_camera_Callback mat_quat solve trs fids e id t frame tracks boards = OK (trs', fids', e') ->
  went e e' /\ brought e t e' /\ known e' id (SCam trs' fids').
Proof.
  intros trs fids e id t frame tracks boards trs' fids' e' Hr [ext [HC [HT HF]]] HB E.
  unfold sim_camera_Callback in E. rewrite local_of_split in E.
  destruct (local_predict e t Hr) as [e1 [E1 [W1 B1]]]. rewrite E1 in E. cbn [bind] in E.
  destruct (frame_went e1 id frame (w_reach _ _ W1)) as [e2 [E2 [W2 [C2 _]]]]. rewrite E2 in E. cbn [bind] in E.
  assert (W : went e e2) by (eapply went_trans; eauto). pose proof (keeps_cam _ _ _ _ (w_keeps _ _ W) HC) as HC2.
  destruct (track_all solve trs e2 t tracks) as [[trs1 e3]|] eqn:E3; cbn [bind] in E; [|discriminate].
  destruct (track_all_sound tracks trs e2 t trs1 e3 id ext e (w_reach _ _ W) HC2) as [W3 [B3 T3]]; auto.
  { eapply brought_clock; eauto. }
  assert (W' : went e e3) by (eapply went_trans; eauto). pose proof (keeps_cam _ _ _ _ (w_keeps _ _ W') HC) as HC3.
  destruct (board_all_sound boards fids e3 t id ext e (w_reach _ _ W') HC3 B3) as [[f4 [e4 [E4 [W4 [B4 [F4 _]]]]]]|[E4 _]]; auto.
  { intros k u K. destruct (HF k u K) as [P1 [P2 [P3 P4]]]. split; [exact P1|]. split; [exact P2|]. split; [|exact P4].
    apply (keeps_fid e e3); [apply (w_keeps _ _ W')|exact P3]. }
  - rewrite E4 in E. cbn [bind] in E. injection E as <- <- <-. split; [eapply went_trans; eauto|]. split; [exact B4|].
    exists ext. split; [apply (keeps_cam e3 e4); [apply (w_keeps _ _ W4)|exact HC3]|]. split; [exact T3|exact F4].
  - rewrite E4 in E. discriminate.
Qed.

Lemma camera_sound : forall c trs fids e id t image seen board trs' fids' c' e', reachable e -> known e id (SCam trs fids) ->
  (forall k d, board k = Some d -> errors_positive d) ->
  camera_Callback mat_quat solve c trs fids e id t image seen board = OK (trs', fids', c', e') ->
  went e e' /\ known e' id (SCam trs' fids') /\ n_sensors c' = n_sensors c /\
  (if image && negb (Nat.eqb (length trs + length fids) 0) then brought e t e' /\ n_frames c' = S (n_frames c)
   else e' = e /\ c' = c /\ trs' = trs /\ fids' = fids).
Proof.
  intros c trs fids e id t image seen board trs' fids' c' e' Hr HK HB E. pose proof HK as [ext [HC [HT HF]]].
  unfold camera_Callback in E. destruct (image && negb (Nat.eqb (length trs + length fids) 0)) eqn:Q.
  - cbn [GenerateFrameID] in E.
    destruct (sim_camera_Callback mat_quat solve trs fids e id t (n_frames c) (map (fun k => (k, seen k)) (keys trs))
      (map (fun k => (k, board k)) (keys fids))) as [[[a b] x]|] eqn:S.
    + pose proof S as S'. apply sim_camera_sound in S'; auto.
      * unfold sim_camera_Callback in S. destruct (CalculateLocalTime e t) as [lt e1].
        destruct (PredictModel e1 lt) as [e2|]; cbn [bind] in *; [|discriminate].
        destruct (AugmentStateFrame e2 id (n_frames c)) as [e3|]; cbn [bind] in *; [|discriminate].
        destruct (track_all solve trs e3 t _) as [[t4 e4]|]; cbn [bind] in *; [|discriminate].
        destruct (board_all mat_quat fids e4 t _) as [[f5 e5]|]; cbn [bind] in *; [|discriminate].
        injection S as <- <- <-. injection E as <- <- <- <-. destruct S' as [A [B C]]. cbn. auto.
      * apply Forall_forall. intros y Hy d Hd. apply in_map_iff in Hy. destruct Hy as [k [<- _]]. apply (HB k). exact Hd.
    + exfalso. unfold sim_camera_Callback in S. destruct (CalculateLocalTime e t) as [lt e1].
      destruct (PredictModel e1 lt) as [e2|]; cbn [bind] in *; [|discriminate].
      destruct (AugmentStateFrame e2 id (n_frames c)) as [e3|]; cbn [bind] in *; [|discriminate].
      destruct (track_all solve trs e3 t _) as [[t4 e4]|]; cbn [bind] in *; [|discriminate].
      destruct (board_all mat_quat fids e4 t _) as [[f5 e5]|]; cbn [bind] in *; discriminate.
  - injection E as <- <- <- <-. split; [apply went_refl; exact Hr|]. split; [exact HK|]. auto.
Qed.

Lemma update_inv : forall w e' c id s, winv w -> went (w_ekf w) e' -> n_sensors c = n_sensors (w_cnt w) -> known e' id s ->
  winv (mkWorld e' c (mset id s (w_sensors w))).
Proof.
  intros w e' c id s [R W K] G N H. constructor; cbn.
  - apply (w_reach _ _ G).
  - rewrite N. apply (keeps_within _ (w_ekf w)); [apply (w_keeps _ _ G)|exact W].
  - intros i x F. destruct (Nat.eq_dec i id) as [->|D].
    + rewrite mfind_mset_eq in F. injection F as <-. exact H.
    + rewrite mfind_mset_neq in F by exact D. apply (known_grows (w_ekf w)); auto. apply keeps_grows. apply (w_keeps _ _ G).
Qed.

Lemma deliver_sound : forall w m w', winv w -> message_ok (p_root (e_par (w_ekf w))) m ->
  deliver svd hull ecef_to_lla mat_quat solve w m = OK w' ->
  winv w' /\ went (w_ekf w) (w_ekf w') /\ (addressed w m -> brought (w_ekf w) (msg_time m) (w_ekf w')) /\ (~ addressed w m -> w' = w).
Proof.
  intros w m w' HW HM E. pose proof HW as [R W K]. unfold deliver in E. unfold addressed.
  destruct (mfind (msg_id m) (w_sensors w)) as [s|] eqn:F.
  - pose proof (K _ _ F) as HK. destruct m as [id t acc A omg V|id t lla N|id t frame tracks boards|id t]; cbn [msg_id msg_time] in *.
    + destruct s as [u|u|trs fids]; try discriminate. destruct HK as [H1 H2]. destruct HM as [HA HV].
      assert (H2' : has_imu (w_ekf w) (iu_id u) (iu_ext u) (iu_int u)) by (rewrite H1; exact H2).
      destruct (imu_callback u (w_ekf w) t acc A omg V R H2' HA HV) as [[u' [e' [E' D]]]|[E' _]]; rewrite E' in E; cbn [bind] in E; [|discriminate].
      injection E as <-. cbn. pose proof (id_went _ _ _ _ _ _ _ _ _ D) as G.
      split; [|split; [exact G|split; [intros _; apply (id_brought _ _ _ _ _ _ _ _ _ D)|intros X; exfalso; apply X; rewrite F; exact Logic.I]]].
      apply update_inv; auto. assert (X : iu_id u' = iu_id u /\ iu_ext u' = iu_ext u /\ iu_int u' = iu_int u).
      { destruct (id_u _ _ _ _ _ _ _ _ _ D) as [->|[-> _]]; auto. }
      destruct X as [X1 [X2 X3]]. cbn. rewrite X1, X2, X3. split; [exact H1|]. apply (keeps_imu (w_ekf w)); [apply (w_keeps _ _ G)|exact H2].
    + destruct s as [u|u|trs fids]; try discriminate. destruct HK as [H1 H2].
      assert (H2' : has_gps (w_ekf w) (gu_id u) (gu_ext u)) by (rewrite H1; exact H2).
      destruct (gps_UpdateEKF svd hull ecef_to_lla u (w_ekf w) t lla N) as [[u' e']|] eqn:E'; cbn [bind] in E; [|discriminate].
      pose proof (gps_sound svd hull ecef_to_lla u (w_ekf w) t lla N u' e' R H2' HM E') as D.
      injection E as <-. cbn. pose proof (gd_went _ _ _ _ _ _ D) as G.
      split; [|split; [exact G|split; [intros _; apply (gd_brought _ _ _ _ _ _ D)|intros X; exfalso; apply X; rewrite F; exact Logic.I]]].
      apply update_inv; auto. destruct (gd_u _ _ _ _ _ _ D) as [X1 X2]. cbn. rewrite X1, X2.
      split; [exact H1|]. apply (keeps_gps (w_ekf w)); [apply (w_keeps _ _ G)|exact H2].
    + destruct s as [u|u|trs fids]; try discriminate.
      destruct (sim_camera_Callback mat_quat solve trs fids (w_ekf w) id t frame tracks boards) as [[[a b] e']|] eqn:E'; cbn [bind] in E; [|discriminate].
      destruct (sim_camera_sound trs fids (w_ekf w) id t frame tracks boards a b e' R HK HM E') as [G [B H]].
      injection E as <-. cbn. split; [apply update_inv; auto|]. split; [exact G|]. split; [intros _; exact B|]. intros X; exfalso; apply X; rewrite F; exact Logic.I.
    + injection E as <-. split; [exact HW|]. split; [apply went_refl; exact R|]. split; [intros []|reflexivity].
  - injection E as <-. split; [exact HW|]. split; [apply went_refl; exact R|]. destruct m; cbn [msg_id] in F |- *; rewrite ?F; (split; [intros H; exfalso; exact H|reflexivity]).
Qed.

Lemma conf_inv : forall w o, winv w -> config_op o -> contract (w_ekf w) o ->
  exists e', step (w_ekf w) o = OK e' /\ winv (mkWorld e' (w_cnt w) (w_sensors w)).
Proof.
  intros w o [R W K] HO C. pose proof (reachable_inv _ R) as I. destruct (step_inv _ o I C) as [e' [E _]]. exists e'. split; [exact E|].
  pose proof (reachable_step _ o e' R C E) as R'.
  assert (KE : keeps (e_state (w_ekf w)) (e_state e')).
  { destruct o; try (exfalso; exact HO); pose proof (step_frame' _ _ e' I C E) as F; cbn in F;
      try (subst e'; apply keeps_same; reflexivity).
    apply (step_keeps _ ORefresh e' I Logic.I E Logic.I Logic.I). }
  constructor; cbn; auto.
  - apply (keeps_within _ (w_ekf w)); auto.
  - intros i s F. apply (known_grows (w_ekf w)); auto. apply keeps_grows. exact KE.
Qed.

Lemma wstep_sound : forall w v w', winv w -> event_ok w v -> wstep svd hull ecef_to_lla mat_quat solve w v = OK w' -> winv w'.
Proof.
  intros w v w' HW HO E. destruct v as [p|p|p ts fs|m|id t image seen board|o]; cbn [wstep event_ok] in *.
  - destruct (imu_new_inv w p HW HO) as [q [E' [H _]]]. rewrite E' in E. injection E as <-. exact H.
  - destruct (gps_new_inv w p HW HO) as [q [E' [H _]]]. rewrite E' in E. injection E as <-. exact H.
  - destruct HO as [O1 [O2 O3]]. destruct (cam_new_inv w p ts fs HW O1 O2 O3) as [q [E' [H _]]]. rewrite E' in E. injection E as <-. exact H.
  - apply (deliver_sound w m w' HW HO E).
  - destruct (mfind id (w_sensors w)) as [s|] eqn:F; [|injection E as <-; exact HW].
    destruct s as [u|u|trs fids]; try discriminate.
    destruct (camera_Callback mat_quat solve (w_cnt w) trs fids (w_ekf w) id t image seen board) as [[[[a b] c] e']|] eqn:E'; cbn [bind] in E; [|discriminate].
    destruct (camera_sound _ _ _ _ _ _ _ _ _ _ _ _ _ (wi_reach _ HW) (wi_known _ HW _ _ F) HO E') as [G [H [N _]]].
    injection E as <-. apply update_inv; auto.
  - destruct HO as [O1 O2]. destruct (conf_inv w o HW O1 O2) as [e' [E' H]]. rewrite E' in E. injection E as <-. exact H.
Qed.

Lemma wrun_sound : forall l w w', winv w -> events_ok svd hull ecef_to_lla mat_quat solve w l ->
  wrun svd hull ecef_to_lla mat_quat solve w l = OK w' -> winv w'.
Proof.
  induction l as [|v l IH]; intros w w' HW HO E; cbn [wrun events_ok] in *.
  - injection E as <-. exact HW.
  - destruct HO as [O1 O2]. destruct (wstep svd hull ecef_to_lla mat_quat solve w v) as [w1|] eqn:E1; cbn [bind] in E; [|discriminate].
    apply (IH w1 w'); auto. eapply wstep_sound; eauto.
Qed.

Lemma init_winv : forall p q pe a, noise_arg q -> winv (world_init (EKF_init p q pe a)).
Proof.
  intros p q pe a H. constructor; cbn.
  - exists p, q, pe, a, []. split; [exact H|]. split; [exact I|reflexivity].
  - repeat split; cbn; intros k [].
  - intros id s X; discriminate.
Qed.

(** *** No undefined behaviour *)
Lemma track_none : forall l trs e t, Forall (fun x => snd x = []) l -> track_all solve trs e t l = OK (trs, e).
Proof.
  induction l as [|[k x] l IH]; intros trs e t H; cbn; [reflexivity|]. inversion H as [|? ? H1 H2]; subst. cbn in H1. subst. auto.
Qed.
Lemma sim_camera_total : forall trs fids e id t frame tracks boards, reachable e -> known e id (SCam trs fids) ->
  Forall (fun x => forall d, snd x = Some d -> errors_positive d) boards ->
  Forall (fun x => snd x = []) tracks -> Forall (fun x => mfind (fst x) fids <> None) boards ->
  exists q, sim_camera_Callback mat_quat solve trs fids e id t frame tracks boards = OK q.
Proof.
  intros trs fids e id t frame tracks boards Hr [ext [HC [HT HF]]] HB HN HM.
  unfold sim_camera_Callback. rewrite local_of_split.
  destruct (local_predict e t Hr) as [e1 [E1 [W1 B1]]]. rewrite E1. cbn [bind].
  destruct (frame_went e1 id frame (w_reach _ _ W1)) as [e2 [E2 [W2 [C2 _]]]]. rewrite E2. cbn [bind].
  assert (W : went e e2) by (eapply went_trans; eauto). pose proof (keeps_cam _ _ _ _ (w_keeps _ _ W) HC) as HC2.
  rewrite track_none by exact HN. cbn [bind].
  destruct (board_all_sound boards fids e2 t id ext e (w_reach _ _ W) HC2) as [[f4 [e4 [E4 _]]]|[E4 N4]]; auto.
  { eapply brought_clock; eauto. }
  { intros k u K. destruct (HF k u K) as [P1 [P2 [P3 P4]]]. split; [exact P1|]. split; [exact P2|]. split; [|exact P4].
    apply (keeps_fid e e2); [apply (w_keeps _ _ W)|exact P3]. }
  - rewrite E4. cbn [bind]. eauto.
  - exfalso. apply N4. rewrite Forall_forall in HM. exact HM.
Qed.

Lemma wstep_total : forall w v, winv w -> event_ok w v -> plain_event w v ->
  p_root (e_par (w_ekf w)) = false -> (0 < p_imu_scale (e_par (w_ekf w)))%R ->
  exists w', wstep svd hull ecef_to_lla mat_quat solve w v = OK w'.
Proof.
  intros w v HW HO HP HR HS. destruct v as [p|p|p ts fs|m|id t image seen board|o]; cbn [wstep event_ok plain_event] in *.
  - destruct (imu_new_inv w p HW HO) as [q [E' _]]. rewrite E'. cbn. eauto.
  - destruct (gps_new_inv w p HW HO) as [q [E' _]]. rewrite E'. cbn. eauto.
  - destruct HO as [O1 [O2 O3]]. destruct (cam_new_inv w p ts fs HW O1 O2 O3) as [q [E' _]]. rewrite E'. cbn. eauto.
  - unfold deliver. destruct (mfind (msg_id m) (w_sensors w)) as [s|] eqn:F; [|eauto].
    pose proof (wi_known _ HW _ _ F) as HK.
    destruct m as [id t acc A omg V|id t lla N|id t frame tracks boards|id t]; cbn [msg_id] in *; rewrite ?F in HP; [| | |eauto].
    + destruct s as [u|u|trs fids]; try contradiction. destruct HK as [H1 H2]. destruct HO as [HA HV].
      assert (H2' : has_imu (w_ekf w) (iu_id u) (iu_ext u) (iu_int u)) by (rewrite H1; exact H2).
      destruct (imu_callback u (w_ekf w) t acc A omg V (wi_reach _ HW) H2' HA HV) as [[u' [e' [E' D]]]|[E' X]].
      * rewrite E'. cbn. eauto.
      * exfalso. apply X. auto.
    + destruct s; contradiction.
    + destruct s as [u|u|trs fids]; try contradiction. destruct HP as [P1 P2].
      destruct (sim_camera_total trs fids (w_ekf w) id t frame tracks boards (wi_reach _ HW) HK HO P1 P2) as [[[a b] e'] E'].
      rewrite E'. cbn. eauto.
  - destruct (mfind id (w_sensors w)) as [s|] eqn:F; [|eauto]. destruct s as [u|u|trs fids]; try contradiction.
    pose proof (wi_known _ HW _ _ F) as HK. unfold camera_Callback.
    destruct (image && negb (Nat.eqb (length trs + length fids) 0)); [|cbn; eauto].
    cbn [GenerateFrameID].
    destruct (sim_camera_total trs fids (w_ekf w) id t (n_frames (w_cnt w)) (map (fun k => (k, seen k)) (keys trs))
      (map (fun k => (k, board k)) (keys fids)) (wi_reach _ HW) HK) as [[[a b] x] S].
    + apply Forall_forall. intros y Hy d Hd. apply in_map_iff in Hy. destruct Hy as [k [<- _]]. apply (HO k). exact Hd.
    + apply Forall_forall. intros y Hy. apply in_map_iff in Hy. destruct Hy as [k [<- _]]. apply HP.
    + apply Forall_forall. intros y Hy. apply in_map_iff in Hy. destruct Hy as [k [<- Hk]]. cbn.
      intros Z. apply mfind_none in Z. contradiction.
    + unfold sim_camera_Callback in S. destruct (CalculateLocalTime (w_ekf w) t) as [lt e1].
      destruct (PredictModel e1 lt) as [e2|]; cbn [bind] in *; [|discriminate].
      destruct (AugmentStateFrame e2 id (n_frames (w_cnt w))) as [e3|]; cbn [bind] in *; [|discriminate].
      destruct (track_all solve trs e3 t _) as [[t4 e4]|]; cbn [bind] in *; [|discriminate].
      destruct (board_all mat_quat fids e4 t _) as [[f5 e5]|]; cbn [bind] in *; [|discriminate]. eauto.
  - destruct HO as [O1 O2]. destruct (conf_inv w o HW O1 O2) as [e' [E' H]]. rewrite E'. cbn. eauto.
Qed.

Lemma wstep_par : forall w v w', winv w -> event_ok w v -> wstep svd hull ecef_to_lla mat_quat solve w v = OK w' ->
  e_par (w_ekf w') = e_par (w_ekf w).
Proof.
  intros w v w' HW HO E. destruct v as [p|p|p ts fs|m|id t image seen board|o]; cbn [wstep event_ok] in *.
  - destruct (imu_new_inv w p HW HO) as [q [E' [_ [P _]]]]. rewrite E' in E. injection E as <-. exact P.
  - destruct (gps_new_inv w p HW HO) as [q [E' [_ [P _]]]]. rewrite E' in E. injection E as <-. exact P.
  - destruct HO as [O1 [O2 O3]]. destruct (cam_new_inv w p ts fs HW O1 O2 O3) as [q [E' [_ [P _]]]]. rewrite E' in E. injection E as <-. exact P.
  - destruct (deliver_sound w m w' HW HO E) as [_ [G _]]. apply (w_par _ _ G).
  - destruct (mfind id (w_sensors w)) as [s|] eqn:F; [|injection E as <-; reflexivity].
    destruct s as [u|u|trs fids]; try discriminate.
    destruct (camera_Callback mat_quat solve (w_cnt w) trs fids (w_ekf w) id t image seen board) as [[[[a b] c] e']|] eqn:E'; cbn [bind] in E; [|discriminate].
    destruct (camera_sound _ _ _ _ _ _ _ _ _ _ _ _ _ (wi_reach _ HW) (wi_known _ HW _ _ F) HO E') as [G _].
    injection E as <-. apply (w_par _ _ G).
  - destruct HO as [O1 O2]. destruct (step (w_ekf w) o) as [e'|] eqn:E'; [|discriminate]. injection E as <-. cbn.
    pose proof (step_frame' _ o e' (reachable_inv _ (wi_reach _ HW)) O2 E') as F.
    destruct o; try (exfalso; exact O1); try (subst e'; reflexivity). apply F.
Qed.

Lemma wrun_total : forall l w, winv w -> events_ok svd hull ecef_to_lla mat_quat solve w l ->
  events_plain svd hull ecef_to_lla mat_quat solve w l ->
  p_root (e_par (w_ekf w)) = false -> (0 < p_imu_scale (e_par (w_ekf w)))%R ->
  exists w', wrun svd hull ecef_to_lla mat_quat solve w l = OK w'.
Proof.
  induction l as [|v l IH]; intros w HW HO HP HR HS; cbn [wrun events_ok events_plain] in *; [eauto|].
  destruct HO as [O1 O2]. destruct HP as [P1 P2]. destruct (wstep_total w v HW O1 P1 HR HS) as [w1 E1]. rewrite E1. cbn [bind].
  pose proof (wstep_par w v w1 HW O1 E1) as P. apply IH; auto; [eapply wstep_sound; eauto|congruence|congruence].
Qed.
End Cb.
