(** Effect of the matrix surgery on named covariances. *)
From Coq Require Import Reals List Arith Bool Lia Lra.
From Verif Require Import Base.Res Base.Mat Base.RDec Base.RSum Base.LinAlg Base.Geom Base.AMap Base.RMat
  Model.TypeHelper Model.Types Model.MathHelperMat Model.QR Model.Ekf Model.Ops
  Spec.Layout Spec.History Spec.Contract Spec.Named
  Proofs.MatSurgery Proofs.Refresh Proofs.Wf Proofs.Register Proofs.AugCov Proofs.Augment
  Proofs.CovGood Proofs.LayoutNoDup Proofs.Invariant.
Import ListNotations.
Open Scope nat_scope.

Lemma reachable_inv : forall e, reachable e -> inv e.
Proof.
  intros e [p [q [pe [a [l [H1 [H2 H3]]]]]]].
  destruct (run_inv l _ (init_inv p q pe a H1) H2) as [e' [E I]]. rewrite H3 in E. injection E as <-. exact I.
Qed.

Lemma reachable_step : forall e o e', reachable e -> contract e o -> step e o = OK e' -> reachable e'.
Proof.
  intros e o e' [p [q [pe [a [l [H1 [H2 H3]]]]]]] C E.
  exists p, q, pe, a, (l ++ [o]). split; [exact H1|].
  assert (G : forall l e0, respects e0 l -> run e0 l = OK e -> respects e0 (l ++ [o]) /\ run e0 (l ++ [o]) = OK e').
  { clear - C E. induction l as [|x l IH]; intros e0 H2 H3; cbn [run respects app] in *.
    - injection H3 as ->. split; [split; [exact C|intros; exact I]|]. rewrite E. reflexivity.
    - destruct H2 as [H2 H2']. destruct (step e0 x) as [e1|] eqn:E1; cbn [bind] in *; [|discriminate].
      specialize (H2' e1 eq_refl). destruct (IH e1 H2' H3) as [A B]. split; [|exact B].
      split; [exact H2|]. intros e1' X. injection X as <-. exact A. }
  apply G; auto.
Qed.

(** *** Names are unique *)
Lemma layout_unique : forall e a i j, inv e -> at_ (e_state e) a i -> at_ (e_state e) a j -> i = j.
Proof.
  intros e a i j [W _] Hi Hj.
  pose proof (layout_NoDup _ (pre_sorted _ (wf_pre _ W))) as ND.
  rewrite NoDup_nth_error in ND. apply ND; [|unfold at_ in *; congruence].
  apply nth_error_Some. unfold at_ in Hi. congruence.
Qed.

Lemma cov_is_fun : forall e a b v w, inv e -> cov_is e a b v -> cov_is e a b w -> v = w.
Proof.
  intros e a b v w I [i [j [H1 [H2 <-]]]] [i' [j' [H3 [H4 <-]]]].
  assert (i = i') by (eapply layout_unique; eauto). assert (j = j') by (eapply layout_unique; eauto).
  subst. reflexivity.
Qed.

(** *** Insertion *)
Definition ins (pos k : nat) (P S : fmat) : fmat := fun i j =>
  match unshift pos k i, unshift pos k j with
  | Some a, Some b => P a b
  | None, None => S (i - pos) (j - pos)
  | _, _ => 0%R
  end.

Lemma rsum_ins : forall n k pos (f : nat -> R), pos <= n ->
  rsum (n + k) f = (rsum n (fun i => f (skip pos k i)) + rsum k (fun i => f (pos + i)%nat))%R.
Proof.
  intros n k pos f H. replace (n + k) with (pos + (k + (n - pos))) by lia.
  rewrite rsum_split, rsum_split.
  replace n with (pos + (n - pos)) at 2 by lia. rewrite rsum_split.
  rewrite (rsum_ext pos (fun i => f (skip pos k i)) f).
  2:{ intros i Hi. rewrite skip_lt by lia. reflexivity. }
  rewrite (rsum_ext (n - pos) (fun i => f (skip pos k (pos + i))) (fun i => f (pos + (k + i)))).
  2:{ intros i Hi. rewrite skip_ge by lia. f_equal. lia. }
  ring.
Qed.

Lemma gram_ins : forall n k pos P S, pos <= n ->
  eqm (n + k) (n + k) (gram (n + k) (ins pos k P S)) (ins pos k (gram n P) (gram k S)).
Proof.
  intros n k pos P S Hp i j Hi Hj. unfold gram at 1, mm, tr. rewrite (rsum_ins n k pos) by auto.
  rewrite (rsum_ext n _ (fun q => match unshift pos k i, unshift pos k j with
     Some a, Some b => P q a * P q b | _, _ => 0 end)%R).
  2:{ intros q Hq. unfold ins. rewrite unshift_skip.
      destruct (unshift pos k i), (unshift pos k j); ring. }
  rewrite (rsum_ext k _ (fun q => match unshift pos k i, unshift pos k j with
     None, None => S q (i - pos)%nat * S q (j - pos)%nat | _, _ => 0 end)%R).
  2:{ intros q Hq. unfold ins. rewrite unshift_mid by lia. replace (pos + q - pos) with q by lia.
      destruct (unshift pos k i), (unshift pos k j); ring. }
  unfold ins, gram, mm, tr. destruct (unshift pos k i), (unshift pos k j).
  - rewrite (rsum_0 k) by reflexivity. ring.
  - rewrite !rsum_0 by reflexivity. ring.
  - rewrite !rsum_0 by reflexivity. ring.
  - rewrite (rsum_0 n) by reflexivity. ring.
Qed.

Lemma gram_ext : forall n m S T, eqm m n S T -> eqm n n (gram m S) (gram m T).
Proof.
  intros n m S T H i j Hi Hj. unfold gram, mm, tr. apply rsum_ext. intros k Hk. now rewrite !H.
Qed.

Lemma stands_insert : forall root n m sub out pos k,
  is_insert m sub out pos -> pos <= n -> nr m = n -> nc m = n -> nr sub = k -> nc sub = k ->
  eqm (n + k) (n + k) (stands_for root (n + k) out)
    (ins pos k (stands_for root n m) (stands_for root k sub)).
Proof.
  intros root n m sub out pos k [I1 [I2 I3]] Hp N1 N2 K1 K2.
  assert (E : eqm (n + k) (n + k) (ent out) (ins pos k (ent m) (ent sub))).
  { intros i j Hi Hj. rewrite I3 by lia. unfold insert_entry, ins. rewrite K1, K2. reflexivity. }
  destruct root; cbn [stands_for]; [|exact E].
  etransitivity; [apply gram_ext; exact E|apply gram_ins; exact Hp].
Qed.

Lemma nth_error_mid : forall A (L N R : list A) i,
  nth_error (L ++ N ++ R) i =
  match unshift (length L) (length N) i with
  | Some a => nth_error (L ++ R) a
  | None => nth_error N (i - length L)
  end.
Proof.
  intros A L N R i. destruct (Nat.lt_ge_cases i (length L)) as [H|H].
  - rewrite unshift_lt, !nth_error_app1 by lia. reflexivity.
  - destruct (Nat.lt_ge_cases i (length L + length N)) as [H2|H2].
    + rewrite unshift_mid by lia. rewrite nth_error_app2, nth_error_app1 by lia. reflexivity.
    + rewrite unshift_ge by lia. rewrite !nth_error_app2 by lia. f_equal. lia.
Qed.

Lemma nth_error_skip : forall A (L N R : list A) i,
  nth_error (L ++ N ++ R) (skip (length L) (length N) i) = nth_error (L ++ R) i.
Proof. intros. rewrite nth_error_mid, unshift_skip. reflexivity. Qed.

Lemma named_insert : forall L N R P S Q,
  eqm (length (L ++ N ++ R)) (length (L ++ N ++ R)) Q (ins (length L) (length N) P S) ->
  (forall a b v, named (L ++ R) P a b v -> named (L ++ N ++ R) Q a b v) /\
  (forall k l a b, nth_error N k = Some a -> nth_error N l = Some b -> named (L ++ N ++ R) Q a b (S k l)) /\
  (forall a b, In a N -> In b (L ++ R) -> named (L ++ N ++ R) Q a b 0%R /\ named (L ++ N ++ R) Q b a 0%R).
Proof.
  intros L N R P S Q E.
  assert (B : forall i a, nth_error (L ++ N ++ R) i = Some a -> i < length (L ++ N ++ R)).
  { intros i a H. apply nth_error_Some. congruence. }
  assert (HN : forall k a, nth_error N k = Some a -> nth_error (L ++ N ++ R) (length L + k) = Some a).
  { intros k a H. assert (k < length N) by (apply nth_error_Some; congruence).
    rewrite nth_error_mid, unshift_mid by lia. rewrite <- H. f_equal. lia. }
  assert (HO : forall i a, nth_error (L ++ R) i = Some a ->
     nth_error (L ++ N ++ R) (skip (length L) (length N) i) = Some a).
  { intros i a H. now rewrite nth_error_skip. }
  split; [|split].
  - intros a b v [i [j [H1 [H2 H3]]]]. exists (skip (length L) (length N) i), (skip (length L) (length N) j).
    split; [auto|]. split; [auto|]. rewrite E by eauto. unfold ins. now rewrite !unshift_skip.
  - intros k l a b H1 H2. exists (length L + k), (length L + l). split; [auto|]. split; [auto|].
    assert (k < length N) by (apply nth_error_Some; congruence).
    assert (l < length N) by (apply nth_error_Some; congruence).
    rewrite E by eauto. unfold ins. rewrite !unshift_mid by lia. f_equal; lia.
  - intros a b H1 H2. apply In_nth_error in H1. destruct H1 as [k H1].
    apply In_nth_error in H2. destruct H2 as [i H2].
    assert (k < length N) by (apply nth_error_Some; congruence).
    split; [exists (length L + k), (skip (length L) (length N) i)|exists (skip (length L) (length N) i), (length L + k)];
      (split; [auto|]; split; [auto|]; rewrite E by eauto; unfold ins; rewrite unshift_skip, unshift_mid by lia; reflexivity).
Qed.

Lemma sub_block_stands : forall root k c, eqm k k (stands_for root k (sub_block c k)) (stands_for root k c).
Proof.
  intros [|] k c i j Hi Hj; cbn [stands_for sub_block ent Nat.add]; reflexivity.
Qed.

(** The common shape of the four registrations. *)
Lemma register_adds : forall e e' c k pos L N R, inv e -> inv e' -> frame e e' ->
  is_insert (e_cov e) (sub_block c k) (e_cov e') pos ->
  layout (e_state e) = L ++ R -> layout (e_state e') = L ++ N ++ R ->
  length L = pos -> length N = k ->
  adds e e' N (stands_for (p_root (e_par e)) k c).
Proof.
  intros e e' c k pos L N R [W G] [W' G'] F HI H1 H2 <- <-.
  assert (Z : e_size e = length (L ++ R)) by (rewrite <- (dim_size e W); unfold dim; now rewrite H1).
  assert (Z' : e_size e' = length (L ++ N ++ R)) by (rewrite <- (dim_size e' W'); unfold dim; now rewrite H2).
  assert (ZZ : length (L ++ N ++ R) = length (L ++ R) + length N) by (rewrite !app_length; lia).
  assert (RT : p_root (e_par e') = p_root (e_par e)) by (destruct F as [-> _]; reflexivity).
  assert (E : eqm (length (L ++ N ++ R)) (length (L ++ N ++ R)) (covariance e')
     (ins (length L) (length N) (covariance e) (stands_for (p_root (e_par e)) (length N) c))).
  { unfold covariance. rewrite RT, Z', Z, ZZ.
    etransitivity; [apply (stands_insert _ (length (L ++ R)) (e_cov e) (sub_block c (length N)) (e_cov e') (length L)); auto|].
    - rewrite app_length. lia.
    - rewrite (wf_nr _ W). exact Z.
    - rewrite (wf_nc _ W). exact Z.
    - intros i j Hi Hj. unfold ins.
      destruct (unshift (length L) (length N) i), (unshift (length L) (length N) j), (p_root (e_par e)); reflexivity. }
  destruct (named_insert L N R _ _ _ E) as [A [B C]].
  constructor; unfold cov_is; rewrite ?H1, ?H2.
  - intros a. rewrite !in_app_iff. tauto.
  - exact A.
  - exact B.
  - exact C.
Qed.

Lemma below_append : forall A id (x : A) m, below id m -> mset id x m = m ++ [(id, x)].
Proof.
  intros A id x m H. apply mset_append. apply Forall_forall. intros [k v] Hk. apply H.
  apply in_map_iff. exists (k, v). auto.
Qed.

Lemma below_fresh : forall A id (m : amap A), below id m -> mfind id m = None.
Proof. intros A id m H. apply mfind_none. intros X. specialize (H _ X). lia. Qed.

Lemma flat_map_snoc : forall A B (f : A -> list B) l x, flat_map f (l ++ [x]) = flat_map f l ++ f x.
Proof. intros. rewrite flat_map_app. cbn. now rewrite app_nil_r. Qed.

Lemma sum_labels : forall A (f : nat * A -> list label) (g : A -> nat) m,
  (forall x, length (f x) = g (snd x)) -> length (flat_map f m) = sum_len g m.
Proof. intros. apply flat_map_length_sum. auto. Qed.

Theorem register_imu_named : forall e id st c e', inv e -> contract e (ORegImu id st c) ->
  below id (s_imu (e_state e)) -> RegisterIMU e id st c = OK e' ->
  adds e e' (imu_labels (id, st)) (stands_for (p_root (e_par e)) (length (imu_labels (id, st))) c).
Proof.
  intros e id st c e' I C B E.
  destruct (reg_imu_inv e id st c I C) as [e2 [E2 I2]]. rewrite E in E2. injection E2 as <-.
  pose proof (below_fresh _ _ _ B) as Hf.
  destruct (C Hf) as [H1 [H2 [H3 H4]]]. rewrite imu_labels_length in H1. cbn [snd] in H1. destruct H2 as [H2 [H2' _]].
  destruct (RegisterIMU_ok e id st c) as [e2 [E2 [_ [S' [HI [_ [F _]]]]]]]; [apply I|exact Hf|repeat split; tauto|].
  rewrite E in E2. injection E2 as <-.
  rewrite imu_labels_length. cbn [snd].
  eapply (register_adds e e' c (imu_len st) _ (map LBody (seq 0 18) ++ flat_map imu_labels (s_imu (e_state e)))
     (imu_labels (id, st)) _ I I2 F HI).
  - unfold layout. rewrite <- !app_assoc. reflexivity.
  - rewrite S', ix_layout. unfold layout. ekf_cbn. rewrite below_append by auto.
    rewrite flat_map_snoc. rewrite <- !app_assoc. reflexivity.
  - rewrite app_length, map_length, seq_length, (sum_labels _ _ imu_len) by apply imu_labels_length. reflexivity.
  - apply imu_labels_length.
Qed.

Theorem register_gps_named : forall e id st c e', inv e -> contract e (ORegGps id st c) ->
  below id (s_gps (e_state e)) -> RegisterGPS e id st c = OK e' ->
  adds e e' (gps_labels (id, st)) (stands_for (p_root (e_par e)) (length (gps_labels (id, st))) c).
Proof.
  intros e id st c e' I C B E.
  destruct (reg_gps_inv e id st c I C) as [e2 [E2 I2]]. rewrite E in E2. injection E2 as <-.
  pose proof (below_fresh _ _ _ B) as Hf.
  destruct (C Hf) as [H1 [H2 H3]]. rewrite gps_labels_length in H1. cbn [snd] in H1. destruct H2 as [H2 [H2' _]].
  destruct (RegisterGPS_ok e id st c) as [e2 [E2 [_ [S' [HI [_ [F _]]]]]]]; [apply I|exact Hf|repeat split; tauto|].
  rewrite E in E2. injection E2 as <-.
  rewrite gps_labels_length. cbn [snd].
  eapply (register_adds e e' c (gps_len st) _ (map LBody (seq 0 18) ++ flat_map imu_labels (s_imu (e_state e)) ++
     flat_map gps_labels (s_gps (e_state e))) (gps_labels (id, st)) _ I I2 F HI).
  - unfold layout. rewrite <- !app_assoc. reflexivity.
  - rewrite S', ix_layout. unfold layout. ekf_cbn. rewrite below_append by auto.
    rewrite flat_map_snoc. rewrite <- !app_assoc. reflexivity.
  - rewrite !app_length, map_length, seq_length, (sum_labels _ _ imu_len) by apply imu_labels_length.
    rewrite (sum_labels _ _ gps_len) by apply gps_labels_length. unfold start_cam, start_gps. lia.
  - apply gps_labels_length.
Qed.

Theorem register_cam_named : forall e id st c e', inv e -> contract e (ORegCam id st c) ->
  below id (s_cam (e_state e)) -> RegisterCamera e id st c = OK e' ->
  adds e e' (cam_labels (id, st)) (stands_for (p_root (e_par e)) (length (cam_labels (id, st))) c).
Proof.
  intros e id st c e' I C B E.
  destruct (reg_cam_inv e id st c I C) as [e2 [E2 I2]]. rewrite E in E2. injection E2 as <-.
  pose proof (below_fresh _ _ _ B) as Hf.
  destruct (C Hf) as [H1 [H2 [H3 H4]]]. rewrite cam_labels_length in H1. cbn [snd] in H1. destruct H2 as [H2 [H2' _]].
  destruct (RegisterCamera_ok e id st c) as [e2 [E2 [_ [S' [HI [_ [F _]]]]]]]; [apply I|exact Hf|repeat split; tauto|].
  rewrite E in E2. injection E2 as <-.
  rewrite cam_labels_length. cbn [snd].
  eapply (register_adds e e' c (cam_len st) _ (map LBody (seq 0 18) ++ flat_map imu_labels (s_imu (e_state e)) ++
     flat_map gps_labels (s_gps (e_state e)) ++ flat_map cam_labels (s_cam (e_state e)))
     (cam_labels (id, st)) _ I I2 F HI).
  - unfold layout. rewrite <- !app_assoc. reflexivity.
  - rewrite S', ix_layout. unfold layout. ekf_cbn. rewrite below_append by auto.
    rewrite flat_map_snoc. rewrite <- !app_assoc. reflexivity.
  - rewrite !app_length, map_length, seq_length, (sum_labels _ _ imu_len) by apply imu_labels_length.
    rewrite (sum_labels _ _ gps_len) by apply gps_labels_length.
    rewrite (sum_labels _ _ cam_len) by apply cam_labels_length. unfold start_fid, start_cam, start_gps. lia.
  - apply cam_labels_length.
Qed.

Lemma no_clone_labels : forall m, (forall k l, In (k, l) m -> l = []) -> flat_map aug_labels m = [].
Proof.
  induction m as [|[k l] t IH]; intros H; [reflexivity|]. cbn [flat_map].
  rewrite (H k l (or_introl eq_refl)), IH; [reflexivity|]. intros k' l' Hk. apply (H k' l'). right. exact Hk.
Qed.

Theorem register_fid_named : forall e st c e', inv e -> contract e (ORegFid st c) ->
  below (f_id st) (s_fid (e_state e)) -> no_clones e -> RegisterFiducial e st c = OK e' ->
  adds e e' (fid_labels (f_id st, st)) (stands_for (p_root (e_par e)) (length (fid_labels (f_id st, st))) c).
Proof.
  intros e st c e' I C B NC E.
  destruct (reg_fid_inv e st c I C) as [e2 [E2 I2]]. rewrite E in E2. injection E2 as <-.
  pose proof (below_fresh _ _ _ B) as Hf.
  destruct (C Hf) as [H1 [H2 H3]]. rewrite fid_labels_length in H1. cbn [snd] in H1. destruct H2 as [H2 [H2' _]].
  destruct (RegisterFiducial_ok e st c) as [e2 [E2 [_ [S' [HI [_ [F _]]]]]]]; [apply I|exact Hf|repeat split; tauto|].
  rewrite E in E2. injection E2 as <-.
  rewrite fid_labels_length. cbn [snd].
  pose proof (no_clone_labels _ NC) as HA.
  eapply (register_adds e e' c (fid_len st) _ (layout (e_state e)) (fid_labels (f_id st, st)) [] I I2 F HI).
  - now rewrite app_nil_r.
  - rewrite S', ix_layout. unfold layout. ekf_cbn. rewrite below_append by auto.
    rewrite flat_map_snoc, HA. rewrite <- !app_assoc. reflexivity.
  - apply (dim_size e (proj1 I)).
  - apply fid_labels_length.
Qed.
