(** Clones and predictions in the two filters. *)
From Coq Require Import Reals List Arith Bool Lia Lra Permutation.
From Verif Require Import Base.Res Base.Mat Base.RDec Base.RSum Base.LinAlg Base.Inverse Base.Geom Base.AMap Base.RMat
  Model.TypeHelper Model.Types Model.MathHelperMat Model.Ekf Model.Updater Model.Ops
  Spec.Layout Spec.History Spec.Contract Spec.Correct Spec.Named Spec.Same Spec.KF Spec.Motion Spec.Noise Spec.ByName
  Proofs.Refresh Proofs.Wf Proofs.Register Proofs.Augment Proofs.Invariant Proofs.Named Proofs.Clones Proofs.Same Proofs.Update
  Proofs.Sizes Proofs.Scalars Proofs.Clock Proofs.Effects Proofs.Windows Proofs.Pruning Proofs.CloneFacts Proofs.Predict Proofs.Finals Proofs.Noise
  Proofs.Follows Proofs.ByName.
Import ListNotations.
Open Scope nat_scope.

Lemma own_bare : forall s s' q x, bare (state_with_aug s' []) = bare (state_with_aug s []) -> own_rate s' q x = own_rate s q x.
Proof.
  intros s s' q x B. apply bare_parts in B. cbn [s_body s_imu s_gps s_cam s_fid s_aug state_with_aug] in B.
  destruct B as (_ & B1 & B2 & B3 & B4 & _). destruct x; try reflexivity; cbn [own_rate].
  1,2: pose proof (mfind_bare _ _ id _ _ B1) as M; destruct (mfind id (s_imu s)), (mfind id (s_imu s')); cbn in M; try discriminate; try reflexivity;
    injection M; intros; try destruct (Nat.ltb k 3); congruence.
  - pose proof (mfind_bare _ _ id _ _ B2) as M; destruct (mfind id (s_gps s)), (mfind id (s_gps s')); cbn in M; try discriminate; try reflexivity;
    injection M; intros; try destruct (Nat.ltb k 3); congruence.
  - pose proof (mfind_bare _ _ id _ _ B3) as M; destruct (mfind id (s_cam s)), (mfind id (s_cam s')); cbn in M; try discriminate; try reflexivity;
    injection M; intros; try destruct (Nat.ltb k 3); congruence.
  - pose proof (mfind_bare _ _ id _ _ B4) as M; destruct (mfind id (s_fid s)), (mfind id (s_fid s')); cbn in M; try discriminate; try reflexivity;
    injection M; intros; try destruct (Nat.ltb k 3); congruence.
Qed.

Lemma flat_bare : forall A (f : A -> A) (g : nat * A -> list label) m m',
  (forall k x, g (k, f x) = g (k, x)) -> on_map f m' = on_map f m -> flat_map g m' = flat_map g m.
Proof.
  intros A f g m m' H E.
  assert (X : forall m, flat_map g (on_map f m) = flat_map g m).
  { clear m m' E. induction m as [|[k x] m IH]; [reflexivity|]. cbn. rewrite H. f_equal. exact IH. }
  rewrite <- (X m), <- (X m'), E. reflexivity.
Qed.
Definition is_clone (x : label) : bool := match x with LAug _ _ _ => true | _ => false end.
Lemma fixed_bare : forall s s' x, bare (state_with_aug s' []) = bare (state_with_aug s []) -> is_clone x = false ->
  (In x (layout s') <-> In x (layout s)).
Proof.
  intros s s' x B N. apply bare_parts in B. cbn [s_body s_imu s_gps s_cam s_fid s_aug state_with_aug] in B.
  destruct B as (_ & B1 & B2 & B3 & B4 & _). unfold layout.
  rewrite (flat_bare _ bare_imu imu_labels _ _ (fun _ _ => eq_refl) B1), (flat_bare _ bare_gps gps_labels _ _ (fun _ _ => eq_refl) B2),
    (flat_bare _ bare_cam cam_labels _ _ (fun _ _ => eq_refl) B3), (flat_bare _ bare_fid fid_labels _ _ (fun _ _ => eq_refl) B4).
  rewrite !in_app_iff.
  assert (Z : forall m, ~ In x (flat_map aug_labels m)).
  { intros m H. apply in_flat_map in H. destruct H as [[k l] [_ H]]. apply aug_labels_key in H. destruct H as [p [c [-> _]]]. discriminate. }
  pose proof (Z (s_aug s)). pose proof (Z (s_aug s')). tauto.
Qed.
Lemma window_labels : forall e k p c, inv e -> (In (LAug k p c) (layout (e_state e)) <-> p < length (aug_at e k) /\ c < 6).
Proof.
  intros e k p c I. destruct (layout_window (e_state e) k (aug_sorted e (wf_pre _ (proj1 I)))) as [L [R [FL [FR [_ [_ [H1 _]]]]]]].
  rewrite H1, !in_app_iff. rewrite Forall_forall in FL, FR. fold (aug_at e k). split.
  - intros [H|[H|H]]; [apply FL in H; exfalso; now apply H| |apply FR in H; exfalso; now apply H].
    apply aug_labels_key in H. destruct H as [p' [c' [X [Hp Hc]]]]. injection X as <- <-. auto.
  - intros [Hp Hc]. right. left. unfold aug_labels. cbn [fst snd]. apply in_flat_map. exists p. split; [apply in_seq; lia|].
    apply in_map. apply in_seq. lia.
Qed.
Lemma keys_on : forall A (f : A -> A) m m', on_map f m' = on_map f m -> keys m' = keys m.
Proof. intros A f m m' H. rewrite <- (keys_bare _ f m), <- (keys_bare _ f m'), H. reflexivity. Qed.

(** Windows change, everything else stays. *)
Lemma twin_windows : forall e a e' a' g src, twin e a -> inv e' -> frame' e e' -> cam_frame e e' ->
  bare (state_with_aug (e_state e') []) = bare (state_with_aug (e_state e) []) ->
  inherits e e' g ->
  (forall x, In x (layout (e_state e')) -> nm (n_first a) (g x) = src (nm (n_first a') x)) ->
  (forall u v, n_cov a' u v = n_cov a (src u) (src v)) ->
  (forall n, In n (n_names a') <->
     match n with
     | NClone k m c => n_first a' k <= m < n_next a' k /\ c < 6
     | _ => In n (n_names a)
     end) ->
  NoDup (n_names a') ->
  (forall k, n_next a' k = n_first a' k + length (aug_at e' k)) ->
  (forall i x, at_ (e_state e') x i -> ent (e_Q e') i i = n_rate a' (nm (n_first a') x)) ->
  n_body a' = n_body a -> n_stab a' = n_stab a -> n_time a' = n_time a -> n_started a' = n_started a ->
  n_gravity a' = n_gravity a -> n_max a' = n_max a -> n_primary a' = n_primary a ->
  n_imus a' = n_imus a -> n_gpss a' = n_gpss a -> n_cams a' = n_cams a -> n_fids a' = n_fids a ->
  twin e' a'.
Proof.
  intros e a e' a' g src T I' F G B IH SRC CV NM ND WIN RT A1 A2 A3 A4 A5 A6 A7 A8 A9 A10 A11.
  destruct F as (F1 & F2 & F3 & F4 & F5 & F6 & _ & _ & _ & _ & _ & _ & F13 & _). destruct G as (G1 & _).
  assert (FX : forall x, is_clone x = false -> nm (n_first a') x = nm (n_first a) x) by (intros [] X; try reflexivity; discriminate).
  assert (BP := bare_parts _ _ B). cbn [s_body s_imu s_gps s_cam s_fid s_aug state_with_aug] in BP. destruct BP as (_ & B1 & B2 & B3 & B4 & _).
  constructor; rewrite ?A1, ?A2, ?A3, ?A4, ?A5, ?A6, ?A7, ?A8, ?A9, ?A10, ?A11; auto.
  - rewrite F1. apply T.
  - intros x Hx. apply NM. destruct (is_clone x) eqn:C.
    + destruct x; try discriminate. apply (window_labels e' _ _ _ I') in Hx. cbn [nm]. rewrite WIN. lia.
    + rewrite FX by exact C. apply (fixed_bare _ _ x B C) in Hx. apply (tw_in _ _ T) in Hx. destruct x; try exact Hx; discriminate.
  - intros n Hn. apply NM in Hn. destruct n as [k|id k|id k|id k|id k|id k|k m c].
    7: { exists (LAug k (m - n_first a' k) c). rewrite (window_labels e' _ _ _ I'). rewrite WIN in Hn. cbn [nm].
         split; [lia|]. f_equal. lia. }
    all: destruct (tw_out _ _ T _ Hn) as [x [Hx E]]; exists x;
      (assert (C : is_clone x = false) by (destruct x; try reflexivity; discriminate));
      split; [apply (fixed_bare _ _ x B C); exact Hx|rewrite FX by exact C; exact E].
  - intros x y Hx Hy. rewrite CV, <- (SRC x Hx), <- (SRC y Hy). apply (inh_cov _ _ _ IH); auto.
    apply T; apply (inh_names _ _ _ IH); auto.
  - intros x Hx. rewrite F6, (own_bare _ _ _ _ B). destruct (is_clone x) eqn:C; [destruct x; try discriminate; reflexivity|].
    rewrite FX by exact C. apply T. apply (fixed_bare _ _ x B C). exact Hx.
  - intros k. rewrite F6. apply T.
  - rewrite F2. apply T.
  - rewrite F4. apply T.
  - rewrite F13. apply T.
  - rewrite F5. apply T.
  - rewrite G1. apply T.
  - intros id. rewrite (keys_on _ _ _ _ B1). apply T.
  - intros id. rewrite (keys_on _ _ _ _ B2). apply T.
  - intros id. rewrite (keys_on _ _ _ _ B3). apply T.
  - intros id. rewrite (keys_on _ _ _ _ B4). apply T.
Qed.

(** *** A camera frame *)
Lemma pose_in : forall e a k, twin e a -> k < 6 -> In (pose_of k) (n_names a).
Proof.
  intros e a k T H. unfold pose_of. destruct (Nat.ltb_spec k 3).
  - apply (tw_in _ _ T (LBody k)). apply body_in_layout. lia.
  - apply (tw_in _ _ T (LBody (k + 6))). apply body_in_layout. lia.
Qed.
Lemma name_window : forall e a k m c, twin e a -> (In (NClone k m c) (n_names a) <-> n_first a k <= m < n_next a k /\ c < 6).
Proof.
  intros e a k m c T. pose proof (tw_inv _ _ T) as I. rewrite (tw_win _ _ T). split.
  - intros H. destruct (tw_out _ _ T _ H) as [x [Hx E]]. destruct x; try discriminate. cbn in E. injection E as -> <- <-.
    apply (window_labels e _ _ _ I) in Hx. lia.
  - intros [H1 H2]. replace (NClone k m c) with (nm (n_first a) (LAug k (m - n_first a k) c)) by (cbn; f_equal; lia).
    apply (tw_in _ _ T). apply (window_labels e _ _ _ I). lia.
Qed.
Lemma in_ncopies : forall n f x, In x (ncopies n f) <-> exists k, k < n /\ x = f k.
Proof.
  intros n f x. unfold ncopies. rewrite in_map_iff. split.
  - intros [k [<- H]]. apply in_seq in H. exists k. split; [lia|reflexivity].
  - intros [k [H ->]]. exists k. split; [reflexivity|apply in_seq; lia].
Qed.
Lemma NoDup_app2 : forall A (l m : list A), NoDup l -> NoDup m -> (forall x, In x l -> ~ In x m) -> NoDup (l ++ m).
Proof.
  induction l as [|x l IH]; intros m H1 H2 H3; [exact H2|]. inversion H1; subst. cbn. constructor.
  - rewrite in_app_iff. intros [X|X]; [auto|]. apply (H3 x); [left; auto|exact X].
  - apply IH; auto. intros y Hy. apply H3. right. exact Hy.
Qed.
Lemma NoDup_six_clones : forall cam n, NoDup (ncopies 6 (NClone cam n)).
Proof. intros. apply FinFun.Injective_map_NoDup; [intros i j X; congruence|apply seq_NoDup]. Qed.

Lemma clone_label : forall f k, nm f (clone_of_body k) = pose_of k.
Proof. intros f k. unfold clone_of_body, pose_of. destruct (k <? 3); reflexivity. Qed.

Lemma frame_configured : forall e cam f e', reachable e -> per_frame e cam = true -> AugmentStateFrame e cam f = OK e' -> configured e'.
Proof.
  intros e cam f e' Hr PF E. pose proof (reachable_inv e Hr) as I.
  destruct (frame_inv e cam f I) as [e2 [E2 I2]]. rewrite E in E2. injection E2 as <-.
  destruct (AugmentStateFrame_ok e cam f (proj1 I)) as [e2 [E2 [W' [_ [_ [_ H]]]]]]. rewrite E in E2. injection E2 as <-.
  destruct (H PF) as [_ [HQ _]]. apply tuned_configured; [exact W'|exact HQ].
Qed.

Lemma twin_own_rate : forall e a, (forall x, In x (layout (e_state e)) ->
    own_rate (e_state e) (e_bodyQ e) x = n_own (n_body a) (n_stab a) (nm (n_first a) x)) -> configured e -> p_root (e_par e) = false ->
  forall i x, at_ (e_state e) x i -> ent (e_Q e) i i = n_own (n_body a) (n_stab a) (nm (n_first a) x).
Proof. intros e a H C RT i x Hx. rewrite (configured_rate e i x C RT Hx). apply H. eapply nth_error_In; exact Hx. Qed.

Lemma step_frame : forall e a cam f e', reachable e -> twin e a -> AugmentStateFrame e cam f = OK e' ->
  twin e' (nm_frame (p_aug (e_par e)) a cam).
Proof.
  intros e a cam f e' Hr T E. pose proof (reachable_inv e Hr) as I.
  pose proof (reachable_step e (OFrame cam f) e' Hr Logic.I E) as Hr'. pose proof (reachable_inv e' Hr') as I'.
  destruct (AugmentStateFrame_ok e cam f (proj1 I)) as [e2 [E2 [W' [F [G [NP HP]]]]]]. rewrite E in E2. injection E2 as <-.
  unfold nm_frame.
  replace (match p_aug (e_par e) with AAll => true | APrimary => cam =? n_primary a | _ => false end) with (per_frame e cam).
  2: { unfold per_frame. rewrite (tw_primary _ _ T). destruct (p_aug (e_par e)); reflexivity. }
  destruct (per_frame e cam) eqn:PF.
  2: { rewrite (NP eq_refl) in *. destruct T. constructor; auto. }
  clear NP HP. pose proof (frame_configured e cam f e' Hr PF E) as CF.
  assert (FF : frame' e e') by (apply frame_frame' in F; exact F).
  pose proof (tw_win _ _ T cam) as WC. rewrite <- (tw_max _ _ T).
  replace (n_next a cam - n_first a cam) with (length (aug_at e cam)) by lia.
  destruct (Nat.leb_spec (e_max_len e) (length (aug_at e cam))) as [L|L].
  - (* full *)
    destruct (frame_shifts e cam f e' Hr PF (tw_root _ _ T) L E) as [IH [W1 [B [W2 LY]]]].
    assert (M1 : 1 <= e_max_len e) by (apply (pre_len _ (wf_pre _ (proj1 I))), (per_frame_type e cam PF)).
    assert (LC : length (aug_at e' cam) = length (aug_at e cam)).
    { rewrite <- (map_length bare_aug), W1, app_length. cbn [length]. destruct (aug_at e cam); cbn [length map tl] in *; [lia|rewrite map_length; lia]. }
    assert (LO : forall k, k <> cam -> length (aug_at e' k) = length (aug_at e k)).
    { intros k Hk. rewrite <- (map_length bare_aug), (W2 k Hk), map_length. reflexivity. }
    assert (SRC : forall x, In x (layout (e_state e')) -> nm (n_first a) (from_drop cam 0 (from_clone cam (length (aug_at e cam) - 1) x)) =
      origin cam (n_next a cam) (nm (bump (n_first a) cam 1) x)).
    { intros x Hx. destruct x; try reflexivity. apply (window_labels e' _ _ _ I') in Hx. cbn [from_clone].
      cbn [nm origin]. unfold bump. destruct (Nat.eqb_spec key cam) as [->|D]; cbn [andb].
      - destruct (Nat.eqb_spec pos (length (aug_at e cam) - 1)) as [->|D].
        + rewrite (proj2 (Nat.eqb_eq _ _)) by lia. rewrite <- (clone_label (n_first a)). unfold clone_of_body. destruct (k <? 3); reflexivity.
        + rewrite (proj2 (Nat.eqb_neq _ _)) by lia. cbn [from_drop]. rewrite Nat.eqb_refl. cbn. f_equal. lia.
      - cbn [from_drop]. rewrite (proj2 (Nat.eqb_neq key cam)) by exact D. cbn. reflexivity. }
    apply (twin_windows e a e' _ (fun x => from_drop cam 0 (from_clone cam (length (aug_at e cam) - 1) x)) (origin cam (n_next a cam)));
      cbn [nm_refresh nm_clone nm_drop nm_windows n_names n_cov n_rate n_body n_stab n_time n_started n_gravity n_max n_primary n_imus n_gpss n_cams n_fids n_first n_next]; auto.
    + intros n. rewrite in_app_iff, in_ncopies, filter_In. destruct n as [k|id k|id k|id k|id k|id k|k m c];
        try (cbn [recent]; split; [intros [[j [_ X]]|[X _]]; [discriminate|exact X]|intros X; right; split; [exact X|reflexivity]]).
      rewrite (name_window e a _ _ _ T). cbn [recent]. unfold bump. destruct (Nat.eqb_spec k cam) as [->|D]; cbn [negb orb].
      * rewrite Nat.leb_le. split.
        -- intros [[j [Hj X]]|[[X1 X2] X3]]; [injection X as -> ->; lia|lia].
        -- intros [X1 X2]. destruct (Nat.eq_dec m (n_next a cam)) as [->|D]; [left; exists c; auto|right; lia].
      * split.
        -- intros [[j [Hj X]]|[X _]]; [congruence|exact X].
        -- intros X. right. auto.
    + apply NoDup_app2; [apply NoDup_six_clones|apply NoDup_filter, T|].
      intros x Hx Hx'. apply in_ncopies in Hx. destruct Hx as [k [Hk ->]]. apply filter_In in Hx'. destruct Hx' as [Hx' _].
      apply (name_window e a _ _ _ T) in Hx'. lia.
    + intros k. unfold bump. destruct (Nat.eqb_spec k cam) as [->|D]; [rewrite LC; lia|]. rewrite (LO k D). apply T.
    + intros i x Hx. rewrite (configured_rate e' i x CF); [|rewrite (proj1 FF); apply T|exact Hx].
      destruct FF as (_ & _ & _ & _ & _ & F6 & _). rewrite F6, (own_bare _ _ _ _ B).
      destruct (is_clone x) eqn:C; [destruct x; try discriminate; reflexivity|].
      rewrite (tw_own _ _ T) by (apply (fixed_bare _ _ x B C); eapply nth_error_In; exact Hx).
      destruct x; try reflexivity; discriminate.
  - destruct (frame_copies e cam f e' Hr PF L E) as [_ [W1 [B [W2 _]]]].
    pose proof (frame_clone_named e cam f e' I PF L E) as IH.
    assert (LC : length (aug_at e' cam) = S (length (aug_at e cam))).
    { rewrite <- (map_length bare_aug), W1, app_length. cbn [length]. rewrite map_length. lia. }
    assert (LO : forall k, k <> cam -> length (aug_at e' k) = length (aug_at e k)).
    { intros k Hk. rewrite <- (map_length bare_aug), (W2 k Hk), map_length. reflexivity. }
    assert (SRC : forall x, In x (layout (e_state e')) -> nm (n_first a) (from_clone cam (length (aug_at e cam)) x) =
      origin cam (n_next a cam) (nm (n_first a) x)).
    { intros x Hx. destruct x; try reflexivity. cbn [from_clone nm origin].
      destruct (Nat.eqb_spec key cam) as [->|D]; cbn [andb]; [|reflexivity].
      destruct (Nat.eqb_spec pos (length (aug_at e cam))) as [->|D].
      - rewrite (proj2 (Nat.eqb_eq _ _)) by lia. apply clone_label.
      - rewrite (proj2 (Nat.eqb_neq _ _)) by lia. reflexivity. }
    apply (twin_windows e a e' _ (from_clone cam (length (aug_at e cam))) (origin cam (n_next a cam)));
      cbn [nm_refresh nm_clone nm_drop nm_windows n_names n_cov n_rate n_body n_stab n_time n_started n_gravity n_max n_primary n_imus n_gpss n_cams n_fids n_first n_next]; auto.
    + intros n. rewrite in_app_iff, in_ncopies. destruct n as [k|id k|id k|id k|id k|id k|k m c];
        try (split; [intros [[j [_ X]]|X]; [discriminate|exact X]|intros X; right; exact X]).
      rewrite (name_window e a _ _ _ T). unfold bump. destruct (Nat.eqb_spec k cam) as [->|D].
      * split.
        -- intros [[j [Hj X]]|X]; [injection X as -> ->; lia|lia].
        -- intros [X1 X2]. destruct (Nat.eq_dec m (n_next a cam)) as [->|D]; [left; exists c; auto|right; lia].
      * split.
        -- intros [[j [Hj X]]|X]; [congruence|exact X].
        -- intros X. right. auto.
    + apply NoDup_app2; [apply NoDup_six_clones|apply T|].
      intros x Hx Hx'. apply in_ncopies in Hx. destruct Hx as [k [Hk ->]].
      apply (name_window e a _ _ _ T) in Hx'. lia.
    + intros k. unfold bump. destruct (Nat.eqb_spec k cam) as [->|D]; [rewrite LC; lia|]. rewrite (LO k D). apply T.
    + intros i x Hx. rewrite (configured_rate e' i x CF); [|rewrite (proj1 FF); apply T|exact Hx].
      destruct FF as (_ & _ & _ & _ & _ & F6 & _). rewrite F6, (own_bare _ _ _ _ B).
      destruct (is_clone x) eqn:C; [destruct x; try discriminate; reflexivity|].
      rewrite (tw_own _ _ T) by (apply (fixed_bare _ _ x B C); eapply nth_error_In; exact Hx).
      destruct x; try reflexivity; discriminate.
Qed.

(** *** Clones by time *)
Lemma twin_clone : forall e a e' cam, twin e a -> inv e' -> frame' e e' -> cam_frame e e' ->
  bare (state_with_aug (e_state e') []) = bare (state_with_aug (e_state e) []) ->
  inherits e e' (from_clone cam (length (aug_at e cam))) ->
  length (aug_at e' cam) = S (length (aug_at e cam)) ->
  (forall k, k <> cam -> length (aug_at e' k) = length (aug_at e k)) -> configured e' ->
  twin e' (nm_refresh (nm_clone a cam)).
Proof.
  intros e a e' cam T I' FF G B IH LC LO CF. pose proof (tw_win _ _ T cam) as WC.
  assert (SRC : forall x, In x (layout (e_state e')) -> nm (n_first a) (from_clone cam (length (aug_at e cam)) x) =
    origin cam (n_next a cam) (nm (n_first a) x)).
  { intros x Hx. destruct x; try reflexivity. cbn [from_clone nm origin].
    destruct (Nat.eqb_spec key cam) as [->|D]; cbn [andb]; [|reflexivity].
    destruct (Nat.eqb_spec pos (length (aug_at e cam))) as [->|D].
    - rewrite (proj2 (Nat.eqb_eq _ _)) by lia. apply clone_label.
    - rewrite (proj2 (Nat.eqb_neq _ _)) by lia. reflexivity. }
  apply (twin_windows e a e' _ (from_clone cam (length (aug_at e cam))) (origin cam (n_next a cam)));
    cbn [nm_refresh nm_clone nm_drop nm_windows n_names n_cov n_rate n_body n_stab n_time n_started n_gravity n_max n_primary n_imus n_gpss n_cams n_fids n_first n_next]; auto.
  + intros n. rewrite in_app_iff, in_ncopies. destruct n as [k|id k|id k|id k|id k|id k|k m c];
      try (split; [intros [[j [_ X]]|X]; [discriminate|exact X]|intros X; right; exact X]).
    rewrite (name_window e a _ _ _ T). unfold bump. destruct (Nat.eqb_spec k cam) as [->|D].
    * split.
      -- intros [[j [Hj X]]|X]; [injection X as -> ->; lia|lia].
      -- intros [X1 X2]. destruct (Nat.eq_dec m (n_next a cam)) as [->|D]; [left; exists c; auto|right; lia].
    * split.
      -- intros [[j [Hj X]]|X]; [congruence|exact X].
      -- intros X. right. auto.
  + apply NoDup_app2; [apply NoDup_six_clones|apply T|].
    intros x Hx Hx'. apply in_ncopies in Hx. destruct Hx as [k [Hk ->]].
    apply (name_window e a _ _ _ T) in Hx'. lia.
  + intros k. unfold bump. destruct (Nat.eqb_spec k cam) as [->|D]; [rewrite LC; lia|]. rewrite (LO k D). apply T.
  + intros i x Hx. rewrite (configured_rate e' i x CF); [|rewrite (proj1 FF); apply T|exact Hx].
    destruct FF as (_ & _ & _ & _ & _ & F6 & _). rewrite F6, (own_bare _ _ _ _ B).
    destruct (is_clone x) eqn:C; [destruct x; try discriminate; reflexivity|].
    rewrite (tw_own _ _ T) by (apply (fixed_bare _ _ x B C); eapply nth_error_In; exact Hx).
    destruct x; try reflexivity; discriminate.
Qed.

Lemma twin_drops : forall e a e' cam d, twin e a -> inv e' -> frame' e e' -> cam_frame e e' ->
  bare (state_with_aug (e_state e') []) = bare (state_with_aug (e_state e) []) ->
  inherits e e' (from_drops cam d) ->
  length (aug_at e' cam) + d = length (aug_at e cam) ->
  (forall k, k <> cam -> length (aug_at e' k) = length (aug_at e k)) -> configured e' ->
  twin e' (nm_refresh (nm_drop a cam d)).
Proof.
  intros e a e' cam d T I' FF G B IH LC LO CF. pose proof (tw_win _ _ T cam) as WC.
  assert (SRC : forall x, In x (layout (e_state e')) -> nm (n_first a) (from_drops cam d x) = nm (bump (n_first a) cam d) x).
  { intros x Hx. destruct x; try reflexivity. cbn [from_drops nm]. unfold bump.
    destruct (Nat.eqb_spec key cam) as [->|D]; cbn [nm]; [|reflexivity]. f_equal. lia. }
  apply (twin_windows e a e' _ (from_drops cam d) (fun n => n));
    cbn [nm_refresh nm_clone nm_drop nm_windows n_names n_cov n_rate n_body n_stab n_time n_started n_gravity n_max n_primary n_imus n_gpss n_cams n_fids n_first n_next]; auto.
  + intros n. rewrite filter_In. destruct n as [k|id k|id k|id k|id k|id k|k m c]; try (cbn [recent]; tauto).
    rewrite (name_window e a _ _ _ T). cbn [recent]. unfold bump. destruct (Nat.eqb_spec k cam) as [->|D]; cbn [negb orb]; [|tauto].
    rewrite Nat.leb_le. lia.
  + apply NoDup_filter, T.
  + intros k. unfold bump. destruct (Nat.eqb_spec k cam) as [->|D]; [lia|]. rewrite (LO k D). apply T.
  + intros i x Hx. rewrite (configured_rate e' i x CF); [|rewrite (proj1 FF); apply T|exact Hx].
    destruct FF as (_ & _ & _ & _ & _ & F6 & _). rewrite F6, (own_bare _ _ _ _ B).
    destruct (is_clone x) eqn:C; [destruct x; try discriminate; reflexivity|].
    rewrite (tw_own _ _ T) by (apply (fixed_bare _ _ x B C); eapply nth_error_In; exact Hx).
    destruct x; try reflexivity; discriminate.
Qed.

Lemma aug_bare_ix : forall s m, bare (state_with_aug (ix_state (state_with_aug s m)) []) = bare (state_with_aug s []).
Proof.
  intros s m. pose proof (bare_ix (state_with_aug s m)) as X. apply bare_parts in X.
  destruct X as [X1 [X2 [X3 [X4 [X5 _]]]]]. unfold bare. cbn [state_with_aug s_body s_imu s_gps s_cam s_fid s_aug] in *.
  rewrite X1, X2, X3, X4, X5. reflexivity.
Qed.
Lemma rems_facts : forall e em, rems e em ->
  bare (state_with_aug (e_state em) []) = bare (state_with_aug (e_state e) []) /\
  (em = e \/ (length (aug_at em 0) < length (aug_at e 0) /\ tuned em)) /\
  (forall k, k <> 0 -> length (aug_at em k) = length (aug_at e k)).
Proof.
  intros e em R. induction R as [e|e i e1 e2 R1 _ (B & D & L)]; [auto|].
  destruct R1 as (Hi & W & S & _ & _ & _ & _ & HQ & _).
  assert (L0 : length (aug_at e1 0) < length (aug_at e 0)).
  { unfold aug_at at 1. rewrite S. rewrite reg_windows with (s := state_with_aug (e_state e) (mset 0 (erase i (aug_at e 0)) (s_aug (e_state e)))) by reflexivity.
    cbn [s_aug state_with_aug]. rewrite mget_mset. cbn [Nat.eqb]. pose proof (erase_length _ i _ Hi). lia. }
  split; [|split].
  - rewrite B, S. apply aug_bare_ix.
  - right. destruct D as [->|[D1 D2]]; [split; [exact L0|exact HQ]|split; [lia|exact D2]].
  - intros k Hk. rewrite (L k Hk). unfold aug_at at 1. rewrite S.
    rewrite reg_windows with (s := state_with_aug (e_state e) (mset 0 (erase i (aug_at e 0)) (s_aug (e_state e)))) by reflexivity.
    cbn [s_aug state_with_aug]. rewrite mget_mset. rewrite (proj2 (Nat.eqb_neq _ _)) by auto. reflexivity.
Qed.

Lemma touch_fixed : forall A (f : nat * A -> list label) k d m, f (k, d) = [] -> flat_map f (mtouch d k m) = flat_map f m.
Proof.
  intros A f k d m H. unfold mtouch. destruct (mfind k m) eqn:E; [reflexivity|].
  destruct (mset_fresh _ k d m E) as [l [r [E1 [E2 _]]]]. rewrite E2, E1, !flat_map_app. cbn [flat_map]. rewrite H. reflexivity.
Qed.
Lemma twin_touch : forall e a k, twin e a -> twin (touch_aug e k) a.
Proof.
  intros e a k T. pose proof (touch_inv e k (tw_inv _ _ T)) as I.
  assert (L : layout (e_state (touch_aug e k)) = layout (e_state e)).
  { unfold layout. cbn [touch_aug with_state e_state state_with_aug s_imu s_gps s_cam s_fid s_aug].
    rewrite (touch_fixed _ aug_labels) by reflexivity. reflexivity. }
  assert (A : forall j, aug_at (touch_aug e k) j = aug_at e j) by (intros j; apply aug_at_touch).
  destruct T. constructor; rewrite ?L; auto.
  - intros x y Hx Hy. unfold cov_is. rewrite L. apply tw_cov; auto.
  - intros i x Hx. unfold at_ in *. rewrite L in Hx. auto.
  - intros j. rewrite A. auto.
Qed.

Lemma step_settle : forall e a e', twin e a -> AugmentStateIfNeeded e = OK e' ->
  twin e' (nm_settle (p_aug (e_par e)) (taken e e') a).
Proof.
  intros e a e' T E. pose proof (tw_inv _ _ T) as I. pose proof (proj1 I) as W.
  destruct (AugmentStateIfNeeded_ok e W) as [e2 [E2 [W' [NT H2]]]]. rewrite E in E2. injection E2 as <-.
  destruct (timed_dec e) as [HT|HT].
  2: { rewrite (NT HT) in *. unfold nm_settle. unfold timed in HT. destruct (p_aug (e_par e)); try exact T; exfalso; auto. }
  destruct (H2 HT) as [needed [em [_ [Ep [Wm [Rm [_ HC]]]]]]]. clear H2 NT.
  set (e0 := touch_aug e 0) in *. pose proof (twin_touch e a 0 T) as T0. fold e0 in T0. pose proof (tw_inv _ _ T0) as I0.
  assert (L0 : aug_at e0 0 = aug_at e 0) by apply aug_at_touch.
  destruct (prune_inherits (length (aug_at e 0) - 1) e0 em I0 (tw_root _ _ T)) as [d [IH [LD [_ Im]]]]; [rewrite L0; lia|exact Ep|].
  destruct (rems_frame _ _ Rm) as [Fm Gm]. destruct (rems_facts _ _ Rm) as [Bm [Dm Lm]].
  assert (TM : twin em (if 0 <? d then nm_refresh (nm_drop a 0 d) else a)).
  { destruct Dm as [->|[D1 D2]].
    - replace (0 <? d) with false by (symmetry; apply Nat.ltb_ge; lia). exact T0.
    - replace (0 <? d) with true by (symmetry; apply Nat.ltb_lt; lia).
      apply (twin_drops e0 a em 0 d); auto; [apply frame_frame'; exact Fm|apply tuned_configured; auto]. }
  assert (RV : e_frame_recv em = e_frame_recv e) by (destruct Fm as (_ & _ & _ & _ & _ & _ & _ & _ & _ & _ & _ & _ & _ & _ & _ & X); exact X).
  rewrite L0 in LD.
  assert (SM : forall w b, nm_settle (p_aug (e_par e)) (w, b) a =
    (let a := if 0 <? w then nm_refresh (nm_drop a 0 w) else a in if b then nm_refresh (nm_clone a 0) else a)).
  { intros w b. unfold nm_settle. cbn [fst snd]. destruct HT as [-> | ->]; reflexivity. }
  unfold taken. destruct (needed && e_frame_recv e) eqn:N.
  - destruct HC as (_ & ST & Z & Hx & EA & HQ & F & G). apply andb_prop in N. destruct N as [_ N].
    pose proof (augment_inv e I) as [e2 [E2 I']]. rewrite E in E2. injection E2 as <-.
    assert (RF : e_frame_recv e' = false) by (destruct F as (_ & _ & _ & _ & _ & _ & _ & _ & _ & _ & _ & _ & _ & _ & _ & X); exact X).
    assert (LC : forall k, length (aug_at e' k) = if k =? 0 then S (length (aug_at em 0)) else length (aug_at em k)).
    { intros k. unfold aug_at at 1. rewrite ST.
      rewrite reg_windows with (s := state_with_aug (e_state em) (mset 0 (aug_at em 0 ++ [clone_of em 0]) (s_aug (e_state em)))) by reflexivity.
      cbn [s_aug state_with_aug]. rewrite mget_mset. rewrite (Nat.eqb_sym k 0). destruct (0 =? k); [rewrite app_length; cbn [length]; lia|reflexivity]. }
    rewrite N, RF. cbn [andb negb]. rewrite SM. cbv zeta.
    replace (length (aug_at e 0) + 1 - length (aug_at e' 0)) with d by (rewrite LC; cbn [Nat.eqb]; lia).
    apply (twin_clone em _ e' 0); auto.
    + apply frame_frame' in F. exact F.
    + rewrite ST. apply aug_bare_ix.
    + eapply clone_inherits; eauto. destruct F as [F _]. exact F.
    + rewrite LC. reflexivity.
    + intros k Hk. rewrite LC, (proj2 (Nat.eqb_neq _ _)) by exact Hk. reflexivity.
    + apply tuned_configured; auto.
  - subst e'. rewrite RV. replace (e_frame_recv e && negb (e_frame_recv e)) with false by (destruct (e_frame_recv e); reflexivity).
    rewrite SM. cbv zeta. replace (length (aug_at e 0) + 0 - length (aug_at em 0)) with d by lia. exact TM.
Qed.
