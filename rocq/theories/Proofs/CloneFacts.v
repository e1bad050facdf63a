(** A new clone copies the body pose. *)
From Coq Require Import Reals List Arith Bool Lia Lra.
From Verif Require Import Base.Res Base.Mat Base.RDec Base.LinAlg Base.Geom Base.AMap Base.RMat
  Model.TypeHelper Model.Types Model.MathHelperMat Model.Ekf Model.Updater Model.Ops
  Spec.Layout Spec.History Spec.Contract Spec.Correct Spec.Named Spec.Same
  Proofs.Refresh Proofs.Wf Proofs.Register Proofs.Augment Proofs.Invariant Proofs.Named Proofs.Clones Proofs.Same Proofs.Update
  Proofs.Scalars Proofs.Clock Proofs.Effects Proofs.Windows Proofs.Pruning.
Import ListNotations.
Open Scope nat_scope.

Lemma fresh_label : forall e key k, inv e -> ~ In (LAug key (length (aug_at e key)) k) (layout (e_state e)).
Proof.
  intros e key k I H. destruct (layout_window (e_state e) key (aug_sorted e (wf_pre _ (proj1 I)))) as [L [R [FL [FR [_ [_ [H1 _]]]]]]].
  rewrite H1 in H. apply in_app_or in H. rewrite Forall_forall in FL, FR. destruct H as [H|H]; [apply FL in H; now apply H|].
  apply in_app_or in H. destruct H as [H|H]; [|apply FR in H; now apply H].
  apply aug_labels_key in H. destruct H as [p [c [X [Hp _]]]]. injection X as <- _. unfold aug_at in Hp. lia.
Qed.

Lemma body_in_layout : forall s k, k < 18 -> In (LBody k) (layout s).
Proof. intros s k H. apply in_or_app. left. apply in_map. apply in_seq. lia. Qed.

Lemma clone_names : forall e key c a, inv e ->
  In a (layout (state_with_aug (e_state e) (mset key (aug_at e key ++ [c]) (s_aug (e_state e))))) <->
  In a (layout (e_state e)) \/ exists k, k < 6 /\ a = LAug key (length (aug_at e key)) k.
Proof.
  intros e key c a I. destruct (layout_window (e_state e) key (aug_sorted e (wf_pre _ (proj1 I)))) as [L [R [_ [_ [_ [_ [H1 H2]]]]]]].
  rewrite H1, H2, aug_labels_snoc. fold (aug_at e key). rewrite !in_app_iff. unfold six. rewrite in_map_iff.
  split.
  - intros [H|[[H|[k [<- H]]]|H]]; auto. right. exists k. apply in_seq in H. split; [lia|reflexivity].
  - intros [[H|[H|H]]|[k [H ->]]]; auto. right. left. right. exists k. split; [reflexivity|]. apply in_seq. lia.
Qed.

Lemma copies_from : forall e e' key c, inv e -> inv e' ->
  e_state e' = ix_state (state_with_aug (e_state e) (mset key (aug_at e key ++ [c]) (s_aug (e_state e)))) ->
  inherits e e' (from_clone key (length (aug_at e key))) ->
  copies_body e e' key (length (aug_at e key)).
Proof.
  intros e e' key c I I' S [_ HI]. set (n := length (aug_at e key)) in *.
  assert (HN : forall a, In a (layout (e_state e')) <-> In a (layout (e_state e)) \/ exists k, k < 6 /\ a = LAug key n k).
  { intros a. rewrite S, ix_layout. apply clone_names. exact I. }
  assert (HF : forall k, ~ In (LAug key n k) (layout (e_state e))) by (intros k; apply fresh_label; exact I).
  assert (HO : forall b, In b (layout (e_state e)) -> from_clone key n b = b).
  { intros b Hb. destruct b; try reflexivity. cbn. destruct (Nat.eqb_spec key0 key) as [->|]; [|reflexivity].
    destruct (Nat.eqb_spec pos n) as [->|]; [|reflexivity]. exfalso. exact (HF _ Hb). }
  assert (HK : forall k, k < 6 -> from_clone key n (LAug key n k) = clone_of_body k).
  { intros k _. apply from_clone_new. }
  assert (IL : forall a b v, cov_is e a b v -> In a (layout (e_state e)) /\ In b (layout (e_state e))).
  { intros a b v [i [j [H1 [H2 _]]]]. split; eapply nth_error_In; eauto. }
  assert (IN : forall k, k < 6 -> In (LAug key n k) (layout (e_state e'))) by (intros k Hk; apply HN; right; eauto).
  constructor; auto.
  - intros a b v H. destruct (IL _ _ _ H) as [Ha Hb]. apply HI; [apply HN; auto..|]. rewrite !HO by auto. exact H.
  - intros k l v Hk Hl H. apply HI; [auto..|]. rewrite !HK by auto. exact H.
  - intros k b v Hk H. destruct (IL _ _ _ H) as [_ Hb]. apply HI; [auto|apply HN; auto|]. rewrite HK, HO by auto. exact H.
  - intros k b v Hk H. destruct (IL _ _ _ H) as [Hb _]. apply HI; [apply HN; auto|auto|]. rewrite HK, HO by auto. exact H.
Qed.

Lemma frame_copies : forall e cam f e', reachable e -> per_frame e cam = true ->
  length (aug_at e cam) < e_max_len e -> AugmentStateFrame e cam f = OK e' ->
  copies_body e e' cam (length (aug_at e cam)) /\
  map bare_aug (aug_at e' cam) = map bare_aug (aug_at e cam) ++ [clone_of e f] /\
  bare (state_with_aug (e_state e') []) = bare (state_with_aug (e_state e) []) /\
  (forall k, k <> cam -> map bare_aug (aug_at e' k) = map bare_aug (aug_at e k)) /\
  frame (with_frame_recv e true) e' /\ cam_frame e e'.
Proof.
  intros e cam f e' Hr PF L E. pose proof (reachable_inv e Hr) as I.
  destruct (frame_inv e cam f I) as [e2 [E2 I2]]. rewrite E in E2. injection E2 as <-.
  pose proof (frame_clone_named e cam f e' I PF L E) as HI.
  destruct (AugmentStateFrame_ok e cam f (proj1 I)) as [e2 [E2 [W' [F [G [_ H]]]]]].
  rewrite E in E2. injection E2 as <-. destruct (H PF) as [S' _].
  unfold next_window in S'. rewrite (proj2 (Nat.ltb_lt _ _)) in S' by exact L.
  assert (Hm : forall k, map bare_aug (mget [] k (s_aug (ix_state (e_state e)))) = map bare_aug (mget [] k (s_aug (e_state e)))).
  { intros k. apply astrip_ix_at. }
  split; [eapply copies_from; eauto|].
  assert (HB : forall k, map bare_aug (aug_at e' k) =
      map bare_aug (mget [] k (mset cam (aug_at e cam ++ [clone_of e f]) (s_aug (e_state e))))).
  { intros k. unfold aug_at at 1. rewrite S'. unfold ix_state. cbn [s_aug state_with_aug]. apply astrip_ix_at. }
  split; [rewrite HB, mget_mset, Nat.eqb_refl, map_app; reflexivity|].
  split.
  { assert (X : bare (e_state e') = bare (state_with_aug (e_state e) (mset cam (aug_at e cam ++ [clone_of e f]) (s_aug (e_state e)))))
      by (rewrite S'; apply bare_ix).
    apply bare_parts in X. destruct X as [X1 [X2 [X3 [X4 [X5 _]]]]]. cbn [state_with_aug s_body s_imu s_gps s_cam s_fid] in X1, X2, X3, X4, X5.
    unfold bare. cbn [state_with_aug s_body s_imu s_gps s_cam s_fid s_aug]. rewrite X1, X2, X3, X4, X5. reflexivity. }
  split; [|split; assumption].
  intros k Hk. rewrite HB, mget_mset. destruct (Nat.eqb_spec k cam); [contradiction|reflexivity].
Qed.

(** *** A full window: the oldest clone goes, a new one comes *)
Lemma frame_shifts : forall e cam f e', reachable e -> per_frame e cam = true -> p_root (e_par e) = false ->
  e_max_len e <= length (aug_at e cam) -> AugmentStateFrame e cam f = OK e' ->
  inherits e e' (fun a => from_drop cam 0 (from_clone cam (length (aug_at e cam) - 1) a)) /\
  map bare_aug (aug_at e' cam) = tl (map bare_aug (aug_at e cam)) ++ [clone_of e f] /\
  bare (state_with_aug (e_state e') []) = bare (state_with_aug (e_state e) []) /\
  (forall k, k <> cam -> map bare_aug (aug_at e' k) = map bare_aug (aug_at e k)) /\
  layout (e_state e') = layout (e_state e).
Proof.
  intros e cam f e' Hr PF RT L E. pose proof (reachable_inv e Hr) as I.
  pose proof (frame_shift_named e cam f e' I PF RT L E) as HI.
  destruct (AugmentStateFrame_ok e cam f (proj1 I)) as [e2 [E2 [W' [F [G [_ H]]]]]].
  rewrite E in E2. injection E2 as <-. destruct (H PF) as [S' _].
  unfold next_window in S'. rewrite (proj2 (Nat.ltb_ge _ _)) in S' by exact L.
  split; [exact HI|].
  assert (HB : forall k, map bare_aug (aug_at e' k) =
      map bare_aug (mget [] k (mset cam (tl (aug_at e cam) ++ [clone_of e f]) (s_aug (e_state e))))).
  { intros k. unfold aug_at at 1. rewrite S'. unfold ix_state. cbn [s_aug state_with_aug]. apply astrip_ix_at. }
  split. { rewrite HB, mget_mset, Nat.eqb_refl, map_app. destruct (aug_at e cam); reflexivity. }
  split.
  { assert (X : bare (e_state e') = bare (state_with_aug (e_state e) (mset cam (tl (aug_at e cam) ++ [clone_of e f]) (s_aug (e_state e)))))
      by (rewrite S'; apply bare_ix).
    apply bare_parts in X. destruct X as [X1 [X2 [X3 [X4 [X5 _]]]]]. cbn [state_with_aug s_body s_imu s_gps s_cam s_fid] in X1, X2, X3, X4, X5.
    unfold bare. cbn [state_with_aug s_body s_imu s_gps s_cam s_fid s_aug]. rewrite X1, X2, X3, X4, X5. reflexivity. }
  split.
  { intros k Hk. rewrite HB, mget_mset. destruct (Nat.eqb_spec k cam); [contradiction|reflexivity]. }
  assert (M1 : 1 <= e_max_len e).
  { apply (pre_len _ (wf_pre _ (proj1 I))). apply (per_frame_type e cam PF). }
  destruct (layout_window (e_state e) cam (aug_sorted e (wf_pre _ (proj1 I)))) as [L0 [R [_ [_ [_ [_ [H1 H2]]]]]]].
  rewrite S', ix_layout, H2, H1. f_equal. f_equal. apply aug_labels_len. fold (aug_at e cam).
  rewrite app_length. cbn [length]. destruct (aug_at e cam); cbn [length tl] in *; lia.
Qed.

(** *** Time-based windows *)
Lemma inherits_trans : forall a b c f g, inherits a b f -> inherits b c g -> inherits a c (fun x => f (g x)).
Proof.
  intros a b c f g [N1 C1] [N2 C2]. constructor.
  - intros x Hx. apply N1, N2, Hx.
  - intros x y v Hx Hy H. apply C2; auto.
Qed.
Lemma inherits_ext : forall a b f g, (forall x, In x (layout (e_state b)) -> f x = g x) -> inherits a b f -> inherits a b g.
Proof.
  intros a b f g H [N C]. constructor.
  - intros x Hx. rewrite <- H by exact Hx. auto.
  - intros x y v Hx Hy. rewrite <- !H by assumption. auto.
Qed.
Lemma inherits_refl : forall e, inherits e e (fun x => x).
Proof. intros e. constructor; auto. Qed.

Lemma too_old_touch : forall e, too_old (touch_aug e 0) = too_old e.
Proof. reflexivity. Qed.

Lemma prune_inherits : forall k e e', inv e -> p_root (e_par e) = false -> (k = 0 \/ k < length (aug_at e 0)) ->
  prune k e = OK e' -> exists d, inherits e e' (from_drops 0 d) /\ length (aug_at e' 0) + d = length (aug_at e 0) /\
    ((exists a, nth_error (aug_at e 0) k = Some a /\ too_old e a = true) -> d = k) /\ inv e'.
Proof.
  induction k as [|i IH]; intros e e' I RT Hk E.
  - injection E as <-. exists 0. split; [|split; [lia|split; [reflexivity|exact I]]].
    apply (inherits_ext e e (fun x => x)); [|apply inherits_refl].
    intros x _. destruct x; try reflexivity. cbn. rewrite Nat.add_0_r. destruct (Nat.eqb key 0); reflexivity.
  - assert (Hlen : S i < length (aug_at e 0)) by lia. clear Hk. pose proof (proj1 I) as W.
    destruct (nth_error (aug_at e 0) (i + 1)) as [nxt|] eqn:En; [|apply nth_error_None in En; lia].
    destruct (Rltb (e_track_dur e) (e_time e - a_time nxt)) eqn:Eo.
    + change (too_old e nxt = true) in Eo.
      destruct (prune_one i e nxt W Hlen En Eo) as [e1 [E1 [R1 [A1 T1]]]]. rewrite E1 in E.
      pose proof (rem1_inv e i e1 I R1) as I1.
      assert (RT1 : p_root (e_par e1) = false).
      { destruct R1 as [_ [_ [_ [_ [_ [_ [_ [_ [[F _] _]]]]]]]]]. rewrite F. exact RT. }
      pose proof (erase_length _ i (aug_at e 0) ltac:(lia)) as HE.
      assert (L1 : length (aug_at e1 0) = length (erase i (aug_at e 0))).
      { rewrite <- (map_length astrip), A1, map_length. reflexivity. }
      destruct (IH e1 e' I1 RT1 ltac:(lia) E) as [d [H1 [H2 [H3 H4]]]].
      assert (Hd : d = i).
      { apply H3. pose proof (erase_nth _ i (aug_at e 0) nxt) as Hn. rewrite <- Nat.add_1_r in Hn. specialize (Hn En).
        assert (Hn' : nth_error (map astrip (aug_at e1 0)) i = Some (astrip nxt)) by (rewrite A1, nth_error_map, Hn; reflexivity).
        rewrite nth_error_map in Hn'. destruct (nth_error (aug_at e1 0) i) as [b|]; [|discriminate].
        exists b. split; [reflexivity|]. cbn [option_map] in Hn'. assert (Hs : astrip b = astrip nxt) by congruence. rewrite T1.
        change (too_old e b) with (too_old e (astrip b)). rewrite Hs. exact Eo. }
      subst d. exists (S i). split; [|split; [lia|split; [reflexivity|exact H4]]].
      apply (inherits_ext e e' (fun x => from_drop 0 i (from_drops 0 i x))).
      * intros x _. destruct x; try reflexivity. cbn. destruct (Nat.eqb_spec key 0) as [->|X].
        -- cbn. rewrite (proj2 (Nat.leb_le _ _)) by lia. f_equal. lia.
        -- cbn. destruct (Nat.eqb_spec key 0); [contradiction|reflexivity].
      * apply (inherits_trans e e1 e'); [apply drop_inherits; assumption|exact H1].
    + cbn [prune] in E. unfold vnth at 1 in E. rewrite En in E. cbn [bind] in E. rewrite Eo in E. cbn [andb] in E.
      destruct (IH e e' I RT ltac:(lia) E) as [d [H1 [H2 [H3 H4]]]]. exists d.
      split; [exact H1|]. split; [exact H2|]. split; [|exact H4].
      intros [a [Ha Ho]]. rewrite Nat.add_1_r in En. rewrite En in Ha. injection Ha as <-.
      unfold too_old in Ho. congruence.
Qed.

(** What a time-based augmentation step does to the covariance (covariance
    form): the oldest clones are dropped, then possibly one clone is added. *)
Lemma augment_named : forall e e', inv e -> p_root (e_par e) = false -> timed e ->
  AugmentStateIfNeeded e = OK e' ->
  exists d em, inherits e em (from_drops 0 d) /\ inv em /\
    length (aug_at em 0) + d = length (aug_at e 0) /\
    (e' = em \/ (copies_body em e' 0 (length (aug_at em 0)) /\
                map bare_aug (aug_at e' 0) = map bare_aug (aug_at em 0) ++ [clone_of e 0])).
Proof.
  intros e e' I RT HT E. pose proof (proj1 I) as W.
  destruct (AugmentStateIfNeeded_ok e W) as [e2 [E2 [_ [_ H2]]]].
  rewrite E in E2. injection E2 as <-. destruct (H2 HT) as [needed [em [_ [Ep [Wm [Rm [A HC]]]]]]]. clear H2.
  set (e0 := touch_aug e 0) in *. assert (I0 : inv e0) by (apply touch_inv; exact I).
  assert (L0 : aug_at e0 0 = aug_at e 0) by apply aug_at_touch.
  assert (LA : layout (e_state e0) = layout (e_state e)).
  { pose proof (dim_size e W). unfold e0, touch_aug, mtouch. ekf_cbn.
    destruct (mfind 0 (s_aug (e_state e))) eqn:Ef; [destruct (e_state e); reflexivity|].
    destruct (layout_window (e_state e) 0 (aug_sorted e (wf_pre _ W))) as [L [R [_ [_ [_ [_ [H1 H2]]]]]]].
    rewrite H2, H1. unfold mget. rewrite Ef. reflexivity. }
  assert (IE : inherits e e0 (fun x => x)).
  { constructor; [rewrite LA; auto|]. intros a b v _ _ H. unfold cov_is in *. rewrite LA. exact H. }
  destruct (prune_inherits (length (aug_at e 0) - 1) e0 em I0 RT) as [d [H1 [H3 [_ Im]]]].
  { rewrite L0. lia. }
  { exact Ep. }
  rewrite L0 in H3. exists d, em.
  split; [apply (inherits_trans e e0 em (fun x => x)); assumption|]. split; [exact Im|]. split; [exact H3|].
  destruct (needed && e_frame_recv e); [|left; exact HC]. right.
  pose proof (augment_inv e I) as [e2 [E2 I2]]. rewrite E in E2. injection E2 as <-.
  destruct HC as [_ [S [Z [Hx [EA [_ [F _]]]]]]].
  assert (Hc : clone_of em 0 = clone_of e 0).
  { destruct (rems_frame _ _ Rm) as [Fm _].
    assert (S2 : e_time em = e_time e /\ s_body (e_state em) = s_body (e_state e)).
    { split; [destruct Fm as [_ [X _]]; exact X|].
      assert (HB : forall a b, rems a b -> s_body (ix_state (e_state b)) = s_body (ix_state (e_state a))).
      { intros a b Rb. induction Rb as [a|a i b c R1 _ IH]; [reflexivity|]. rewrite IH.
        destruct R1 as [_ [_ [S3 _]]]. rewrite S3. reflexivity. }
      pose proof (HB _ _ Rm) as X. pose proof (wf_ix _ Wm) as Y. destruct Y as [Y _].
      pose proof (wf_ix _ W) as Y2. destruct Y2 as [Y2 _].
      unfold ix_state in X. cbn in X. unfold body_with_index in X. destruct (s_body (e_state em)), (s_body (e_state e)). cbn in *.
      injection X as -> -> -> -> -> ->. subst. reflexivity. }
    destruct S2 as [S1 S2]. unfold clone_of. rewrite S1, S2. reflexivity. }
  split.
  - eapply copies_from; eauto. eapply clone_inherits; eauto. destruct F as [F _]. exact F.
  - unfold aug_at at 1. rewrite S. unfold ix_state. cbn [s_aug state_with_aug].
    change (map bare_aug) with (map astrip). rewrite astrip_ix_at, mget_mset. cbn [Nat.eqb]. rewrite map_app, Hc. reflexivity.
Qed.
