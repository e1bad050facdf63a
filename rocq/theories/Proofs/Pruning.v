(** Time-based windows: what pruning removes and what it keeps. *)
From Coq Require Import Reals List Arith Bool Lia Lra Sorted.
From Verif Require Import Base.Res Base.Mat Base.RDec Base.LinAlg Base.Geom Base.AMap Base.RMat
  Model.TypeHelper Model.Types Model.MathHelperMat Model.Ekf Model.Updater Model.Ops
  Spec.Layout Spec.History Spec.Contract Spec.Correct Spec.Named Spec.Same
  Proofs.Refresh Proofs.Wf Proofs.Register Proofs.Augment Proofs.Invariant Proofs.Named Proofs.Same Proofs.Update
  Proofs.Scalars Proofs.Clock Proofs.Effects Proofs.Windows.
Import ListNotations.
Open Scope nat_scope.

Lemma erase_nth : forall A i (l : list A) a, nth_error l (S i) = Some a -> nth_error (erase i l) i = Some a.
Proof.
  intros A i. unfold erase. induction i as [|i IH]; intros [|x l] a H; cbn in *; try discriminate; auto.
Qed.
Lemma erase_skip : forall A i (l : list A), skipn i (erase i l) = skipn (S i) l.
Proof.
  intros A i. unfold erase. induction i as [|i IH]; intros [|x l]; try reflexivity.
  cbn [firstn skipn app]. exact (IH l).
Qed.

Lemma prune_all : forall old i l a, nth_error l i = Some a -> old a = true -> prune_list i old l = skipn i l.
Proof.
  intros old. induction i as [|i IH]; intros l a H Ho; [reflexivity|]. cbn [prune_list].
  rewrite Nat.add_1_r, H, Ho. rewrite (IH _ a); [|apply erase_nth; exact H|exact Ho]. apply erase_skip.
Qed.

(** Pruning removes a front part: everything before the youngest clone that is
    too old. *)
Lemma prune_list_spec : forall old k l, exists d, prune_list k old l = skipn d l /\ d <= k /\
    (0 < d -> exists a, nth_error l d = Some a /\ old a = true) /\
    (k < length l -> forall i a, d < i <= k -> nth_error l i = Some a -> old a = false).
Proof.
  intros old. induction k as [|k IH]; intros l.
  - exists 0. split; [reflexivity|]. split; [lia|]. split; [lia|]. intros. lia.
  - destruct (nth_error l (k + 1)) as [a|] eqn:E.
    + destruct (old a) eqn:Ho.
      * exists (S k). rewrite Nat.add_1_r in E. split; [apply (prune_all old (S k) l a); auto|].
        split; [lia|]. split; [eauto|]. intros. lia.
      * destruct (IH l) as [d [H1 [H2 [H3 H4]]]]. exists d. cbn [prune_list]. rewrite E, Ho.
        split; [exact H1|]. split; [lia|]. split; [exact H3|]. intros Hk i b Hi Hb.
        destruct (Nat.eq_dec i (k + 1)) as [->|X]; [congruence|]. apply (H4 ltac:(lia) i b); [lia|exact Hb].
    + exists 0. cbn [prune_list]. rewrite E. split; [reflexivity|]. split; [lia|]. split; [lia|].
      intros Hk. apply nth_error_None in E. lia.
Qed.

Lemma rems_stamps : forall e e' k, rems e e' -> k <> 0 -> stamps e' k = stamps e k.
Proof.
  intros e e' k R Hk. induction R as [e|e i e1 e2 R1 _ IH]; [reflexivity|]. rewrite IH.
  destruct R1 as [_ [_ [S _]]]. unfold stamps, aug_at. rewrite S, stamps_ix. cbn [state_with_aug s_aug].
  rewrite mget_mset. destruct (Nat.eqb_spec k 0); [contradiction|reflexivity].
Qed.

Lemma skipn_map' : forall A B (f : A -> B) n l, skipn n (map f l) = map f (skipn n l).
Proof. intros A B f. induction n as [|n IH]; intros [|x l]; try reflexivity. cbn. apply IH. Qed.

(** What the time-based augmentation does to the windows. *)
Lemma augment_window : forall e e', wf e -> timed e -> AugmentStateIfNeeded e = OK e' ->
  exists d new, map astrip (aug_at e' 0) = map astrip (skipn d (aug_at e 0)) ++ new /\
    (new = [] \/ new = [clone_of e 0]) /\
    (aug_at e 0 <> [] -> d < length (aug_at e 0)) /\
    (0 < d -> exists a, nth_error (aug_at e 0) d = Some a /\ (e_track_dur e < e_time e - a_time a)%R) /\
    (forall i a, d < i -> nth_error (aug_at e 0) i = Some a -> (e_time e - a_time a <= e_track_dur e)%R) /\
    (forall k, k <> 0 -> stamps e' k = stamps e k).
Proof.
  intros e e' W HT E. destruct (AugmentStateIfNeeded_ok e W) as [e2 [E2 [_ [_ H2]]]].
  rewrite E in E2. injection E2 as <-. destruct (H2 HT) as [needed [em [_ [_ [Wm [R [A HC]]]]]]]. clear H2.
  destruct (prune_list_spec (too_old e) (length (aug_at e 0) - 1) (map astrip (aug_at e 0))) as [d [P1 [P2 [P3 P4]]]].
  rewrite P1 in A. rewrite skipn_map' in A.
  assert (Hm : forall k, k <> 0 -> stamps em k = stamps e k).
  { intros k Hk. rewrite (rems_stamps _ _ k R Hk). unfold stamps. now rewrite aug_at_touch. }
  destruct (rems_frame _ _ R) as [F _].
  assert (Hc : clone_of em 0 = clone_of e 0).
  { assert (S : e_time em = e_time e /\ s_body (e_state em) = s_body (e_state e)).
    { split; [destruct F as [_ [X _]]; exact X|].
      assert (HB : forall a b, rems a b -> s_body (ix_state (e_state b)) = s_body (ix_state (e_state a))).
      { intros a b Rb. induction Rb as [a|a i b c R1 _ IH]; [reflexivity|]. rewrite IH.
        destruct R1 as [_ [_ [S _]]]. rewrite S. reflexivity. }
      pose proof (HB _ _ R) as X. pose proof (wf_ix _ Wm) as Y. destruct Y as [Y _].
      pose proof (wf_ix _ W) as Z. destruct Z as [Z _].
      unfold ix_state in X. cbn in X. unfold body_with_index in X. destruct (s_body (e_state em)), (s_body (e_state e)). cbn in *.
      injection X as -> -> -> -> -> ->. subst. reflexivity. }
    destruct S as [S1 S2]. unfold clone_of. rewrite S1, S2. reflexivity. }
  exists d, (if needed && e_frame_recv e then [clone_of e 0] else []).
  split.
  { destruct (needed && e_frame_recv e).
    - destruct HC as [_ [S _]]. unfold aug_at at 1. rewrite S. unfold ix_state. cbn [s_aug].
      rewrite astrip_ix_at. cbn [state_with_aug s_aug]. rewrite mget_mset. cbn [Nat.eqb]. rewrite map_app, A.
      rewrite Hc. reflexivity.
    - subst e'. rewrite app_nil_r. exact A. }
  split; [destruct (needed && e_frame_recv e); auto|].
  split. { intros Hn. destruct (aug_at e 0); [congruence|]. cbn [length] in *. lia. }
  split.
  { intros Hd. destruct (P3 Hd) as [a [Ha Ho]]. rewrite nth_error_map in Ha.
    destruct (nth_error (aug_at e 0) d) as [b|]; [|discriminate]. injection Ha as <-. exists b. split; [reflexivity|].
    apply Rltb_spec in Ho. exact Ho. }
  split.
  { intros i a Hi Ha. assert (Hl : i < length (aug_at e 0)) by (apply nth_error_Some; congruence).
    rewrite map_length in P4. pose proof (P4 ltac:(lia) i (astrip a) ltac:(lia)) as X.
    rewrite nth_error_map, Ha in X. specialize (X eq_refl). apply Rltb_false in X. exact X. }
  intros k Hk. destruct (needed && e_frame_recv e); [|subst e'; auto].
  destruct HC as [_ [S _]]. unfold stamps at 1, aug_at. rewrite S, stamps_ix. cbn [state_with_aug s_aug].
  rewrite mget_mset. destruct (Nat.eqb_spec k 0); [contradiction|]. apply Hm. exact Hk.
Qed.

(** Bracketing clones of recent instants survive. *)
Lemma augment_brackets : forall e e' i a b t, wf e -> timed e -> AugmentStateIfNeeded e = OK e' ->
  StronglySorted Rle (map a_time (aug_at e 0)) ->
  nth_error (aug_at e 0) i = Some a -> nth_error (aug_at e 0) (S i) = Some b ->
  (a_time a <= t <= a_time b)%R -> (e_time e - e_track_dur e <= t)%R ->
  exists j, nth_error (map astrip (aug_at e' 0)) j = Some (astrip a) /\
            nth_error (map astrip (aug_at e' 0)) (S j) = Some (astrip b).
Proof.
  intros e e' i a b t W HT E HS Ha Hb Ht Hr. destruct (augment_window e e' W HT E) as [d [new [A [_ [H2 [H3 _]]]]]].
  assert (Hd : d <= i).
  { destruct (le_lt_dec d i) as [|X]; [assumption|]. exfalso. destruct (H3 ltac:(lia)) as [c [Hc Ho]].
    assert (Hle : (a_time b <= a_time c)%R).
    { clear - HS Hb Hc X. revert HS d i Hb Hc X. generalize (aug_at e 0). induction l as [|x l IH]; intros HS d i Hb Hc X.
      - destruct d; discriminate.
      - cbn [map] in HS. inversion HS as [|? ? S1 S2]; subst. destruct d as [|d]; [lia|]. cbn in Hb, Hc.
        destruct i as [|i].
        + destruct d as [|d]; [assert (b = c) by congruence; subst; lra|].
          destruct l as [|y l]; [discriminate|]. cbn in Hb. injection Hb as <-. cbn [map] in S1.
          inversion S1 as [|? ? S3 S4]; subst. cbn in Hc. apply nth_error_In in Hc.
          rewrite Forall_forall in S4. apply S4. apply in_map. exact Hc.
        + apply (IH S1 d i Hb Hc). lia. }
    lra. }
  exists (i - d). rewrite A.
  assert (L : S i < length (aug_at e 0)) by (apply nth_error_Some; congruence).
  assert (Hk : forall n, nth_error (map astrip (skipn d (aug_at e 0))) n = option_map astrip (nth_error (aug_at e 0) (d + n))).
  { intros n. rewrite nth_error_map. f_equal. generalize (aug_at e 0). clear. induction d as [|d IH]; intros l; [reflexivity|].
    destruct l as [|x l]; [destruct n; reflexivity|]. cbn. apply IH. }
  split; (rewrite nth_error_app1; [|rewrite map_length, skipn_length; lia]); rewrite Hk.
  - replace (d + (i - d)) with i by lia. rewrite Ha. reflexivity.
  - replace (d + S (i - d)) with (S i) by lia. rewrite Hb. reflexivity.
Qed.

(** *** Windows are ordered by time *)
Definition front (e : ekf) (k : nat) (e' : ekf) : Prop :=
  exists d, stamps e' k = skipn d (stamps e k) \/
            exists f, stamps e' k = skipn d (stamps e k) ++ [(f, e_time e')].

Lemma front_same : forall e k e', stamps e' k = stamps e k -> front e k e'.
Proof. intros e k e' H. exists 0. left. exact H. Qed.

Lemma augment_front : forall e e' k, wf e -> timed e -> AugmentStateIfNeeded e = OK e' -> front e k e'.
Proof.
  intros e e' k W T E. destruct (augment_window e e' W T E) as [d [new [A [Hn [_ [_ [_ Hk]]]]]]].
  destruct (Nat.eq_dec k 0) as [->|X]; [|apply front_same; auto].
  assert (F : e_time e' = e_time e).
  { destruct (augment_frame' e e' W E) as [[_ [F _]] _]. exact F. }
  exists d. unfold stamps. rewrite <- stamp_astrip, A, map_app, stamp_astrip, skipn_map'.
  destruct Hn as [->| ->]; [left; now rewrite app_nil_r|]. right. exists 0. rewrite F. reflexivity.
Qed.

Lemma timed_dec : forall e, timed e \/ ~ timed e.
Proof. intros e. unfold timed. destruct (p_aug (e_par e)); auto; right; intros [|]; discriminate. Qed.

Lemma step_front : forall e o e' k, inv e -> contract e o -> step e o = OK e' -> front e k e'.
Proof.
  intros e o e' k I C E. pose proof (step_frame' e o e' I C E) as F.
  assert (HR : is_reg o -> s_aug (reg_effect (e_state e) o) = s_aug (e_state e) -> front e k e').
  { intros Hr Hu. apply front_same. destruct (reg_state e o e' I C E Hr) as [->|S]; [reflexivity|]. unfold stamps, aug_at.
    rewrite S, stamps_ix, Hu. reflexivity. }
  destruct o; cbn [is_reg reg_effect step] in *; try (apply HR; [exact Logic.I|reflexivity]);
    try (subst e'; apply front_same; reflexivity); try (injection E as <-; apply front_same; reflexivity).
  - destruct (predict_full e t e' I E) as [[_ ->]|[_ [e1 [H1 [I1 H2]]]]]; [apply front_same; reflexivity|].
    destruct (model_stamps e t e1 k H1) as [S1 [P1 _]]. unfold front. rewrite <- S1. destruct (timed_dec e1) as [T|T].
    + exact (augment_front e1 e' k (proj1 I1) T H2).
    + rewrite not_timed_augment in H2 by exact T. injection H2 as <-. exists 0. left. reflexivity.
  - destruct (AugmentStateFrame_ok e cam frame (proj1 I)) as [e2 [E2 [_ [_ [_ [H1 H2]]]]]].
    rewrite E in E2. injection E2 as <-. destruct (per_frame e cam) eqn:PF.
    + destruct (H2 eq_refl) as [S _]. destruct F as [_ [Ft _]].
      assert (S' : stamps e' k = if Nat.eqb k cam then map stamp (next_window (e_max_len e) (aug_at e cam) (clone_of e frame)) else stamps e k).
      { unfold stamps, aug_at at 1. rewrite S, stamps_ix. cbn [state_with_aug s_aug].
        rewrite mget_mset. destruct (Nat.eqb k cam); reflexivity. }
      unfold front. rewrite S'. destruct (Nat.eqb_spec k cam) as [->|X]; [|exists 0; left; reflexivity].
      unfold next_window. destruct (length (aug_at e cam) <? e_max_len e).
      * exists 0. right. exists frame. rewrite map_app. cbn [skipn]. rewrite Ft. reflexivity.
      * exists 1. right. exists frame. rewrite map_app, Ft. unfold stamps. destruct (aug_at e cam); reflexivity.
    + rewrite (H1 eq_refl). apply front_same. reflexivity.
  - destruct (timed_dec e) as [T|T]; [exact (augment_front e e' k (proj1 I) T E)|].
    rewrite not_timed_augment in E by exact T. injection E as <-. apply front_same. reflexivity.
  - destruct (Refresh_wf e (wf_pre _ (proj1 I)) (wf_nr _ (proj1 I)) (wf_nc _ (proj1 I))) as [e2 [E2 [_ [S _]]]].
    rewrite E in E2. injection E2 as <-. apply front_same. unfold stamps, aug_at. rewrite S, stamps_ix. reflexivity.
  - destruct (kalman_full e jac residual noise I C) as [e2 [K [E2 [_ [_ [_ [_ [_ [_ [[d [_ [_ [_ S]]]] _]]]]]]]]]].
    rewrite E in E2. injection E2 as <-. apply front_same. unfold stamps, aug_at. rewrite S, stamps_correct. reflexivity.
  - destruct (query_ok e cam frame t C) as [s [e2 [E2 [k0 ->]]]]. rewrite E2 in E. injection E as <-.
    apply front_same. unfold stamps. rewrite aug_at_touch. reflexivity.
  - subst e'. apply front_same. unfold CalculateLocalTime. destruct (e_time_init e); reflexivity.
  - subst e'. apply front_same. unfold AttemptGpsInitialization.
    destruct (Nat.leb 4 _); [destruct (align _ _) as [[? ?]|]|]; reflexivity.
Qed.

Lemma ordered_stamps : forall e k, ordered e k <->
  (StronglySorted Rle (map snd (stamps e k)) /\ Forall (fun t => (t <= e_time e)%R) (map snd (stamps e k))).
Proof.
  intros e k. unfold ordered, stamps. rewrite map_map. change (fun x => snd (stamp x)) with a_time.
  rewrite Forall_map. tauto.
Qed.

Lemma SSorted_skipn : forall n l, StronglySorted Rle l -> StronglySorted Rle (skipn n l).
Proof. induction n as [|n IH]; intros [|x l] H; cbn; auto. inversion H; auto. Qed.
Lemma Forall_skipn : forall A (P : A -> Prop) n l, Forall P l -> Forall P (skipn n l).
Proof. intros A P. induction n as [|n IH]; intros [|x l] H; cbn; auto. inversion H; auto. Qed.
Lemma SSorted_snoc : forall l t, StronglySorted Rle l -> Forall (fun x => (x <= t)%R) l -> StronglySorted Rle (l ++ [t]).
Proof.
  induction l as [|x l IH]; intros t H1 H2; cbn [app].
  - constructor; constructor.
  - inversion H1; inversion H2; subst. constructor; [auto|]. apply Forall_app. split; [assumption|]. constructor; auto.
Qed.

Lemma step_ordered : forall e o e' k, inv e -> contract e o -> step e o = OK e' -> not_init o ->
  e_time_init e = true -> ordered e k -> ordered e' k.
Proof.
  intros e o e' k I C E N T H. destruct (step_time e o e' I C E N T) as [Hle _].
  apply ordered_stamps in H. destruct H as [H1 H2]. apply ordered_stamps.
  assert (H3 : Forall (fun t => (t <= e_time e')%R) (map snd (stamps e k))).
  { eapply Forall_impl; [|exact H2]. cbn. intros. lra. }
  destruct (step_front e o e' k I C E) as [d [->|[f ->]]].
  - rewrite <- skipn_map'. split; [apply SSorted_skipn|apply Forall_skipn]; assumption.
  - rewrite map_app, <- skipn_map'. cbn [map snd].
    pose proof (SSorted_skipn d _ H1). pose proof (Forall_skipn _ _ d _ H3).
    split; [apply SSorted_snoc; assumption|]. apply Forall_app. split; [assumption|]. constructor; [lra|constructor].
Qed.

Lemma run_ordered : forall e l e' k, reachable e -> respects e l -> run e l = OK e' ->
  Forall not_init l -> e_time_init e = true -> ordered e k -> ordered e' k.
Proof.
  intros e l e' k Hr Hl E N T H.
  destruct (run_ind (fun x => ordered x k /\ e_time_init x = true) not_init l e e') as [[X _] _];
    auto using reachable_inv.
  intros a o b Ia Ca Ea O [H1 H2]. split; [eapply step_ordered; eauto|].
  destruct (step_time a o b Ia Ca Ea O H2) as [_ X]. exact X.
Qed.
