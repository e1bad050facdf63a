(** When clones are taken by time or by error. *)
From Coq Require Import Reals List Arith Bool Lia Lra Sorted.
From Verif Require Import Base.Res Base.Mat Base.RDec Base.LinAlg Base.Geom Base.AMap Base.RMat
  Model.TypeHelper Model.Types Model.MathHelper Model.MathHelperMat Model.Ekf Model.Updater Model.Ops
  Spec.Layout Spec.History Spec.Contract Spec.Correct Spec.Named Spec.Same Spec.Due
  Proofs.Refresh Proofs.Wf Proofs.Register Proofs.Augment Proofs.Invariant Proofs.Named Proofs.Same Proofs.Update
  Proofs.Scalars Proofs.Clock Proofs.Effects Proofs.Windows Proofs.Pruning.
Import ListNotations.
Open Scope nat_scope.

Lemma newest_snoc : forall e l a, aug_at e 0 = l ++ [a] -> newest e = Some a.
Proof. intros e l a H. unfold newest. rewrite H, rev_unit. reflexivity. Qed.

Lemma list_snoc : forall A (l : list A), l = [] \/ exists t x, l = t ++ [x].
Proof. intros A l. destruct l as [|y l] using rev_ind; [auto|]. right. eauto. Qed.

(** The time of the newest clone is remembered. *)
Definition remembered (e : ekf) : Prop :=
  forall a, newest e = Some a -> e_aug_prev e = Some (a_time a).

Lemma scale_comm : forall w t, mkV3 (vx w * t) (vy w * t) (vz w * t) = vscale t w.
Proof. intros w t. unfold vscale. f_equal; apply Rmult_comm. Qed.

Lemma orb_R : forall a b c d, Rltb a b || Rltb c d = true <-> (a < b \/ c < d)%R.
Proof. intros a b c d. rewrite orb_true_iff, !Rltb_spec. reflexivity. Qed.

Lemma needed_due : forall e needed, timed e -> (p_aug (e_par e) = ATime -> remembered e) ->
  aug_needed e = OK needed -> (needed = true <-> due e).
Proof.
  intros e needed T HR E. unfold aug_needed in E. unfold due.
  destruct (list_snoc _ (aug_at e 0)) as [Hn|[l [a Hn]]].
  - unfold newest. rewrite Hn in *. cbn [rev]. injection E as <-. tauto.
  - unfold remembered in HR. rewrite (newest_snoc e l a Hn) in *.
    assert (Hc : exists x y, aug_at e 0 = x :: y) by (rewrite Hn; destruct l; cbn; eauto).
    destruct Hc as [x [y Hc]]. rewrite Hc in E.
    destruct T as [T|T]; rewrite T in *.
    + rewrite (HR eq_refl a eq_refl) in E. injection E as <-. apply Rltb_spec.
    + rewrite <- Hc, Hn in E. rewrite back_snoc in E. cbn [bind] in E.
      rewrite scale_comm in E.
      destruct (Rltb (e_track_dur e) (e_time e - a_time a)) eqn:E1.
      { injection E as <-. apply Rltb_spec in E1. tauto. }
      apply Rltb_false in E1.
      destruct (Rltb (e_min_aug e) (e_time e - a_time a)) eqn:E2.
      * apply Rltb_spec in E2. injection E as <-. rewrite orb_R.
        unfold left_line, back_pos, back_ang. cbv zeta. split; [intros H; right; split; [exact E2|exact H]|].
        intros [H|[_ H]]; [lra|exact H].
      * apply Rltb_false in E2. injection E as <-. split; [discriminate|]. intros [H|[H _]]; lra.
Qed.

(** The window after a call, with the question answered. *)
Lemma augment_taken : forall e e', wf e -> timed e -> AugmentStateIfNeeded e = OK e' ->
  exists needed d, aug_needed e = OK needed /\
    map astrip (aug_at e' 0) = map astrip (skipn d (aug_at e 0)) ++ (if needed && e_frame_recv e then [clone_of e 0] else []) /\
    (e_aug_prev e' = (if needed && e_frame_recv e then Some (e_time e) else e_aug_prev e) /\
     e_frame_recv e' = (if needed && e_frame_recv e then false else e_frame_recv e)) /\
    (aug_at e 0 <> [] -> d < length (aug_at e 0)) /\
    (0 < d -> exists a, nth_error (aug_at e 0) d = Some a /\ (e_track_dur e < e_time e - a_time a)%R) /\
    (forall i a, d < i -> nth_error (aug_at e 0) i = Some a -> (e_time e - a_time a <= e_track_dur e)%R) /\
    (forall k, k <> 0 -> stamps e' k = stamps e k).
Proof.
  intros e e' W HT E. destruct (AugmentStateIfNeeded_ok e W) as [e2 [E2 [_ [_ H2]]]].
  rewrite E in E2. injection E2 as <-. destruct (H2 HT) as [needed [em [HN [_ [Wm [R [A HC]]]]]]]. clear H2.
  destruct (prune_list_spec (too_old e) (length (aug_at e 0) - 1) (map astrip (aug_at e 0))) as [d [P1 [P2 [P3 P4]]]].
  rewrite P1 in A. rewrite skipn_map' in A.
  assert (Hm : forall k, k <> 0 -> stamps em k = stamps e k).
  { intros k Hk. rewrite (rems_stamps _ _ k R Hk). unfold stamps. now rewrite aug_at_touch. }
  destruct (rems_frame _ _ R) as [F _].
  assert (Hc : clone_of em 0 = clone_of e 0).
  { assert (S : e_time em = e_time e /\ s_body (e_state em) = s_body (e_state e)).
    { split; [destruct F as [_ [X _]]; exact X|].
      assert (HB : forall a b, rems a b -> s_body (ix_state (e_state b)) = s_body (ix_state (e_state a))).
      { intros a b Rb. induction Rb as [a|a i b c R1 _ IH]; [reflexivity|]. rewrite IH.
        destruct R1 as [_ [_ [S _]]]. rewrite S. reflexivity. }
      pose proof (HB _ _ R) as X. pose proof (wf_ix _ Wm) as Y. destruct Y as [Y _].
      pose proof (wf_ix _ W) as Z. destruct Z as [Z _].
      unfold ix_state in X. cbn in X. unfold body_with_index in X. destruct (s_body (e_state em)), (s_body (e_state e)). cbn in *.
      injection X as -> -> -> -> -> ->. subst. reflexivity. }
    destruct S as [S1 S2]. unfold clone_of. rewrite S1, S2. reflexivity. }
  exists needed, d. split; [exact HN|].
  split.
  { destruct (needed && e_frame_recv e).
    - destruct HC as [_ [S _]]. unfold aug_at at 1. rewrite S. unfold ix_state. cbn [s_aug].
      rewrite astrip_ix_at. cbn [state_with_aug s_aug]. rewrite mget_mset. cbn [Nat.eqb]. rewrite map_app, A.
      rewrite Hc. reflexivity.
    - subst e'. rewrite app_nil_r. exact A. }
  split.
  { unfold frame in F. cbn in F. destruct (needed && e_frame_recv e).
    - destruct HC as [_ [_ [_ [_ [_ [_ [F2 _]]]]]]]. unfold frame in F2. cbn in F2. decompose [and] F2. decompose [and] F.
      split; congruence.
    - subst e'. tauto. }
  split. { intros Hn. destruct (aug_at e 0); [congruence|]. cbn [length] in *. lia. }
  split.
  { intros Hd. destruct (P3 Hd) as [a [Ha Ho]]. rewrite nth_error_map in Ha.
    destruct (nth_error (aug_at e 0) d) as [b|]; [|discriminate]. injection Ha as <-. exists b. split; [reflexivity|].
    apply Rltb_spec in Ho. exact Ho. }
  split.
  { intros i a Hi Ha. assert (Hl : i < length (aug_at e 0)) by (apply nth_error_Some; congruence).
    rewrite map_length in P4. pose proof (P4 ltac:(lia) i (astrip a) ltac:(lia)) as X.
    rewrite nth_error_map, Ha in X. specialize (X eq_refl). apply Rltb_false in X. exact X. }
  intros k Hk. destruct (needed && e_frame_recv e); [|subst e'; auto].
  destruct HC as [_ [S _]]. unfold stamps at 1, aug_at. rewrite S, stamps_ix. cbn [state_with_aug s_aug].
  rewrite mget_mset. destruct (Nat.eqb_spec k 0); [contradiction|]. apply Hm. exact Hk.
Qed.

Definition announces (o : op) : bool := match o with OFrame _ _ => true | _ => false end.

(** What one call does to the shared window, the remembered time and the flag. *)
Definition change (e : ekf) (o : op) (e' : ekf) : Prop :=
  exists d new, stamps e' 0 = skipn d (stamps e 0) ++ new /\
    (stamps e 0 <> [] -> d < length (stamps e 0)) /\
    ((new = [] /\ e_aug_prev e' = e_aug_prev e /\ e_frame_recv e' = (announces o || e_frame_recv e)) \/
     (new = [(0, e_time e')] /\ announces o = false /\ e_frame_recv e = true /\ e_frame_recv e' = false /\
      e_aug_prev e' = Some (e_time e') /\
      (p_aug (e_par e) = ATime -> stamps e 0 <> [] -> forall tp, e_aug_prev e = Some tp ->
       (p_aug_dt (e_par e) < Rabs (e_time e' - tp))%R))).

Lemma change_same : forall e o e', stamps e' 0 = stamps e 0 -> e_aug_prev e' = e_aug_prev e ->
  e_frame_recv e' = (announces o || e_frame_recv e) -> change e o e'.
Proof.
  intros e o e' H1 H2 H3. exists 0, []. rewrite app_nil_r. split; [exact H1|]. split; [|left; auto].
  destruct (stamps e 0); cbn; [congruence|lia].
Qed.

Lemma stamps_nil : forall e k, stamps e k = [] <-> aug_at e k = [].
Proof. intros e k. unfold stamps. destruct (aug_at e k); cbn; split; congruence. Qed.

Lemma augment_change : forall e o e', wf e -> timed e -> announces o = false ->
  AugmentStateIfNeeded e = OK e' -> change e o e'.
Proof.
  intros e o e' W T Ho E. destruct (augment_taken e e' W T E) as (needed & d & HN & A & [P R] & Hd & _).
  destruct (augment_frame' e e' W E) as [[_ [Ft _]] _].
  exists d, (map stamp (if needed && e_frame_recv e then [clone_of e 0] else [])).
  split. { unfold stamps. rewrite <- stamp_astrip, A, map_app, stamp_astrip, skipn_map'.
    destruct (needed && e_frame_recv e); reflexivity. }
  split. { rewrite stamps_nil. unfold stamps. rewrite map_length. exact Hd. }
  rewrite Ho. destruct (needed && e_frame_recv e) eqn:N.
  - right. apply andb_prop in N. destruct N as [N1 N2]. subst needed. rewrite Ft. cbn [map].
    split; [reflexivity|]. split; [reflexivity|]. split; [exact N2|]. split; [exact R|]. split; [exact P|].
    intros TT Hne tp Htp. rewrite stamps_nil in Hne. unfold aug_needed in HN. rewrite TT, Htp in HN.
    destruct (aug_at e 0); [congruence|]. injection HN as HN. apply Rltb_spec. exact HN.
  - left. cbn [map orb]. auto.
Qed.

Lemma step_change : forall e o e', inv e -> contract e o -> timed e -> step e o = OK e' -> change e o e'.
Proof.
  intros e o e' I C T E. pose proof (step_frame' e o e' I C E) as F.
  assert (HR : is_reg o -> s_aug (reg_effect (e_state e) o) = s_aug (e_state e) -> announces o = false -> change e o e').
  { intros Hr Hu Ha.
    assert (Fr : frame e e') by (apply (reg_frame e o e' I C E); destruct o; cbn in Hr |- *; tauto).
    apply change_same; [|unfold frame in Fr; tauto|rewrite Ha; unfold frame in Fr; cbn; tauto].
    destruct (reg_state e o e' I C E Hr) as [->|S]; [reflexivity|]. unfold stamps, aug_at.
    rewrite S, stamps_ix, Hu. reflexivity. }
  destruct o; cbn [is_reg reg_effect step] in *; try (apply HR; [exact Logic.I|reflexivity|reflexivity]);
    try (subst e'; apply change_same; reflexivity); try (injection E as <-; apply change_same; reflexivity).
  - destruct (predict_full e t e' I E) as [[_ ->]|[_ [e1 [H1 [I1 H2]]]]]; [apply change_same; reflexivity|].
    assert (X : e_aug_prev e1 = e_aug_prev e /\ e_frame_recv e1 = e_frame_recv e /\ e_par e1 = e_par e /\ stamps e1 0 = stamps e 0).
    { unfold model_step in H1. destruct (e_gravity e); [destruct H1 as [c [_ ->]]|subst e1]; repeat split. }
    destruct X as (X1 & X2 & X3 & X4).
    assert (T1 : timed e1) by (unfold timed in *; rewrite X3; exact T).
    pose proof (augment_change e1 (OPredict t) e' (proj1 I1) T1 eq_refl H2) as Y.
    unfold change in *. rewrite X1, X2, X3, X4 in Y. exact Y.
  - destruct (AugmentStateFrame_ok e cam frame (proj1 I)) as [e2 [E2 [_ [_ [_ [H1 _]]]]]].
    rewrite E in E2. injection E2 as <-.
    assert (PF : per_frame e cam = false) by (unfold per_frame; destruct T as [-> | ->]; reflexivity).
    rewrite (H1 PF). apply change_same; reflexivity.
  - exact (augment_change e OAugment e' (proj1 I) T eq_refl E).
  - destruct (Refresh_wf e (wf_pre _ (proj1 I)) (wf_nr _ (proj1 I)) (wf_nc _ (proj1 I))) as [e2 [E2 H]].
    rewrite E in E2. injection E2 as <-.
    assert (S : e_state e' = ix_state (e_state e)) by tauto. assert (Fr : History.frame e e') by tauto.
    unfold History.frame in Fr. apply change_same; [|tauto|cbn; tauto]. unfold stamps, aug_at. rewrite S, stamps_ix. reflexivity.
  - destruct (kalman_full e jac residual noise I C) as [e2 [K [E2 [_ [_ [_ [_ [_ [_ [[d [_ [_ [_ S]]]] [c' Hc]]]]]]]]]]].
    rewrite E in E2. injection E2 as <-. apply change_same; [|rewrite Hc; reflexivity|rewrite Hc; reflexivity].
    unfold stamps, aug_at. rewrite S, stamps_correct. reflexivity.
  - destruct (query_ok e cam frame t C) as [s [e2 [E2 [k0 ->]]]]. rewrite E2 in E. injection E as <-.
    apply change_same; try reflexivity. unfold stamps. rewrite aug_at_touch. reflexivity.
  - subst e'. apply change_same; unfold CalculateLocalTime; destruct (e_time_init e); reflexivity.
  - subst e'. apply change_same; unfold AttemptGpsInitialization;
    (destruct (Nat.leb 4 _); [destruct (align _ _) as [[? ?]|]|]; reflexivity).
Qed.

(** *** Whole histories *)
Lemma par_kept : forall e o e', inv e -> contract e o -> step e o = OK e' -> e_par e' = e_par e.
Proof.
  intros e o e' I C E. pose proof (step_frame' e o e' I C E) as F. destruct o; try (exact (proj1 F)); try (rewrite F; reflexivity).
  - rewrite F. unfold CalculateLocalTime. destruct (e_time_init e); reflexivity.
  - rewrite F. unfold AttemptGpsInitialization. destruct (Nat.leb 4 _); [destruct (align _ _) as [[? ?]|]|]; reflexivity.
Qed.

Definition known (e : ekf) : Prop := forall l f t, stamps e 0 = l ++ [(f, t)] -> e_aug_prev e = Some t.

Lemma known_remembered : forall e, known e -> remembered e.
Proof.
  intros e K a Ha. destruct (list_snoc _ (aug_at e 0)) as [Hn|[l [x Hn]]].
  - unfold newest in Ha. rewrite Hn in Ha. discriminate.
  - rewrite (newest_snoc e l x Hn) in Ha. injection Ha as ->. apply (K (map stamp l) (a_frame a)).
    unfold stamps. rewrite Hn, map_app. reflexivity.
Qed.

Lemma change_known : forall e o e', change e o e' -> known e -> known e'.
Proof.
  intros e o e' (d & new & S & _ & H) K l f t E. destruct H as [(-> & P & _)|(-> & _ & _ & _ & P & _)].
  - rewrite app_nil_r in S. rewrite P. apply (K (firstn d (stamps e 0) ++ l) f).
    rewrite <- app_assoc, <- E, S. symmetry. apply firstn_skipn.
  - rewrite S in E. apply app_inj_tail in E. destruct E as [_ E]. injection E as _ <-. exact P.
Qed.

Lemma reachable_known : forall e, reachable e -> timed e -> known e.
Proof.
  intros e (p & q & pe & a & l & Hq & Hr & E) T.
  assert (R0 : reachable (EKF_init p q pe a)) by (exists p, q, pe, a, []; split; [exact Hq|split; [exact Logic.I|reflexivity]]).
  assert (P : e_par e = p /\ (timed e -> known e)); [|apply P; exact T].
  destruct (run_ind (fun x => e_par x = p /\ (timed x -> known x)) (fun _ => True) l (EKF_init p q pe a) e) as [X _]; auto.
  - intros x o y I C Ex _ [H1 H2]. pose proof (par_kept x o y I C Ex) as Hp. split; [congruence|]. intros Ty.
    assert (Tx : timed x) by (unfold timed in *; rewrite <- Hp; exact Ty).
    apply (change_known x o y); [|apply H2; exact Tx]. apply step_change; auto.
  - apply reachable_inv. exact R0.
  - clear. induction l; constructor; auto.
  - split; [reflexivity|]. intros _ k f t H. cbn in H. destruct k; discriminate.
Qed.

Lemma clone_taken : forall e e', reachable e -> timed e -> AugmentStateIfNeeded e = OK e' ->
  exists d, (aug_at e 0 <> [] -> d < length (aug_at e 0)) /\
    ((e_frame_recv e = true /\ due e /\ e_frame_recv e' = false /\
      map astrip (aug_at e' 0) = map astrip (skipn d (aug_at e 0)) ++ [clone_of e 0]) \/
     (~ (e_frame_recv e = true /\ due e) /\ e_frame_recv e' = e_frame_recv e /\
      map astrip (aug_at e' 0) = map astrip (skipn d (aug_at e 0)))).
Proof.
  intros e e' Hr T E. destruct (augment_taken e e' (proj1 (reachable_inv e Hr)) T E) as (needed & d & HN & A & [_ R] & Hd & _).
  pose proof (needed_due e needed T (fun _ => known_remembered e (reachable_known e Hr T)) HN) as D.
  exists d. split; [exact Hd|]. destruct (needed && e_frame_recv e) eqn:N.
  - left. apply andb_prop in N. destruct N as [N1 N2]. apply D in N1. auto.
  - right. split; [|rewrite app_nil_r in A; auto]. intros [H1 H2]. apply D in H2. rewrite H1, H2 in N. discriminate.
Qed.

Lemma last_time : forall e a, reachable e -> timed e -> newest e = Some a -> e_aug_prev e = Some (a_time a).
Proof. intros e a Hr T. exact (known_remembered e (reachable_known e Hr T) a). Qed.

(** *** No more clones than frames *)
Lemma clones_frames : forall l e e', inv e -> respects e l -> timed e -> run e l = OK e' ->
  length (aug_at e' 0) + (if e_frame_recv e' then 1 else 0) <=
  length (aug_at e 0) + (if e_frame_recv e then 1 else 0) + frames l.
Proof.
  induction l as [|o l IH]; intros e e' I R T E; cbn [run respects] in *.
  - injection E as <-. unfold frames. cbn. lia.
  - destruct R as [C R]. destruct (step_inv e o I C) as [e1 [E1 I1]]. rewrite E1 in E. cbn [bind] in E.
    assert (T1 : timed e1) by (unfold timed in *; rewrite (par_kept e o e1 I C E1); exact T).
    pose proof (IH e1 e' I1 (R e1 E1) T1 E) as H.
    assert (L : length (aug_at e1 0) + (if e_frame_recv e1 then 1 else 0) <=
      length (aug_at e 0) + (if e_frame_recv e then 1 else 0) + (if announces o then 1 else 0)).
    { destruct (step_change e o e1 I C T E1) as (d & new & S & _ & Hn).
      apply (f_equal (@length _)) in S. rewrite app_length, skipn_length in S. unfold stamps in S. rewrite !map_length in S.
      destruct Hn as [(-> & _ & ->)|(-> & _ & -> & -> & _)]; cbn [length] in S;
        [destruct (announces o), (e_frame_recv e); cbn; lia|lia]. }
    unfold frames in *. cbn [filter]. fold (announces o). destruct (announces o); cbn [length]; lia.
Qed.

Lemma clones_bounded : forall p q pe a l e, noise_arg q -> respects (EKF_init p q pe a) l ->
  run (EKF_init p q pe a) l = OK e -> timed e -> length (aug_at e 0) <= S (frames l).
Proof.
  intros p q pe a l e Hq Hr E T.
  assert (R0 : reachable (EKF_init p q pe a)) by (exists p, q, pe, a, []; split; [exact Hq|split; [exact Logic.I|reflexivity]]).
  assert (P : e_par e = p).
  { destruct (run_ind (fun x => e_par x = p) (fun _ => True) l (EKF_init p q pe a) e) as [X _]; auto.
    - intros x o y I C Ex _ H1. rewrite (par_kept x o y I C Ex). exact H1.
    - apply reachable_inv. exact R0.
    - clear. induction l; constructor; auto. }
  assert (T0 : timed (EKF_init p q pe a)) by (unfold timed in *; rewrite P in T; exact T).
  pose proof (clones_frames l _ e (reachable_inv _ R0) Hr T0 E) as H.
  change (length (aug_at (EKF_init p q pe a) 0)) with 0 in H. change (e_frame_recv (EKF_init p q pe a)) with true in H. cbn iota in H. lia.
Qed.

(** *** Spacing *)
Lemma Sorted_skip : forall (P : R -> R -> Prop) n l, Sorted P l -> Sorted P (skipn n l).
Proof. intros P. induction n as [|n IH]; intros [|x l] H; cbn; auto. inversion H; auto. Qed.

Lemma Sorted_snoc' : forall (P : R -> R -> Prop) l t, Sorted P l -> (forall k x, l = k ++ [x] -> P x t) -> Sorted P (l ++ [t]).
Proof.
  intros P l t H. induction H as [|x l H IH HD]; intros Hl; cbn [app].
  - constructor; constructor.
  - constructor.
    + apply IH. intros k y ->. apply (Hl (x :: k)). reflexivity.
    + destruct l as [|y l]; [constructor; apply (Hl []); reflexivity|]. inversion HD; subst. constructor. assumption.
Qed.

Definition spaced_now (dt : R) (e : ekf) : Prop := spaced dt (map snd (stamps e 0)).

Lemma step_spaced : forall e o e', inv e -> contract e o -> step e o = OK e' -> not_init o ->
  p_aug (e_par e) = ATime -> e_time_init e = true -> ordered e 0 -> known e ->
  spaced_now (p_aug_dt (e_par e)) e -> spaced_now (p_aug_dt (e_par e)) e'.
Proof.
  intros e o e' I C E N T Ti HO K H. unfold spaced_now in *.
  destruct (step_time e o e' I C E N Ti) as [Hle _].
  destruct (step_change e o e' I C (or_introl T) E) as (d & new & S & Hd & Hn). rewrite S, map_app, <- skipn_map'.
  pose proof (Sorted_skip _ d _ H) as H1.
  destruct Hn as [(-> & _)|(-> & _ & _ & _ & _ & G)]; cbn [map]; [rewrite app_nil_r; exact H1|].
  apply Sorted_snoc'; [exact H1|]. intros k x Hk. cbn [snd].
  apply ordered_stamps in HO. destruct HO as [_ HO].
  destruct (list_snoc _ (stamps e 0)) as [X|[s [[f y] X]]]; rewrite X in *.
  { cbn [map] in Hk. rewrite skipn_nil in Hk. destruct k; discriminate. }
  rewrite map_app in *. cbn [map snd] in *. apply Forall_app in HO. destruct HO as [_ HO]. inversion HO as [|? ? HO' _]; subst.
  assert (Hxy : x = y).
  { specialize (Hd ltac:(destruct s; discriminate)). rewrite app_length in Hd. cbn [length] in Hd.
    rewrite skipn_app in Hk. rewrite map_length in Hk. replace (d - length s) with 0 in Hk by lia. cbn [skipn] in Hk.
    apply app_inj_tail in Hk. symmetry. apply Hk. }
  subst x. pose proof (G T ltac:(destruct s; discriminate) y (K s f y X)) as G1.
  rewrite Rabs_right in G1 by lra. exact G1.
Qed.

Lemma run_spaced : forall e l e', reachable e -> respects e l -> run e l = OK e' -> Forall not_init l ->
  p_aug (e_par e) = ATime -> e_time_init e = true -> aug_at e 0 = [] ->
  spaced (p_aug_dt (e_par e)) (map a_time (aug_at e' 0)).
Proof.
  intros e l e' Hr Hl E N T Ti H0. set (dt := p_aug_dt (e_par e)).
  destruct (run_ind (fun x => e_par x = e_par e /\ e_time_init x = true /\ ordered x 0 /\ known x /\ spaced_now dt x)
    not_init l e e') as [[_ [_ [_ [_ X]]]] _]; auto using reachable_inv.
  - intros x o y I C Ex O (P & Tx & Ho & K & S). pose proof (par_kept x o y I C Ex) as Hp.
    split; [congruence|]. split; [apply (step_time x o y I C Ex O Tx)|]. split; [eapply step_ordered; eauto|].
    assert (Tt : p_aug (e_par x) = ATime) by (rewrite P; exact T).
    split; [apply (change_known x o y); [apply step_change; auto; left; exact Tt|exact K]|].
    unfold dt in *. rewrite <- P in *. eapply step_spaced; eauto.
  - split; [reflexivity|]. split; [exact Ti|]. unfold ordered, known, spaced_now, stamps, spaced. rewrite H0. cbn.
    repeat split; try constructor. intros k f t X. destruct k; discriminate.
  - unfold spaced_now, stamps in X. rewrite map_map in X. exact X.
Qed.

(** *** Without time or error, predictions take none *)
Lemma untimed_predict : forall e t e' k, reachable e -> ~ timed e -> PredictModel e t = OK e' ->
  stamps e' k = stamps e k.
Proof.
  intros e t e' k Hr T E. destruct (predict_full e t e' (reachable_inv e Hr) E) as [[_ ->]|[_ [e1 [H1 [_ H2]]]]]; [reflexivity|].
  destruct (model_stamps e t e1 k H1) as [S1 [P1 _]].
  rewrite not_timed_augment in H2 by (unfold timed in *; rewrite P1; exact T). injection H2 as <-. exact S1.
Qed.

(** *** A concrete history *)
Lemma predict_due : forall e t e', inv e -> p_aug (e_par e) = ATime -> (e_time e <= t)%R -> length (stamps e 0) <= 1 ->
  PredictModel e t = OK e' -> e_frame_recv e = true ->
  e_time e' = t /\ (stamps e 0 = [] \/ (exists tp, e_aug_prev e = Some tp /\ (p_aug_dt (e_par e) < Rabs (t - tp))%R) ->
    stamps e' 0 = stamps e 0 ++ [(0, t)] /\ e_aug_prev e' = Some t /\ e_frame_recv e' = false) /\
  (stamps e 0 <> [] /\ (forall tp, e_aug_prev e = Some tp -> (Rabs (t - tp) <= p_aug_dt (e_par e))%R) ->
    stamps e' 0 = stamps e 0 /\ e_aug_prev e' = e_aug_prev e /\ e_frame_recv e' = true).
Proof.
  intros e t e' I T Ht Hl E Hf. destruct (predict_full e t e' I E) as [[X _]|[_ [e1 [H1 [I1 H2]]]]]; [lra|].
  assert (X : e_aug_prev e1 = e_aug_prev e /\ e_frame_recv e1 = e_frame_recv e /\ e_par e1 = e_par e /\
    stamps e1 0 = stamps e 0 /\ aug_at e1 0 = aug_at e 0 /\ e_time e1 = t).
  { unfold model_step in H1. destruct (e_gravity e); [destruct H1 as [c [_ ->]]|subst e1]; repeat split. }
  destruct X as (X1 & X2 & X3 & X4 & X5 & X6).
  assert (T1 : timed e1) by (left; rewrite X3; exact T).
  destruct (augment_taken e1 e' (proj1 I1) T1 H2) as (needed & d & HN & A & [P R] & Hd & _).
  destruct (augment_frame' e1 e' (proj1 I1) H2) as [[_ [Ft _]] _].
  rewrite X2, Hf, andb_true_r in *. rewrite X1, X6, X5 in *.
  split; [congruence|].
  assert (D0 : skipn d (aug_at e 0) = aug_at e 0).
  { unfold stamps in Hl. rewrite map_length in Hl. destruct (aug_at e 0) as [|x [|y l]]; cbn in *; [apply skipn_nil| |lia].
    specialize (Hd ltac:(discriminate)). replace d with 0 by lia. reflexivity. }
  rewrite D0 in A.
  assert (S : stamps e' 0 = stamps e 0 ++ (if needed then [(0, t)] else [])).
  { unfold stamps. rewrite <- stamp_astrip, A, map_app, stamp_astrip. f_equal. destruct needed; [|reflexivity].
    unfold stamp, clone_of. cbn. now rewrite X6. }
  unfold aug_needed in HN. rewrite X5, X3, T, X1, X6 in HN. rewrite stamps_nil. split.
  - intros H. assert (N : needed = true).
    { destruct (aug_at e 0); [injection HN as <-; reflexivity|]. destruct H as [H|[tp [H H']]]; [discriminate|].
      rewrite H in HN. injection HN as <-. apply Rltb_true. exact H'. }
    rewrite N in *. auto.
  - intros [H H']. assert (N : needed = false).
    { destruct (aug_at e 0); [congruence|]. destruct (e_aug_prev e) as [tp|]; [|discriminate].
      injection HN as <-. apply Rltb_ff. apply H'. reflexivity. }
    rewrite N in *. rewrite app_nil_r in S. auto.
Qed.

Definition due_ops : list op := [OInit 0 default_body; OPredict 1; OFrame 2 8; OPredict (3/2); OPredict 3].

Lemma due_respects : forall e, respects e due_ops.
Proof. intros e. unfold due_ops. cbn [respects contract]. repeat split. Qed.

(** Clones at 1 and 3: no frame was needed for the first, and 3/2 is too
    early for the second. *)
Lemma due_run : forall e, inv e -> p_aug (e_par e) = ATime -> p_aug_dt (e_par e) = 1%R -> stamps e 0 = [] -> e_frame_recv e = true ->
  exists e', run e due_ops = OK e' /\ stamps e' 0 = [(0, 1%R); (0, 3%R)] /\ e_frame_recv e' = false.
Proof.
  intros e I T D S F. unfold due_ops. cbn [run].
  destruct (step_inv e (OInit 0 default_body) I eq_refl) as [a [Ea Ia]]. rewrite Ea. cbn [bind].
  cbn [step] in Ea. injection Ea as <-. set (a := Initialize e 0 default_body) in *.
  assert (Ta : e_par a = e_par e /\ e_time a = 0%R /\ stamps a 0 = [] /\ e_frame_recv a = true).
  { repeat split; assumption. }
  destruct Ta as (Pa & Ta & Sa & Fa).
  destruct (step_inv a (OPredict 1) Ia Logic.I) as [b [Eb Ib]]. rewrite Eb. cbn [bind].
  pose proof (par_kept a (OPredict 1) b Ia Logic.I Eb) as Pb. cbn [step] in Eb.
  destruct (predict_due a 1 b Ia ltac:(congruence) ltac:(rewrite Ta; lra) ltac:(rewrite Sa; cbn; lia) Eb Fa) as (Tb & Hb & _).
  destruct (Hb (or_introl Sa)) as (Sb & Vb & Fb). rewrite Sa in Sb. cbn [app] in Sb.
  destruct (step_inv b (OFrame 2 8) Ib Logic.I) as [c [Ec Ic]]. rewrite Ec. cbn [bind].
  pose proof (par_kept b (OFrame 2 8) c Ib Logic.I Ec) as Pc. cbn [step] in Ec.
  destruct (AugmentStateFrame_ok b 2 8 (proj1 Ib)) as [c2 [E2 [_ [_ [_ [H1 _]]]]]].
  rewrite Ec in E2. injection E2 as <-.
  assert (PF : per_frame b 2 = false) by (unfold per_frame; rewrite Pb, Pa, T; reflexivity).
  pose proof (H1 PF) as Hc.
  assert (Tc : e_time c = 1%R /\ stamps c 0 = [(0, 1%R)] /\ e_aug_prev c = Some 1%R /\ e_frame_recv c = true)
    by (rewrite Hc; repeat split; assumption).
  clear H1 Hc. destruct Tc as (Tc & Sc & Vc & Fc).
  destruct (step_inv c (OPredict (3/2)) Ic Logic.I) as [f [Ef If]]. rewrite Ef. cbn [bind].
  pose proof (par_kept c (OPredict (3/2)) f Ic Logic.I Ef) as Pf. cbn [step] in Ef.
  destruct (predict_due c (3/2) f Ic ltac:(congruence) ltac:(rewrite Tc; lra) ltac:(rewrite Sc; cbn; lia) Ef Fc) as (Tf & _ & Hf).
  destruct Hf as (Sf & Vf & Ff).
  { rewrite Sc. split; [discriminate|]. intros tp Htp. rewrite Vc in Htp. injection Htp as <-.
    replace (p_aug_dt (e_par c)) with 1%R by congruence. rewrite Rabs_right; lra. }
  destruct (step_inv f (OPredict 3) If Logic.I) as [g [Eg Ig]]. rewrite Eg. cbn [bind].
  cbn [step] in Eg.
  destruct (predict_due f 3 g If ltac:(congruence) ltac:(rewrite Tf; lra) ltac:(rewrite Sf, Sc; cbn; lia) Eg Ff) as (Tg & Hg & _).
  destruct Hg as (Sg & Vg & Fg).
  { right. exists 1%R. split; [congruence|]. replace (p_aug_dt (e_par f)) with 1%R by congruence. rewrite Rabs_right; lra. }
  exists g. split; [reflexivity|]. split; [rewrite Sg, Sf, Sc; reflexivity|exact Fg].
Qed.
