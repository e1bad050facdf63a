(** The sliding windows of clones over whole histories. *)
From Coq Require Import Reals List Arith Bool Lia Lra Sorted.
From Verif Require Import Base.Res Base.Mat Base.RDec Base.LinAlg Base.Geom Base.AMap Base.RMat
  Model.TypeHelper Model.Types Model.MathHelperMat Model.Ekf Model.Updater Model.Ops
  Spec.Layout Spec.History Spec.Contract Spec.Correct Spec.Named Spec.Same
  Proofs.Refresh Proofs.Wf Proofs.Register Proofs.Augment Proofs.Invariant Proofs.Named Proofs.Same Proofs.Update
  Proofs.Scalars Proofs.Clock Proofs.Effects.
Import ListNotations.
Open Scope nat_scope.

Lemma stamps_bare : forall s k, map stamp (mget [] k (s_aug (bare s))) = map stamp (mget [] k (s_aug s)).
Proof.
  intros s k. unfold bare. cbn [s_aug]. unfold mget. rewrite mfind_on_map.
  destruct (mfind k (s_aug s)); cbn [option_map]; [rewrite map_map; reflexivity|reflexivity].
Qed.
Lemma stamps_ix : forall s k, map stamp (mget [] k (s_aug (ix_state s))) = map stamp (mget [] k (s_aug s)).
Proof. intros s k. rewrite <- stamps_bare, bare_ix, stamps_bare. reflexivity. Qed.

Lemma mget_mset : forall A (d : A) k k' v m, mget d k (mset k' v m) = if Nat.eqb k k' then v else mget d k m.
Proof.
  intros A d k k' v m. unfold mget. destruct (Nat.eqb_spec k k') as [->|H].
  - now rewrite mfind_mset_eq.
  - now rewrite mfind_mset_neq.
Qed.

Lemma stamps_correct : forall d s k, map stamp (mget [] k (s_aug (correct d s))) = map stamp (mget [] k (s_aug s)).
Proof.
  intros d s k. unfold correct. cbn [s_aug]. unfold mget.
  induction (s_aug s) as [|[k' l] t IH]; [reflexivity|]. cbn [map on_snd fst snd mfind].
  destruct (Nat.eqb k k'); [rewrite map_map; reflexivity|exact IH].
Qed.

Lemma stamp_astrip : forall l, map stamp (map astrip l) = map stamp l.
Proof. intros. rewrite map_map. reflexivity. Qed.

Lemma not_timed_augment : forall e, ~ timed e -> AugmentStateIfNeeded e = OK e.
Proof.
  intros e H. unfold AugmentStateIfNeeded. unfold timed in H.
  destruct (p_aug (e_par e)); try reflexivity; exfalso; apply H; auto.
Qed.

Lemma model_stamps : forall e t e1 k, model_step e t e1 -> stamps e1 k = stamps e k /\ e_par e1 = e_par e /\
  e_time e1 = t /\ e_track_dur e1 = e_track_dur e /\ aug_at e1 k = aug_at e k.
Proof.
  intros e t e1 k H. unfold model_step in H. destruct (e_gravity e); [destruct H as [c [_ ->]]|subst e1]; repeat split.
Qed.

(** Per-frame modes: only frames change windows. *)
Lemma step_stamps : forall e o e' k, inv e -> contract e o -> step e o = OK e' -> ~ timed e ->
  stamps e' k =
    match o with
    | OFrame cam f => if per_frame e cam && Nat.eqb k cam
                      then map stamp (next_window (e_max_len e) (aug_at e cam) (clone_of e f)) else stamps e k
    | _ => stamps e k
    end.
Proof.
  intros e o e' k I C E NT. pose proof (step_frame' e o e' I C E) as F.
  assert (HR : is_reg o -> s_aug (reg_effect (e_state e) o) = s_aug (e_state e) -> stamps e' k = stamps e k).
  { intros Hr Hu. destruct (reg_state e o e' I C E Hr) as [->|S]; [reflexivity|]. unfold stamps, aug_at.
    rewrite S, stamps_ix, Hu. reflexivity. }
  destruct o; cbn [is_reg reg_effect step] in *; try (apply HR; [exact Logic.I|reflexivity]);
    try (subst e'; reflexivity); try (injection E as <-; reflexivity).
  - destruct (predict_full e t e' I E) as [[_ ->]|[_ [e1 [H1 [I1 H2]]]]]; [reflexivity|].
    destruct (model_stamps e t e1 k H1) as [S1 [P1 _]]. rewrite not_timed_augment in H2.
    + injection H2 as <-. exact S1.
    + unfold timed. rewrite P1. exact NT.
  - destruct (AugmentStateFrame_ok e cam frame (proj1 I)) as [e2 [E2 [_ [_ [_ [H1 H2]]]]]].
    rewrite E in E2. injection E2 as <-. destruct (per_frame e cam) eqn:PF; cbn [andb].
    + destruct (H2 eq_refl) as [S _]. unfold stamps, aug_at at 1. rewrite S, stamps_ix. cbn [state_with_aug s_aug].
      rewrite mget_mset. destruct (Nat.eqb k cam); reflexivity.
    + rewrite (H1 eq_refl). reflexivity.
  - rewrite not_timed_augment in E by exact NT. injection E as <-. reflexivity.
  - destruct (Refresh_wf e (wf_pre _ (proj1 I)) (wf_nr _ (proj1 I)) (wf_nc _ (proj1 I))) as [e2 [E2 [_ [S _]]]].
    rewrite E in E2. injection E2 as <-. unfold stamps, aug_at. rewrite S, stamps_ix. reflexivity.
  - destruct (kalman_full e jac residual noise I C) as [e2 [K [E2 [_ [_ [_ [_ [_ [_ [[d [_ [_ [_ S]]]] _]]]]]]]]]].
    rewrite E in E2. injection E2 as <-. unfold stamps, aug_at. rewrite S, stamps_correct. reflexivity.
  - destruct (query_ok e cam frame t C) as [s [e2 [E2 [k0 ->]]]]. rewrite E2 in E. injection E as <-.
    unfold stamps. rewrite aug_at_touch. reflexivity.
  - subst e'. unfold CalculateLocalTime. destruct (e_time_init e); reflexivity.
  - subst e'. unfold AttemptGpsInitialization.
    destruct (Nat.leb 4 _); [destruct (align _ _) as [[? ?]|]|]; reflexivity.
Qed.

(** *** First in, first out *)
Lemma step_len : forall e o e', inv e -> contract e o -> step e o = OK e' ->
  e_max_len e' = match o with OSetLen n => n | _ => e_max_len e end /\ e_par e' = e_par e.
Proof.
  intros e o e' I C E. pose proof (step_frame' e o e' I C E) as F.
  destruct o; unfold frame' in F; try (subst e'; split; reflexivity);
    try (destruct F as [F0 [_ [_ [_ [F1 _]]]]]; rewrite F0, F1; split; reflexivity).
  - subst e'. unfold CalculateLocalTime. destruct (e_time_init e); split; reflexivity.
  - subst e'. unfold AttemptGpsInitialization.
    destruct (Nat.leb 4 _); [destruct (align _ _) as [[? ?]|]|]; split; reflexivity.
Qed.

Lemma next_window_frames : forall n v c,
  map a_frame (next_window n v c) = (if length v <? n then map a_frame v else tl (map a_frame v)) ++ [a_frame c].
Proof. intros n v c. unfold next_window. destruct (length v <? n); rewrite map_app; [reflexivity|]. destruct v; reflexivity. Qed.

Lemma longest_mono : forall l n m, n <= m -> longest n l <= longest m l.
Proof.
  induction l as [|o l IH]; intros n m H; [exact H|]. unfold longest in *. cbn [fold_left]. apply IH. destruct o; lia.
Qed.
Lemma longest_ge : forall l n, n <= longest n l.
Proof.
  induction l as [|o l IH]; intros n; [apply le_n|]. unfold longest in *. cbn [fold_left].
  eapply Nat.le_trans; [|apply IH]. destruct o; lia.
Qed.

Lemma stamps_frames : forall e k, map fst (stamps e k) = map a_frame (aug_at e k).
Proof. intros. unfold stamps. rewrite map_map. reflexivity. Qed.

(** The invariant over a history in mode ALL. *)
Lemma run_window : forall l e e' cam base n, inv e -> respects e l -> run e l = OK e' ->
  p_aug (e_par e) = AAll -> e_max_len e <= n ->
  suffix (map fst (stamps e cam)) base -> length (stamps e cam) <= n ->
  suffix (map fst (stamps e' cam)) (base ++ frames_of cam l) /\ length (stamps e' cam) <= longest n l.
Proof.
  induction l as [|o l IH]; intros e e' cam base n I Hr E HA Hn Hs Hl; cbn [run respects] in *.
  - injection E as <-. rewrite app_nil_r. auto.
  - destruct Hr as [C Hr]. destruct (step_inv e o I C) as [e1 [E1 I1]]. rewrite E1 in E. cbn [bind] in E.
    assert (NT : ~ timed e) by (unfold timed; rewrite HA; intros [|]; discriminate).
    pose proof (step_stamps e o e1 cam I C E1 NT) as S1. destruct (step_len e o e1 I C E1) as [L1 P1].
    unfold frames_of, longest. cbn [flat_map fold_left]. fold (frames_of cam l). rewrite app_assoc.
    apply (IH e1 e' cam); auto; [congruence|destruct o; lia| |].
    + destruct o; rewrite ?app_nil_r; try (rewrite S1; exact Hs).
      rewrite S1. unfold per_frame. rewrite HA. cbn [orb andb]. rewrite (Nat.eqb_sym cam0 cam).
      destruct (Nat.eqb_spec cam cam0) as [<-|X]; [|rewrite app_nil_r; exact Hs].
      rewrite map_map. change (fun x => fst (stamp x)) with a_frame. rewrite next_window_frames.
      cbn [clone_of a_frame]. destruct Hs as [d Hd]. rewrite stamps_frames in Hd. rewrite Hd.
      destruct (length (aug_at e cam) <? e_max_len e).
      * exists d. now rewrite app_assoc.
      * destruct (map a_frame (aug_at e cam)) as [|f0 fs]; cbn [tl].
        -- exists d. now rewrite app_nil_r.
        -- exists (d ++ [f0]). rewrite <- !app_assoc. reflexivity.
    + destruct o; try (rewrite S1; lia).
      rewrite S1. unfold per_frame. rewrite HA. cbn [orb andb].
      destruct (Nat.eqb_spec cam cam0) as [<-|X]; [|lia].
      rewrite map_length. unfold next_window. unfold stamps in Hl. rewrite map_length in Hl.
      destruct (Nat.ltb_spec (length (aug_at e cam)) (e_max_len e)); rewrite app_length; cbn [length]; [lia|].
      destruct (aug_at e cam) eqn:EA; cbn [tl length] in *; [|lia].
      assert (1 <= e_max_len e) by (apply (pre_len _ (wf_pre _ (proj1 I))); auto). lia.
Qed.

(** Constant window length: exactly the last frames. *)
Lemma run_window_exact : forall l e e' cam base, inv e -> respects e l -> run e l = OK e' ->
  p_aug (e_par e) = AAll -> Forall same_len l -> 1 <= e_max_len e ->
  map fst (stamps e cam) = last_n (e_max_len e) base ->
  map fst (stamps e' cam) = last_n (e_max_len e) (base ++ frames_of cam l).
Proof.
  induction l as [|o l IH]; intros e e' cam base I Hr E HA Hsl Hm Hs; cbn [run respects] in *.
  - injection E as <-. rewrite app_nil_r. exact Hs.
  - destruct Hr as [C Hr]. destruct (step_inv e o I C) as [e1 [E1 I1]]. rewrite E1 in E. cbn [bind] in E.
    inversion Hsl as [|? ? Ho Hsl']; subst.
    assert (NT : ~ timed e) by (unfold timed; rewrite HA; intros [|]; discriminate).
    pose proof (step_stamps e o e1 cam I C E1 NT) as S1. destruct (step_len e o e1 I C E1) as [L1 P1].
    assert (L1' : e_max_len e1 = e_max_len e) by (destruct o; try exact L1; destruct Ho).
    unfold frames_of. cbn [flat_map]. fold (frames_of cam l). rewrite app_assoc, <- L1'.
    apply (IH e1 e' cam); auto; try congruence.
    rewrite L1'. destruct o; rewrite ?app_nil_r; try (rewrite S1; exact Hs).
    rewrite S1. unfold per_frame. rewrite HA. cbn [orb andb]. rewrite (Nat.eqb_sym cam0 cam).
    destruct (Nat.eqb_spec cam cam0) as [<-|X]; [|rewrite app_nil_r; exact Hs].
    rewrite map_map. change (fun x => fst (stamp x)) with a_frame. rewrite next_window_frames.
    rewrite stamps_frames in Hs. rewrite <- (map_length a_frame (aug_at e cam)). rewrite Hs.
    cbn [clone_of a_frame]. unfold last_n. rewrite skipn_length, app_length. cbn [length].
    destruct (Nat.ltb_spec (length base - (length base - e_max_len e)) (e_max_len e)) as [Hlt|Hge].
    + replace (length base - e_max_len e) with 0 by lia. replace (length base + 1 - e_max_len e) with 0 by lia. reflexivity.
    + assert (Hb : e_max_len e <= length base) by lia.
      replace (length base + 1 - e_max_len e) with (S (length base - e_max_len e)) by lia.
      rewrite skipn_app. replace (S (length base - e_max_len e) - length base) with 0 by lia. cbn [skipn]. f_equal.
      generalize (length base - e_max_len e). clear. intros n. revert base.
      induction n as [|n IH]; intros base; [destruct base; reflexivity|].
      destruct base; [reflexivity|]. cbn [skipn]. rewrite IH. reflexivity.
Qed.

