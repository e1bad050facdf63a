(** Steps that leave the estimates alone, without any precondition: a
    correction from a zero residual, re-indexing, rows of zeros. *)
From Coq Require Import Reals List Arith Bool Lia Lra.
From Verif Require Import Base.Res Base.Mat Base.RDec Base.RSum Base.LinAlg Base.Geom Base.AMap Base.RMat
  Model.TypeHelper Model.Types Model.MathHelperMat Model.MathHelper Model.QR Model.Ekf Model.Updater
  Spec.History Spec.Same Spec.Lookup Spec.AtRest
  Proofs.Update Proofs.Refresh Proofs.Wf Proofs.Same Proofs.Lookup Proofs.Follows.
Import ListNotations.
Open Scope nat_scope.

(** *** A zero residual *)
Definition zeros (y : mat R) : Prop := forall k, k < nr y -> ent y k 0 = 0%R.

Lemma seg3_zero : forall r i v, zeros r -> seg3 r i = OK v -> v = v0.
Proof.
  intros r i v Z H. unfold seg3, block in H. destruct (_ && _) eqn:E; [|discriminate]. apply andb_true_iff in E.
  destruct E as [E _]. apply Nat.leb_le in E. cbn [bind ent] in H. injection H as <-. rewrite Nat.add_0_r.
  unfold v0. rewrite !Z by lia. reflexivity.
Qed.

Ltac seg0 Z :=
  repeat match goal with
  | H : seg3 ?r ?i = OK ?v |- _ => is_var v; apply (seg3_zero r i v Z) in H; subst v
  end.
Ltac opn H := apply bind_OK in H; let a := fresh "x" in let H1 := fresh "B" in destruct H as [a [H1 H]].

Lemma imus_zero : forall m r i m' j, zeros r -> imus_plus_vec m r i = OK (m', j) -> m' = m.
Proof.
  induction m as [|[k s] t IH]; intros r i m' j Z H; cbn [imus_plus_vec] in H; [injection H as <- <-; reflexivity|].
  opn H. destruct x as [s1 i1]. opn H. destruct x as [s2 i2]. opn H. destruct x as [t' i3]. injection H as <- <-.
  apply IH in B1; [|exact Z]. subst t'. f_equal. f_equal.
  assert (E1 : s1 = s).
  { destruct (i_ext s); [|injection B as <- <-; reflexivity]. opn B. opn B. injection B as <- <-. seg0 Z.
    rewrite vadd_0, RotVec_0, qmul_id. destruct s; reflexivity. }
  subst s1. destruct (i_int s); [|injection B0 as <- <-; reflexivity]. opn B0. opn B0. injection B0 as <- <-. seg0 Z.
  rewrite !vadd_0. destruct s; reflexivity.
Qed.
Lemma gpss_zero : forall m r i m' j, zeros r -> gpss_plus_vec m r i = OK (m', j) -> m' = m.
Proof.
  induction m as [|[k s] t IH]; intros r i m' j Z H; cbn [gpss_plus_vec] in H; [injection H as <- <-; reflexivity|].
  opn H. destruct x as [s1 i1]. opn H. destruct x as [t' i3]. injection H as <- <-.
  apply IH in B0; [|exact Z]. subst t'. f_equal. f_equal.
  destruct (g_ext s); [|injection B as <- <-; reflexivity]. opn B. injection B as <- <-. seg0 Z.
  rewrite vadd_0. destruct s; reflexivity.
Qed.
Lemma cams_zero : forall m r i m' j, zeros r -> cams_plus_vec m r i = OK (m', j) -> m' = m.
Proof.
  induction m as [|[k s] t IH]; intros r i m' j Z H; cbn [cams_plus_vec] in H; [injection H as <- <-; reflexivity|].
  opn H. destruct x as [s1 i1]. opn H. destruct x as [t' i3]. injection H as <- <-.
  apply IH in B0; [|exact Z]. subst t'. f_equal. f_equal.
  destruct (c_ext s); [|injection B as <- <-; reflexivity]. opn B. opn B. injection B as <- <-. seg0 Z.
  rewrite vadd_0, RotVec_0, qmul_id. destruct s; reflexivity.
Qed.
Lemma fids_zero : forall m r i m' j, zeros r -> fids_plus_vec m r i = OK (m', j) -> m' = m.
Proof.
  induction m as [|[k s] t IH]; intros r i m' j Z H; cbn [fids_plus_vec] in H; [injection H as <- <-; reflexivity|].
  opn H. destruct x as [s1 i1]. opn H. destruct x as [t' i3]. injection H as <- <-.
  apply IH in B0; [|exact Z]. subst t'. f_equal. f_equal.
  destruct (f_ext s); [|injection B as <- <-; reflexivity]. opn B. opn B. injection B as <- <-. seg0 Z.
  rewrite vadd_0, RotVec_0, qmul_id. destruct s; reflexivity.
Qed.
Lemma augv_zero : forall l r i l' j, zeros r -> augv_plus_vec l r i = OK (l', j) -> l' = l.
Proof.
  induction l as [|s t IH]; intros r i l' j Z H; cbn [augv_plus_vec] in H; [injection H as <- <-; reflexivity|].
  opn H. opn H. opn H. destruct x1 as [t' i3]. injection H as <- <-.
  apply IH in B1; [|exact Z]. subst t'. seg0 Z. f_equal.
  rewrite vadd_0, RotVec_0, qmul_id. destruct s; reflexivity.
Qed.
Lemma augs_zero : forall m r i m' j, zeros r -> augs_plus_vec m r i = OK (m', j) -> m' = m.
Proof.
  induction m as [|[k s] t IH]; intros r i m' j Z H; cbn [augs_plus_vec] in H; [injection H as <- <-; reflexivity|].
  opn H. destruct x as [s1 i1]. opn H. destruct x as [t' i3]. injection H as <- <-.
  apply IH in B0; [|exact Z]. apply augv_zero in B; [|exact Z]. subst. reflexivity.
Qed.

Lemma plus_zero : forall s r s', zeros r -> state_plus_vec s r = OK s' -> s' = s.
Proof.
  intros s r s' Z H. unfold state_plus_vec in H.
  opn H. opn H. opn H. destruct x1 as [im i1]. opn H. destruct x1 as [gm i2]. opn H. destruct x1 as [cm i3].
  opn H. destruct x1 as [fm i4]. opn H. destruct x1 as [am i5]. injection H as <-.
  apply imus_zero in B1; [|exact Z]. apply gpss_zero in B2; [|exact Z]. apply cams_zero in B3; [|exact Z].
  apply fids_zero in B4; [|exact Z]. apply augs_zero in B5; [|exact Z]. subst.
  assert (Zx : zeros x).
  { unfold block in B. destruct (_ && _) eqn:E; [|discriminate]. injection B as <-. apply andb_true_iff in E.
    destruct E as [E _]. apply Nat.leb_le in E. intros k Hk. cbn in Hk |- *. apply Z. unfold g_body_state_size in *. cbn in E, Hk. lia. }
  unfold body_plus_vec in B0. do 6 opn B0. injection B0 as <-. seg0 Zx.
  rewrite !vadd_0, RotVec_0, qmul_id. destruct s as [b ? ? ? ? ?]. destruct b; reflexivity.
Qed.

Lemma mulc_zero : forall a y z, zeros y -> mulc a y = OK z -> zeros z.
Proof.
  intros a y z Z H. unfold mulc in H. destruct (Nat.eqb_spec (nc a) (nr y)) as [E|]; [|discriminate]. injection H as <-.
  intros k Hk. cbn [ent nr] in *. unfold mm. apply rsum_0. intros i Hi. rewrite Z by lia. ring.
Qed.

Lemma kalman_zero : forall e jac y noise e', zeros y -> KalmanUpdate e jac y noise = OK e' ->
  exists c, e' = with_cov (with_state e (e_state e)) c.
Proof.
  intros e jac y noise e' Z H. unfold KalmanUpdate in H. opn H. destruct x as [g c]. opn H. opn H. injection H as <-.
  apply plus_zero in B1; [|eapply mulc_zero; eauto]. subst. eauto.
Qed.

(** *** Rows of zeros stay rows of zeros *)
Lemma nullspace_zero : forall Hf Hx r Hx' r', zeros r -> ApplyLeftNullspace Hf Hx r = OK (Hx', r') -> zeros r'.
Proof.
  intros Hf Hx r Hx' r' Z H. unfold ApplyLeftNullspace in H. do 4 opn H. injection H as <- <-.
  eapply mulc_zero; eauto.
Qed.

Definition all0 (m : nat) (A : fmat) : Prop := forall k, k < m -> A k 0 = 0%R.
Lemma step_zero : forall m j r X, S r < m -> all0 m (snd X) -> all0 m (snd (givens_step j r X)).
Proof.
  intros m j r [H y] L Z. unfold givens_step. destruct (makeGivens _ _) as [c s]. cbn [snd] in *. intros k Hk.
  unfold rot_rows. cbn [Nat.ltb]. rewrite Nat.ltb_irrefl.
  repeat match goal with |- context [Nat.eqb ?a ?b] => destruct (Nat.eqb a b) end; rewrite ?Z by lia; try ring; reflexivity.
Qed.
Lemma col_zero : forall m j X, all0 m (snd X) -> all0 m (snd (givens_col m j X)).
Proof.
  intros m j X Z. unfold givens_col.
  assert (G : forall l X, (forall r, In r l -> S r < m) -> all0 m (snd X) ->
    all0 m (snd (fold_left (fun acc r => givens_step j r acc) l X))).
  { induction l as [|r l IH]; intros Y L ZY; cbn [fold_left]; [exact ZY|]. apply IH; [intros; apply L; right; assumption|].
    apply step_zero; [apply L; left; reflexivity|exact ZY]. }
  apply G; [|exact Z]. intros r Hr. apply in_rev in Hr. apply in_seq in Hr. lia.
Qed.
Lemma compress_zero : forall J r J' r', zeros r -> CompressMeasurements J r = OK (J', r') -> zeros r'.
Proof.
  intros J r J' r' Z H. unfold CompressMeasurements in H. destruct (Nat.leb _ _); [|injection H as <- <-; exact Z].
  opn H. apply guard_inv in B. apply andb_true_iff in B. destruct B as [B _]. apply Nat.eqb_eq in B.
  assert (G : all0 (nr J) (snd (givens_all (nr J) (nc J) (ent J, ent r)))).
  { unfold givens_all.
    assert (G : forall l X, all0 (nr J) (snd X) -> all0 (nr J) (snd (fold_left (fun acc j => givens_col (nr J) j acc) l X))).
    { induction l as [|j l IH]; intros Y ZY; cbn [fold_left]; [exact ZY|]. apply IH. apply col_zero. exact ZY. }
    apply G. cbn [snd]. intros k Hk. apply Z. lia. }
  destruct (givens_all _ _ _) as [H1 y]. injection H as <- <-. cbn [snd] in G. intros k Hk. cbn [nr ent] in *.
  apply G. eapply Nat.lt_le_trans; [exact Hk|]. 
  assert (F : forall A (p : A -> bool) l, length (filter p l) <= length l).
  { intros A p l. induction l as [|a l IH]; cbn; [lia|]. destruct (p a); cbn; lia. }
  eapply Nat.le_trans; [apply F|]. rewrite seq_length. lia.
Qed.

(** *** Re-indexing *)
Ltac stp H := repeat (first [opn H | match type of H with (if ?b then _ else _) = _ => destruct b end]).
Lemma rimus_bare : forall m c Q m' c' Q', refresh_imus m c Q = OK (m', c', Q') -> on_map bare_imu m' = on_map bare_imu m.
Proof.
  induction m as [|[k s] t IH]; intros c Q m' c' Q' H; cbn [refresh_imus] in H; [injection H as <- <- <-; reflexivity|].
  opn H. destruct x as [[s1 c1] Q1]. opn H. destruct x as [[s2 c2] Q2]. opn H. destruct x as [[t' c3] Q3]. injection H as <- <- <-.
  rewrite !on_map_cons, (IH _ _ _ _ _ B1). f_equal. f_equal.
  assert (E1 : bare_imu s1 = bare_imu s).
  { match type of B with (if ?b then _ else _) = _ => destruct b end; [|injection B as <- <- <-; reflexivity].
    opn B. opn B. injection B as <- <- <-. reflexivity. }
  rewrite <- E1.
  match type of B0 with (if ?b then _ else _) = _ => destruct b end; [|injection B0 as <- <- <-; reflexivity].
  opn B0. opn B0. injection B0 as <- <- <-. reflexivity.
Qed.
Ltac one_refresh IH H :=
  opn H; match goal with x : (nat * mat R)%type |- _ => destruct x as [? ?] end;
  opn H; match goal with x : (amap _ * nat * mat R)%type |- _ => destruct x as [[? ?] ?] end; injection H as <- <- <-;
  match goal with B : _ = OK (?t, _, _) |- context [?t] => rewrite !on_map_cons, (IH _ _ _ _ _ B) end; reflexivity.
Lemma rgpss_bare : forall m c Q m' c' Q', refresh_gpss m c Q = OK (m', c', Q') -> on_map bare_gps m' = on_map bare_gps m.
Proof.
  induction m as [|[k s] t IH]; intros c Q m' c' Q' H; cbn [refresh_gpss] in H; [injection H as <- <- <-; reflexivity|].
  one_refresh IH H.
Qed.
Lemma rcams_bare : forall m c Q m' c' Q', refresh_cams m c Q = OK (m', c', Q') -> on_map bare_cam m' = on_map bare_cam m.
Proof.
  induction m as [|[k s] t IH]; intros c Q m' c' Q' H; cbn [refresh_cams] in H; [injection H as <- <- <-; reflexivity|].
  one_refresh IH H.
Qed.
Lemma rfids_bare : forall m c Q m' c' Q', refresh_fids m c Q = OK (m', c', Q') -> on_map bare_fid m' = on_map bare_fid m.
Proof.
  induction m as [|[k s] t IH]; intros c Q m' c' Q' H; cbn [refresh_fids] in H; [injection H as <- <- <-; reflexivity|].
  one_refresh IH H.
Qed.
Lemma raugs_bare : forall m c m' c', refresh_augs m c = (m', c') -> on_map (map bare_aug) m' = on_map (map bare_aug) m.
Proof. intros m c m' c' H. rewrite refresh_augs_ok in H. injection H as <- <-. apply bare_ix_augs. Qed.

Lemma refresh_bare : forall e e', RefreshIndices e = OK e' ->
  bare (e_state e') = bare (e_state e) /\ exists Q s a b c d f, e' = with_Q (with_starts (with_state e s) a b c d f) Q.
Proof.
  intros e e' H. unfold RefreshIndices in H. opn H. opn H. destruct x0 as [[im c1] Q1]. opn H. destruct x0 as [[gm c2] Q2].
  opn H. destruct x0 as [[cm c3] Q3]. opn H. destruct x0 as [[fm c4] Q4]. destruct (refresh_augs _ _) as [am c5] eqn:EA.
  opn H. injection H as <-. split; [|do 7 eexists; reflexivity].
  unfold bare. cbn [with_Q with_starts with_state e_state s_body s_imu s_gps s_cam s_fid s_aug].
  rewrite (rimus_bare _ _ _ _ _ _ B0), (rgpss_bare _ _ _ _ _ _ B1), (rcams_bare _ _ _ _ _ _ B2), (rfids_bare _ _ _ _ _ _ B3),
    (raugs_bare _ _ _ _ EA). reflexivity.
Qed.

(** *** At rest *)
(** The members a measurement at rest depends on. *)
Definition fixed (e e' : ekf) : Prop :=
  e_par e' = e_par e /\ e_lla_init e' = e_lla_init e /\ e_pos_e_in_g e' = e_pos_e_in_g e /\
  e_ang_l_to_e e' = e_ang_l_to_e e /\ e_primary e' = e_primary e.
Lemma fixed_refl : forall e, fixed e e. Proof. repeat split. Qed.
Lemma fixed_trans : forall a b c, fixed a b -> fixed b c -> fixed a c.
Proof. intros a b c [A1 [A2 [A3 [A4 A5]]]] [B1 [B2 [B3 [B4 B5]]]]. repeat split; congruence. Qed.
Lemma sbc_refl : forall s, same_but_clones s s. Proof. reflexivity. Qed.
Lemma sbc_trans : forall a b c, same_but_clones a b -> same_but_clones b c -> same_but_clones a c.
Proof. unfold same_but_clones. congruence. Qed.

(** What every step at rest keeps. *)
Definition quiet (p : V3) (q : quat) (e e' : ekf) : Prop :=
  rests p q (e_state e') /\ same_but_clones (e_state e) (e_state e') /\ fixed e e'.
Lemma quiet_refl : forall p q e, rests p q (e_state e) -> quiet p q e e.
Proof. intros p q e H. split; [exact H|]. split; [reflexivity|apply fixed_refl]. Qed.
Lemma quiet_trans : forall p q a b c, quiet p q a b -> quiet p q b c -> quiet p q a c.
Proof.
  intros p q a b c [_ [A1 A2]] [B0 [B1 B2]]. split; [exact B0|].
  split; [eapply sbc_trans; eauto|eapply fixed_trans; eauto].
Qed.

Lemma sbc_bare : forall s s', bare s' = bare s -> same_but_clones s s'.
Proof.
  intros s s' H. destruct (bare_parts _ _ H) as [X1 [X2 [X3 [X4 [X5 _]]]]]. unfold same_but_clones, bare.
  cbn [state_with_aug s_body s_imu s_gps s_cam s_fid s_aug]. now rewrite X1, X2, X3, X4, X5.
Qed.

Definition posed (p : V3) (q : quat) (a : AugState) : Prop := a_pos a = p /\ a_ang a = q.
Definition poses (p : V3) (q : quat) (m : amap (list AugState)) : Prop := forall k l a, In (k, l) m -> In a l -> posed p q a.
Lemma rests_split : forall p q s, rests p q s <-> (rests p q (state_with_aug s []) /\ poses p q (s_aug s)).
Proof.
  intros p q s. unfold rests, poses, posed. cbn [state_with_aug s_body s_aug]. split.
  - intros [A [B [C [D [E [F G]]]]]]. split; [repeat split; auto; destruct H|exact G].
  - intros [[A [B [C [D [E [F _]]]]]] G]. repeat (split; [assumption|]). exact G.
Qed.
Lemma rests_body : forall p q s s', bare_body (s_body s') = bare_body (s_body s) ->
  rests p q (state_with_aug s []) -> rests p q (state_with_aug s' []).
Proof.
  intros p q s s' H [A [B [C [D [E [F _]]]]]]. unfold rests. cbn [state_with_aug s_body s_aug] in *. unfold bare_body in H.
  injection H as H1 H2 H3 H4 H5 H6. rewrite H1, H2, H3, H4, H5, H6. repeat (split; [assumption|]). intros k l a [].
Qed.
Lemma poses_bare : forall p q m m', on_map (map bare_aug) m' = on_map (map bare_aug) m -> poses p q m -> poses p q m'.
Proof.
  intros p q. induction m as [|[k l] t IH]; intros [|[k' l'] t'] E P; try discriminate; [exact P|].
  rewrite !on_map_cons in E. injection E as E1 E2 E3. intros k0 l0 a [H|H] Ha.
  - injection H as <- <-. apply in_map with (f := bare_aug) in Ha. rewrite E2 in Ha. apply in_map_iff in Ha.
    destruct Ha as [b [Eb Hb]]. destruct (P k l b (or_introl eq_refl) Hb) as [P1 P2]. unfold bare_aug in Eb.
    injection Eb as _ _ Eb1 Eb2 _. split; congruence.
  - apply (IH t' E3) with (k := k0) (l := l0); auto. intros k1 l1 b H1 Hb. eapply P; [right; exact H1|exact Hb].
Qed.
Lemma rests_bare : forall p q s s', bare s' = bare s -> rests p q s -> rests p q s'.
Proof.
  intros p q s s' H R. apply rests_split in R. destruct R as [R1 R2]. destruct (bare_parts _ _ H) as [X1 [_ [_ [_ [_ X6]]]]].
  apply rests_split. split; [eapply rests_body; eauto|eapply poses_bare; eauto].
Qed.

Lemma mset_in : forall A k (v : A) m x, In x (mset k v m) -> x = (k, v) \/ In x m.
Proof.
  intros A k v. induction m as [|[k1 l1] t IH]; intros x H; cbn [mset] in H.
  - destruct H as [H|[]]; auto.
  - destruct (Nat.eqb k k1); [|destruct (Nat.ltb k k1)]; cbn in H |- *.
    + destruct H as [H|H]; auto.
    + destruct H as [H|[H|H]]; auto.
    + destruct H as [H|H]; auto. apply IH in H. tauto.
Qed.
Lemma poses_set : forall p q k l m, poses p q m -> (forall a, In a l -> posed p q a) -> poses p q (mset k l m).
Proof.
  intros p q k l m P H k0 l0 a Hin Ha. apply mset_in in Hin. destruct Hin as [E|Hin].
  - injection E as -> ->. apply H; exact Ha.
  - eapply P; eauto.
Qed.
Lemma poses_at : forall p q e k a, poses p q (s_aug (e_state e)) -> In a (aug_at e k) -> posed p q a.
Proof.
  intros p q e k a P H. unfold aug_at, mget in H. destruct (mfind k (s_aug (e_state e))) as [l|] eqn:E; [|destruct H].
  apply mfind_in in E. eapply P; eauto.
Qed.

Lemma quiet_same : forall p q e e', e_state e' = e_state e -> fixed e e' -> rests p q (e_state e) -> quiet p q e e'.
Proof. intros p q e e' H F R. split; [rewrite H; exact R|]. split; [rewrite H; reflexivity|exact F]. Qed.
Lemma quiet_set : forall p q e k l, rests p q (e_state e) -> (forall a, In a l -> posed p q a) -> quiet p q e (set_aug e k l).
Proof.
  intros p q e k l R H. apply rests_split in R. destruct R as [R1 R2]. split; [|split; [reflexivity|repeat split]].
  apply rests_split. split; [exact R1|]. apply poses_set; assumption.
Qed.
Lemma quiet_touch : forall p q e k, rests p q (e_state e) -> quiet p q e (touch_aug e k).
Proof.
  intros p q e k R. apply rests_split in R. destruct R as [R1 R2]. split; [|split; [reflexivity|repeat split]].
  apply rests_split. split; [exact R1|]. unfold touch_aug, mtouch.
  cbn [with_state e_state state_with_aug s_aug]. destruct (mfind k _); [exact R2|]. apply poses_set; [exact R2|]. intros a [].
Qed.
Lemma quiet_refresh : forall p q e e', rests p q (e_state e) -> RefreshIndices e = OK e' -> quiet p q e e'.
Proof.
  intros p q e e' R H. apply refresh_bare in H. destruct H as [H [Q [s [a [b [c [d [f E]]]]]]]].
  split; [eapply rests_bare; eauto|]. split; [apply sbc_bare; exact H|]. rewrite E. repeat split.
Qed.
Lemma quiet_body : forall p q e, rests p q (e_state e) -> posed p q (clone_of e 0) /\ forall f, posed p q (clone_of e f).
Proof. intros p q e [A [_ [_ [D _]]]]. unfold posed, clone_of. cbn. auto. Qed.
Lemma rests_at : forall p q e k a, rests p q (e_state e) -> In a (aug_at e k) -> posed p q a.
Proof. intros p q e k a R. apply rests_split in R. apply poses_at. apply R. Qed.

Lemma erase_in : forall A i (l : list A) x, In x (erase i l) -> In x l.
Proof.
  intros A i l x H. unfold erase in H. apply in_app_or in H. destruct H as [H|H].
  - rewrite <- (firstn_skipn i l). apply in_or_app. left; exact H.
  - rewrite <- (firstn_skipn (S i) l). apply in_or_app. right; exact H.
Qed.

Lemma prune_quiet : forall p q k e e', rests p q (e_state e) -> prune k e = OK e' -> quiet p q e e'.
Proof.
  intros p q. induction k as [|i IH]; intros e e' R H; cbn [prune] in H; [injection H as <-; apply quiet_refl; exact R|].
  opn H. destruct (_ && _); [|apply IH; assumption].
  opn H. opn H. opn H. opn H. opn H.
  set (e1 := set_aug (with_aug_sizes e x0 x1) 0 (erase i (aug_at e 0))) in *.
  assert (Q1 : quiet p q e e1).
  { eapply quiet_trans; [apply (quiet_same p q e (with_aug_sizes e x0 x1)); [reflexivity|repeat split|exact R]|].
    apply quiet_set; [exact R|]. intros a Ha. apply erase_in in Ha. eapply rests_at; eauto. }
  assert (Q2 : quiet p q e1 (with_cov e1 x3)) by (apply quiet_same; [reflexivity|repeat split|apply Q1]).
  assert (Q3 : quiet p q (with_cov e1 x3) x4) by (apply quiet_refresh; [apply Q2|assumption]).
  eapply quiet_trans; [exact Q1|]. eapply quiet_trans; [exact Q2|]. eapply quiet_trans; [exact Q3|]. apply IH; [apply Q3|exact H].
Qed.

Lemma augment_quiet : forall p q e e', rests p q (e_state e) -> AugmentStateIfNeeded e = OK e' -> quiet p q e e'.
Proof.
  intros p q e e' R H. unfold AugmentStateIfNeeded in H.
  assert (G : forall e', (let e := touch_aug e 0 in
      let* needed := aug_needed e in
      let* e := prune (length (aug_at e 0) - 1) e in
      if needed && e_frame_recv e then
        let e := with_aug_prev e (Some (e_time e)) in
        let e := set_aug e 0 (aug_at e 0 ++ [clone_of e 0]) in
        let e := with_aug_sizes e (e_size e + g_aug_state_size) (e_aug_size e + g_aug_state_size) in
        let* e := RefreshIndices e in
        let* last := back (aug_at e 0) in
        let* c := AugmentCovariance (is_root e) (e_cov e) (a_index last) in
        OK (with_frame_recv (with_cov e c) false)
      else OK e) = OK e' -> quiet p q e e').
  { clear e' H. intros e' H. cbv zeta in H. pose proof (quiet_touch p q e 0 R) as Q0. set (e0 := touch_aug e 0) in *.
    opn H. opn H. apply prune_quiet with (p := p) (q := q) in B0; [|apply Q0].
    pose proof (quiet_trans _ _ _ _ _ Q0 B0) as Q1. destruct (_ && _); [|injection H as <-; exact Q1].
    opn H. opn H. opn H. injection H as <-.
    set (ea := with_aug_prev x0 (Some (e_time x0))) in *. set (eb := set_aug ea 0 (aug_at ea 0 ++ [clone_of ea 0])) in *.
    assert (Qa : quiet p q x0 ea) by (apply quiet_same; [reflexivity|repeat split|apply Q1]).
    assert (Qb : quiet p q ea eb).
    { apply quiet_set; [apply Qa|]. intros a Ha. apply in_app_or in Ha. destruct Ha as [Ha|[<-|[]]].
      - eapply rests_at; [apply Qa|exact Ha].
      - apply (quiet_body p q ea). apply Qa. }
    assert (Qc : quiet p q eb x1).
    { eapply quiet_trans; [|apply quiet_refresh; [|exact B1]]; [apply quiet_same; [reflexivity|repeat split|apply Qb]|apply Qb]. }
    eapply quiet_trans; [exact Q1|]. eapply quiet_trans; [exact Qa|]. eapply quiet_trans; [exact Qb|].
    eapply quiet_trans; [exact Qc|]. apply quiet_same; [reflexivity|repeat split|apply Qc]. }
  destruct (p_aug (e_par e)); try (injection H as <-; apply quiet_refl; exact R); apply G; exact H.
Qed.

Lemma predict_rest : forall p q e dt, rests p q (e_state e) -> predict_body e dt = s_body (e_state e).
Proof.
  intros p q e dt [A [B [C [D [E [F _]]]]]]. unfold predict_body. cbv zeta. rewrite B, C, E.
  replace (if e_zero_acc e then v0 else vsub g_gravity g_gravity) with v0.
  2:{ destruct (e_zero_acc e); [reflexivity|]. unfold vsub, v0. f_equal; ring. }
  replace (mkV3 (vx v0 * dt) (vy v0 * dt) (vz v0 * dt)) with v0 by (unfold v0; cbn; f_equal; ring).
  rewrite RotVec_0. replace (vadd v0 (vscale dt v0)) with v0 by (unfold vadd, vscale, v0; cbn; f_equal; ring).
  replace (vadd (b_pos (s_body (e_state e))) (vscale dt v0)) with (b_pos (s_body (e_state e)))
    by (destruct (b_pos (s_body (e_state e))); unfold vadd, vscale, v0; cbn; f_equal; ring).
  replace (qmul qid (b_ang (s_body (e_state e)))) with (b_ang (s_body (e_state e)))
    by (destruct (b_ang (s_body (e_state e))); unfold qmul, qid; cbn; f_equal; ring).
  destruct (s_body (e_state e)); cbn in *; subst; reflexivity.
Qed.
Lemma predict_quiet : forall p q e t e', rests p q (e_state e) -> PredictModel e t = OK e' -> quiet p q e e'.
Proof.
  intros p q e t e' R H. unfold PredictModel in H. destruct (Rltb _ _); [injection H as <-; apply quiet_refl; exact R|].
  opn H.
  assert (Qx : quiet p q e x).
  { destruct (e_gravity e); [|injection B as <-; apply quiet_refl; exact R]. opn B. injection B as <-.
    apply quiet_same; [|repeat split|exact R]. cbn [with_cov with_state e_state]. rewrite (predict_rest p q e _ R).
    destruct (e_state e); reflexivity. }
  assert (Qt : quiet p q x (with_time x t)) by (apply quiet_same; [reflexivity|repeat split|apply Qx]).
  eapply quiet_trans; [exact Qx|]. eapply quiet_trans; [exact Qt|]. apply augment_quiet; [apply Qt|exact H].
Qed.
Lemma predict_window : forall e t e' k, per_frame e k = true -> PredictModel e t = OK e' ->
  aug_at e' k = aug_at e k /\ e_max_len e' = e_max_len e.
Proof.
  intros e t e' k P H. unfold PredictModel in H. destruct (Rltb _ _); [injection H as <-; auto|].
  opn H. assert (X : p_aug (e_par x) = p_aug (e_par e) /\ aug_at x k = aug_at e k /\ e_max_len x = e_max_len e).
  { destruct (e_gravity e); [opn B|]; injection B as <-; repeat split; reflexivity. }
  destruct X as [X1 [X2 X3]]. unfold AugmentStateIfNeeded in H. cbn [with_time e_par] in H. rewrite X1 in H.
  unfold per_frame in P. destruct (p_aug (e_par e)); try discriminate; injection H as <-; cbn; auto.
Qed.

Lemma kalman_quiet : forall p q e jac y noise e', rests p q (e_state e) -> zeros y -> KalmanUpdate e jac y noise = OK e' ->
  quiet p q e e' /\ e_state e' = e_state e.
Proof.
  intros p q e jac y noise e' R Z H. destruct (kalman_zero _ _ _ _ _ Z H) as [c ->]. split; [|reflexivity].
  apply quiet_same; [reflexivity|repeat split|exact R].
Qed.
