(** Cloning: [AugmentCovariance] and the two augmentation operations. *)
From Coq Require Import Reals List Arith Bool Lia Lra.
From Verif Require Import Base.Res Base.Mat Base.RDec Base.RSum Base.LinAlg Base.Geom Base.AMap Base.RMat
  Model.TypeHelper Model.Types Model.MathHelperMat Model.QR Model.Ekf Spec.Layout Spec.History
  Proofs.MatSurgery Proofs.Refresh Proofs.Wf Proofs.Register Proofs.AugCov.
Import ListNotations.
Open Scope nat_scope.

(** *** Position of the clones of one key *)
Fixpoint before (k : nat) (m : amap (list AugState)) : nat :=
  match m with
  | [] => 0
  | (k', l) :: t => (if k' <? k then aug_len l else 0) + before k t
  end.

Lemma before_ge : forall k m, Forall (fun x => k <= x) (keys m) -> before k m = 0.
Proof.
  induction m as [|[k' l] t IH]; intros H; [reflexivity|]. cbn [keys map fst] in H.
  inversion H; subst. cbn [before]. rewrite (proj2 (Nat.ltb_ge _ _)) by auto. rewrite IH; auto.
Qed.

Lemma before_mset : forall k v m, before k (mset k v m) = before k m.
Proof.
  induction m as [|[k' l] t IH]; cbn [mset].
  - cbn [before]. now rewrite Nat.ltb_irrefl.
  - destruct (Nat.eqb k k') eqn:E; [|destruct (Nat.ltb k k') eqn:E2]; cbn [before].
    + apply Nat.eqb_eq in E. subst. now rewrite !Nat.ltb_irrefl.
    + now rewrite Nat.ltb_irrefl.
    + now rewrite IH.
Qed.

Lemma sorted_tail : forall A k (v : A) m, sorted ((k, v) :: m) -> sorted m /\ Forall (fun x => k < x) (keys m).
Proof. intros A k v m H. unfold sorted in *. cbn [keys map fst] in H. inversion H; subst. auto. Qed.

Lemma ix_augs_at : forall m k v c, sorted m -> mfind k m = Some v ->
  mfind k (ix_augs m c) = Some (ix_augv v (c + before k m)).
Proof.
  induction m as [|[k' l] t IH]; intros k v c Hs H; [discriminate|].
  apply sorted_tail in Hs. destruct Hs as [Hs Hf].
  cbn [mfind ix_augs before] in *. destruct (Nat.eqb k k') eqn:E.
  - apply Nat.eqb_eq in E. subst k'. injection H as ->. rewrite Nat.ltb_irrefl.
    rewrite before_ge; [now rewrite Nat.add_0_r|]. eapply Forall_impl; [|exact Hf]. cbn. lia.
  - assert (Hlt : k' < k).
    { apply mfind_in in H. apply (in_map fst) in H. rewrite Forall_forall in Hf. apply Hf. exact H. }
    rewrite (proj2 (Nat.ltb_lt _ _)) by auto. rewrite (IH k v _ Hs H). f_equal. f_equal.
    unfold aug_len. lia.
Qed.

Lemma before_le : forall m k v, sorted m -> mfind k m = Some v ->
  before k m + 6 * length v <= sum_len aug_len m.
Proof.
  induction m as [|[k' l] t IH]; intros k v Hs H; [discriminate|].
  apply sorted_tail in Hs. destruct Hs as [Hs Hf].
  cbn [mfind before] in *. rewrite sum_len_cons. destruct (Nat.eqb k k') eqn:E.
  - apply Nat.eqb_eq in E. subst k'. injection H as ->. rewrite Nat.ltb_irrefl.
    rewrite before_ge; [unfold aug_len; lia|]. eapply Forall_impl; [|exact Hf]. cbn. lia.
  - specialize (IH k v Hs H). destruct (k' <? k); lia.
Qed.

Lemma sum_aug_mset : forall k v m, sorted m ->
  sum_len aug_len (mset k v m) + aug_len (mget [] k m) = sum_len aug_len m + aug_len v.
Proof.
  intros k v m Hs. unfold mget. destruct (mfind k m) as [w|] eqn:E.
  - destruct (mset_present _ k v m w E Hs) as [l [r [E1 E2]]]. rewrite E2, E1.
    rewrite !sum_len_app, !sum_len_cons. lia.
  - rewrite sum_len_mset by auto. unfold aug_len at 3. cbn [length]. lia.
Qed.

Lemma ix_augv_app : forall l r c, ix_augv (l ++ r) c = ix_augv l c ++ ix_augv r (c + 6 * length l).
Proof.
  induction l as [|a t IH]; intros r c; cbn [app ix_augv length].
  - now rewrite Nat.mul_0_r, Nat.add_0_r.
  - rewrite IH. do 3 f_equal. lia.
Qed.

Lemma back_app : forall A (l : list A) x, back (l ++ [x]) = OK x.
Proof.
  induction l as [|a t IH]; intros x; [reflexivity|]. cbn [app back].
  destruct (t ++ [x]) eqn:E; [destruct t; discriminate|]. rewrite <- E. apply IH.
Qed.

Lemma start_aug_set : forall s m, start_aug (state_with_aug s m) = start_aug s.
Proof. reflexivity. Qed.

Lemma start_aug_ge : forall s, 18 <= start_aug s.
Proof. intros. unfold start_aug, start_fid, start_cam, start_gps. lia. Qed.

Lemma start_aug_ix : forall s, start_aug (ix_state s) = start_aug s.
Proof.
  intros. unfold start_aug, start_fid, start_cam, start_gps, ix_state. cbn [s_imu s_gps s_cam s_fid].
  now rewrite ix_imus_sum, ix_gpss_sum, ix_cams_sum, ix_fids_sum.
Qed.

(** The common end of both augmentations: refresh, then copy the body rows
    and columns into the place of the newest clone. *)
Lemma finish_clone : forall e1 k v c, pre e1 ->
  mfind k (s_aug (e_state e1)) = Some (v ++ [c]) ->
  nr (e_cov e1) + 6 = e_size e1 -> nc (e_cov e1) + 6 = e_size e1 ->
  let x := start_aug (e_state e1) + before k (s_aug (e_state e1)) + 6 * length v in
  12 <= x <= nr (e_cov e1) /\
  exists e2 cv, RefreshIndices e1 = OK e2 /\
    back (aug_at e2 k) = OK (aug_with_index c x) /\
    AugmentCovariance (is_root e2) (e_cov e2) x = OK cv /\
    AugmentCovariance (is_root e1) (e_cov e1) x = OK cv /\
    wf (with_cov e2 cv) /\ e_state e2 = ix_state (e_state e1) /\ e_size e2 = e_size e1 /\
    isdiag (e_size e2) (e_Q e2) (noise_mat e2) /\ frame e1 e2 /\ cam_frame e1 e2.
Proof.
  intros e1 k v c P Hf Hr Hc x.
  assert (Hb : x + 6 <= e_size e1).
  { unfold x. rewrite (pre_size _ P). unfold tot.
    pose proof (before_le _ _ _ (proj2 (proj2 (proj2 (proj2 (pre_sorted _ P))))) Hf) as H.
    rewrite app_length in H. cbn [length] in H. lia. }
  assert (Hx : 12 <= x <= nr (e_cov e1)).
  { pose proof (start_aug_ge (e_state e1)). unfold x in *. lia. }
  split; [exact Hx|].
  destruct (Refresh_pre e1 P) as [e2 [E2 [P2 [I2 [S2 [C2 [Z2 [Hp [_ [Hbq [D2 [Q' X]]]]]]]]]]]].
  destruct (Augment_dims (is_root e1) (e_cov e1) x) as [cv [EA [A1 A2]]]; [lia|exact Hx|].
  exists e2, cv. split; [exact E2|]. split.
  { unfold aug_at. rewrite S2. cbn [s_aug ix_state]. unfold mget.
    rewrite (ix_augs_at _ _ _ _ (proj2 (proj2 (proj2 (proj2 (pre_sorted _ P))))) Hf).
    rewrite ix_augv_app. cbn [ix_augv]. apply back_app. }
  split; [unfold is_root; rewrite C2, Hp; exact EA|]. split; [exact EA|].
  split.
  { apply (pre_wf e1 e2 cv P E2); lia. }
  split; [exact S2|]. split; [exact Z2|]. split.
  { rewrite Z2. unfold noise_mat, is_root. rewrite Hp, Hbq, S2, ix_noise. exact D2. }
  rewrite X. repeat split.
Qed.

(** *** Per-frame augmentation *)
Lemma per_frame_type : forall e cam, per_frame e cam = true ->
  p_aug (e_par e) = AAll \/ p_aug (e_par e) = APrimary.
Proof. intros e cam H. unfold per_frame in H. destruct (p_aug (e_par e)); try discriminate; auto. Qed.

Lemma aug_sorted : forall e, pre e -> sorted (s_aug (e_state e)).
Proof. intros e P. apply (pre_sorted _ P). Qed.

Lemma set_aug_pre : forall e k w sz asz pv,
  pre e ->
  asz + aug_len (aug_at e k) = e_aug_size e + aug_len w ->
  sz + aug_len (aug_at e k) = e_size e + aug_len w ->
  ((p_aug (e_par e) = ATime \/ p_aug (e_par e) = AError) -> (k = 0 -> w <> [] -> pv <> None) /\
     (aug_at e 0 <> [] -> pv <> None)) ->
  forall c fr, pre (with_frame_recv (with_cov (with_aug_sizes (with_aug_prev (set_aug e k w) pv) sz asz) c) fr).
Proof.
  intros e k w sz asz pv P Ha Hz Hprev c fr. pose proof (aug_sorted e P) as Hs.
  pose proof (sum_aug_mset k w _ Hs) as HS. fold (aug_at e k) in HS.
  destruct P. constructor; unfold set_aug; ekf_cbn; auto.
  - destruct pre_sorted as [X1 [X2 [X3 [X4 X5]]]]. do 4 (split; [assumption|]). apply mset_sorted; auto.
  - unfold tot, start_aug, start_fid, start_cam, start_gps in *. ekf_cbn. lia.
  - lia.
  - intros Ht. destruct (Hprev Ht) as [H1 H2]. unfold aug_at in *. ekf_cbn. intros Hne.
    unfold mget in Hne. destruct (Nat.eq_dec k 0) as [->|Hk].
    + rewrite mfind_mset_eq in Hne. auto.
    + rewrite mfind_mset_neq in Hne by auto. auto.
Qed.

Lemma wf_aug_first : forall e k a v, wf e -> aug_at e k = a :: v ->
  a_index a = start_aug (e_state e) + before k (s_aug (e_state e)) /\
  a_index a + 6 * length (a :: v) <= e_size e.
Proof.
  intros e k a v W H. unfold aug_at, mget in H.
  destruct (mfind k (s_aug (e_state e))) as [w|] eqn:E; [|discriminate]. subst w.
  pose proof (aug_sorted e (wf_pre e W)) as Hs.
  pose proof (ix_augs_at _ _ _ (start_aug (e_state e)) Hs E) as H1.
  destruct (wf_ix e W) as [_ [_ [_ [_ [_ H5]]]]]. rewrite H5, E in H1.
  cbn [ix_augv] in H1. injection H1 as H1 _.
  assert (HA : a_index a = start_aug (e_state e) + before k (s_aug (e_state e))) by (rewrite H1; reflexivity).
  rewrite HA. split; [reflexivity|]. rewrite (pre_size _ (wf_pre e W)). unfold tot.
  pose proof (before_le _ _ _ Hs E). lia.
Qed.

Lemma AugmentStateFrame_ok : forall e cam f, wf e ->
  exists e', AugmentStateFrame e cam f = OK e' /\ wf e' /\
    frame (with_frame_recv e true) e' /\ cam_frame e e' /\
    (per_frame e cam = false -> e' = with_frame_recv e true) /\
    (per_frame e cam = true ->
      let v := aug_at e cam in
      let a := start_aug (e_state e) + before cam (s_aug (e_state e)) in
      e_state e' = ix_state (state_with_aug (e_state e)
        (mset cam (next_window (e_max_len e) v (clone_of e f)) (s_aug (e_state e)))) /\
      isdiag (e_size e') (e_Q e') (noise_mat e') /\
      (length v < e_max_len e ->
         e_size e' = e_size e + 6 /\ 12 <= a + 6 * length v <= nr (e_cov e) /\
         AugmentCovariance (is_root e) (e_cov e) (a + 6 * length v) = OK (e_cov e')) /\
      (e_max_len e <= length v ->
         e_size e' = e_size e /\ a + 6 <= nr (e_cov e) /\
         exists rc, RemoveFromMatrix 0%R (e_cov e) a a 6 = OK rc /\
           12 <= a + 6 * (length v - 1) <= nr rc /\
           AugmentCovariance (is_root e) rc (a + 6 * (length v - 1)) = OK (e_cov e'))).
Proof.
  intros e cam f W. unfold AugmentStateFrame.
  change (p_aug (e_par (with_frame_recv e true))) with (p_aug (e_par e)).
  change (e_primary (with_frame_recv e true)) with (e_primary e). fold (per_frame e cam).
  destruct (per_frame e cam) eqn:PF.
  2: { eexists. split; [reflexivity|].
       split; [destruct W as [P ? ? ? ? ? ?]; constructor; auto; destruct P; constructor; auto|].
       split; [apply frame_refl|]. split; [repeat split|]. split; [reflexivity|discriminate]. }
  pose proof (per_frame_type _ _ PF) as Ht.
  pose proof (wf_pre e W) as P. pose proof (aug_sorted e P) as Hs.
  set (v := aug_at e cam). set (c := clone_of e f).
  change (aug_at (with_frame_recv e true) cam) with v.
  change (clone_of (with_frame_recv e true) f) with c.
  set (e0 := set_aug (with_frame_recv e true) cam (v ++ [c])).
  cbv zeta.
  assert (A0 : aug_at e0 cam = v ++ [c]).
  { unfold aug_at, e0, set_aug, mget. ekf_cbn. now rewrite mfind_mset_eq. }
  rewrite A0. change (e_max_len e0) with (e_max_len e).
  assert (PV : (p_aug (e_par e) = ATime \/ p_aug (e_par e) = AError) -> False)
    by (destruct Ht as [Ht|Ht]; rewrite Ht; intros [|]; discriminate).
  assert (Lw : length (v ++ [c]) = S (length v)) by (rewrite app_length; cbn; lia).
  rewrite Lw.
  destruct (Nat.leb (S (length v)) (e_max_len e)) eqn:EL.
  - apply Nat.leb_le in EL. cbn [bind]. change (e_size e0) with (e_size e). change (e_aug_size e0) with (e_aug_size e).
    change g_aug_state_size with 6.
    set (e1 := with_aug_sizes e0 (e_size e + 6) (e_aug_size e + 6)).
    assert (P1 : pre e1).
    { replace e1 with (with_frame_recv (with_cov (with_aug_sizes (with_aug_prev (set_aug e cam (v ++ [c])) (e_aug_prev e))
        (e_size e + 6) (e_aug_size e + 6)) (e_cov e)) true) by reflexivity.
      apply set_aug_pre; auto; fold v; unfold aug_len; try lia; intros X; destruct (PV X). }
    destruct (finish_clone e1 cam v c P1) as [Hx [e2 [cv [E2 [EB [_ [EA [W2 [S2 [Z2 [D2 [F2 G2]]]]]]]]]]]].
    { unfold e1, e0, set_aug. ekf_cbn. apply mfind_mset_eq. }
    { unfold e1, e0, set_aug. ekf_cbn. rewrite (wf_nr e W). lia. }
    { unfold e1, e0, set_aug. ekf_cbn. rewrite (wf_nc e W). lia. }
    exists (with_cov e2 cv). rewrite E2. cbn [bind]. rewrite EB. cbn [bind a_index aug_with_index].
    assert (EC : e_cov e2 = e_cov e1).
    { destruct (Refresh_pre e1 P1) as [e3 [E3 [_ [_ [_ [C3 _]]]]]]. congruence. }
    assert (ER : is_root e2 = is_root e1) by (unfold is_root; destruct F2 as [Fp _]; now rewrite Fp).
    rewrite EC, ER, EA. cbn [bind]. split; [reflexivity|]. split; [exact W2|].
    split; [exact F2|]. split; [exact G2|]. split; [discriminate|]. intros _.
    split. { ekf_cbn. rewrite S2. unfold next_window. fold v. rewrite (proj2 (Nat.ltb_lt _ _)) by lia. reflexivity. }
    split. { exact D2. }
    split; [|intros HH; exfalso; fold v in HH; lia]. intros _. ekf_cbn. split; [rewrite Z2; reflexivity|].
    assert (EX : start_aug (e_state e1) + before cam (s_aug (e_state e1)) + 6 * length v
              = start_aug (e_state e) + before cam (s_aug (e_state e)) + 6 * length v).
    { unfold e1, e0, set_aug. ekf_cbn. rewrite before_mset, start_aug_set. reflexivity. }
    rewrite EX in *. fold v. split; [exact Hx|]. exact EA.
  - apply Nat.leb_gt in EL.
    assert (Hm : 1 <= e_max_len e) by (apply (pre_len _ P); auto).
    assert (Ev : aug_at e cam = v) by reflexivity. clearbody v.
    destruct v as [|a v']; [cbn [length] in EL; lia|]. rename Ev into Ev'.
    destruct (wf_aug_first e cam a v' W Ev') as [Hi Hn].
    cbn [app vnth nth_error bind].
    set (ap := start_aug (e_state e) + before cam (s_aug (e_state e))) in *.
    assert (EE : erase 0 (a :: v' ++ [c]) = v' ++ [c]) by reflexivity.
    change (e_cov (set_aug e0 cam (erase 0 (a :: v' ++ [c])))) with (e_cov e).
    rewrite EE, Hi. change g_aug_state_size with 6.
    destruct (Remove_spec R 0%R (e_cov e) ap ap 6) as [rc [ER [Rr [Rc Rent]]]].
    { rewrite (wf_nr e W). cbn [length] in Hn. lia. }
    { rewrite (wf_nc e W). cbn [length] in Hn. lia. }
    rewrite ER. cbn [bind].
    set (e1 := with_cov (set_aug e0 cam (v' ++ [c])) rc).
    assert (M : s_aug (e_state e1) = mset cam (v' ++ [c]) (mset cam (a :: v' ++ [c]) (s_aug (e_state e))))
      by reflexivity.
    assert (MM : forall x y m, mset cam x (mset cam y m) = mset cam (x : list AugState) m).
    { clear. intros x y. induction m as [|[k l] t IH]; cbn [mset].
      - now rewrite Nat.eqb_refl.
      - destruct (Nat.eqb cam k) eqn:E; [|destruct (Nat.ltb cam k) eqn:E2]; cbn [mset].
        + now rewrite Nat.eqb_refl.
        + now rewrite Nat.eqb_refl.
        + rewrite E, E2, IH. reflexivity. }
    rewrite MM in M.
    assert (P1 : pre e1).
    { replace e1 with (with_frame_recv (with_cov (with_aug_sizes (with_aug_prev (set_aug e cam (v' ++ [c])) (e_aug_prev e))
        (e_size e) (e_aug_size e)) rc) true).
      - apply set_aug_pre; auto; rewrite ?Ev'; unfold aug_len; rewrite ?app_length; cbn [length]; try lia;
        intros X; destruct (PV X).
      - unfold e1, set_aug at 1 2. change (state_with_aug (e_state e0) (mset cam (v' ++ [c]) (s_aug (e_state e0))))
          with (state_with_aug (e_state e) (mset cam (v' ++ [c]) (mset cam (a :: v' ++ [c]) (s_aug (e_state e))))).
        rewrite MM. reflexivity. }
    destruct (finish_clone e1 cam v' c P1) as [Hx [e2 [cv [E2 [EB [_ [EA [W2 [S2 [Z2 [D2 [F2 G2]]]]]]]]]]]].
    { rewrite M. apply mfind_mset_eq. }
    { unfold e1, e0, set_aug. ekf_cbn. rewrite Rr, (wf_nr e W). cbn [length] in Hn. lia. }
    { unfold e1, e0, set_aug. ekf_cbn. rewrite Rc, (wf_nc e W). cbn [length] in Hn. lia. }
    exists (with_cov e2 cv). rewrite E2. cbn [bind]. rewrite EB. cbn [bind a_index aug_with_index].
    assert (EC : e_cov e2 = e_cov e1).
    { destruct (Refresh_pre e1 P1) as [e3 [E3 [_ [_ [_ [C3 _]]]]]]. congruence. }
    assert (ERt : is_root e2 = is_root e1) by (unfold is_root; destruct F2 as [Fp _]; now rewrite Fp).
    rewrite EC, ERt, EA. cbn [bind]. split; [reflexivity|]. split; [exact W2|].
    split; [exact F2|]. split; [exact G2|]. split; [discriminate|]. intros _.
    cbv zeta.
    split. { ekf_cbn. rewrite S2. unfold next_window. rewrite (proj2 (Nat.ltb_ge _ _)) by lia. cbn [tl].
             f_equal. unfold state_with_aug. rewrite <- M. reflexivity. }
    split. { exact D2. }
    split; [intros; lia|]. intros _. ekf_cbn. split; [rewrite Z2; reflexivity|].
    split. { rewrite (wf_nr e W). cbn [length] in Hn. lia. }
    exists rc. split; [reflexivity|].
    assert (EX : start_aug (e_state e1) + before cam (s_aug (e_state e1)) + 6 * length v'
              = ap + 6 * (length (a :: v') - 1)).
    { rewrite M, before_mset. unfold ap. cbn [length]. unfold e1, e0, set_aug. ekf_cbn. rewrite !start_aug_set.
      replace (S (length v') - 1) with (length v') by lia. reflexivity. }
    rewrite EX in *. split; [exact Hx|]. exact EA.
Qed.

(** *** Time-based pruning *)

(** One clone of key 0 removed. *)
Definition rem1 (e : ekf) (i : nat) (e' : ekf) : Prop :=
  let x := start_aug (e_state e) + before 0 (s_aug (e_state e)) + 6 * i in
  i < length (aug_at e 0) /\ wf e' /\
  e_state e' = ix_state (state_with_aug (e_state e) (mset 0 (erase i (aug_at e 0)) (s_aug (e_state e)))) /\
  e_size e' + 6 = e_size e /\ x + 6 <= nr (e_cov e) /\ 18 <= x /\
  RemoveFromMatrix 0%R (e_cov e) x x 6 = OK (e_cov e') /\
  isdiag (e_size e') (e_Q e') (noise_mat e') /\ frame e e' /\ cam_frame e e'.

Inductive rems : ekf -> ekf -> Prop :=
| rems_refl : forall e, rems e e
| rems_step : forall e i e1 e2, rem1 e i e1 -> rems e1 e2 -> rems e e2.

Lemma rems_frame : forall e e', rems e e' -> frame e e' /\ cam_frame e e'.
Proof.
  intros e e' H. induction H as [e|e i e1 e2 R1 _ [IH1 IH2]].
  - split; repeat split.
  - destruct R1 as [_ [_ [_ [_ [_ [_ [_ [_ [F G]]]]]]]]].
    split; [eapply frame_trans; eauto|eapply cam_frame_trans; eauto].
Qed.

Lemma erase_length : forall A i (l : list A), i < length l -> length (erase i l) + 1 = length l.
Proof. intros A i l H. unfold erase. rewrite app_length, firstn_length, skipn_length. lia. Qed.

Lemma wf_aug_nth : forall e k i a, wf e -> nth_error (aug_at e k) i = Some a ->
  a_index a = start_aug (e_state e) + before k (s_aug (e_state e)) + 6 * i /\
  start_aug (e_state e) + before k (s_aug (e_state e)) + 6 * length (aug_at e k) <= e_size e.
Proof.
  intros e k i a W H. unfold aug_at, mget in *.
  destruct (mfind k (s_aug (e_state e))) as [w|] eqn:E; [|destruct i; discriminate].
  pose proof (aug_sorted e (wf_pre e W)) as Hs.
  pose proof (ix_augs_at _ _ _ (start_aug (e_state e)) Hs E) as H1.
  destruct (wf_ix e W) as [_ [_ [_ [_ [_ H5]]]]]. rewrite H5, E in H1. injection H1 as H1.
  rewrite H1 in H. apply aug_list_nth in H. split; [exact H|].
  rewrite (pre_size _ (wf_pre e W)). unfold tot.
  pose proof (before_le _ _ _ Hs E). lia.
Qed.

(** A clone without its index. *)
Definition astrip (a : AugState) : AugState := aug_with_index a 0.

Lemma astrip_ix : forall l c, map astrip (ix_augv l c) = map astrip l.
Proof. induction l; intros c; cbn [ix_augv map]; [reflexivity|]. now rewrite IHl. Qed.

Lemma astrip_ix_at : forall m k c, map astrip (mget [] k (ix_augs m c)) = map astrip (mget [] k m).
Proof.
  intros m k c. unfold mget. pose proof (ix_augs_find m k c) as H.
  destruct (mfind k m) as [l|]; [destruct H as [d ->]; apply astrip_ix|now rewrite H].
Qed.

(** The list-level effect of pruning; [old a] tests whether a clone is
    older than the retained duration. *)
Fixpoint prune_list (k : nat) (old : AugState -> bool) (l : list AugState) : list AugState :=
  match k with
  | O => l
  | S i =>
      match nth_error l (i + 1) with
      | Some nxt => prune_list i old (if old nxt then erase i l else l)
      | None => l
      end
  end.

Definition too_old (e : ekf) (a : AugState) : bool := Rltb (e_track_dur e) (e_time e - a_time a).

Lemma map_erase : forall A B (f : A -> B) i l, map f (erase i l) = erase i (map f l).
Proof. intros. unfold erase. rewrite map_app, firstn_map, skipn_map. reflexivity. Qed.

Lemma prune_one : forall i e nxt, wf e -> S i < length (aug_at e 0) ->
  nth_error (aug_at e 0) (i + 1) = Some nxt -> too_old e nxt = true ->
  exists e1, prune (S i) e = prune i e1 /\ rem1 e i e1 /\
    map astrip (aug_at e1 0) = map astrip (erase i (aug_at e 0)) /\ too_old e1 = too_old e.
Proof.
  intros i e nxt W Hlen En Eo. change (too_old e nxt) with (Rltb (e_track_dur e) (e_time e - a_time nxt)) in Eo.
  cbn [prune]. unfold vnth at 1. rewrite En. cbn [bind]. rewrite Eo.
  rewrite (proj2 (Nat.ltb_lt i _)) by lia. cbn [andb].
  destruct (nth_error (aug_at e 0) i) as [old|] eqn:Eold; [|apply nth_error_None in Eold; lia].
  destruct (wf_aug_nth e 0 i old W Eold) as [Hix Hsz].
  pose proof (wf_pre e W) as P. pose proof (aug_sorted e P) as Hs.
  pose proof (start_aug_ge (e_state e)) as H18.
  assert (HA : length (aug_at e 0) * 6 <= e_aug_size e).
  { rewrite (pre_aug _ P). unfold aug_at, mget in *.
    destruct (mfind 0 (s_aug (e_state e))) as [w|] eqn:Ef; [|cbn in Hlen; lia].
    pose proof (before_le _ _ _ Hs Ef). lia. }
  change g_aug_state_size with 6.
  rewrite usub_ok by lia. cbn [bind]. rewrite usub_ok by lia. cbn [bind].
  unfold vnth. rewrite Eold. cbn [bind].
  set (x := start_aug (e_state e) + before 0 (s_aug (e_state e)) + 6 * i) in *.
  rewrite Hix.
  set (ea := set_aug (with_aug_sizes e (e_size e - 6) (e_aug_size e - 6)) 0 (erase i (aug_at e 0))).
  change (e_cov ea) with (e_cov e).
  destruct (Remove_spec R 0%R (e_cov e) x x 6) as [rc [ER [Rr [Rc Rent]]]].
  { rewrite (wf_nr e W). unfold x. lia. }
  { rewrite (wf_nc e W). unfold x. lia. }
  rewrite ER. cbn [bind].
  assert (P1 : pre (with_cov ea rc)).
  { replace (with_cov ea rc) with (with_frame_recv (with_cov (with_aug_sizes (with_aug_prev
      (set_aug e 0 (erase i (aug_at e 0))) (e_aug_prev e)) (e_size e - 6) (e_aug_size e - 6)) rc) (e_frame_recv e))
      by reflexivity.
    assert (HE := erase_length _ i (aug_at e 0) ltac:(lia)).
    apply set_aug_pre; auto; unfold aug_len; try lia.
    intros Ht. assert (HP : e_aug_prev e <> None).
    { apply (pre_prev _ P Ht). destruct (aug_at e 0); [cbn in Hlen; lia|discriminate]. }
    split; auto. }
  destruct (Refresh_wf (with_cov ea rc) P1) as [e1 [E1 [W1 [S1 [C1 [Z1 [D1 [F1 G1]]]]]]]].
  { ekf_cbn. rewrite Rr, (wf_nr e W). reflexivity. }
  { ekf_cbn. rewrite Rc, (wf_nc e W). reflexivity. }
  rewrite E1. cbn [bind].
  assert (A1 : map astrip (aug_at e1 0) = map astrip (erase i (aug_at e 0))).
  { unfold aug_at at 1. rewrite S1. cbn [s_aug ix_state]. rewrite astrip_ix_at.
    unfold ea, set_aug, mget. ekf_cbn. rewrite mfind_mset_eq. reflexivity. }
  assert (L1 : length (aug_at e1 0) = length (erase i (aug_at e 0))).
  { rewrite <- (map_length astrip), A1, map_length. reflexivity. }
  assert (HE := erase_length _ i (aug_at e 0) ltac:(lia)).
  exists e1. split; [reflexivity|]. split.
  { unfold rem1. fold x.
    split; [lia|]. split; [exact W1|].
    split; [rewrite S1; reflexivity|].
    split; [rewrite Z1; ekf_cbn; change (e_size ea) with (e_size e - 6); lia|].
    split; [rewrite (wf_nr e W); unfold x; lia|].
    split; [unfold x; lia|]. split; [rewrite C1; exact ER|].
    split.
    { rewrite Z1. unfold noise_mat, is_root in *. rewrite S1, ix_noise.
      destruct F1 as [Fp [_ [_ [_ [_ [Fb _]]]]]]. rewrite Fp, Fb. exact D1. }
    split; [exact F1|exact G1]. }
  split; [exact A1|].
  unfold too_old. destruct G1 as [_ [_ [Gd _]]]. destruct F1 as [_ [Ft _]]. rewrite Gd, Ft. reflexivity.
Qed.

Lemma prune_ok : forall k e, wf e -> (k = 0 \/ k < length (aug_at e 0)) ->
  exists e', prune k e = OK e' /\ wf e' /\ rems e e' /\
    map astrip (aug_at e' 0) = prune_list k (too_old e) (map astrip (aug_at e 0)) /\
    (aug_at e 0 <> [] -> aug_at e' 0 <> []).
Proof.
  induction k as [|i IH]; intros e W Hk.
  - exists e. split; [reflexivity|]. split; [exact W|]. split; [constructor|]. split; [reflexivity|auto].
  - assert (Hlen : S i < length (aug_at e 0)) by lia. clear Hk.
    cbn [prune_list]. rewrite nth_error_map.
    destruct (nth_error (aug_at e 0) (i + 1)) as [nxt|] eqn:En; [|apply nth_error_None in En; lia].
    cbn [option_map]. change (too_old e (astrip nxt)) with (too_old e nxt).
    destruct (too_old e nxt) eqn:Eo.
    + destruct (prune_one i e nxt W Hlen En Eo) as [e1 [E1 [R1 [A1 T1]]]]. rewrite E1.
      pose proof R1 as [_ [W1 _]].
      assert (L1 : length (aug_at e1 0) = length (erase i (aug_at e 0))).
      { rewrite <- (map_length astrip), A1, map_length. reflexivity. }
      assert (HE := erase_length _ i (aug_at e 0) ltac:(lia)).
      destruct (IH e1 W1) as [e' [E' [W' [R' [A' N']]]]]; [lia|].
      exists e'. split; [exact E'|]. split; [exact W'|]. split; [apply (rems_step e i e1 e'); assumption|].
      split; [rewrite A', A1, map_erase, T1; reflexivity|].
      intros _. apply N'. intro X. rewrite X in L1. cbn [length] in L1. lia.
    + cbn [prune]. unfold vnth at 1. rewrite En. cbn [bind].
      change (Rltb (e_track_dur e) (e_time e - a_time nxt)) with (too_old e nxt). rewrite Eo. cbn [andb].
      destruct (IH e W) as [e' [E' [W' [R' [A' N']]]]]; [lia|].
      exists e'. auto.
Qed.

(** *** Touching a missing key *)
Lemma ix_augs_app : forall l r c, ix_augs (l ++ r) c = ix_augs l c ++ ix_augs r (c + sum_len aug_len l).
Proof.
  induction l as [|[k v] t IH]; intros r c; cbn [app ix_augs].
  - unfold sum_len. cbn. now rewrite Nat.add_0_r.
  - rewrite IH, sum_len_cons. do 3 f_equal. unfold aug_len at 2. lia.
Qed.

Lemma touch_aug_wf : forall e k, wf e -> wf (touch_aug e k).
Proof.
  intros e k W. unfold touch_aug, mtouch. destruct (mfind k (s_aug (e_state e))) as [w|] eqn:E.
  - destruct W as [P ? ? ? ? ? ?]. constructor; ekf_cbn; auto.
    + destruct P; constructor; auto.
  - destruct W as [P W2 ? ? ? ? ?]. constructor; ekf_cbn; auto.
    + replace (with_state e (state_with_aug (e_state e) (mset k [] (s_aug (e_state e)))))
        with (with_frame_recv (with_cov (with_aug_sizes (with_aug_prev (set_aug e k []) (e_aug_prev e))
          (e_size e) (e_aug_size e)) (e_cov e)) (e_frame_recv e)) by reflexivity.
      assert (A : aug_at e k = []) by (unfold aug_at, mget; now rewrite E).
      apply set_aug_pre; auto; rewrite ?A; unfold aug_len; try lia.
      intros Ht. split; [congruence|]. apply (pre_prev _ P Ht).
    + unfold indexed, start_aug, start_fid, start_cam, start_gps in *. ekf_cbn.
      destruct W2 as [X1 [X2 [X3 [X4 [X5 X6]]]]]. do 5 (split; [assumption|]).
      destruct (mset_fresh _ k [] _ E) as [l [r [E1 [E2 _]]]]. rewrite E2. rewrite E1 in X6.
      rewrite ix_augs_app in *. cbn [ix_augs ix_augv length].
      rewrite Nat.mul_0_r, Nat.add_0_r.
      assert (HL : forall m c, length (ix_augs m c) = length m).
      { clear. induction m as [|[? ?] ? IH]; intros; cbn [ix_augs length]; [reflexivity|]. now rewrite IH. }
      assert (Y : ix_augs l (18 + sum_len imu_len (s_imu (e_state e)) + sum_len gps_len (s_gps (e_state e)) +
         sum_len cam_len (s_cam (e_state e)) + sum_len fid_len (s_fid (e_state e))) = l).
      { apply (f_equal (firstn (length l))) in X6. rewrite !firstn_app, HL, Nat.sub_diag in X6.
        rewrite !firstn_O, !app_nil_r, firstn_all in X6.
        rewrite <- (HL l (18 + sum_len imu_len (s_imu (e_state e)) + sum_len gps_len (s_gps (e_state e)) +
         sum_len cam_len (s_cam (e_state e)) + sum_len fid_len (s_fid (e_state e)))) in X6 at 1.
        rewrite firstn_all in X6. exact X6. }
      rewrite Y in *. apply app_inv_head in X6. rewrite X6. reflexivity.
Qed.

Lemma aug_at_touch : forall e k j, aug_at (touch_aug e k) j = aug_at e j.
Proof.
  intros e k j. unfold aug_at, touch_aug, mtouch, mget. ekf_cbn.
  destruct (mfind k (s_aug (e_state e))) as [w|] eqn:E; [reflexivity|].
  destruct (Nat.eq_dec j k) as [->|Hj]; [now rewrite mfind_mset_eq, E|now rewrite mfind_mset_neq].
Qed.

Lemma back_ok : forall A (l : list A), l <> [] -> exists x, back l = OK x /\ In x l.
Proof.
  intros A l H. destruct (exists_last H) as [t [x ->]]. exists x. rewrite back_app. split; [reflexivity|].
  apply in_or_app. right. left. reflexivity.
Qed.

Lemma aug_needed_ok : forall e, pre e -> exists b, aug_needed e = OK b.
Proof.
  intros e P. unfold aug_needed. destruct (aug_at e 0) as [|a l] eqn:E; [eauto|].
  destruct (p_aug (e_par e)) eqn:T; eauto.
  - destruct (e_aug_prev e) eqn:Ep; [eauto|]. exfalso. apply (pre_prev _ P); auto. congruence.
  - destruct (back_ok _ (a :: l)) as [x [-> _]]; [discriminate|]. cbn [bind].
    destruct (Rltb (e_track_dur e) (e_time e - a_time x)); [eauto|].
    destruct (Rltb (e_min_aug e) (e_time e - a_time x)); eauto.
Qed.

(** The clone operation at the end of the time-based augmentation. *)
Definition clone0 (e e' : ekf) : Prop :=
  let v := aug_at e 0 in
  let x := start_aug (e_state e) + before 0 (s_aug (e_state e)) + 6 * length v in
  wf e' /\
  e_state e' = ix_state (state_with_aug (e_state e) (mset 0 (v ++ [clone_of e 0]) (s_aug (e_state e)))) /\
  e_size e' = e_size e + 6 /\ 12 <= x <= nr (e_cov e) /\
  AugmentCovariance (is_root e) (e_cov e) x = OK (e_cov e') /\
  isdiag (e_size e') (e_Q e') (noise_mat e') /\
  frame (with_frame_recv (with_aug_prev e (Some (e_time e))) false) e' /\ cam_frame e e'.

Lemma AugmentStateIfNeeded_ok : forall e, wf e ->
  exists e', AugmentStateIfNeeded e = OK e' /\ wf e' /\
    (~ timed e -> e' = e) /\
    (timed e -> exists needed em,
       aug_needed e = OK needed /\
       prune (length (aug_at e 0) - 1) (touch_aug e 0) = OK em /\ wf em /\ rems (touch_aug e 0) em /\
       map astrip (aug_at em 0) = prune_list (length (aug_at e 0) - 1) (too_old e) (map astrip (aug_at e 0)) /\
       (if needed && e_frame_recv e then clone0 em e' else e' = em)).
Proof.
  intros e W.
  assert (HT : timed e \/ (~ timed e /\ AugmentStateIfNeeded e = OK e)).
  { unfold timed, AugmentStateIfNeeded. destruct (p_aug (e_par e)); auto; right;
      (split; [intros [|]; discriminate|reflexivity]). }
  destruct HT as [HT|[HT E]]; [|exists e; split; [exact E|]; split; [exact W|]; split; [reflexivity|intros X; destruct (HT X)]].
  set (e0 := touch_aug e 0).
  assert (W0 : wf e0) by (apply touch_aug_wf; auto).
  destruct (aug_needed_ok e0 (wf_pre e0 W0)) as [needed En].
  assert (En' : aug_needed e = OK needed).
  { rewrite <- En. unfold aug_needed. unfold e0. rewrite aug_at_touch. reflexivity. }
  destruct (prune_ok (length (aug_at e0 0) - 1) e0 W0) as [em [Em [Wm [Rm [Am Nm]]]]]; [lia|].
  destruct (rems_frame _ _ Rm) as [Fm Gm].
  assert (Efr : e_frame_recv em = e_frame_recv e).
  { unfold frame in Fm. decompose [and] Fm. auto. }
  assert (Epar : e_par em = e_par e) by (destruct Fm as [X _]; exact X).
  assert (Em' : prune (length (aug_at e 0) - 1) (touch_aug e 0) = OK em).
  { rewrite <- (aug_at_touch e 0 0). exact Em. }
  assert (Am' : map astrip (aug_at em 0) = prune_list (length (aug_at e 0) - 1) (too_old e) (map astrip (aug_at e 0))).
  { rewrite <- (aug_at_touch e 0 0). exact Am. }
  assert (Hdef : AugmentStateIfNeeded e =
      if needed && e_frame_recv em then
        let e := with_aug_prev em (Some (e_time em)) in
        let e := set_aug e 0 (aug_at e 0 ++ [clone_of e 0]) in
        let e := with_aug_sizes e (e_size e + g_aug_state_size) (e_aug_size e + g_aug_state_size) in
        let* e := RefreshIndices e in
        let* last := back (aug_at e 0) in
        let* c := AugmentCovariance (is_root e) (e_cov e) (a_index last) in
        OK (with_frame_recv (with_cov e c) false)
      else OK em).
  { unfold AugmentStateIfNeeded. destruct HT as [HT|HT]; rewrite HT; fold e0;
      rewrite En; cbn [bind]; rewrite Em; reflexivity. }
  rewrite Hdef, Efr.
  destruct (needed && e_frame_recv e) eqn:Eb.
  2: { exists em. split; [reflexivity|]. split; [exact Wm|]. split; [intros X; destruct (X HT)|]. intros _.
       exists needed, em. rewrite Eb. auto 10. }
  cbv zeta. change g_aug_state_size with 6.
  set (ea := with_aug_prev em (Some (e_time em))).
  change (aug_at ea 0) with (aug_at em 0). change (clone_of ea 0) with (clone_of em 0).
  set (e1 := with_aug_sizes (set_aug ea 0 (aug_at em 0 ++ [clone_of em 0])) (e_size em + 6) (e_aug_size em + 6)).
  change (with_aug_sizes (set_aug ea 0 (aug_at em 0 ++ [clone_of em 0]))
        (e_size (set_aug ea 0 (aug_at em 0 ++ [clone_of em 0])) + 6)
        (e_aug_size (set_aug ea 0 (aug_at em 0 ++ [clone_of em 0])) + 6)) with e1.
  assert (P1 : pre e1).
  { replace e1 with (with_frame_recv (with_cov (with_aug_sizes (with_aug_prev (set_aug em 0
      (aug_at em 0 ++ [clone_of em 0])) (Some (e_time em))) (e_size em + 6) (e_aug_size em + 6)) (e_cov em)) (e_frame_recv em))
      by reflexivity.
    apply set_aug_pre; try apply Wm; unfold aug_len; rewrite ?app_length; cbn [length]; try lia.
    intros _. split; discriminate. }
  destruct (finish_clone e1 0 (aug_at em 0) (clone_of em 0) P1) as [Hx [e2 [cv [E2 [EB [EA2 [EA [W2 [S2 [Z2 [D2 [F2 G2]]]]]]]]]]]].
  { unfold e1, set_aug. ekf_cbn. apply mfind_mset_eq. }
  { unfold e1, ea, set_aug. ekf_cbn. rewrite (wf_nr em Wm). lia. }
  { unfold e1, ea, set_aug. ekf_cbn. rewrite (wf_nc em Wm). lia. }
  rewrite E2. cbn [bind]. rewrite EB. cbn [bind a_index aug_with_index]. rewrite EA2. cbn [bind].
  eexists. split; [reflexivity|].
  assert (W3 : wf (with_frame_recv (with_cov e2 cv) false)).
  { destruct W2 as [Pq ? ? ? ? ? ?]. constructor; ekf_cbn; auto. destruct Pq; constructor; auto. }
  split; [exact W3|]. split; [intros X; destruct (X HT)|]. intros _. exists needed, em. rewrite Eb.
  do 5 (split; [assumption|]). unfold clone0. split; [exact W3|]. split; [ekf_cbn; rewrite S2; reflexivity|].
  split; [ekf_cbn; rewrite Z2; reflexivity|].
  assert (EX : start_aug (e_state e1) + before 0 (s_aug (e_state e1)) + 6 * length (aug_at em 0)
            = start_aug (e_state em) + before 0 (s_aug (e_state em)) + 6 * length (aug_at em 0)).
  { unfold e1, ea, set_aug. ekf_cbn. rewrite before_mset. reflexivity. }
  rewrite EX in *. split; [exact Hx|]. split; [exact EA|]. split; [exact D2|]. split; [|exact G2].
  unfold frame in *. decompose [and] F2. repeat split; assumption.
Qed.
