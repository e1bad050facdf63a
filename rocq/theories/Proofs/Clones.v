(** Cloning and dropping of clones, in terms of named covariances. *)
From Coq Require Import Reals List Arith Bool Lia Lra.
From Verif Require Import Base.Res Base.Mat Base.RDec Base.RSum Base.LinAlg Base.Geom Base.AMap Base.RMat
  Model.TypeHelper Model.Types Model.MathHelperMat Model.QR Model.Ekf Model.Ops
  Spec.Layout Spec.History Spec.Contract Spec.Named
  Proofs.MatSurgery Proofs.Refresh Proofs.Wf Proofs.Register Proofs.AugCov Proofs.Augment
  Proofs.CovGood Proofs.LayoutNoDup Proofs.Invariant Proofs.Named.
Import ListNotations.
Open Scope nat_scope.

(** *** The labels of one window inside the layout *)
Definition other_key (k : nat) (a : label) : Prop :=
  match a with LAug k' _ _ => k' <> k | _ => True end.

Lemma aug_labels_key : forall k l a, In a (aug_labels (k, l)) -> exists p c, a = LAug k p c /\ p < length l /\ c < 6.
Proof.
  intros k l a H. unfold aug_labels in H. cbn [fst snd] in H. apply in_flat_map in H.
  destruct H as [p [H1 H2]]. apply in_seq in H1. apply in_map_iff in H2. destruct H2 as [c [<- H2]].
  apply in_seq in H2. exists p, c. repeat split; lia.
Qed.

Lemma aug_labels_other : forall k m, ~ In k (keys m) -> Forall (other_key k) (flat_map aug_labels m).
Proof.
  intros k m H. apply Forall_forall. intros a Ha. apply in_flat_map in Ha. destruct Ha as [[k' l] [H1 H2]].
  apply aug_labels_key in H2. destruct H2 as [p [c [-> _]]]. cbn. intros ->. apply H.
  apply in_map_iff. exists (k, l). auto.
Qed.

Lemma window_split : forall k m, sorted m -> exists A B,
  Forall (other_key k) A /\ Forall (other_key k) B /\ length A = before k m /\
  flat_map aug_labels m = A ++ aug_labels (k, mget [] k m) ++ B /\
  forall w, flat_map aug_labels (mset k w m) = A ++ aug_labels (k, w) ++ B.
Proof.
  intros k. induction m as [|[k' l] t IH]; intros Hs.
  - exists [], []. split; [constructor|]. split; [constructor|]. split; [reflexivity|].
    split; [reflexivity|]. intros w. cbn. rewrite !app_nil_r. reflexivity.
  - pose proof (sorted_tail _ _ _ _ Hs) as [Hs' Hf]. cbn [mset]. unfold mget. cbn [mfind].
    destruct (Nat.eqb_spec k k') as [->|Hne].
    + exists [], (flat_map aug_labels t). split; [constructor|]. split.
      { apply aug_labels_other. intros X. rewrite Forall_forall in Hf. specialize (Hf _ X). lia. }
      split.
      { cbn [before length]. rewrite Nat.ltb_irrefl. rewrite before_ge; [reflexivity|].
        eapply Forall_impl; [|exact Hf]. cbn. lia. }
      split; reflexivity.
    + destruct (Nat.ltb_spec k k') as [Hlt|Hge].
      * assert (NI : ~ In k (keys t)).
        { intros X. rewrite Forall_forall in Hf. specialize (Hf _ X). lia. }
        exists [], (flat_map aug_labels ((k', l) :: t)). split; [constructor|]. split.
        { apply aug_labels_other. cbn [keys map fst In]. intros [X|X]; [lia|exact (NI X)]. }
        split.
        { cbn [length]. rewrite before_ge; [reflexivity|]. cbn [keys map fst]. constructor; [lia|].
          eapply Forall_impl; [|exact Hf]. cbn. lia. }
        rewrite (proj2 (mfind_none _ k t) NI). split; reflexivity.
      * destruct (IH Hs') as [A [B [H1 [H2 [H3 [H4 H5]]]]]].
        exists (aug_labels (k', l) ++ A), B. split.
        { apply Forall_app. split; [|exact H1]. apply Forall_forall. intros a Ha.
          apply aug_labels_key in Ha. destruct Ha as [p [c [-> _]]]. cbn. lia. }
        split; [exact H2|]. split.
        { cbn [before]. rewrite (proj2 (Nat.ltb_lt k' k)) by lia. rewrite app_length, aug_labels_length, H3.
          reflexivity. }
        unfold mget in H4. cbn [flat_map]. rewrite H4. split; [now rewrite <- app_assoc|].
        intros w. rewrite H5. now rewrite <- app_assoc.
Qed.

Lemma aug_labels_snoc : forall k v c, aug_labels (k, v ++ [c]) = aug_labels (k, v) ++ six (LAug k (length v)).
Proof.
  intros. unfold aug_labels. cbn [fst snd]. rewrite app_length, seq_app. cbn [length seq Nat.add].
  now rewrite flat_map_snoc.
Qed.

Definition head_labels (s : State) : list label :=
  map LBody (seq 0 18) ++ flat_map imu_labels (s_imu s) ++ flat_map gps_labels (s_gps s) ++
  flat_map cam_labels (s_cam s) ++ flat_map fid_labels (s_fid s).

Lemma layout_head : forall s, layout s = head_labels s ++ flat_map aug_labels (s_aug s).
Proof. intros. unfold layout, head_labels. now rewrite <- !app_assoc. Qed.

Lemma head_length : forall s, length (head_labels s) = start_aug s.
Proof.
  intros s. unfold head_labels. rewrite !app_length, map_length, seq_length.
  rewrite (sum_labels _ _ imu_len) by apply imu_labels_length.
  rewrite (sum_labels _ _ gps_len) by apply gps_labels_length.
  rewrite (sum_labels _ _ cam_len) by apply cam_labels_length.
  rewrite (sum_labels _ _ fid_len) by apply fid_labels_length.
  unfold start_aug, start_fid, start_cam, start_gps. lia.
Qed.

Lemma head_other : forall s k, Forall (other_key k) (head_labels s).
Proof.
  intros s k. apply Forall_forall. intros a Ha. unfold head_labels in Ha. rewrite !in_app_iff in Ha.
  destruct Ha as [Ha|[Ha|[Ha|[Ha|Ha]]]].
  - apply in_map_iff in Ha. destruct Ha as [? [<- _]]. exact I.
  - apply in_flat_map in Ha. destruct Ha as [x [_ Ha]]. unfold imu_labels in Ha. apply in_app_iff in Ha.
    destruct Ha as [Ha|Ha]; [destruct (i_ext (snd x))|destruct (i_int (snd x))]; try (exfalso; exact Ha);
      apply in_map_iff in Ha; destruct Ha as [? [<- _]]; exact I.
  - apply in_flat_map in Ha. destruct Ha as [x [_ Ha]]. unfold gps_labels in Ha.
    destruct (g_ext (snd x)); [|destruct Ha]. apply in_map_iff in Ha; destruct Ha as [? [<- _]]; exact I.
  - apply in_flat_map in Ha. destruct Ha as [x [_ Ha]]. unfold cam_labels in Ha.
    destruct (c_ext (snd x)); [|destruct Ha]. apply in_map_iff in Ha; destruct Ha as [? [<- _]]; exact I.
  - apply in_flat_map in Ha. destruct Ha as [x [_ Ha]]. unfold fid_labels in Ha.
    destruct (f_ext (snd x)); [|destruct Ha]. apply in_map_iff in Ha; destruct Ha as [? [<- _]]; exact I.
Qed.

(** The layout around window [k], before and after replacing that window. *)
Lemma layout_window : forall s k, sorted (s_aug s) -> exists L R,
  Forall (other_key k) L /\ Forall (other_key k) R /\
  length L = start_aug s + before k (s_aug s) /\
  (exists L', L = map LBody (seq 0 18) ++ L') /\
  layout s = L ++ aug_labels (k, mget [] k (s_aug s)) ++ R /\
  forall w, layout (state_with_aug s (mset k w (s_aug s))) = L ++ aug_labels (k, w) ++ R.
Proof.
  intros s k Hs. destruct (window_split k (s_aug s) Hs) as [A [B [H1 [H2 [H3 [H4 H5]]]]]].
  exists (head_labels s ++ A), B. split; [apply Forall_app; split; [apply head_other|exact H1]|].
  split; [exact H2|]. split; [rewrite app_length, head_length, H3; reflexivity|].
  split.
  { unfold head_labels. rewrite <- app_assoc. eexists. reflexivity. }
  split.
  - rewrite layout_head, H4, <- app_assoc. reflexivity.
  - intros w. rewrite layout_head. cbn [state_with_aug s_aug]. rewrite H5, <- app_assoc. reflexivity.
Qed.

(** *** Pulling covariances back *)
Lemma named_pull : forall (L L' : list label) (P P' : fmat) (sg : nat -> nat) (g : label -> label),
  NoDup L ->
  (forall i a, nth_error L' i = Some a -> nth_error L (sg i) = Some (g a)) ->
  eqm (length L') (length L') P' (fun i j => P (sg i) (sg j)) ->
  (forall a, In a L' -> In (g a) L) /\
  (forall a b v, In a L' -> In b L' -> named L P (g a) (g b) v -> named L' P' a b v).
Proof.
  intros L L' P P' sg g ND Hg HP. split.
  - intros a Ha. apply In_nth_error in Ha. destruct Ha as [i Ha]. eapply nth_error_In. eapply Hg. exact Ha.
  - intros a b v Ha Hb [i [j [H1 [H2 H3]]]].
    apply In_nth_error in Ha. destruct Ha as [i' Ha]. apply In_nth_error in Hb. destruct Hb as [j' Hb].
    exists i', j'. split; [exact Ha|]. split; [exact Hb|].
    assert (i' < length L') by (apply nth_error_Some; congruence).
    assert (j' < length L') by (apply nth_error_Some; congruence).
    rewrite HP by auto. rewrite NoDup_nth_error in ND.
    assert (U : forall x y c, nth_error L x = Some c -> nth_error L y = Some c -> x = y).
    { intros x y c X Y. apply ND; [apply nth_error_Some; congruence|congruence]. }
    rewrite <- (U i (sg i') (g a) H1 (Hg _ _ Ha)), <- (U j (sg j') (g b) H2 (Hg _ _ Hb)). exact H3.
Qed.

Lemma inv_NoDup : forall e, inv e -> NoDup (layout (e_state e)).
Proof. intros e [W _]. apply layout_NoDup. apply (pre_sorted _ (wf_pre _ W)). Qed.

Lemma pull_inherits : forall e e' sg g, inv e -> inv e' ->
  (forall i a, nth_error (layout (e_state e')) i = Some a -> nth_error (layout (e_state e)) (sg i) = Some (g a)) ->
  eqm (e_size e') (e_size e') (covariance e') (fun i j => covariance e (sg i) (sg j)) ->
  inherits e e' g.
Proof.
  intros e e' sg g I I' Hg HP.
  assert (Z' : e_size e' = length (layout (e_state e'))) by (symmetry; apply (dim_size e'); apply I').
  rewrite Z' in HP. destruct (named_pull _ _ _ _ sg g (inv_NoDup e I) Hg HP) as [A B].
  constructor; [exact A|exact B].
Qed.

(** *** Clone *)
Lemma stands_clone : forall root n m out x, nr m = n -> nc m = n -> 12 <= x <= n ->
  good root n (ent m) -> AugmentCovariance root m x = OK out ->
  eqm (n + 6) (n + 6) (stands_for root (n + 6) out)
    (fun i j => stands_for root n m (clone_src x i) (clone_src x j)).
Proof.
  intros root n m out x N1 N2 Hx G E. destruct root; cbn [stands_for good] in *.
  - destruct (Augment_root_spec m x) as [o [E' [R1 [R2 R3]]]]; [lia|lia|rewrite N1; exact G|].
    rewrite E in E'. injection E' as <-. intros i j Hi Hj. unfold gram, mm, tr.
    rewrite rsum_split. rewrite (rsum_0 6).
    2:{ intros k Hk. rewrite R3 by lia. rewrite (proj2 (Nat.ltb_ge _ _)) by lia. ring. }
    rewrite Rplus_0_r. apply rsum_ext. intros k Hk. rewrite !R3 by lia.
    rewrite (proj2 (Nat.ltb_lt _ _)) by lia. reflexivity.
  - destruct (Augment_std_spec m x) as [o [E' [R1 [R2 R3]]]]; [lia|lia|].
    rewrite E in E'. injection E' as <-. intros i j Hi Hj. apply R3; lia.
Qed.

Lemma nth_seq_map : forall (f : nat -> label) n i, i < n -> nth_error (map f (seq 0 n)) i = Some (f i).
Proof. intros f n i H. rewrite nth_error_map, nth_error_nth' with (d := 0) by (rewrite seq_length; auto).
  rewrite seq_nth by auto. reflexivity. Qed.

Lemma from_clone_other : forall key n a, other_key key a -> from_clone key n a = a.
Proof.
  intros key n [] H; try reflexivity. cbn in *. rewrite (proj2 (Nat.eqb_neq _ _)) by auto. reflexivity.
Qed.
Lemma from_clone_old : forall key n p c, p < n -> from_clone key n (LAug key p c) = LAug key p c.
Proof. intros. cbn. rewrite (proj2 (Nat.eqb_neq p n)) by lia. now rewrite andb_false_r. Qed.
Lemma from_clone_new : forall key n c, from_clone key n (LAug key n c) = clone_of_body c.
Proof. intros. cbn. now rewrite !Nat.eqb_refl. Qed.

(** Positions: in the layout with the new clone at the end of its window. *)
Lemma clone_positions : forall L W R key n,
  (exists L', L = map LBody (seq 0 18) ++ L') ->
  Forall (other_key key) L -> Forall (other_key key) R ->
  (forall a, In a W -> exists p c, a = LAug key p c /\ p < n) ->
  forall i a, nth_error ((L ++ W) ++ six (LAug key n) ++ R) i = Some a ->
    nth_error ((L ++ W) ++ R) (clone_src (length (L ++ W)) i) = Some (from_clone key n a).
Proof.
  intros L W R key n [L' HL] FL FR HW i a H.
  assert (Hbig : 18 <= length (L ++ W)).
  { rewrite HL, !app_length, map_length, seq_length. lia. }
  assert (HLW : forall b, In b (L ++ W) -> from_clone key n b = b).
  { intros b Hb. apply in_app_iff in Hb. destruct Hb as [Hb|Hb].
    - apply from_clone_other. rewrite Forall_forall in FL. auto.
    - destruct (HW b Hb) as [p [c [-> Hp]]]. apply from_clone_old. exact Hp. }
  rewrite nth_error_mid in H. change (length (six (LAug key n))) with 6 in H.
  set (x := length (L ++ W)) in *.
  assert (HB : forall k, k < 18 -> nth_error ((L ++ W) ++ R) k = Some (LBody k)).
  { intros k Hk. rewrite HL, <- !app_assoc. rewrite nth_error_app1 by (rewrite map_length, seq_length; auto).
    apply nth_seq_map. exact Hk. }
  destruct (zone4 x i) as [Z|[Z|[Z|Z]]].
  - rewrite clone_src_lo by auto. rewrite unshift_lt in H by auto. rewrite H. f_equal. symmetry. apply HLW.
    rewrite nth_error_app1 in H by exact Z. eapply nth_error_In. exact H.
  - rewrite clone_src_pos by auto. rewrite unshift_mid in H by lia. unfold six in H. rewrite nth_seq_map in H by lia.
    injection H as <-. rewrite from_clone_new. unfold clone_of_body. rewrite (proj2 (Nat.ltb_lt _ _)) by lia.
    apply HB. lia.
  - rewrite clone_src_ang by auto. rewrite unshift_mid in H by lia. unfold six in H. rewrite nth_seq_map in H by lia.
    injection H as <-. rewrite from_clone_new. unfold clone_of_body. rewrite (proj2 (Nat.ltb_ge _ _)) by lia.
    apply HB. lia.
  - rewrite clone_src_hi by auto. rewrite unshift_ge in H by lia. rewrite H. f_equal. symmetry.
    apply from_clone_other. rewrite nth_error_app2 in H by lia. rewrite Forall_forall in FR. apply FR.
    eapply nth_error_In. exact H.
Qed.

(** *** Drop *)
Lemma from_drop_other : forall key n a, other_key key a -> from_drop key n a = a.
Proof.
  intros key n [] H; try reflexivity. cbn in *. rewrite (proj2 (Nat.eqb_neq _ _)) by auto. reflexivity.
Qed.

Lemma aug_seq : forall key l, aug_labels (key, l) = flat_map (fun p => six (LAug key p)) (seq 0 (length l)).
Proof. reflexivity. Qed.

Lemma flat_shift : forall key n s, flat_map (fun p => six (LAug key (S p))) (seq s n) =
  flat_map (fun p => six (LAug key p)) (seq (S s) n).
Proof. intros key n. induction n; intros s; [reflexivity|]. cbn [seq flat_map]. now rewrite IHn. Qed.

Lemma map_flat_map : forall A B C (f : B -> C) (g : A -> list B) l,
  map f (flat_map g l) = flat_map (fun x => map f (g x)) l.
Proof. intros. induction l; [reflexivity|]. cbn [flat_map]. now rewrite map_app, IHl. Qed.

Lemma drop_window : forall key i n, i < n ->
  flat_map (fun p => six (LAug key p)) (seq 0 n) =
    firstn (6 * i) (flat_map (fun p => six (LAug key p)) (seq 0 n)) ++ six (LAug key i) ++
    skipn (6 * i) (map (from_drop key i) (flat_map (fun p => six (LAug key p)) (seq 0 (n - 1)))) /\
  map (from_drop key i) (flat_map (fun p => six (LAug key p)) (seq 0 (n - 1))) =
    firstn (6 * i) (flat_map (fun p => six (LAug key p)) (seq 0 n)) ++
    skipn (6 * i) (map (from_drop key i) (flat_map (fun p => six (LAug key p)) (seq 0 (n - 1)))) /\
  length (firstn (6 * i) (flat_map (fun p => six (LAug key p)) (seq 0 n))) = 6 * i.
Proof.
  intros key i n H.
  assert (LEN : forall s m, length (flat_map (fun p => six (LAug key p)) (seq s m)) = 6 * m).
  { intros s m. revert s. induction m; intros s; [reflexivity|]. cbn [seq flat_map]. rewrite app_length, IHm.
    change (length (six (LAug key s))) with 6. lia. }
  assert (E1 : flat_map (fun p => six (LAug key p)) (seq 0 n) =
    flat_map (fun p => six (LAug key p)) (seq 0 i) ++ six (LAug key i) ++
    flat_map (fun p => six (LAug key p)) (seq (S i) (n - 1 - i))).
  { replace n with (i + S (n - 1 - i)) at 1 by lia. rewrite seq_app, flat_map_app. reflexivity. }
  assert (E2 : map (from_drop key i) (flat_map (fun p => six (LAug key p)) (seq 0 (n - 1))) =
    flat_map (fun p => six (LAug key p)) (seq 0 i) ++
    flat_map (fun p => six (LAug key p)) (seq (S i) (n - 1 - i))).
  { replace (n - 1) with (i + (n - 1 - i)) at 1 by lia. rewrite seq_app, flat_map_app, map_app. cbn [Nat.add]. f_equal.
    - rewrite map_flat_map. rewrite !flat_map_concat_map. f_equal. apply map_ext_in. intros p Hp. apply in_seq in Hp.
      unfold six. rewrite map_map. apply map_ext. intros c. cbn. rewrite Nat.eqb_refl.
      rewrite (proj2 (Nat.leb_gt i p)) by lia. reflexivity.
    - rewrite <- flat_shift, map_flat_map. rewrite !flat_map_concat_map. f_equal. apply map_ext_in. intros p Hp.
      apply in_seq in Hp. unfold six. rewrite map_map. apply map_ext. intros c. cbn. rewrite Nat.eqb_refl.
      rewrite (proj2 (Nat.leb_le i p)) by lia. reflexivity. }
  rewrite E2. rewrite E1 at 2 3 4.
  rewrite !firstn_app, LEN, Nat.sub_diag, firstn_O, app_nil_r, firstn_all2 by (rewrite LEN; lia).
  rewrite !skipn_app, LEN, Nat.sub_diag, skipn_O, skipn_all2 by (rewrite LEN; lia). cbn [app].
  split; [exact E1|]. split; [reflexivity|]. first [apply LEN|reflexivity].
Qed.

Lemma drop_positions : forall L R key i n, i < n ->
  Forall (other_key key) L -> Forall (other_key key) R ->
  forall j a, nth_error (L ++ flat_map (fun p => six (LAug key p)) (seq 0 (n - 1)) ++ R) j = Some a ->
    nth_error (L ++ flat_map (fun p => six (LAug key p)) (seq 0 n) ++ R) (skip (length L + 6 * i) 6 j) =
      Some (from_drop key i a).
Proof.
  intros L R key i n Hi FL FR j a H.
  destruct (drop_window key i n Hi) as [E1 [E2 E3]].
  set (F := firstn (6 * i) (flat_map (fun p => six (LAug key p)) (seq 0 n))) in *.
  set (G := skipn (6 * i) (map (from_drop key i) (flat_map (fun p => six (LAug key p)) (seq 0 (n - 1))))) in *.
  rewrite E1. replace (L ++ (F ++ six (LAug key i) ++ G) ++ R) with ((L ++ F) ++ six (LAug key i) ++ (G ++ R))
    by (rewrite <- !app_assoc; reflexivity).
  rewrite <- E3, <- app_length. change 6 with (length (six (LAug key i))) at 1. rewrite nth_error_skip.
  replace ((L ++ F) ++ G ++ R) with (map (from_drop key i) (L ++ flat_map (fun p => six (LAug key p)) (seq 0 (n - 1)) ++ R)).
  { rewrite nth_error_map, H. reflexivity. }
  rewrite !map_app, E2, <- !app_assoc. f_equal; [|do 2 f_equal].
  - rewrite <- (map_id L) at 2. apply map_ext_in. intros b Hb. rewrite Forall_forall in FL.
    apply from_drop_other; auto.
  - rewrite <- (map_id R) at 2. apply map_ext_in. intros b Hb. rewrite Forall_forall in FR.
    apply from_drop_other; auto.
Qed.

Lemma aug_labels_len : forall key v w, length v = length w -> aug_labels (key, v) = aug_labels (key, w).
Proof. intros key v w H. rewrite !aug_seq, H. reflexivity. Qed.

(** *** The operations *)
Lemma clone_inherits : forall e e' key c x, inv e -> inv e' -> e_par e' = e_par e ->
  x = start_aug (e_state e) + before key (s_aug (e_state e)) + 6 * length (aug_at e key) ->
  e_state e' = ix_state (state_with_aug (e_state e) (mset key (aug_at e key ++ [c]) (s_aug (e_state e)))) ->
  e_size e' = e_size e + 6 -> 12 <= x <= nr (e_cov e) ->
  AugmentCovariance (is_root e) (e_cov e) x = OK (e_cov e') ->
  inherits e e' (from_clone key (length (aug_at e key))).
Proof.
  intros e e' key c x I I' F Hx S' Z' Hb EA. destruct I as [W G]. pose proof (wf_nr _ W) as N1. pose proof (wf_nc _ W) as N2.
  destruct (layout_window (e_state e) key (aug_sorted e (wf_pre _ W))) as [L [R [FL [FR [HL [HB [H1 H2]]]]]]].
  apply (pull_inherits e e' (clone_src x)); [split; auto|exact I'| |].
  - intros i a. rewrite S', ix_layout, H2, H1. rewrite aug_labels_snoc.
    fold (aug_at e key). intros H.
    assert (Hlen : x = length (L ++ aug_labels (key, aug_at e key))).
    { rewrite app_length, HL, aug_labels_length. cbn [snd]. unfold aug_len. lia. }
    rewrite Hlen. rewrite app_assoc. apply (clone_positions L _ R key _ HB FL FR).
    + intros b Hb'. apply aug_labels_key in Hb'. destruct Hb' as [p [k [-> [? _]]]]. eauto.
    + rewrite <- !app_assoc in *. exact H.
  - unfold covariance. rewrite Z'. replace (p_root (e_par e')) with (is_root e) by (rewrite F; reflexivity).
    apply stands_clone; auto. lia.
Qed.

Lemma drop_std : forall n m out x, nr m = n -> nc m = n -> x + 6 <= n ->
  RemoveFromMatrix 0%R m x x 6 = OK out ->
  eqm (n - 6) (n - 6) (ent out) (fun i j => ent m (skip x 6 i) (skip x 6 j)).
Proof.
  intros n m out x N1 N2 Hx E.
  destruct (Remove_spec R 0%R m x x 6) as [o [E' [R1 [R2 R3]]]]; try lia.
  rewrite E in E'. injection E' as <-. intros i j Hi Hj. apply R3; lia.
Qed.

Lemma erase_len : forall A i (l : list A), i < length l -> length (erase i l) = length l - 1.
Proof. intros A i l H. pose proof (erase_length A i l H). lia. Qed.

Lemma drop_inherits : forall e e' i, inv e -> p_root (e_par e) = false -> rem1 e i e' ->
  inherits e e' (from_drop 0 i).
Proof.
  intros e e' i I RT RM. pose proof (rem1_inv e i e' I RM) as I'.
  destruct RM as [Hi [W' [S' [Hz [Hx [_ [ER [_ [F _]]]]]]]]].
  destruct I as [W G]. pose proof (wf_nr _ W) as N1. pose proof (wf_nc _ W) as N2.
  destruct (layout_window (e_state e) 0 (aug_sorted e (wf_pre _ W))) as [L [R [FL [FR [HL [HB [H1 H2]]]]]]].
  set (x := start_aug (e_state e) + before 0 (s_aug (e_state e)) + 6 * i) in *.
  apply (pull_inherits e e' (skip x 6)); [split; auto|exact I'| |].
  - intros j a. rewrite S', ix_layout, H2, H1. fold (aug_at e 0). rewrite !aug_seq, erase_len by auto.
    intros H. unfold x. rewrite <- HL. apply drop_positions; auto.
  - unfold covariance. replace (p_root (e_par e')) with false by (destruct F as [-> _]; auto). rewrite RT.
    cbn [stands_for]. replace (e_size e') with (e_size e - 6) by lia.
    apply drop_std; auto. lia.
Qed.

Lemma frame_clone_named : forall e cam f e', inv e -> per_frame e cam = true ->
  length (aug_at e cam) < e_max_len e -> AugmentStateFrame e cam f = OK e' ->
  inherits e e' (from_clone cam (length (aug_at e cam))).
Proof.
  intros e cam f e' I PF L E.
  destruct (frame_inv e cam f I) as [e2 [E2 I2]]. rewrite E in E2. injection E2 as <-.
  destruct (AugmentStateFrame_ok e cam f (proj1 I)) as [e2 [E2 [W' [F [_ [_ H]]]]]].
  rewrite E in E2. injection E2 as <-. destruct (H PF) as [S' [_ [H1 _]]]. destruct (H1 L) as [Z [Hx EA]].
  unfold next_window in S'. rewrite (proj2 (Nat.ltb_lt _ _)) in S' by exact L.
  eapply clone_inherits; eauto. destruct F as [F _]. exact F.
Qed.

Lemma frame_shift_named : forall e cam f e', inv e -> per_frame e cam = true -> p_root (e_par e) = false ->
  e_max_len e <= length (aug_at e cam) -> AugmentStateFrame e cam f = OK e' ->
  inherits e e' (fun a => from_drop cam 0 (from_clone cam (length (aug_at e cam) - 1) a)).
Proof.
  intros e cam f e' I PF RT L E.
  destruct (frame_inv e cam f I) as [e2 [E2 I2]]. rewrite E in E2. injection E2 as <-.
  destruct (AugmentStateFrame_ok e cam f (proj1 I)) as [e2 [E2 [W' [F [_ [_ H]]]]]].
  rewrite E in E2. injection E2 as <-. destruct (H PF) as [S' [_ [_ H1]]]. destruct (H1 L) as [Z [Ha [rc [ER [Hx EA]]]]].
  unfold next_window in S'. rewrite (proj2 (Nat.ltb_ge _ _)) in S' by exact L.
  pose proof I as [W G]. pose proof (wf_nr _ W) as N1. pose proof (wf_nc _ W) as N2.
  set (v := aug_at e cam) in *. set (x := start_aug (e_state e) + before cam (s_aug (e_state e))) in *.
  destruct (layout_window (e_state e) cam (aug_sorted e (wf_pre _ W))) as [L0 [R [FL [FR [HL [HB [E1 E2]]]]]]].
  fold (aug_at e cam) in E1. fold v in E1. fold x in HL.
  assert (M1 : 1 <= e_max_len e).
  { apply (pre_len _ (wf_pre _ W)). apply (per_frame_type e cam PF). }
  assert (HT : length (tl v) = length v - 1) by (destruct v; cbn; lia).
  destruct (remove_good false (e_cov e) rc x 6) as [R1 [R2 G1]]; auto; [lia| |].
  { unfold is_root in G. rewrite RT in G. rewrite N1. exact G. }
  apply (pull_inherits e e' (fun i => skip x 6 (clone_src (x + 6 * (length v - 1)) i))); [exact I|exact I2| |].
  - intros i a. rewrite S', ix_layout, E2, E1, aug_labels_snoc, HT. intros Hn.
    assert (Hlen : x + 6 * (length v - 1) = length (L0 ++ aug_labels (cam, tl v))).
    { rewrite app_length, HL, aug_labels_length. cbn [snd]. unfold aug_len. lia. }
    rewrite aug_seq. replace (skip x 6) with (skip (length L0 + 6 * 0) 6) by (rewrite HL, Nat.mul_0_r, Nat.add_0_r; reflexivity).
    apply (drop_positions L0 R cam 0 (length v)); auto; [lia|].
    rewrite Hlen. rewrite <- HT. rewrite <- aug_seq. rewrite app_assoc.
    apply (clone_positions L0 _ R cam _ HB FL FR).
    + intros b Hb'. apply aug_labels_key in Hb'. destruct Hb' as [p [k [-> [? _]]]]. eauto.
    + rewrite <- !app_assoc in *. rewrite HT. exact Hn.
  - unfold covariance. replace (p_root (e_par e')) with false by (destruct F as [-> _]; auto). rewrite RT.
    cbn [stands_for]. rewrite Z. unfold is_root in EA. rewrite RT in EA.
    pose proof (stands_clone false (nr rc) rc (e_cov e') (x + 6 * (length v - 1)) eq_refl ltac:(lia) Hx G1 EA) as K.
    cbn [stands_for] in K. intros i j Hi Hj. rewrite K by lia.
    apply (drop_std (e_size e) (e_cov e) rc x); auto; try lia; rewrite <- N1, <- R1;
      apply clone_src_bound; lia.
Qed.
