(** Dropping a clone in square-root form loses the rows of the factor. *)
From Coq Require Import Reals List Arith Bool Lia Lra Sorted.
From Verif Require Import Base.Res Base.Mat Base.RSum Base.LinAlg Base.Inverse Base.Geom Base.AMap Base.RMat
  Model.TypeHelper Model.Types Model.MathHelperMat Model.Ekf Model.Updater Model.Ops
  Spec.Layout Spec.History Spec.Contract Spec.Named Spec.Same Spec.KF Spec.Noise Spec.Surgery Spec.RootPredict Spec.RootDrop
  Proofs.MatSurgery Proofs.Refresh Proofs.Wf Proofs.AugCov Proofs.Augment Proofs.CovGood Proofs.Invariant Proofs.Named Proofs.Sizes Proofs.Clones
  Proofs.Same Proofs.CloneFacts Proofs.Predict Proofs.Demo Proofs.DemoFilter Proofs.Noise Proofs.RegRefute Proofs.Scalars Proofs.BlockDiag Proofs.RootForm Proofs.RootPredict.
Import ListNotations.
Open Scope nat_scope.

Lemma rsum_skip : forall n x f, x + 6 <= n ->
  rsum (n - 6) (fun k => f (skip x 6 k)) = (rsum n f - rsum 6 (fun k => f (x + k)%nat))%R.
Proof.
  intros n x f H. replace n with (x + (6 + (n - 6 - x))) at 2 by lia. rewrite rsum_split.
  replace (n - 6) with (x + (n - 6 - x)) at 1 by lia. rewrite rsum_split, (rsum_split 6).
  rewrite (rsum_ext x (fun k => f (skip x 6 k)) f) by (intros; rewrite skip_lt by lia; reflexivity).
  rewrite (rsum_ext (n - 6 - x) (fun k => f (skip x 6 (x + k))) (fun k => f (x + (6 + k))))
    by (intros; rewrite skip_ge by lia; f_equal; lia).
  ring.
Qed.

Lemma drop_root : forall n m out x, nr m = n -> nc m = n -> x + 6 <= n ->
  RemoveFromMatrix 0%R m x x 6 = OK out ->
  forall i j, i < n - 6 -> j < n - 6 -> gram (n - 6) (ent out) i j =
    (gram n (ent m) (skip x 6 i) (skip x 6 j) -
     rsum 6 (fun k => ent m (x + k)%nat (skip x 6 i) * ent m (x + k)%nat (skip x 6 j)))%R.
Proof.
  intros n m out x N1 N2 Hx E i j Hi Hj.
  destruct (Remove_spec R 0%R m x x 6) as [o [E' [R1 [R2 R3]]]]; try lia.
  rewrite E in E'. injection E' as <-. unfold gram, mm, tr.
  rewrite <- (rsum_skip n x (fun k => ent m k (skip x 6 i) * ent m k (skip x 6 j))%R Hx).
  apply rsum_ext. intros k Hk. rewrite !R3 by lia. reflexivity.
Qed.

Lemma window_start : forall e cam, inv e -> 1 <= length (aug_at e cam) ->
  nth_error (layout (e_state e)) (start_aug (e_state e) + before cam (s_aug (e_state e))) = Some (LAug cam 0 0).
Proof.
  intros e cam [W _] H. destruct (layout_window (e_state e) cam (aug_sorted e (wf_pre _ W))) as [L0 [R [_ [_ [HL [_ [E1 _]]]]]]].
  rewrite E1, <- HL. rewrite nth_error_app2 by lia. rewrite Nat.sub_diag. fold (aug_at e cam).
  destruct (aug_at e cam); [cbn in H; lia|]. reflexivity.
Qed.

Lemma frame_forgets : forall e cam f e', inv e -> per_frame e cam = true -> p_root (e_par e) = true ->
  e_max_len e <= length (aug_at e cam) -> AugmentStateFrame e cam f = OK e' ->
  forgets e e' (fun a => from_drop cam 0 (from_clone cam (length (aug_at e cam) - 1) a))
    (start_aug (e_state e) + before cam (s_aug (e_state e))).
Proof.
  intros e cam f e' I PF RT L E.
  destruct (frame_inv e cam f I) as [e2 [E2 I2]]. rewrite E in E2. injection E2 as <-.
  destruct (AugmentStateFrame_ok e cam f (proj1 I)) as [e2 [E2 [W' [F [_ [_ H]]]]]].
  rewrite E in E2. injection E2 as <-. destruct (H PF) as [S' [_ [_ H1]]]. destruct (H1 L) as [Z [Ha [rc [ER [Hx EA]]]]].
  unfold next_window in S'. rewrite (proj2 (Nat.ltb_ge _ _)) in S' by exact L.
  pose proof I as [W G]. pose proof (wf_nr _ W) as N1. pose proof (wf_nc _ W) as N2.
  set (v := aug_at e cam) in *. set (x := start_aug (e_state e) + before cam (s_aug (e_state e))) in *.
  destruct (layout_window (e_state e) cam (aug_sorted e (wf_pre _ W))) as [L0 [R [FL [FR [HL [HB [E1 E2]]]]]]].
  fold (aug_at e cam) in E1. fold v in E1. fold x in HL.
  assert (M1 : 1 <= e_max_len e).
  { apply (pre_len _ (wf_pre _ W)). apply (per_frame_type e cam PF). }
  assert (HT : length (tl v) = length v - 1) by (destruct v; cbn; lia).
  destruct (remove_good true (e_cov e) rc x 6) as [R1 [R2 G1]]; auto; [lia| |].
  { unfold is_root in G. rewrite RT in G. rewrite N1. exact G. }
  set (g := fun a => from_drop cam 0 (from_clone cam (length v - 1) a)).
  set (sg := fun i => skip x 6 (clone_src (x + 6 * (length v - 1)) i)).
  assert (Hg : forall i a, nth_error (layout (e_state e')) i = Some a -> nth_error (layout (e_state e)) (sg i) = Some (g a)).
  { intros i a. unfold sg, g. rewrite S', ix_layout, E2, E1, aug_labels_snoc, HT. intros Hn.
    assert (Hlen : x + 6 * (length v - 1) = length (L0 ++ aug_labels (cam, tl v))).
    { rewrite app_length, HL, aug_labels_length. cbn [snd]. unfold aug_len. lia. }
    rewrite aug_seq. replace (skip x 6) with (skip (length L0 + 6 * 0) 6) by (rewrite HL, Nat.mul_0_r, Nat.add_0_r; reflexivity).
    apply (drop_positions L0 R cam 0 (length v)); auto; [lia|].
    rewrite Hlen. rewrite <- HT. rewrite <- aug_seq. rewrite app_assoc.
    apply (clone_positions L0 _ R cam _ HB FL FR).
    + intros b Hb'. apply aug_labels_key in Hb'. destruct Hb' as [p [k [-> [? _]]]]. eauto.
    + rewrite <- !app_assoc in *. rewrite HT. exact Hn. }
  assert (Z' : e_size e' = length (layout (e_state e'))) by (symmetry; apply (dim_size e'); apply I2).
  assert (HP : eqm (length (layout (e_state e'))) (length (layout (e_state e'))) (covariance e')
    (fun i j => (covariance e (sg i) (sg j) - row_share e x (sg i) (sg j))%R)).
  { rewrite <- Z'. unfold covariance. replace (p_root (e_par e')) with true by (destruct F as [-> _]; auto). rewrite RT.
    cbn [stands_for]. rewrite Z. unfold is_root in EA. rewrite RT in EA.
    pose proof (stands_clone true (nr rc) rc (e_cov e') (x + 6 * (length v - 1)) eq_refl ltac:(lia) Hx G1 EA) as K.
    cbn [stands_for] in K. intros i j Hi Hj. replace (nr rc + 6) with (e_size e) in K by lia. rewrite K by lia.
    unfold row_share, sg. replace (nr rc) with (e_size e - 6) by lia.
    apply (drop_root (e_size e) (e_cov e) rc x); auto; try lia;
      rewrite <- N1, <- R1; apply clone_src_bound; lia. }
  destruct (named_pull _ _ (fun i j => (covariance e i j - row_share e x i j)%R) (covariance e') sg g (inv_NoDup e I) Hg HP) as [A B].
  constructor; [exact A|]. intros a b i j Ha' Hb' Hi Hj. apply (B a b); auto. exists i, j. auto.
Qed.

Lemma share_left : forall e x i j, inv e -> p_root (e_par e) = true -> i < x -> x + 6 <= e_size e -> row_share e x i j = 0%R.
Proof.
  intros e x i j [W G] RT Hi Hx. unfold row_share. apply rsum_0. intros k Hk. unfold is_root in G. rewrite RT in G. cbn [good] in G.
  rewrite (G (x + k) i) by lia. ring.
Qed.

Lemma not_clone_left : forall s i a, not_clone a -> nth_error (layout s) i = Some a -> i < start_aug s.
Proof.
  intros s i a N H. destruct (Nat.lt_ge_cases i (start_aug s)) as [|L]; [assumption|]. exfalso.
  rewrite layout_head in H. rewrite nth_error_app2 in H by (rewrite head_length; exact L).
  apply nth_error_In, in_flat_map in H. destruct H as [[k v] [_ H]]. apply aug_labels_key in H.
  destruct H as [p [c [-> _]]]. exact N.
Qed.

(** *** Facts for all reachable filters *)
Lemma frame_shifts_root : forall e cam f e', reachable e -> per_frame e cam = true -> p_root (e_par e) = true ->
  e_max_len e <= length (aug_at e cam) -> AugmentStateFrame e cam f = OK e' ->
  let g := fun a => from_drop cam 0 (from_clone cam (length (aug_at e cam) - 1) a) in
  exists x, nth_error (layout (e_state e)) x = Some (LAug cam 0 0) /\ forgets e e' g x /\
    (forall a b v, In a (layout (e_state e')) -> In b (layout (e_state e')) -> not_clone (g a) ->
       cov_is e (g a) (g b) v -> cov_is e' a b v) /\
    (forall a v, In a (layout (e_state e')) -> cov_is e (g a) (g a) v -> exists v', cov_is e' a a v' /\ (v' <= v)%R).
Proof.
  intros e cam f e' Hr PF RT L E g. pose proof (reachable_inv e Hr) as I. pose proof I as [W G].
  pose proof (frame_forgets e cam f e' I PF RT L E) as FG. fold g in FG.
  assert (M1 : 1 <= e_max_len e).
  { apply (pre_len _ (wf_pre _ W)). apply (per_frame_type e cam PF). }
  assert (HX : start_aug (e_state e) + before cam (s_aug (e_state e)) + 6 <= e_size e).
  { destruct (AugmentStateFrame_ok e cam f W) as [e2 [E2 [_ [_ [_ [_ H]]]]]].
    destruct (H PF) as [_ [_ [_ H1]]]. destruct (H1 L) as [_ [Ha _]]. rewrite (wf_nr _ W) in Ha. exact Ha. }
  pose proof (window_start e cam I ltac:(lia)) as WS.
  assert (LE : start_aug (e_state e) <= start_aug (e_state e) + before cam (s_aug (e_state e))) by lia.
  revert FG HX WS LE. generalize (start_aug (e_state e) + before cam (s_aug (e_state e))). intros x FG HX WS LE.
  exists x. split; [exact WS|]. split; [exact FG|]. split.
  - intros a b v Ha Hb N [i [j [Hi [Hj <-]]]]. pose proof (not_clone_left _ _ _ N Hi) as Li.
    pose proof (fg_cov _ _ _ _ FG a b i j Ha Hb Hi Hj) as K. rewrite (share_left e x i j I RT) in K by lia.
    rewrite Rminus_0_r in K. exact K.
  - intros a v Ha [i [j [Hi [Hj <-]]]].
    assert (j = i). { pose proof (inv_NoDup e I) as ND. rewrite NoDup_nth_error in ND. apply ND; [apply nth_error_Some; congruence|congruence]. }
    subst j. exists (covariance e i i - row_share e x i i)%R. split; [exact (fg_cov _ _ _ _ FG a a i i Ha Ha Hi Hi)|].
    assert (0 <= row_share e x i i)%R; [|lra]. unfold row_share. apply rsum_nonneg. intros k _. apply Rle_0_sqr.
Qed.

(** *** Triangular factors *)
Lemma upper_dot : forall n S u i, upper n S -> i < n ->
  rsum n (fun k => S k i * u k)%R = (rsum i (fun k => S k i * u k) + S i i * u i)%R.
Proof.
  intros n S u i U Hi. replace n with (i + (1 + (n - i - 1))) at 1 by lia. rewrite !rsum_split.
  rewrite (rsum_0 (n - i - 1)). { cbn [rsum]. rewrite Nat.add_0_r. ring. }
  intros k Hk. rewrite (U (i + (1 + k)) i) by lia. ring.
Qed.
Lemma upper_zero : forall n m S u, upper n S -> m <= n -> (forall r, r < m -> S r r <> 0%R) ->
  (forall i, i < m -> rsum n (fun k => S k i * u k)%R = 0%R) -> forall r, r < m -> u r = 0%R.
Proof.
  intros n m S u U Hm D Z. induction r as [r IH] using lt_wf_ind. intros Hr.
  pose proof (Z r Hr) as K. rewrite (upper_dot n S u r U ltac:(lia)) in K. rewrite rsum_0 in K.
  - rewrite Rplus_0_l in K. apply Rmult_integral in K. destruct K as [K|K]; [|exact K]. destruct (D r Hr K).
  - intros k Hk. rewrite IH by lia. ring.
Qed.
Lemma spd_lead : forall n m P, spd n P -> m <= n -> spd m P.
Proof.
  intros n m P [S H] L. split; [intros i j Hi Hj; apply S; lia|]. intros x [i [Hi Nz]].
  set (y := fun k => if k <? m then x k else 0%R).
  assert (Q : qf n P y = qf m P x).
  { rewrite !qf_expand. replace n with (m + (n - m)) by lia. rewrite rsum_split.
    rewrite (rsum_0 (n - m)). 2:{ intros k Hk. apply rsum_0. intros j _. unfold y at 1. rewrite (proj2 (Nat.ltb_ge _ _)) by lia. ring. }
    rewrite Rplus_0_r. apply rsum_ext. intros a Ha. rewrite rsum_split, (rsum_0 (n - m)).
    2:{ intros k Hk. unfold y at 2. rewrite (proj2 (Nat.ltb_ge (m + k) m)) by lia. ring. }
    rewrite Rplus_0_r. apply rsum_ext. intros b Hb. unfold y. rewrite !(proj2 (Nat.ltb_lt _ _)) by assumption. reflexivity. }
  rewrite <- Q. apply H. exists i. split; [lia|]. unfold y. rewrite (proj2 (Nat.ltb_lt _ _)) by exact Hi. exact Nz.
Qed.

Lemma gram_ker : forall n m S x, (forall k, k < n -> rsum m (fun i => S k i * x i)%R = 0%R) -> qf m (gram n S) x = 0%R.
Proof.
  intros n m S x H. rewrite qf_expand. apply rsum_0. intros i _.
  rewrite (rsum_ext m _ (fun j => rsum n (fun k => x i * S k i * (S k j * x j))))%R.
  - rewrite rsum_swap. apply rsum_0. intros k Hk. rewrite rsum_scal_l, H by exact Hk. ring.
  - intros j _. unfold gram, mm, tr. rewrite <- rsum_scal_l, <- rsum_scal_r. apply rsum_ext. intros k _. ring.
Qed.
Lemma back_solve : forall n S, upper n S -> forall r, r <= n -> (forall k, k < r -> S k k <> 0%R) ->
  forall b, exists y, forall k, k < r -> rsum r (fun i => S k i * y i)%R = b k.
Proof.
  intros n S U. induction r as [|r IH]; intros Hr D b; [exists (fun _ => 0%R); lia|].
  destruct (IH ltac:(lia) ltac:(intros; apply D; lia) (fun k => b k - S k r * (b r / S r r))%R) as [y Hy].
  exists (fun i => if i =? r then (b r / S r r)%R else y i). intros k Hk. cbn [rsum]. rewrite Nat.eqb_refl.
  rewrite (rsum_ext r _ (fun i => S k i * y i)%R) by (intros i Hi; rewrite (proj2 (Nat.eqb_neq i r)) by lia; reflexivity).
  destruct (Nat.eq_dec k r) as [->|Hne].
  - rewrite rsum_0 by (intros i Hi; rewrite U by lia; ring). field. apply D. lia.
  - rewrite Hy by lia. ring.
Qed.
Lemma upper_diag : forall n m S, upper n S -> m <= n -> spd m (gram n S) -> forall r, r < m -> S r r <> 0%R.
Proof.
  intros n m S U Hm HP. induction r as [r IH] using lt_wf_ind. intros Hr Z.
  destruct (back_solve n S U r ltac:(lia) ltac:(intros; apply IH; lia) (fun k => - S k r)%R) as [y Hy].
  destruct (spd_lead m (r + 1) _ HP ltac:(lia)) as [_ K].
  set (x := fun i => if i =? r then 1%R else y i).
  specialize (K x ltac:(exists r; split; [lia|unfold x; rewrite Nat.eqb_refl; lra])).
  rewrite gram_ker in K; [lra|]. intros k Hk. rewrite rsum_split. cbn [rsum]. rewrite Nat.add_0_r.
  unfold x at 2. rewrite Nat.eqb_refl.
  rewrite (rsum_ext r _ (fun i => S k i * y i)%R) by (intros i Hi; unfold x; rewrite (proj2 (Nat.eqb_neq i r)) by lia; reflexivity).
  destruct (Nat.lt_trichotomy k r) as [L|[->|L]].
  - rewrite Hy by exact L. ring.
  - rewrite Z, rsum_0 by (intros i Hi; rewrite U by lia; ring). ring.
  - rewrite (U k r), rsum_0 by (intros; rewrite ?U by lia; lia || ring). ring.
Qed.

(** A column of an upper factor that does not reach beyond its first [m] rows
    and is correlated with a single one of the first [m] scalars is a multiple
    of that scalar. *)
Lemma determined : forall n m S p q, upper n S -> m <= n -> spd m (gram n S) -> p < m -> m <= q < n ->
  (forall i, i < m -> i <> p -> gram n S i q = 0%R /\ gram n S i p = 0%R) ->
  (forall k, m <= k < n -> S k q = 0%R) ->
  (gram n S q q * gram n S p p = gram n S p q * gram n S p q)%R.
Proof.
  intros n m S p q U Hm HP Hp Hq Z R0.
  assert (P0 : (0 < gram n S p p)%R).
  { destruct (spd_lead m (p + 1) _ HP ltac:(lia)) as [_ K].
    specialize (K (fun i => if i =? p then 1%R else 0%R) ltac:(exists p; split; [lia|rewrite Nat.eqb_refl; lra])).
    rewrite qf_expand in K. rewrite (rsum_single (p + 1) p) in K; [|lia|].
    - rewrite (rsum_single (p + 1) p) in K; [|lia|].
      + rewrite Nat.eqb_refl in K. lra.
      + intros j _ Hj. rewrite (proj2 (Nat.eqb_neq j p) Hj). ring.
    - intros i _ Hi. apply rsum_0. intros j _. rewrite (proj2 (Nat.eqb_neq i p) Hi). ring. }
  set (c := (gram n S p q / gram n S p p)%R).
  set (u := fun k => (S k q - c * S k p)%R).
  assert (D : forall i, rsum n (fun k => S k i * u k)%R = (gram n S i q - c * gram n S i p)%R).
  { intros i. unfold gram, mm, tr, u. rewrite <- rsum_scal_l, <- rsum_minus. apply rsum_ext. intros k _. ring. }
  assert (u0 : forall k, k < n -> u k = 0%R).
  { intros k Hk. destruct (Nat.lt_ge_cases k m) as [L|L].
    - apply (upper_zero n m S u U Hm (upper_diag n m S U Hm HP)); [|exact L].
      intros i Hi. rewrite D. destruct (Nat.eq_dec i p) as [->|Hne].
      + unfold c. field. lra.
      + destruct (Z i Hi Hne) as [-> ->]. ring.
    - unfold u. rewrite R0, (U k p) by lia. ring. }
  pose proof (D q) as K. rewrite rsum_0 in K by (intros k Hk; rewrite u0 by exact Hk; ring).
  assert (Sy : gram n S q p = gram n S p q) by (unfold gram, mm, tr; apply rsum_ext; intros; ring).
  rewrite Sy in K. unfold c in K. apply (f_equal (Rmult (gram n S p p))) in K. field_simplify in K; [|lra]. lra.
Qed.

(** *** A witness: two cameras *)
Definition blank (s : State) (l : amap (list AugState)) : Prop :=
  s_imu s = [] /\ s_gps s = [] /\ s_cam s = [] /\ s_fid s = [] /\ s_aug s = l.
Lemma blank_start : forall s l, blank s l -> start_aug s = 18.
Proof. intros s l [H1 [H2 [H3 [H4 _]]]]. unfold start_aug, start_fid, start_cam, start_gps. rewrite H1, H2, H3, H4. reflexivity. Qed.
Lemma blank_one : forall s s' w, blank s [] -> s' = ix_state (state_with_aug s (mset 2 [w] (s_aug s))) -> exists w', blank s' [(2, [w'])].
Proof.
  intros s s' w [H1 [H2 [H3 [H4 H5]]]] ->. rewrite H5. eexists. unfold blank, ix_state. cbn [s_imu s_gps s_cam s_fid s_aug state_with_aug].
  rewrite H1, H2, H3, H4. cbn [mset ix_imus ix_gpss ix_cams ix_fids ix_augs]. repeat split.
Qed.
Lemma blank_two : forall s s' w v, blank s [(2, [v])] -> s' = ix_state (state_with_aug s (mset 1 [w] (s_aug s))) ->
  exists w' v', blank s' [(1, [w']); (2, [v'])].
Proof.
  intros s s' w v [H1 [H2 [H3 [H4 H5]]]] ->. rewrite H5. do 2 eexists. unfold blank, ix_state. cbn [s_imu s_gps s_cam s_fid s_aug state_with_aug].
  rewrite H1, H2, H3, H4. cbn [mset ix_imus ix_gpss ix_cams ix_fids ix_augs]. repeat split.
Qed.
Lemma blank_layout : forall s w v, blank s [(1, [w]); (2, [v])] ->
  nth_error (layout s) 27 = Some (LAug 2 0 3) /\ nth_error (layout s) 18 = Some (LAug 1 0 0).
Proof. intros s w v [H1 [H2 [H3 [H4 H5]]]]. unfold layout. rewrite H1, H2, H3, H4, H5. split; reflexivity. Qed.
Lemma blank_rate : forall e w, blank (e_state e) [(2, [w])] -> e_bodyQ e = demo_noise ->
  forall i, i < 24 -> rate_at e i = if i <? 18 then 1%R else 0%R.
Proof.
  intros e w [H1 [H2 [H3 [H4 H5]]]] HQ i Hi. unfold rate_at, layout. rewrite H1, H2, H3, H4, H5, HQ.
  do 24 (destruct i; [reflexivity|]). lia.
Qed.

Lemma clone_src_24 : forall i, i < 24 -> clone_src 18 i = nth i [0;1;2;3;4;5;6;7;8;9;10;11;12;13;14;15;16;17;0;1;2;9;10;11] 0.
Proof. intros i Hi. do 24 (destruct i; [reflexivity|]). lia. Qed.

(** Second camera's clone after one prediction. *)
Lemma own_rows : forall e3 e4 w, reachable e3 -> reachable e4 -> p_root (e_par e3) = true -> p_root (e_par e4) = true ->
  e_size e3 = 24 -> e_size e4 = 24 -> blank (e_state e3) [(2, [w])] -> e_bodyQ e3 = demo_noise ->
  eqm 24 24 (covariance e3) (fun i j => if clone_src 18 i =? clone_src 18 j then (1/100)%R else 0%R) ->
  eqm 24 24 (covariance e4) (noise_last 24 1 (covariance e3) (rate_at e3)) ->
  rsum 6 (fun k => ent (e_cov e4) (18 + k)%nat 21%nat * ent (e_cov e4) (18 + k)%nat 21%nat)%R <> 0%R.
Proof.
  intros e3 e4 w R3 R4 RT3 RT4 Z3 Z4 B3 Q3 V3 N4 HS.
  pose proof (proj2 (reachable_inv e4 R4)) as U. unfold is_root in U. rewrite RT4, Z4 in U. cbn [good] in U.
  assert (G4 : forall i j, covariance e4 i j = gram 24 (ent (e_cov e4)) i j) by (intros; unfold covariance; rewrite RT4, Z4; reflexivity).
  assert (P4 : forall i j, i < 24 -> j < 24 -> gram 24 (ent (e_cov e4)) i j =
     noise_last 24 1 (covariance e3) (rate_at e3) i j) by (intros; rewrite <- G4; apply N4; assumption).
  set (S := ent (e_cov e4)) in *.
  assert (SP : spd 18 (gram 24 S)).
  { apply (spd_ext 18 (noise_last 24 1 (covariance e3) (rate_at e3))).
    - intros i j Hi Hj. symmetry. apply P4; lia.
    - unfold noise_last. apply spd_madd_l.
      + apply psd_congr. unfold covariance. rewrite RT3, Z3. apply psd_gram.
      + apply spd_mscal; [lra|]. apply spd_diag. intros i Hi. rewrite (blank_rate e3 w B3 Q3) by lia.
        rewrite (proj2 (Nat.ltb_lt _ _)) by exact Hi. lra. }
  assert (R0 : forall k, 18 <= k < 24 -> S k 21 = 0%R).
  { intros k Hk. destruct (Req_dec (S k 21) 0%R) as [|Hne]; [assumption|]. exfalso.
    assert (0 < rsum 6 (fun k => S (18 + k)%nat 21%nat * S (18 + k)%nat 21%nat)%R)%R; [|lra].
    apply rsum_pos_ex; [intros; apply Rle_0_sqr|]. exists (k - 18). split; [lia|].
    replace (18 + (k - 18)) with k by lia. apply Rsqr_pos_lt. exact Hne. }
  assert (E : forall i j, i < 24 -> j < 24 -> 6 <= j -> gram 24 S i j =
    ((if clone_src 18 i =? clone_src 18 j then 1/100 else 0) +
     (if i <? 3 then (if clone_src 18 (i + 3)%nat =? clone_src 18 j then 1/100 else 0) else 0) +
     (if i =? j then (if i <? 18 then 1 else 0) else 0))%R).
  { intros i j Hi Hj Lj. rewrite P4 by assumption. unfold noise_last. unfold madd at 1. rewrite Fx_r, !Fx_l by lia.
    rewrite (proj2 (Nat.ltb_ge j 3)) by lia. unfold mscal, diagm. rewrite !V3 by lia.
    rewrite (blank_rate e3 w B3 Q3) by assumption. destruct (i <? 3) eqn:Q.
    - apply Nat.ltb_lt in Q. rewrite V3 by lia. destruct (i =? j); ring.
    - destruct (i =? j); ring. }
  pose proof (determined 24 18 S 9 21 U ltac:(lia) SP ltac:(lia) ltac:(lia)) as K.
  assert (X : forall i, i < 18 -> i <> 9 -> gram 24 S i 21 = 0%R /\ gram 24 S i 9 = 0%R).
  { intros i Hi Hne. rewrite !E by lia. do 18 (destruct i; [cbn; try (exfalso; apply Hne; reflexivity); split; lra|]). lia. }
  specialize (K X R0). rewrite !E in K by lia. cbn in K. lra.
Qed.

(** Refresh, start, a frame of camera 2, a prediction, a frame of camera 1,
    a window of one clone. *)
Lemma drop_gen : forall e0 (f g : nat), reachable e0 -> e_state e0 = default_state -> p_root (e_par e0) = true -> p_aug (e_par e0) = AAll ->
  e_bodyQ e0 = demo_noise -> e_time e0 = 0%R -> e_size e0 = 18 -> e_max_len e0 = 20 ->
  (forall i j, i < 18 -> j < 18 -> ent (e_cov e0) i j = if Nat.eqb i j then (1/10)%R else 0%R) ->
  exists e, reachable e /\ p_root (e_par e) = true /\ per_frame e 1 = true /\ e_max_len e = 1 /\
    length (aug_at e 1) = 1 /\
    nth_error (layout (e_state e)) 27 = Some (LAug 2 0 3) /\ nth_error (layout (e_state e)) 18 = Some (LAug 1 0 0) /\
    row_share e 18 27 27 <> 0%R.
Proof.
  intros e0 f g R0 S0 RT A0 Q0 T0 Z0 M0 V0. pose proof (reachable_inv e0 R0) as I0.
  destruct (step_inv e0 ORefresh I0 Logic.I) as [e1 [E1 I1]].
  assert (R1 : reachable e1) by (eapply reachable_step; [exact R0| |exact E1]; exact Logic.I).
  pose proof E1 as E1s. cbn [step] in E1.
  destruct (Refresh_pre e0 (wf_pre _ (proj1 I0))) as [e1' [E1' [_ [_ [B1 [B2 [B3 [B4 [B5 [B6 [_ [Q' B7]]]]]]]]]]]].
  rewrite E1 in E1'. injection E1' as <-. rewrite S0 in B1. change (ix_state default_state) with default_state in B1.
  assert (M1 : e_max_len e1 = 20) by (rewrite B7; exact M0). clear B7.
  set (e2 := InitializeGravity e1).
  assert (R2 : reachable e2) by (apply (reachable_step e1 OInitGravity e2 R1 Logic.I eq_refl)).
  assert (P2 : e_par e2 = e_par e0) by (unfold e2; cbn; exact B4).
  assert (S2 : e_state e2 = default_state) by (unfold e2; cbn; exact B1).
  assert (T2 : e_time e2 = 0%R) by (unfold e2; cbn; congruence).
  assert (Z2 : e_size e2 = 18) by (unfold e2; cbn; congruence).
  assert (M2 : e_max_len e2 = 20) by exact M1.
  assert (V2 : forall i j, i < 18 -> j < 18 -> ent (e_cov e2) i j = if Nat.eqb i j then (1/10)%R else 0%R).
  { intros i j Hi Hj. change (e_cov e2) with (e_cov e1). rewrite B2. auto. }
  assert (BQ2 : e_bodyQ e2 = demo_noise) by (unfold e2; cbn; congruence).
  assert (G2 : e_gravity e2 = true) by reflexivity.
  assert (E2s : step e1 OInitGravity = OK e2) by reflexivity.
  clearbody e2.
  pose proof (reachable_inv e2 R2) as I2.
  assert (PF2 : per_frame e2 2 = true) by (unfold per_frame; rewrite P2, A0; reflexivity).
  (* the frame of camera 2 *)
  destruct (step_inv e2 (OFrame 2 f) I2 Logic.I) as [e3 [E3 I3]].
  assert (R3 : reachable e3) by (apply (reachable_step e2 (OFrame 2 f) e3 R2 Logic.I E3)).
  pose proof E3 as E3s. cbn [step] in E3.
  destruct (AugmentStateFrame_ok e2 2 f (proj1 I2)) as [x [Ex [_ [F3 [_ [_ H3]]]]]]. rewrite E3 in Ex. injection Ex as <-.
  destruct (H3 PF2) as [S3 [_ [H3' _]]]. clear H3.
  assert (A2 : aug_at e2 2 = []) by (unfold aug_at; rewrite S2; reflexivity). rewrite A2 in *.
  destruct (H3' ltac:(rewrite M2; cbn; lia)) as [Z3 [_ EA3]]. clear H3'. rewrite Z2 in Z3.
  rewrite S2 in EA3. change (start_aug default_state + before 2 (s_aug default_state) + 6 * length (@nil AugState)) with 18 in EA3.
  unfold next_window in S3. rewrite M2 in S3. change (length (@nil AugState) <? 20) with true in S3. cbv iota in S3.
  destruct (blank_one (e_state e2) _ (clone_of e2 f) ltac:(rewrite S2; repeat split) S3) as [w B3'].
  unfold frame in F3. destruct F3 as [P3 [T3 [_ [_ [M3 [BQ3 F3]]]]]]. decompose [and] F3. clear F3.
  match goal with H : e_gravity e3 = _ |- _ => assert (G3 : e_gravity e3 = true) by (rewrite H; exact G2) end.
  change (e_par (with_frame_recv e2 true)) with (e_par e2) in P3. change (e_time (with_frame_recv e2 true)) with (e_time e2) in T3.
  change (e_max_len (with_frame_recv e2 true)) with (e_max_len e2) in M3. change (e_bodyQ (with_frame_recv e2 true)) with (e_bodyQ e2) in BQ3.
  rewrite P2 in P3. rewrite T2 in T3. rewrite M2 in M3. rewrite BQ2 in BQ3.
  pose proof (wf_nr _ (proj1 I2)) as N2r. pose proof (wf_nc _ (proj1 I2)) as N2c. rewrite Z2 in N2r, N2c.
  assert (RT2 : is_root e2 = true) by (unfold is_root; rewrite P2; exact RT). rewrite RT2 in EA3.
  assert (U2 : upper 18 (ent (e_cov e2))) by (pose proof (proj2 I2) as G; rewrite RT2, Z2 in G; exact G).
  assert (V3 : eqm 24 24 (covariance e3) (fun i j => if clone_src 18 i =? clone_src 18 j then (1/100)%R else 0%R)).
  { intros i j Hi Hj. unfold covariance. rewrite P3, RT, Z3.
    rewrite (stands_clone true 18 (e_cov e2) (e_cov e3) 18 N2r N2c ltac:(lia) U2 EA3 i j Hi Hj).
    cbn [stands_for]. unfold gram, mm, tr.
    assert (Li : clone_src 18 i < 18) by (rewrite clone_src_24 by exact Hi; do 24 (destruct i; [cbn; lia|]); lia).
    assert (Lj : clone_src 18 j < 18) by (rewrite clone_src_24 by exact Hj; do 24 (destruct j; [cbn; lia|]); lia).
    rewrite (rsum_single 18 (clone_src 18 i)); [|exact Li|].
    - rewrite !V2 by assumption. rewrite Nat.eqb_refl. destruct (clone_src 18 i =? clone_src 18 j); lra.
    - intros k Hk Hne. rewrite !V2 by assumption. apply Nat.eqb_neq in Hne. rewrite Hne. ring. }
  assert (UC : uncoupled e3).
  { intros i j Hi Hj. rewrite Z3 in Hj. destruct (Augment_root_spec (e_cov e2) 18) as [o [Eo [O1 [O2 O3]]]]; [lia|lia| |].
    { intros a b Hab. apply U2. lia. }
    rewrite EA3 in Eo. injection Eo as <-. rewrite O3 by lia. rewrite (proj2 (Nat.ltb_lt _ _)) by lia.
    rewrite clone_src_24 by lia. do 18 (destruct j; [lia|]).
    rewrite V2; [|lia|do 6 (destruct j; [cbn; lia|]); lia].
    rewrite (proj2 (Nat.eqb_neq _ _)); [reflexivity|]. do 6 (destruct j; [cbn; lia|]). lia. }
  assert (C3 : configured e3).
  { apply (configured_history e0 ORefresh [OInitGravity; OFrame 2 f] e1 e3 R0 Logic.I Logic.I E1s).
    - cbn [respects]. split; [exact Logic.I|]. intros y Hy. split; [exact Logic.I|]. auto.
    - repeat constructor.
    - cbn [run]. rewrite E2s. cbn [bind]. rewrite E3s. reflexivity. }
  assert (NT3 : ~ timed e3) by (unfold timed; rewrite P3, A0; intros [|]; discriminate).
  (* prediction *)
  destruct (root_predict e3 1 R3 ltac:(rewrite P3; exact RT) C3 G3 ltac:(rewrite T3; lra)) as [y [e4 [E4 [_ [Y [Z4 [_ N4]]]]]]].
  specialize (Y NT3). subst y. specialize (N4 UC). rewrite Z3 in Z4, N4. rewrite T3, Rminus_0_r in N4.
  assert (R4 : reachable e4) by (apply (reachable_step e3 (OPredict 1) e4 R3 Logic.I E4)).
  pose proof (reachable_inv e4 R4) as I4.
  assert (X4 : e_par e4 = e_par e3 /\ e_max_len e4 = e_max_len e3 /\ blank (e_state e4) [(2, [w])]).
  { destruct (predict_full e3 1 e4 I3 E4) as [[L _]|[_ [e5 [K5 [_ K6]]]]]; [rewrite T3 in L; lra|].
    unfold model_step in K5. rewrite G3 in K5. destruct K5 as [c [_ ->]].
    unfold AugmentStateIfNeeded in K6. cbn [e_par with_time with_cov with_state] in K6. rewrite P3, A0 in K6. injection K6 as <-.
    cbn. split; [reflexivity|]. split; [reflexivity|]. exact B3'. }
  destruct X4 as [P4 [M4 B4']]. rewrite P3 in P4. rewrite M3 in M4.
  pose proof (own_rows e3 e4 w R3 R4 ltac:(rewrite P3; exact RT) ltac:(rewrite P4; exact RT) Z3 Z4 B3' BQ3 V3 N4) as OWN.
  (* the frame of camera 1 *)
  assert (PF4 : per_frame e4 1 = true) by (unfold per_frame; rewrite P4, A0; reflexivity).
  destruct (step_inv e4 (OFrame 1 g) I4 Logic.I) as [e5 [E5 I5]].
  assert (R5 : reachable e5) by (apply (reachable_step e4 (OFrame 1 g) e5 R4 Logic.I E5)).
  cbn [step] in E5.
  destruct (AugmentStateFrame_ok e4 1 g (proj1 I4)) as [x [Ex [_ [F5 [_ [_ K5]]]]]]. rewrite E5 in Ex. injection Ex as <-.
  destruct (K5 PF4) as [S5 [_ [K5' _]]]. clear K5.
  assert (A4 : aug_at e4 1 = []) by (unfold aug_at; destruct B4' as [_ [_ [_ [_ ->]]]]; reflexivity). rewrite A4 in *.
  destruct (K5' ltac:(rewrite M4; cbn; lia)) as [Z5 [_ EA5]]. clear K5'. rewrite Z4 in Z5.
  rewrite (blank_start _ _ B4') in EA5. destruct B4' as [b1 [b2 [b3 [b4 b5]]]]. rewrite b5 in EA5.
  change (18 + before 1 [(2, [w])] + 6 * length (@nil AugState)) with 18 in EA5.
  unfold next_window in S5. rewrite M4 in S5. change (length (@nil AugState) <? 20) with true in S5. cbv iota in S5.
  destruct (blank_two (e_state e4) _ (clone_of e4 g) w (conj b1 (conj b2 (conj b3 (conj b4 b5)))) S5) as [w1 [w2 B5']].
  destruct F5 as [P5 _]. change (e_par (with_frame_recv e4 true)) with (e_par e4) in P5. rewrite P4 in P5.
  pose proof (wf_nr _ (proj1 I4)) as N4r. pose proof (wf_nc _ (proj1 I4)) as N4c. rewrite Z4 in N4r, N4c.
  assert (RT4 : is_root e4 = true) by (unfold is_root; rewrite P4; exact RT). rewrite RT4 in EA5.
  assert (U4 : upper 24 (ent (e_cov e4))) by (pose proof (proj2 I4) as G; rewrite RT4, Z4 in G; exact G).
  destruct (Augment_root_spec (e_cov e4) 18) as [o [Eo [O1 [O2 O3]]]]; [lia|lia| |].
  { intros a b Hab. apply U4. lia. }
  rewrite EA5 in Eo. injection Eo as <-.
  (* the shorter window *)
  set (e6 := SetMaxTrackLength e5 1).
  assert (R6 : reachable e6) by (apply (reachable_step e5 (OSetLen 1) e6 R5); [cbn; lia|reflexivity]).
  exists e6. split; [exact R6|]. split; [cbn; rewrite P5; exact RT|]. split; [unfold per_frame; cbn; rewrite P5, A0; reflexivity|].
  split; [reflexivity|]. split. { unfold aug_at. cbn. destruct B5' as [_ [_ [_ [_ ->]]]]. reflexivity. }
  destruct (blank_layout _ _ _ B5') as [L27 L18].
  split; [exact L27|]. split; [exact L18|].
  unfold row_share. change (e_cov e6) with (e_cov e5).
  rewrite (rsum_ext 6 _ (fun k => ent (e_cov e4) (18 + k)%nat 21%nat * ent (e_cov e4) (18 + k)%nat 21%nat)%R); [exact OWN|].
  intros k Hk. rewrite O3 by lia. rewrite (proj2 (Nat.ltb_lt _ _)) by lia. reflexivity.
Qed.

Lemma root_drop_refuted : exists e cam f e', reachable e /\ per_frame e cam = true /\ p_root (e_par e) = true /\
  e_max_len e <= length (aug_at e cam) /\ AugmentStateFrame e cam f = OK e' /\
  ~ inherits e e' (fun a => from_drop cam 0 (from_clone cam (length (aug_at e cam) - 1) a)).
Proof.
  destruct (drop_gen (demo0 AAll true) 7 8 (demo0_reachable AAll true) eq_refl eq_refl eq_refl eq_refl eq_refl eq_refl eq_refl)
    as [e [R0 [RT [PF [ML [LA [L27 [L18 NZ]]]]]]]].
  { intros i j Hi Hj. cbn [demo0 EKF_init e_cov demo_par p_root mmap ent mscale midm]. unfold mscal, idm.
    destruct (Nat.eqb i j).
    - replace (1 / 100 * 1)%R with ((1/10) * (1/10))%R by lra. apply sqrt_square. lra.
    - rewrite Rmult_0_r. apply sqrt_0. }
  pose proof (reachable_inv e R0) as I.
  destruct (frame_inv e 1 9 I) as [e' [E I']].
  exists e, 1, 9, e'. do 3 (split; [assumption|]). split; [lia|]. split; [exact E|]. intros INH.
  destruct (frame_shifts_root e 1 9 e' R0 PF RT ltac:(lia) E) as [x [Hx [FG _]]].
  pose proof (inv_NoDup e I) as ND. rewrite NoDup_nth_error in ND.
  assert (x = 18) by (apply ND; [apply nth_error_Some; congruence|congruence]). subst x.
  assert (LY : layout (e_state e') = layout (e_state e)).
  { destruct (AugmentStateFrame_ok e 1 9 (proj1 I)) as [e2 [E2 [_ [_ [_ [_ H]]]]]]. rewrite E in E2. injection E2 as <-.
    destruct (H PF) as [S' _]. unfold next_window in S'. rewrite (proj2 (Nat.ltb_ge _ _)) in S' by lia.
    destruct (layout_window (e_state e) 1 (aug_sorted e (wf_pre _ (proj1 I)))) as [L0 [R [_ [_ [_ [_ [H1 H2]]]]]]].
    rewrite S', ix_layout, H2, H1. f_equal. f_equal. apply aug_labels_len. fold (aug_at e 1).
    rewrite app_length. cbn [length]. destruct (aug_at e 1) as [|a [|b l]]; cbn [length tl] in *; lia. }
  assert (IN : In (LAug 2 0 3) (layout (e_state e'))) by (rewrite LY; eapply nth_error_In; exact L27).
  pose proof (fg_cov _ _ _ _ FG (LAug 2 0 3) (LAug 2 0 3) 27 27 IN IN L27 L27) as K1.
  pose proof (inh_cov _ _ _ INH (LAug 2 0 3) (LAug 2 0 3) (covariance e 27 27) IN IN) as K2.
  specialize (K2 ltac:(exists 27, 27; split; [exact L27|]; split; [exact L27|reflexivity])).
  destruct K1 as [i [j [Hi [Hj V1]]]]. destruct K2 as [i2 [j2 [Hi2 [Hj2 V2]]]].
  rewrite LY in Hi, Hj, Hi2, Hj2.
  assert (X : forall k, nth_error (layout (e_state e)) k = Some (LAug 2 0 3) -> k = 27).
  { intros k Hk. apply ND; [apply nth_error_Some; congruence|congruence]. }
  rewrite (X i Hi), (X j Hj) in V1. rewrite (X i2 Hi2), (X j2 Hj2) in V2. rewrite V2 in V1. apply NZ. lra.
Qed.
