(** The filter of the code and the filter without indices move together. *)
From Coq Require Import Reals List Arith Bool Lia Lra Permutation.
From Verif Require Import Base.Res Base.Mat Base.RDec Base.RSum Base.LinAlg Base.Inverse Base.Geom Base.AMap Base.RMat
  Model.TypeHelper Model.Types Model.MathHelperMat Model.Ekf Model.Updater Model.Ops
  Spec.Layout Spec.History Spec.Contract Spec.Correct Spec.Named Spec.Same Spec.KF Spec.Motion Spec.Noise Spec.ByName
  Proofs.Refresh Proofs.Wf Proofs.Register Proofs.Augment Proofs.Invariant Proofs.Named Proofs.Clones Proofs.Same Proofs.Update
  Proofs.LayoutNoDup Proofs.Sizes Proofs.Scalars Proofs.Clock Proofs.Effects Proofs.Windows Proofs.Pruning Proofs.CloneFacts Proofs.Predict Proofs.Finals Proofs.Noise.
Import ListNotations.
Open Scope nat_scope.

(** The name of the scalar with a given label. *)
Definition nm (first : nat -> nat) (x : label) : name :=
  match x with
  | LBody k => NBody k
  | LImuExt id k => NImuExt id k
  | LImuInt id k => NImuInt id k
  | LGps id k => NGps id k
  | LCam id k => NCam id k
  | LFid id k => NFid id k
  | LAug cam p k => NClone cam (first cam + p) k
  end.
Lemma nm_inj : forall f x y, nm f x = nm f y -> x = y.
Proof. intros f x y H. destruct x, y; cbn in H; try discriminate; injection H; intros; subst; try reflexivity. f_equal; lia. Qed.

Record twin (e : ekf) (a : byname) : Prop := mkTwin {
  tw_inv : inv e;
  tw_root : p_root (e_par e) = false;
  tw_in : forall x, In x (layout (e_state e)) -> In (nm (n_first a) x) (n_names a);
  tw_out : forall n, In n (n_names a) -> exists x, In x (layout (e_state e)) /\ nm (n_first a) x = n;
  tw_nodup : NoDup (n_names a);
  tw_cov : forall x y, In x (layout (e_state e)) -> In y (layout (e_state e)) ->
    cov_is e x y (n_cov a (nm (n_first a) x) (nm (n_first a) y));
  tw_rate : forall i x, at_ (e_state e) x i -> ent (e_Q e) i i = n_rate a (nm (n_first a) x);
  tw_own : forall x, In x (layout (e_state e)) ->
    own_rate (e_state e) (e_bodyQ e) x = n_own (n_body a) (n_stab a) (nm (n_first a) x);
  tw_body : forall k, ent (e_bodyQ e) k 0 = n_body a k;
  tw_time : e_time e = n_time a;
  tw_started : e_time_init e = n_started a;
  tw_gravity : e_gravity e = n_gravity a;
  tw_max : e_max_len e = n_max a;
  tw_primary : e_primary e = n_primary a;
  tw_imus : forall id, In id (n_imus a) <-> In id (keys (s_imu (e_state e)));
  tw_gpss : forall id, In id (n_gpss a) <-> In id (keys (s_gps (e_state e)));
  tw_cams : forall id, In id (n_cams a) <-> In id (keys (s_cam (e_state e)));
  tw_fids : forall id, In id (n_fids a) <-> In id (keys (s_fid (e_state e)));
  tw_win : forall k, n_next a k = n_first a k + length (aug_at e k) }.

(** *** From labels to index members *)
Lemma in_layout : forall s x, In x (layout s) ->
  match x with
  | LBody k => k < 18
  | LImuExt id k => exists v, In (id, v) (s_imu s) /\ i_ext v = true /\ k < 6
  | LImuInt id k => exists v, In (id, v) (s_imu s) /\ i_int v = true /\ k < 6
  | LGps id k => exists v, In (id, v) (s_gps s) /\ g_ext v = true /\ k < 3
  | LCam id k => exists v, In (id, v) (s_cam s) /\ c_ext v = true /\ k < 6
  | LFid id k => exists v, In (id, v) (s_fid s) /\ f_ext v = true /\ k < 6
  | LAug cam p k => exists l v, In (cam, l) (s_aug s) /\ nth_error l p = Some v /\ k < 6
  end.
Proof.
  intros s x H. unfold layout in H. rewrite !in_app_iff, !in_flat_map in H.
  destruct H as [H|[[[id v] [H1 H2]]|[[[id v] [H1 H2]]|[[[id v] [H1 H2]]|[[[id v] [H1 H2]]|[[id l] [H1 H2]]]]]]].
  - apply in_map_iff in H. destruct H as [k [<- H]]. apply in_seq in H. lia.
  - unfold imu_labels in H2. cbn [fst snd] in H2. apply in_app_iff in H2. destruct H2 as [H2|H2].
    + destruct (i_ext v) eqn:E; [|destruct H2]. apply in_map_iff in H2. destruct H2 as [k [<- H2]]. apply in_seq in H2.
      exists v. repeat split; auto; lia.
    + destruct (i_int v) eqn:E; [|destruct H2]. apply in_map_iff in H2. destruct H2 as [k [<- H2]]. apply in_seq in H2.
      exists v. repeat split; auto; lia.
  - unfold gps_labels in H2. cbn [fst snd] in H2. destruct (g_ext v) eqn:E; [|destruct H2].
    apply in_map_iff in H2. destruct H2 as [k [<- H2]]. apply in_seq in H2. exists v. repeat split; auto; lia.
  - unfold cam_labels in H2. cbn [fst snd] in H2. destruct (c_ext v) eqn:E; [|destruct H2].
    apply in_map_iff in H2. destruct H2 as [k [<- H2]]. apply in_seq in H2. exists v. repeat split; auto; lia.
  - unfold fid_labels in H2. cbn [fst snd] in H2. destruct (f_ext v) eqn:E; [|destruct H2].
    apply in_map_iff in H2. destruct H2 as [k [<- H2]]. apply in_seq in H2. exists v. repeat split; auto; lia.
  - apply aug_labels_key in H2. destruct H2 as [p [c [-> [Hp Hc]]]].
    destruct (nth_error l p) as [v|] eqn:E; [|apply nth_error_None in E; lia]. exists l, v. auto.
Qed.

Lemma partition_inv : forall e, inv e ->
  index_fields_correct (e_state e) /\ NoDup (layout (e_state e)) /\ length (layout (e_state e)) = e_size e.
Proof.
  intros e [W G]. split; [apply indexed_correct, W|]. split; [apply layout_NoDup, (pre_sorted _ (wf_pre _ W))|apply (dim_size e W)].
Qed.
Lemma told_nm : forall e f x i, inv e -> at_ (e_state e) x i -> told e f (nm f x) = Some i.
Proof.
  intros e f x i I H. destruct (partition_inv e I) as [IF [ND _]].
  pose proof (pre_sorted _ (wf_pre _ (proj1 I))) as S. destruct S as (S1 & S2 & S3 & S4 & S5).
  assert (U : forall j, at_ (e_state e) x j -> Some j = Some i) by (intros j Hj; f_equal; exact (layout_unique e x j i I Hj H)).
  pose proof (nth_error_In _ _ H) as HI. apply in_layout in HI.
  destruct IF as (I0 & I1 & I2 & I3 & I4 & I5).
  destruct x; cbn [told nm].
  - apply U. rewrite I0. cbn. unfold at_, layout. rewrite nth_error_app1 by (rewrite map_length, seq_length; exact HI).
    apply nth_seq_map. exact HI.
  - destruct HI as [v [H1 [H2 H3]]]. rewrite (in_mfind _ _ _ _ S1 H1). cbn. apply U. apply (I1 id v H1); auto.
  - destruct HI as [v [H1 [H2 H3]]]. rewrite (in_mfind _ _ _ _ S1 H1). cbn. apply U. apply (I1 id v H1); auto.
  - destruct HI as [v [H1 [H2 H3]]]. rewrite (in_mfind _ _ _ _ S2 H1). cbn. apply U. apply (I2 id v H1); auto.
  - destruct HI as [v [H1 [H2 H3]]]. rewrite (in_mfind _ _ _ _ S3 H1). cbn. apply U. apply (I3 id v H1); auto.
  - destruct HI as [v [H1 [H2 H3]]]. rewrite (in_mfind _ _ _ _ S4 H1). cbn. apply U. apply (I4 id v H1); auto.
  - destruct HI as [l [v [H1 [H2 H3]]]]. replace (f key + pos - f key) with pos by lia.
    unfold aug_at, mget. rewrite (in_mfind _ _ _ _ S5 H1), H2. cbn. apply U. apply (I5 key l pos v H1 H2); auto.
Qed.

Lemma twin_at : forall e a n, twin e a -> In n (n_names a) -> exists x i, at_ (e_state e) x i /\ nm (n_first a) x = n /\
  told e (n_first a) n = Some i /\ i < e_size e.
Proof.
  intros e a n T H. destruct (tw_out _ _ T n H) as [x [Hx <-]]. apply In_nth_error in Hx. destruct Hx as [i Hi].
  exists x, i. split; [exact Hi|]. split; [reflexivity|]. split; [apply told_nm; [apply T|exact Hi]|].
  rewrite <- (proj2 (proj2 (partition_inv e (tw_inv _ _ T)))). apply nth_error_Some. congruence.
Qed.

Lemma twin_agree : forall e a, twin e a -> agree e a.
Proof.
  intros e a T. pose proof (tw_inv _ _ T) as I. constructor.
  - intros x Hx. destruct (twin_at e a x T Hx) as [y [i [_ [_ [H1 H2]]]]]. eauto.
  - intros x y i Hx Hy E1 E2. destruct (twin_at e a x T Hx) as [u [k [K1 [K2 [K3 _]]]]].
    destruct (twin_at e a y T Hy) as [v [l [L1 [L2 [L3 _]]]]]. rewrite E1 in K3. rewrite E2 in L3.
    injection K3 as <-. injection L3 as <-. unfold at_ in *. rewrite K1 in L1. injection L1 as <-. congruence.
  - intros i Hi. rewrite <- (proj2 (proj2 (partition_inv e I))) in Hi. apply nth_error_Some in Hi.
    destruct (nth_error (layout (e_state e)) i) as [x|] eqn:E; [|congruence].
    exists (nm (n_first a) x). split; [apply T; eapply nth_error_In; exact E|]. apply told_nm; auto.
  - intros x y i j Hx Hy E1 E2. destruct (twin_at e a x T Hx) as [u [k [K1 [K2 [K3 _]]]]].
    destruct (twin_at e a y T Hy) as [v [l [L1 [L2 [L3 _]]]]]. rewrite E1 in K3. rewrite E2 in L3.
    injection K3 as <-. injection L3 as <-. subst x y.
    pose proof (tw_cov _ _ T u v (nth_error_In _ _ K1) (nth_error_In _ _ L1)) as [i' [j' [A [B C]]]].
    rewrite (layout_unique e u i i' I K1 A), (layout_unique e v j j' I L1 B). exact C.
Qed.

(** *** Noise rates under re-indexing *)
Lemma own_same : forall s s' q q', sorted_state s -> sorted_state s' -> layout s' = layout s ->
  noise_list s' q' = noise_list s q -> forall x, In x (layout s) -> own_rate s' q' x = own_rate s q x.
Proof.
  intros s s' q q' S S' L N. pose proof (rates s q S) as R. pose proof (rates s' q' S') as R'.
  assert (E : map (own_rate s' q') (layout s) = map (own_rate s q) (layout s)).
  { rewrite R, <- L, R', N. f_equal. f_equal.
    pose proof (f_equal (@length _) R) as A. pose proof (f_equal (@length _) R') as B.
    rewrite !app_length, !map_length, !repeat_length in A, B. rewrite N, L in B. lia. }
  intros x Hx. revert E. generalize (layout s) as l, Hx. clear. induction l as [|y l IH]; intros Hx E; [destruct Hx|].
  cbn [map] in E. injection E as E1 E2. destruct Hx as [->|Hx]; auto.
Qed.

Lemma own_ix : forall s q x, sorted_state s -> sorted_state (ix_state s) -> In x (layout s) ->
  own_rate (ix_state s) q x = own_rate s q x.
Proof. intros s q x S S' H. apply own_same; auto; [apply ix_layout|apply ix_noise]. Qed.

(** *** Registration *)
Lemma position_in : forall l x, In x l -> exists k, position x l = Some k /\ nth_error l k = Some x.
Proof.
  induction l as [|y l IH]; intros x H; [destruct H|]. cbn [position]. destruct (name_dec x y) as [->|D].
  - exists 0. auto.
  - destruct H as [H|H]; [congruence|]. destruct (IH x H) as [k [E1 E2]]. rewrite E1. exists (S k). auto.
Qed.
Lemma position_out : forall l x, ~ In x l -> position x l = None.
Proof.
  induction l as [|y l IH]; intros x H; [reflexivity|]. cbn [position]. destruct (name_dec x y) as [->|D]; [exfalso; apply H; left; auto|].
  rewrite IH by (intro; apply H; right; auto). reflexivity.
Qed.
Lemma position_nth : forall l x k, NoDup l -> nth_error l k = Some x -> position x l = Some k.
Proof.
  intros l x k ND H. destruct (position_in l x (nth_error_In _ _ H)) as [j [E1 E2]]. rewrite E1. f_equal.
  rewrite NoDup_nth_error in ND. apply ND; [apply nth_error_Some; congruence|congruence].
Qed.
Lemma known_in : forall id l, known id l = true <-> In id l.
Proof.
  intros id l. unfold known. rewrite existsb_exists. split.
  - intros [x [H E]]. apply Nat.eqb_eq in E. subst. exact H.
  - intros H. exists id. rewrite Nat.eqb_refl. auto.
Qed.
Lemma keys_find : forall A id (m : amap A), In id (keys m) <-> mfind id m <> None.
Proof.
  intros A id m. split.
  - intros H E. induction m as [|[k v] m IH]; [destruct H|]. cbn in E, H. destruct (Nat.eqb_spec id k); [discriminate|].
    destruct H as [H|H]; [congruence|auto].
  - intros H. destruct (mfind id m) as [v|] eqn:E; [|congruence]. apply mfind_in in E. apply in_map_iff. exists (id, v). auto.
Qed.
Lemma keys_mset : forall A id (v : A) m k, In k (keys (mset id v m)) <-> k = id \/ In k (keys m).
Proof.
  intros A id v m k. split; [apply mset_keys_in|]. intros H. apply keys_find.
  destruct (Nat.eq_dec k id) as [->|D]; [rewrite mfind_mset_eq; discriminate|].
  rewrite mfind_mset_neq by auto. destruct H as [H|H]; [congruence|]. apply keys_find. exact H.
Qed.

Lemma configured_rate : forall e i x, configured e -> p_root (e_par e) = false -> at_ (e_state e) x i ->
  ent (e_Q e) i i = own_rate (e_state e) (e_bodyQ e) x.
Proof. intros e i x (_ & _ & C) RT H. rewrite (C i i x x H H), Nat.eqb_refl, RT. reflexivity. Qed.

Lemma twin_enrol : forall e a e' N c (C : fmat) stab imus gpss cams fids prim, twin e a -> inv e' -> configured e' ->
  adds e e' N C -> NoDup N -> (forall x, In x N -> ~ In x (layout (e_state e))) ->
  (forall k l, k < length N -> l < length N -> C k l = ent c k l) ->
  (forall x, In x N -> own_rate (e_state e') (e_bodyQ e') x = stab (nm (n_first a) x)) ->
  (forall x, In x N -> match x with LBody _ | LAug _ _ _ => False | _ => True end) ->
  (forall x, In x (layout (e_state e)) -> own_rate (e_state e') (e_bodyQ e') x = own_rate (e_state e) (e_bodyQ e) x) ->
  frame e e' -> (forall k, length (aug_at e' k) = length (aug_at e k)) -> e_primary e' = prim ->
  (forall id, In id imus <-> In id (keys (s_imu (e_state e')))) ->
  (forall id, In id gpss <-> In id (keys (s_gps (e_state e')))) ->
  (forall id, In id cams <-> In id (keys (s_cam (e_state e')))) ->
  (forall id, In id fids <-> In id (keys (s_fid (e_state e')))) ->
  twin e' (nm_refresh (with_ids (nm_enrol a (map (nm (n_first a)) N) c stab) imus gpss cams fids prim)).
Proof.
  intros e a e' N c C stab imus gpss cams fids prim T Hr' CF AD NDN FR CC OS NB OO F WL EP K1 K2 K3 K4.
  set (f := n_first a) in *. set (l := map (nm f) N).
  assert (NDl : NoDup l) by (apply FinFun.Injective_map_NoDup; [intros u v; apply nm_inj|exact NDN]).
  assert (PN : forall x k, nth_error N k = Some x -> position (nm f x) l = Some k).
  { intros x k H. apply position_nth; [exact NDl|]. apply map_nth_error. exact H. }
  assert (PO : forall x, In x (layout (e_state e)) -> position (nm f x) l = None).
  { intros x H. apply position_out. intros H'. apply in_map_iff in H'. destruct H' as [y [E Hy]]. apply nm_inj in E. subst y.
    exact (FR x Hy H). }
  destruct F as (F1 & F2 & F3 & F4 & F5 & F6 & _ & _ & _ & _ & _ & _ & _ & F13 & _).
  assert (OWN : forall x, In x (layout (e_state e')) ->
    own_rate (e_state e') (e_bodyQ e') x = n_own (n_body a) (fun x => match position x l with Some _ => stab x | None => n_stab a x end) (nm f x)).
  { intros x Hx. apply (adds_names _ _ _ _ AD) in Hx. destruct Hx as [Hx|Hx].
    - rewrite OO by exact Hx. rewrite (tw_own _ _ T x Hx). fold f. unfold n_own.
      pose proof (PO x Hx) as P. destruct (nm f x) eqn:E; try reflexivity; rewrite P; reflexivity.
    - rewrite OS by exact Hx. specialize (NB x Hx). destruct (In_nth_error _ _ Hx) as [k Hk]. pose proof (PN x k Hk) as P.
      unfold n_own. destruct x; try contradiction; cbn [nm] in *; rewrite P; reflexivity. }
  constructor; cbn [nm_refresh with_ids nm_enrol n_names n_cov n_rate n_body n_stab n_time n_started n_gravity n_max n_primary n_imus n_gpss n_cams n_fids n_first n_next]; fold f; fold l; auto.
  - rewrite F1. apply T.
  - intros x Hx. apply (adds_names _ _ _ _ AD) in Hx. apply in_or_app. destruct Hx as [Hx|Hx].
    + right. apply (tw_in _ _ T). exact Hx.
    + left. apply in_map. exact Hx.
  - intros n Hn. apply in_app_or in Hn. destruct Hn as [Hn|Hn].
    + apply in_map_iff in Hn. destruct Hn as [x [<- Hx]]. exists x. split; [apply AD; auto|reflexivity].
    + destruct (tw_out _ _ T n Hn) as [x [Hx E]]. exists x. split; [apply AD; auto|exact E].
  - assert (DIS : forall n, In n l -> ~ In n (n_names a)).
    { intros n H1 H2. apply in_map_iff in H1. destruct H1 as [x [<- Hx]]. destruct (tw_out _ _ T _ H2) as [y [Hy E]].
      apply nm_inj in E. subst y. exact (FR x Hx Hy). }
    clear - NDl DIS T. induction l as [|n t IH]; cbn [app]; [apply T|]. inversion NDl; subst. constructor.
    + rewrite in_app_iff. intros [H|H]; [auto|]. apply (DIS n); [left; auto|exact H].
    + apply IH; auto. intros m Hm. apply DIS. right. exact Hm.
  - intros x y Hx Hy. apply (adds_names _ _ _ _ AD) in Hx, Hy. destruct Hx as [Hx|Hx], Hy as [Hy|Hy].
    + rewrite (PO x Hx), (PO y Hy). apply (adds_old _ _ _ _ AD). apply T; auto.
    + rewrite (PO x Hx). destruct (In_nth_error _ _ Hy) as [k Hk]. rewrite (PN y k Hk).
      exact (proj2 (adds_cross _ _ _ _ AD y x Hy Hx)).
    + rewrite (PO y Hy). destruct (In_nth_error _ _ Hx) as [k Hk]. rewrite (PN x k Hk).
      exact (proj1 (adds_cross _ _ _ _ AD x y Hx Hy)).
    + destruct (In_nth_error _ _ Hx) as [k Hk]. destruct (In_nth_error _ _ Hy) as [j Hj].
      rewrite (PN x k Hk), (PN y j Hj). rewrite <- CC by (apply nth_error_Some; congruence).
      apply (adds_new _ _ _ _ AD); assumption.
  - intros i x H. rewrite (configured_rate e' i x CF); [|rewrite F1; apply T|exact H]. apply OWN. eapply nth_error_In; exact H.
  - intros k. rewrite F6. apply T.
  - rewrite F2. apply T.
  - rewrite F4. apply T.
  - rewrite F13. apply T.
  - rewrite F5. apply T.
  - intros k. rewrite WL. apply T.
Qed.

Lemma reg_windows : forall s s1 k, s_aug s1 = s_aug s ->
  length (mget [] k (s_aug (ix_state s1))) = length (mget [] k (s_aug s)).
Proof.
  intros s s1 k H. unfold ix_state. cbn [s_aug].
  rewrite <- (map_length astrip), astrip_ix_at, map_length, H. reflexivity.
Qed.
Lemma above_new : forall id l, above id l -> known id l = false -> forall k, In k l -> k < id.
Proof. intros id l [H|H] N; [apply known_in in H; congruence|exact H]. Qed.

Lemma known_find : forall A id l (m : amap A), (forall id, In id l <-> In id (keys m)) ->
  (known id l = true <-> mfind id m <> None).
Proof. intros A id l m H. rewrite known_in, H. apply keys_find. Qed.
Lemma NoDup_six : forall f, (forall i j, f i = f j -> i = j) -> NoDup (six f).
Proof. intros f H. apply FinFun.Injective_map_NoDup; [exact H|apply seq_NoDup]. Qed.
Lemma NoDup_three : forall f, (forall i j, f i = f j -> i = j) -> NoDup (three f).
Proof. intros f H. apply FinFun.Injective_map_NoDup; [exact H|apply seq_NoDup]. Qed.

Lemma step_imu : forall e a id st c e', reachable e -> twin e a -> contract e (ORegImu id st c) -> above id (n_imus a) ->
  RegisterIMU e id st c = OK e' -> twin e' (nm_imu a id st c).
Proof.
  intros e a id st c e' Hr T C AB E. pose proof (reachable_inv e Hr) as I.
  unfold nm_imu. destruct (known id (n_imus a)) eqn:K.
  { apply (known_find _ id _ _ (tw_imus _ _ T)) in K. rewrite reg_imu_dup in E by exact K. injection E as <-. exact T. }
  pose proof (above_new _ _ AB K) as AB'.
  assert (B : below id (s_imu (e_state e))) by (intros k Hk; apply AB', (tw_imus _ _ T); exact Hk).
  pose proof (below_fresh _ _ _ B) as Hf.
  pose proof (register_imu_named e id st c e' I C B E) as AD. rewrite (tw_root _ _ T) in AD. cbn [stands_for] in AD.
  pose proof (reachable_step e (ORegImu id st c) e' Hr C E) as Hr'. pose proof (reachable_inv e' Hr') as I'.
  pose proof (refreshing_configured e (ORegImu id st c) e' Hr C Hf E) as CF.
  destruct (C Hf) as [H1 [H2 [H3 H4]]]. rewrite imu_labels_length in H1. cbn [snd] in H1. destruct H2 as [H2 [H2' _]].
  destruct (RegisterIMU_ok e id st c) as [e2 [E2 [_ [S' [HI [_ [F CM]]]]]]]; [apply I|exact Hf|repeat split; tauto|].
  rewrite E in E2. injection E2 as <-. pose proof CM as (CM1 & _). pose proof F as (_ & _ & _ & _ & _ & F6 & _).
  pose proof (pre_sorted _ (wf_pre _ (proj1 I))) as SS. pose proof (pre_sorted _ (wf_pre _ (proj1 I'))) as SS'.
  set (s1 := state_with_imu (e_state e) (mset id st (s_imu (e_state e)))) in *.
  assert (S1 : sorted_state s1).
  { destruct SS as (A1 & A2 & A3 & A4 & A5). repeat split; auto. apply mset_sorted. exact A1. }
  rewrite S' in SS'.
  assert (OW : forall x, In x (layout s1) -> own_rate (e_state e') (e_bodyQ e') x = own_rate s1 (e_bodyQ e) x).
  { intros x Hx. rewrite S', F6. apply own_ix; auto. }
  assert (LY : forall x, In x (layout s1) <-> In x (layout (e_state e)) \/ In x (imu_labels (id, st))).
  { intros x. rewrite <- ix_layout, <- S'. apply (adds_names _ _ _ _ AD). }
  assert (NL : forall x, In x (imu_labels (id, st)) -> exists k, x = LImuExt id k \/ x = LImuInt id k).
  { intros x Hx. unfold imu_labels in Hx. cbn [fst snd] in Hx. apply in_app_iff in Hx.
    destruct Hx as [Hx|Hx]; [destruct (i_ext st)|destruct (i_int st)]; try (exfalso; exact Hx);
      apply in_map_iff in Hx; destruct Hx as [k [<- _]]; exists k; auto. }
  assert (FR : forall x, In x (imu_labels (id, st)) -> ~ In x (layout (e_state e))).
  { intros x Hx Hx'. apply in_layout in Hx'. destruct (NL x Hx) as [k [->| ->]]; destruct Hx' as [v [Hv _]];
      apply (in_mfind _ _ _ _ (proj1 SS)) in Hv; congruence. }
  replace (imu_names id st) with (map (nm (n_first a)) (imu_labels (id, st))).
  2: { unfold imu_labels, imu_names. cbn [fst snd]. rewrite map_app.
       destruct (i_ext st), (i_int st); reflexivity. }
  apply (twin_enrol e a e' (imu_labels (id, st)) c (ent c) (imu_stab st)); auto.
  - unfold imu_labels. cbn [fst snd]. destruct (i_ext st), (i_int st); cbn [app]; rewrite ?app_nil_r;
      try (apply NoDup_six; intros i j X; congruence); [|constructor].
    vm_compute. repeat (constructor; [cbn; intuition congruence|]). constructor.
  - intros x Hx. rewrite OW by (apply LY; auto). destruct (NL x Hx) as [k [->| ->]]; cbn; rewrite mfind_mset_eq; reflexivity.
  - intros x Hx. destruct (NL x Hx) as [k [->| ->]]; exact Logic.I.
  - intros x Hx. rewrite OW by (apply LY; auto). pose proof (FR x) as FRx. pose proof (in_layout _ _ Hx) as Hx'.
    destruct x; try reflexivity; cbn; destruct Hx' as [v [Hv _]]; apply (in_mfind _ _ _ _ (proj1 SS)) in Hv;
      rewrite mfind_mset_neq by congruence; reflexivity.
  - intros k. unfold aug_at. rewrite S'. apply reg_windows. reflexivity.
  - rewrite CM1. apply T.
  - intros j. rewrite S'. unfold ix_state. cbn [s_imu]. rewrite ix_imus_keys. unfold s1. cbn [s_imu state_with_imu].
    rewrite keys_mset, <- (tw_imus _ _ T). cbn. intuition.
  - intros j. rewrite S'. unfold ix_state. cbn [s_gps]. rewrite ix_gpss_keys. apply T.
  - intros j. rewrite S'. unfold ix_state. cbn [s_cam]. rewrite ix_cams_keys. apply T.
  - intros j. rewrite S'. unfold ix_state. cbn [s_fid]. rewrite ix_fids_keys. apply T.
Qed.

Lemma step_gps : forall e a id st c e', reachable e -> twin e a -> contract e (ORegGps id st c) -> above id (n_gpss a) ->
  RegisterGPS e id st c = OK e' -> twin e' (nm_gps a id st c).
Proof.
  intros e a id st c e' Hr T C AB  E. pose proof (reachable_inv e Hr) as I.
  unfold nm_gps. destruct (known id (n_gpss a)) eqn:K.
  { apply (known_find _ id _ _ (tw_gpss _ _ T)) in K. rewrite reg_gps_dup in E by exact K. injection E as <-. exact T. }
  pose proof (above_new _ _ AB K) as AB'.
  assert (B : below id (s_gps (e_state e))) by (intros k Hk; apply AB', (tw_gpss _ _ T); exact Hk).
  pose proof (below_fresh _ _ _ B) as Hf.
  pose proof (register_gps_named e id st c e' I C B  E) as AD. rewrite (tw_root _ _ T) in AD. cbn [stands_for] in AD.
  pose proof (reachable_step e (ORegGps id st c) e' Hr C E) as Hr'. pose proof (reachable_inv e' Hr') as I'.
  pose proof (refreshing_configured e (ORegGps id st c) e' Hr C Hf E) as CF.
  destruct (C Hf) as [H1 [H2 H3]]. rewrite gps_labels_length in H1. cbn [snd] in H1. destruct H2 as [H2 [H2' _]].
  destruct (RegisterGPS_ok e id st c) as [e2 [E2 [_ [S' [HI [_ [F CM]]]]]]]; [apply I|exact Hf|repeat split; tauto|].
  rewrite E in E2. injection E2 as <-. pose proof CM as (CM1 & _). pose proof F as (_ & _ & _ & _ & _ & F6 & _).
  pose proof (pre_sorted _ (wf_pre _ (proj1 I))) as SS. pose proof (pre_sorted _ (wf_pre _ (proj1 I'))) as SS'.
  set (s1 := state_with_gps (e_state e) (mset id st (s_gps (e_state e)))) in *.
  assert (SK : sorted (s_gps (e_state e))) by apply SS.
  assert (S1 : sorted_state s1).
  { destruct SS as (A1 & A2 & A3 & A4 & A5). repeat split; auto; apply mset_sorted; assumption. }
  rewrite S' in SS'.
  assert (OW : forall x, In x (layout s1) -> own_rate (e_state e') (e_bodyQ e') x = own_rate s1 (e_bodyQ e) x).
  { intros x Hx. rewrite S', F6. apply own_ix; auto. }
  assert (LY : forall x, In x (layout s1) <-> In x (layout (e_state e)) \/ In x (gps_labels (id, st))).
  { intros x. rewrite <- ix_layout, <- S'. apply (adds_names _ _ _ _ AD). }
  assert (NL : forall x, In x (gps_labels (id, st)) -> exists k, x = LGps id k).
  { intros x Hx. unfold gps_labels in Hx. cbn [fst snd] in Hx.
    destruct (g_ext st); try (exfalso; exact Hx); apply in_map_iff in Hx; destruct Hx as [k [<- _]]; exists k; auto. }
  assert (FR : forall x, In x (gps_labels (id, st)) -> ~ In x (layout (e_state e))).
  { intros x Hx Hx'. apply in_layout in Hx'. destruct (NL x Hx) as [k ->]; destruct Hx' as [v [Hv _]];
      apply (in_mfind _ _ _ _ SK) in Hv; congruence. }
  replace (gps_names id st) with (map (nm (n_first a)) (gps_labels (id, st))).
  2: { unfold gps_labels, gps_names. cbn [fst snd]. destruct (g_ext st); reflexivity. }
  apply (twin_enrol e a e' (gps_labels (id, st)) c (ent c) (gps_stab st)); auto.
  - unfold gps_labels. cbn [fst snd]. destruct (g_ext st); [|constructor]. apply NoDup_three. intros i j X; congruence.
  - intros x Hx. rewrite OW by (apply LY; auto). destruct (NL x Hx) as [k ->]; cbn; rewrite mfind_mset_eq; reflexivity.
  - intros x Hx. destruct (NL x Hx) as [k ->]; exact Logic.I.
  - intros x Hx. rewrite OW by (apply LY; auto). pose proof (FR x) as FRx. pose proof (in_layout _ _ Hx) as Hx'.
    destruct x; try reflexivity; cbn; destruct Hx' as [v [Hv _]]; apply (in_mfind _ _ _ _ SK) in Hv;
      rewrite mfind_mset_neq by congruence; reflexivity.
  - intros k. unfold aug_at. rewrite S'. apply reg_windows. reflexivity.
  - rewrite CM1. apply T.
  - intros j. rewrite S'. unfold ix_state. cbn [s_imu]. rewrite ix_imus_keys. apply T.
  - intros j. rewrite S'. unfold ix_state. cbn [s_gps]. rewrite ix_gpss_keys. unfold s1. cbn [s_gps state_with_gps].
    rewrite keys_mset, <- (tw_gpss _ _ T). cbn. intuition.
  - intros j. rewrite S'. unfold ix_state. cbn [s_cam]. rewrite ix_cams_keys. apply T.
  - intros j. rewrite S'. unfold ix_state. cbn [s_fid]. rewrite ix_fids_keys. apply T.
Qed.

Lemma step_cam : forall e a id st c e', reachable e -> twin e a -> contract e (ORegCam id st c) -> above id (n_cams a) ->
  RegisterCamera e id st c = OK e' -> twin e' (nm_cam a id st c).
Proof.
  intros e a id st c e' Hr T C AB  E. pose proof (reachable_inv e Hr) as I.
  unfold nm_cam. destruct (known id (n_cams a)) eqn:K.
  { apply (known_find _ id _ _ (tw_cams _ _ T)) in K. rewrite reg_cam_dup in E by exact K. injection E as <-. exact T. }
  pose proof (above_new _ _ AB K) as AB'.
  assert (B : below id (s_cam (e_state e))) by (intros k Hk; apply AB', (tw_cams _ _ T); exact Hk).
  pose proof (below_fresh _ _ _ B) as Hf.
  pose proof (register_cam_named e id st c e' I C B  E) as AD. rewrite (tw_root _ _ T) in AD. cbn [stands_for] in AD.
  pose proof (reachable_step e (ORegCam id st c) e' Hr C E) as Hr'. pose proof (reachable_inv e' Hr') as I'.
  pose proof (refreshing_configured e (ORegCam id st c) e' Hr C Hf E) as CF.
  destruct (C Hf) as [H1 [H2 H3]]. rewrite cam_labels_length in H1. cbn [snd] in H1. destruct H2 as [H2 [H2' _]].
  destruct (RegisterCamera_ok e id st c) as [e2 [E2 [_ [S' [HI [_ [F CM]]]]]]]; [apply I|exact Hf|repeat split; tauto|].
  rewrite E in E2. injection E2 as <-. pose proof CM as (CM1 & _). pose proof F as (_ & _ & _ & _ & _ & F6 & _).
  pose proof (pre_sorted _ (wf_pre _ (proj1 I))) as SS. pose proof (pre_sorted _ (wf_pre _ (proj1 I'))) as SS'.
  set (s1 := state_with_cam (e_state e) (mset id st (s_cam (e_state e)))) in *.
  assert (SK : sorted (s_cam (e_state e))) by apply SS.
  assert (S1 : sorted_state s1).
  { destruct SS as (A1 & A2 & A3 & A4 & A5). repeat split; auto; apply mset_sorted; assumption. }
  rewrite S' in SS'.
  assert (OW : forall x, In x (layout s1) -> own_rate (e_state e') (e_bodyQ e') x = own_rate s1 (e_bodyQ e) x).
  { intros x Hx. rewrite S', F6. apply own_ix; auto. }
  assert (LY : forall x, In x (layout s1) <-> In x (layout (e_state e)) \/ In x (cam_labels (id, st))).
  { intros x. rewrite <- ix_layout, <- S'. apply (adds_names _ _ _ _ AD). }
  assert (NL : forall x, In x (cam_labels (id, st)) -> exists k, x = LCam id k).
  { intros x Hx. unfold cam_labels in Hx. cbn [fst snd] in Hx.
    destruct (c_ext st); try (exfalso; exact Hx); apply in_map_iff in Hx; destruct Hx as [k [<- _]]; exists k; auto. }
  assert (FR : forall x, In x (cam_labels (id, st)) -> ~ In x (layout (e_state e))).
  { intros x Hx Hx'. apply in_layout in Hx'. destruct (NL x Hx) as [k ->]; destruct Hx' as [v [Hv _]];
      apply (in_mfind _ _ _ _ SK) in Hv; congruence. }
  replace (cam_names id st) with (map (nm (n_first a)) (cam_labels (id, st))).
  2: { unfold cam_labels, cam_names. cbn [fst snd]. destruct (c_ext st); reflexivity. }
  apply (twin_enrol e a e' (cam_labels (id, st)) c (ent c) (cam_stab st)); auto.
  - unfold cam_labels. cbn [fst snd]. destruct (c_ext st); [|constructor]. apply NoDup_six. intros i j X; congruence.
  - intros x Hx. rewrite OW by (apply LY; auto). destruct (NL x Hx) as [k ->]; cbn; rewrite mfind_mset_eq; reflexivity.
  - intros x Hx. destruct (NL x Hx) as [k ->]; exact Logic.I.
  - intros x Hx. rewrite OW by (apply LY; auto). pose proof (FR x) as FRx. pose proof (in_layout _ _ Hx) as Hx'.
    destruct x; try reflexivity; cbn; destruct Hx' as [v [Hv _]]; apply (in_mfind _ _ _ _ SK) in Hv;
      rewrite mfind_mset_neq by congruence; reflexivity.
  - intros k. unfold aug_at. rewrite S'. apply reg_windows. reflexivity.
  - rewrite CM1, (tw_primary _ _ T). reflexivity.
  - intros j. rewrite S'. unfold ix_state. cbn [s_imu]. rewrite ix_imus_keys. apply T.
  - intros j. rewrite S'. unfold ix_state. cbn [s_gps]. rewrite ix_gpss_keys. apply T.
  - intros j. rewrite S'. unfold ix_state. cbn [s_cam]. rewrite ix_cams_keys. unfold s1. cbn [s_cam state_with_cam].
    rewrite keys_mset, <- (tw_cams _ _ T). cbn. intuition.
  - intros j. rewrite S'. unfold ix_state. cbn [s_fid]. rewrite ix_fids_keys. apply T.
Qed.

Lemma step_fid : forall e a  st c e', reachable e -> twin e a -> contract e (ORegFid  st c) -> above (f_id st) (n_fids a) ->
  (In (f_id st) (n_fids a) \/ forall k, n_first a k = n_next a k) ->
  RegisterFiducial e  st c = OK e' -> twin e' (nm_fid a (f_id st) st c).
Proof.
  intros e a  st c e' Hr T C AB NC E. pose proof (reachable_inv e Hr) as I.
  unfold nm_fid. destruct (known (f_id st) (n_fids a)) eqn:K.
  { apply (known_find _ (f_id st) _ _ (tw_fids _ _ T)) in K. rewrite reg_fid_dup in E by exact K. injection E as <-. exact T. }
  pose proof (above_new _ _ AB K) as AB'.
  assert (B : below (f_id st) (s_fid (e_state e))) by (intros k Hk; apply AB', (tw_fids _ _ T); exact Hk).
  pose proof (below_fresh _ _ _ B) as Hf.
  assert (NCl : no_clones e).
  { destruct NC as [NC|NC]; [exfalso; apply known_in in NC; congruence|]. intros k l Hl.
    pose proof (tw_win _ _ T k) as Wk. rewrite NC in Wk. unfold aug_at, mget in Wk.
    rewrite (in_mfind _ _ _ _ (aug_sorted e (wf_pre _ (proj1 I))) Hl) in Wk. destruct l; [reflexivity|cbn in Wk; lia]. }
  pose proof (register_fid_named e  st c e' I C B NCl E) as AD. rewrite (tw_root _ _ T) in AD. cbn [stands_for] in AD.
  pose proof (reachable_step e (ORegFid  st c) e' Hr C E) as Hr'. pose proof (reachable_inv e' Hr') as I'.
  pose proof (refreshing_configured e (ORegFid  st c) e' Hr C Hf E) as CF.
  destruct (C Hf) as [H1 [H2 H3]]. rewrite fid_labels_length in H1. cbn [snd] in H1. destruct H2 as [H2 [H2' _]].
  destruct (RegisterFiducial_ok e  st c) as [e2 [E2 [_ [S' [HI [_ [F CM]]]]]]]; [apply I|exact Hf|repeat split; tauto|].
  rewrite E in E2. injection E2 as <-. pose proof CM as (CM1 & _). pose proof F as (_ & _ & _ & _ & _ & F6 & _).
  pose proof (pre_sorted _ (wf_pre _ (proj1 I))) as SS. pose proof (pre_sorted _ (wf_pre _ (proj1 I'))) as SS'.
  set (s1 := state_with_fid (e_state e) (mset (f_id st) st (s_fid (e_state e)))) in *.
  assert (SK : sorted (s_fid (e_state e))) by apply SS.
  assert (S1 : sorted_state s1).
  { destruct SS as (A1 & A2 & A3 & A4 & A5). repeat split; auto; apply mset_sorted; assumption. }
  rewrite S' in SS'.
  assert (OW : forall x, In x (layout s1) -> own_rate (e_state e') (e_bodyQ e') x = own_rate s1 (e_bodyQ e) x).
  { intros x Hx. rewrite S', F6. apply own_ix; auto. }
  assert (LY : forall x, In x (layout s1) <-> In x (layout (e_state e)) \/ In x (fid_labels ((f_id st), st))).
  { intros x. rewrite <- ix_layout, <- S'. apply (adds_names _ _ _ _ AD). }
  assert (NL : forall x, In x (fid_labels ((f_id st), st)) -> exists k, x = LFid (f_id st) k).
  { intros x Hx. unfold fid_labels in Hx. cbn [fst snd] in Hx.
    destruct (f_ext st); try (exfalso; exact Hx); apply in_map_iff in Hx; destruct Hx as [k [<- _]]; exists k; auto. }
  assert (FR : forall x, In x (fid_labels ((f_id st), st)) -> ~ In x (layout (e_state e))).
  { intros x Hx Hx'. apply in_layout in Hx'. destruct (NL x Hx) as [k ->]; destruct Hx' as [v [Hv _]];
      apply (in_mfind _ _ _ _ SK) in Hv; congruence. }
  replace (fid_names (f_id st) st) with (map (nm (n_first a)) (fid_labels ((f_id st), st))).
  2: { unfold fid_labels, fid_names. cbn [fst snd]. destruct (f_ext st); reflexivity. }
  apply (twin_enrol e a e' (fid_labels ((f_id st), st)) c (ent c) (fid_stab st)); auto.
  - unfold fid_labels. cbn [fst snd]. destruct (f_ext st); [|constructor]. apply NoDup_six. intros i j X; congruence.
  - intros x Hx. rewrite OW by (apply LY; auto). destruct (NL x Hx) as [k ->]; cbn; rewrite mfind_mset_eq; reflexivity.
  - intros x Hx. destruct (NL x Hx) as [k ->]; exact Logic.I.
  - intros x Hx. rewrite OW by (apply LY; auto). pose proof (FR x) as FRx. pose proof (in_layout _ _ Hx) as Hx'.
    destruct x; try reflexivity; cbn; destruct Hx' as [v [Hv _]]; apply (in_mfind _ _ _ _ SK) in Hv;
      rewrite mfind_mset_neq by congruence; reflexivity.
  - intros k. unfold aug_at. rewrite S'. apply reg_windows. reflexivity.
  - rewrite CM1. apply T.
  - intros j. rewrite S'. unfold ix_state. cbn [s_imu]. rewrite ix_imus_keys. apply T.
  - intros j. rewrite S'. unfold ix_state. cbn [s_gps]. rewrite ix_gpss_keys. apply T.
  - intros j. rewrite S'. unfold ix_state. cbn [s_cam]. rewrite ix_cams_keys. apply T.
  - intros j. rewrite S'. unfold ix_state. cbn [s_fid]. rewrite ix_fids_keys. unfold s1. cbn [s_fid state_with_fid].
    rewrite keys_mset, <- (tw_fids _ _ T). cbn. intuition.
Qed.
