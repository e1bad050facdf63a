(** Predictions, measurements and whole histories in the two filters. *)
From Coq Require Import Reals List Arith Bool Lia Lra Permutation.
From Verif Require Import Base.Res Base.Mat Base.RDec Base.RSum Base.LinAlg Base.Inverse Base.Geom Base.AMap Base.RMat
  Model.TypeHelper Model.Types Model.MathHelperMat Model.Ekf Model.Updater Model.Ops
  Spec.Layout Spec.History Spec.Contract Spec.Correct Spec.Named Spec.Same Spec.KF Spec.Motion Spec.Noise Spec.ByName
  Proofs.Refresh Proofs.Wf Proofs.Register Proofs.Augment Proofs.Invariant Proofs.Named Proofs.Clones Proofs.Same Proofs.Update
  Proofs.Sizes Proofs.Scalars Proofs.Clock Proofs.Effects Proofs.Windows Proofs.Pruning Proofs.CloneFacts Proofs.Predict Proofs.Finals Proofs.Noise
  Proofs.Follows Proofs.Kalman Proofs.PlusVec Proofs.ByName Proofs.ByNameClone.
Import ListNotations.
Open Scope nat_scope.

Lemma cov_at : forall e a x y i j, twin e a -> at_ (e_state e) x i -> at_ (e_state e) y j ->
  covariance e i j = n_cov a (nm (n_first a) x) (nm (n_first a) y).
Proof.
  intros e a x y i j T Hx Hy. pose proof (tw_inv _ _ T) as I.
  destruct (tw_cov _ _ T x y (nth_error_In _ _ Hx) (nth_error_In _ _ Hy)) as [i' [j' [A [B C]]]].
  rewrite (layout_unique e x i i' I Hx A), (layout_unique e y j j' I Hy B). exact C.
Qed.
Lemma cov_is_at : forall e a f, (forall x i y j, at_ (e_state e) x i -> at_ (e_state e) y j -> covariance e i j = n_cov a (nm f x) (nm f y)) ->
  forall x y, In x (layout (e_state e)) -> In y (layout (e_state e)) -> cov_is e x y (n_cov a (nm f x) (nm f y)).
Proof.
  intros e a f H x y Hx Hy. destruct (In_nth_error _ _ Hx) as [i Hi]. destruct (In_nth_error _ _ Hy) as [j Hj].
  exists i, j. split; [exact Hi|]. split; [exact Hj|]. apply H; assumption.
Qed.
Lemma at_body : forall s i, i < 18 -> at_ s (LBody i) i.
Proof.
  intros s i H. unfold at_, layout. rewrite nth_error_app1 by (rewrite map_length, seq_length; exact H). apply nth_seq_map. exact H.
Qed.

(** *** Prediction *)
Lemma pushed_at : forall e f dt (g : name -> R) x i, inv e -> at_ (e_state e) x i ->
  pushed dt g (nm f x) = (g (nm f x) + if Nat.ltb i 3 then dt * g (nm f (LBody (i + 3))) else 0)%R.
Proof.
  intros e f dt g x i I H.
  assert (Z : i < 18 -> x = LBody i).
  { intros L. pose proof (at_body (e_state e) i L) as B. unfold at_ in *. rewrite H in B. injection B as ->. reflexivity. }
  destruct (Nat.ltb_spec i 3) as [L|L].
  - rewrite Z by lia. cbn [nm pushed]. rewrite (proj2 (Nat.ltb_lt _ _)) by exact L. reflexivity.
  - rewrite Rplus_0_r. destruct x; try reflexivity. cbn [nm pushed].
    assert (k < 18) by (apply nth_error_In in H; apply in_layout in H; exact H).
    rewrite (layout_unique e (LBody k) k i I (at_body _ _ H0) H). rewrite (proj2 (Nat.ltb_ge _ _)) by exact L. reflexivity.
Qed.
Lemma diffused_at : forall e a dt x y i j, twin e a -> at_ (e_state e) x i -> at_ (e_state e) y j ->
  diffused dt a (nm (n_first a) x) (nm (n_first a) y) =
  madd (covariance e) (mscal dt (diagm (fun i => ent (e_Q e) i i))) i j.
Proof.
  intros e a dt x y i j T Hx Hy. pose proof (tw_inv _ _ T) as I.
  unfold diffused, madd, mscal, diagm. rewrite (cov_at e a x y i j T Hx Hy). f_equal.
  destruct (name_dec (nm (n_first a) x) (nm (n_first a) y)) as [E|E].
  - apply nm_inj in E. subst y. rewrite (layout_unique e x i j I Hx Hy), Nat.eqb_refl.
    rewrite (tw_rate _ _ T j x Hy). reflexivity.
  - destruct (Nat.eqb_spec i j) as [->|D]; [|ring]. exfalso. apply E. unfold at_ in *. congruence.
Qed.

Lemma moved_cov : forall e t e1, inv e -> p_root (e_par e) = false -> e_gravity e = true -> model_step e t e1 ->
  e_state e1 = state_with_body (e_state e) (s_body (e_state e1)) /\
  frame (with_time e t) e1 /\ cam_frame e e1 /\ e_Q e1 = e_Q e /\ e_size e1 = e_size e /\
  eqm (e_size e) (e_size e) (covariance e1)
    (predicted (e_size e) (t - e_time e) (covariance e) (fun i => ent (e_Q e) i i)).
Proof.
  intros e t e1 I RT Hg H1. pose proof (proj1 I) as W. unfold model_step in H1. rewrite Hg in H1. destruct H1 as [c [Ec ->]].
  split; [reflexivity|]. split; [repeat split|]. split; [repeat split|]. split; [reflexivity|]. split; [reflexivity|].
  destruct (predict_std_ok e (t - e_time e) RT (wf_nr _ W) (wf_nc _ W)) as [c' [Ec' [_ [_ H]]]].
  { apply (wf_Qr _ W). } { apply (wf_Qc _ W). } { apply size_ge. exact W. }
  rewrite Ec in Ec'. injection Ec' as <-. unfold covariance. cbn [e_par with_time with_cov with_state e_size e_cov].
  rewrite RT. exact H.
Qed.

Lemma twin_predict : forall e a t e1, twin e a -> inv e1 -> (e_time e <= t)%R -> model_step e t e1 -> twin e1 (nm_predict a t).
Proof.
  intros e a t e1 T I' Lt MS. pose proof (tw_inv _ _ T) as I.
  unfold nm_predict. rewrite <- (tw_time _ _ T), <- (tw_gravity _ _ T).
  rewrite (proj2 (Rltb_false t (e_time e))) by exact Lt. destruct (e_gravity e) eqn:Gr.
  - destruct (moved_cov e t e1 I (tw_root _ _ T) Gr MS) as [ST [F [G [HQ [HS HC]]]]].
    assert (LY : layout (e_state e1) = layout (e_state e)) by (rewrite ST; reflexivity).
    assert (AT : forall x i, at_ (e_state e1) x i <-> at_ (e_state e) x i) by (intros; unfold at_; rewrite LY; reflexivity).
    destruct F as (F1 & F2 & F3 & F4 & F5 & F6 & _ & _ & _ & _ & _ & _ & _ & F13 & _). cbn [with_time e_par e_time e_time_init e_max_len e_bodyQ e_gravity] in *.
    destruct G as (G1 & _). destruct T. constructor;
      cbn [nm_clock nm_windows n_names n_cov n_rate n_body n_stab n_time n_started n_gravity n_max n_primary n_imus n_gpss n_cams n_fids n_first n_next];
      rewrite ?LY, ?F1, ?F2, ?F4, ?F5, ?F6, ?F13, ?G1, ?HQ; auto.
    + intros x y Hx Hy. destruct (In_nth_error _ _ Hx) as [i Hi]. destruct (In_nth_error _ _ Hy) as [j Hj].
      exists i, j. split; [rewrite LY; exact Hi|]. split; [rewrite LY; exact Hj|].
      assert (Bi : forall k z, nth_error (layout (e_state e)) k = Some z -> k < e_size e).
      { intros k z Hk. rewrite <- (proj2 (proj2 (partition_inv e I))). apply nth_error_Some. congruence. }
      assert (N18 : 18 <= e_size e).
      { rewrite <- (proj2 (proj2 (partition_inv e I))). unfold layout. rewrite app_length, map_length, seq_length. lia. }
      assert (TW : twin e a) by (constructor; auto).
      rewrite HC by eauto. unfold predicted. rewrite Fx_r by (try lia; eauto). rewrite !Fx_l by (try lia; eauto).
      rewrite (pushed_at e _ _ _ x i I Hi).
      rewrite !(pushed_at e _ _ _ y j I Hj).
      set (dt := (t - e_time e)%R). rewrite (diffused_at e a dt x y i j TW Hi Hj).
      assert (B3 : forall k, k < 3 -> at_ (e_state e) (LBody (k + 3)) (k + 3)) by (intros k Hk; apply at_body; lia).
      destruct (Nat.ltb_spec i 3) as [Li|Li]; destruct (Nat.ltb_spec j 3) as [Lj|Lj].
      * rewrite (diffused_at e a dt x (LBody (j + 3)) i (j + 3) TW Hi (B3 j Lj)),
          (diffused_at e a dt (LBody (i + 3)) y (i + 3) j TW (B3 i Li) Hj),
          (diffused_at e a dt (LBody (i + 3)) (LBody (j + 3)) (i + 3) (j + 3) TW (B3 i Li) (B3 j Lj)). ring.
      * rewrite (diffused_at e a dt (LBody (i + 3)) y (i + 3) j TW (B3 i Li) Hj). ring.
      * rewrite (diffused_at e a dt x (LBody (j + 3)) i (j + 3) TW Hi (B3 j Lj)). ring.
      * ring.
    + intros i x Hx. apply AT in Hx. auto.
    + intros x Hx. rewrite ST. change (own_rate (state_with_body (e_state e) (s_body (e_state e1))) (e_bodyQ e) x) with (own_rate (e_state e) (e_bodyQ e) x). auto.
    + rewrite ST. assumption.
    + rewrite ST. assumption.
    + rewrite ST. assumption.
    + rewrite ST. assumption.
    + intros k. unfold aug_at. rewrite ST. match goal with H : forall k, n_next a k = _ |- _ => apply H end.
  - unfold model_step in MS. rewrite Gr in MS. subst e1. destruct T. constructor; auto.
Qed.

Lemma step_predict : forall e a t e', reachable e -> twin e a -> PredictModel e t = OK e' ->
  twin e' (if Rltb t (n_time a) then a else nm_settle (p_aug (e_par e)) (taken e e') (nm_predict a t)).
Proof.
  intros e a t e' Hr T E. pose proof (tw_inv _ _ T) as I. rewrite <- (tw_time _ _ T).
  destruct (predict_full e t e' I E) as [[Lt ->]|[Le [e1 [MS [I1 E1]]]]].
  { rewrite (proj2 (Rltb_spec _ _) Lt). exact T. }
  rewrite (proj2 (Rltb_false _ _) Le). pose proof (twin_predict e a t e1 T I1 Le MS) as T1.
  pose proof (step_settle e1 _ e' T1 E1) as X.
  assert (P : p_aug (e_par e1) = p_aug (e_par e) /\ taken e1 e' = taken e e').
  { unfold model_step in MS. destruct (e_gravity e); [destruct MS as [c [_ ->]]|subst e1]; split; reflexivity. }
  destruct P as [P1 P2]. rewrite P1, P2 in X. exact X.
Qed.

(** *** Measurement *)
Lemma over_perm : forall l m f, Permutation l m -> over l f = over m f.
Proof.
  intros l m f P. induction P; cbn [over fold_right]; auto; try congruence.
  - f_equal. exact IHP.
  - unfold over in *. cbn. ring.
Qed.
Lemma over_ext : forall l f g, (forall x, In x l -> f x = g x) -> over l f = over l g.
Proof. induction l as [|x l IH]; intros f g H; [reflexivity|]. cbn. rewrite H by (left; auto). f_equal. apply IH. intros; apply H; right; auto. Qed.
Lemma over_app : forall l m f, over (l ++ m) f = (over l f + over m f)%R.
Proof. unfold over. induction l as [|x l IH]; intros m f; cbn [app fold_right]; [ring|]. rewrite IH. ring. Qed.
Lemma over_rsum : forall (g : label -> name) f l h, (forall i x, nth_error l i = Some x -> h i = f (g x)) ->
  over (map g l) f = rsum (length l) h.
Proof.
  intros g f l. induction l as [|x l IH] using rev_ind; intros h H; [reflexivity|].
  rewrite map_app, over_app, app_length. cbn [length map]. rewrite Nat.add_1_r. cbn [rsum over fold_right]. rewrite (IH h).
  - rewrite (H (length l) x). { ring. } rewrite nth_error_app2, Nat.sub_diag by lia. reflexivity.
  - intros i y Hy. apply H. rewrite nth_error_app1; [exact Hy|]. apply nth_error_Some. congruence.
Qed.
Lemma over_names : forall e a f h, twin e a -> (forall i x, at_ (e_state e) x i -> h i = f (nm (n_first a) x)) ->
  over (n_names a) f = rsum (e_size e) h.
Proof.
  intros e a f h T H. pose proof (partition_inv e (tw_inv _ _ T)) as [_ [ND LN]].
  rewrite (over_perm _ (map (nm (n_first a)) (layout (e_state e)))).
  - rewrite <- LN. apply over_rsum. exact H.
  - apply NoDup_Permutation; [apply T|apply FinFun.Injective_map_NoDup; [intros u v; apply nm_inj|exact ND]|].
    intros n. split.
    + intros Hn. destruct (tw_out _ _ T n Hn) as [x [Hx <-]]. apply in_map. exact Hx.
    + intros Hn. apply in_map_iff in Hn. destruct Hn as [x [<- Hx]]. apply T. exact Hx.
Qed.

Lemma step_measure : forall e a H jac y noise e', reachable e -> twin e a -> contract e (OKalman jac y noise) -> columns e a jac H ->
  KalmanUpdate e jac y noise = OK e' -> twin e' (nm_measure a (nr jac) H noise).
Proof.
  intros e a H jac y noise e' Hr T C CO E. pose proof (reachable_inv e Hr) as I.
  pose proof (reachable_step e (OKalman jac y noise) e' Hr C E) as Hr'.
  pose proof C as C'. cbn [contract] in C'. rewrite (tw_root _ _ T) in C'.
  destruct (kalman_optimal e jac y noise Hr (tw_root _ _ T) C') as [e2 [K [d [E2 [GK [_ [HC [_ [_ [_ [_ [_ [_ [ST [c' EQ]]]]]]]]]]]]]]].
  rewrite E in E2. injection E2 as <-.
  assert (LY : layout (e_state e') = layout (e_state e)) by (rewrite ST; apply correct_layout).
  destruct (partition_inv e I) as [_ [ND LN]].
  assert (HJ : forall i j x, i < nr jac -> at_ (e_state e) x j -> ent jac i j = H i (nm (n_first a) x)).
  { intros i j x Hi Hx. apply (CO i (nm (n_first a) x) j Hi); [apply T; eapply nth_error_In; exact Hx|apply told_nm; assumption]. }
  set (n := e_size e) in *. set (m := nr jac) in *. set (P := covariance e) in *.
  set (PHt := fun x i => over (n_names a) (fun z => (n_cov a x z * H i z)%R)).
  set (HP := fun i z => over (n_names a) (fun x => (H i x * n_cov a x z)%R)).
  set (S := fun i j => (over (n_names a) (fun x => (H i x * PHt x j)%R) + ent noise i j)%R).
  assert (A1 : forall x k i, at_ (e_state e) x k -> i < m -> PHt (nm (n_first a) x) i = mm n P (tr (ent jac)) k i).
  { intros x k i Hx Hi. unfold PHt, mm, tr. apply over_names; [exact T|]. intros j z Hz. rewrite (HJ i j z Hi Hz).
    unfold P. rewrite (cov_at e a x z k j T Hx Hz). reflexivity. }
  assert (A2 : forall x k i, at_ (e_state e) x k -> i < m -> HP i (nm (n_first a) x) = mm n (ent jac) P i k).
  { intros x k i Hx Hi. unfold HP, mm. apply over_names; [exact T|]. intros j z Hz. rewrite (HJ i j z Hi Hz).
    unfold P. rewrite (cov_at e a z x j k T Hz Hx). reflexivity. }
  assert (A3 : eqm m m S (innov n P (ent jac) (ent noise))).
  { intros i j Hi Hj. unfold S, innov, madd. f_equal. transitivity (mm n (ent jac) (mm n P (tr (ent jac))) i j).
    - unfold mm at 1. apply over_names; [exact T|]. intros k z Hz. rewrite (HJ i k z Hi Hz), (A1 z k j Hz Hj). reflexivity.
    - symmetry. exact (mm_assoc m n n m (ent jac) P (tr (ent jac)) i j Hi Hj). }
  assert (SP : spd m (innov n P (ent jac) (ent noise))).
  { apply innov_spd; [|apply C']. apply covariance_psd. exact I. }
  pose proof (inv_spd m _ SP) as IV.
  assert (IS : is_inv m S (finv m (innov n P (ent jac) (ent noise)))).
  { apply (is_inv_ext m (innov n P (ent jac) (ent noise))); [symmetry; exact A3|exact IV]. }
  assert (SS : spd m S).
  { apply (spd_ext m (innov n P (ent jac) (ent noise))); [symmetry; exact A3|exact SP]. }
  assert (FI : eqm m m (finv m S) (finv m (innov n P (ent jac) (ent noise)))).
  { apply (inv_unique m S); [apply inv_spd; exact SS|exact IS]. }
  set (Si := finv m (innov n P (ent jac) (ent noise))) in *.
  assert (KK : eqm n m K (mm m (mm n P (tr (ent jac))) Si)).
  { apply (gain_unique n m P (ent jac) (ent noise)); [exact SP|exact GK|]. unfold is_gain.
    etransitivity; [apply mm_assoc|]. etransitivity; [apply mm_ext_r; exact (proj2 IV)|]. apply mm_id_r. }
  assert (NEW : forall x k z l, at_ (e_state e) x k -> at_ (e_state e) z l ->
    covariance e' k l = (n_cov a (nm (n_first a) x) (nm (n_first a) z) -
      rsum m (fun i => rsum m (fun j => PHt (nm (n_first a) x) i * finv m S i j * HP j (nm (n_first a) z))))%R).
  { intros x k z l Hx Hz.
    assert (Bk : k < n) by (rewrite <- LN; apply nth_error_Some; unfold at_ in Hx; congruence).
    assert (Bl : l < n) by (rewrite <- LN; apply nth_error_Some; unfold at_ in Hz; congruence).
    rewrite (HC k l Bk Bl). unfold msub. f_equal; [apply (cov_at e a x z k l T Hx Hz)|].
    rewrite (mm_assoc n m n n K (ent jac) P k l Bk Bl). unfold mm at 1.
    transitivity (rsum m (fun j => rsum m (fun i => mm n P (tr (ent jac)) k i * Si i j) * mm n (ent jac) P j l)%R).
    - apply rsum_ext. intros j Hj. f_equal. apply (KK k j Bk Hj).
    - rewrite rsum_swap. apply rsum_ext. intros j Hj. rewrite <- rsum_scal_r. apply rsum_ext. intros i Hi.
      rewrite (A1 x k i Hx Hi), (A2 z l j Hz Hj), (FI i j Hi Hj). reflexivity. }
  assert (KS : forall A (g : A -> A) m, keys (map (on_snd g) m) = keys m) by (intros; unfold keys; rewrite map_map; reflexivity).
  assert (TW := T). destruct T. pose proof (reachable_inv e' Hr') as I'.
  assert (FE : e_par e' = e_par e /\ e_bodyQ e' = e_bodyQ e /\ e_Q e' = e_Q e /\ e_time e' = e_time e /\ e_time_init e' = e_time_init e /\
    e_gravity e' = e_gravity e /\ e_max_len e' = e_max_len e /\ e_primary e' = e_primary e).
  { clear - EQ. rewrite EQ. repeat split. }
  destruct FE as (FE1 & FE2 & FE3 & FE4 & FE5 & FE6 & FE7 & FE8).
  constructor;
  cbn [nm_measure nm_windows n_names n_cov n_rate n_body n_stab n_time n_started n_gravity n_max n_primary n_imus n_gpss n_cams n_fids n_first n_next];
  rewrite ?LY, ?FE1, ?FE2, ?FE3, ?FE4, ?FE5, ?FE6, ?FE7, ?FE8; auto.
  - intros x z Hx Hz. destruct (In_nth_error _ _ Hx) as [k Hk]. destruct (In_nth_error _ _ Hz) as [l Hl].
    exists k, l. split; [rewrite LY; exact Hk|]. split; [rewrite LY; exact Hl|]. apply NEW; assumption.
  - intros i x Hx. unfold at_ in *. rewrite LY in Hx. auto.
  - intros x Hx. rewrite (own_same (e_state e) (e_state e') (e_bodyQ e) (e_bodyQ e)); auto.
    + apply (pre_sorted _ (wf_pre _ (proj1 I))).
    + apply (pre_sorted _ (wf_pre _ (proj1 I'))).
    + rewrite ST. apply correct_noise.
  - rewrite ST. cbn [correct s_imu]. rewrite KS. auto.
  - rewrite ST. cbn [correct s_gps]. rewrite KS. auto.
  - rewrite ST. cbn [correct s_cam]. rewrite KS. auto.
  - rewrite ST. cbn [correct s_fid]. rewrite KS. auto.
  - intros k. rewrite (tw_win k). f_equal. unfold aug_at, mget. rewrite ST. cbn [correct s_aug].
    rewrite (mfind_map _ _ (on_snd (map (correct_aug d))) (map (correct_aug d))) by reflexivity.
    destruct (mfind k (s_aug (e_state e))); cbn [option_map]; [symmetry; apply map_length|reflexivity].
Qed.

(** *** One call *)
Lemma learn_keys : forall A id l (m : amap A) d k, (forall j, In j l <-> In j (keys m)) ->
  (In k (learn id l) <-> In k (keys (mtouch d id m))).
Proof.
  intros A id l m d k H. unfold learn, mtouch. destruct (known id l) eqn:K.
  - apply (known_find _ id l m H) in K. destruct (mfind id m); [apply H|congruence].
  - destruct (mfind id m) eqn:E.
    + exfalso. assert (known id l = true) by (apply (known_find _ id l m H); congruence). congruence.
    + rewrite keys_mset, <- H. cbn. intuition.
Qed.
Lemma touch_windows : forall m k j, mget [] j (mtouch (@nil AugState) k m) = mget [] j m.
Proof.
  intros m k j. unfold mtouch. destruct (mfind k m) eqn:E; [reflexivity|]. unfold mget.
  destruct (Nat.eq_dec j k) as [->|D]; [rewrite mfind_mset_eq, E; reflexivity|rewrite mfind_mset_neq by auto; reflexivity].
Qed.

(** Nothing but the maps of the state changes, and those only by entries
    without scalars. *)
Lemma twin_state : forall e a s, twin e a -> inv (with_state e s) ->
  layout s = layout (e_state e) -> (forall x, In x (layout (e_state e)) -> own_rate s (e_bodyQ e) x = own_rate (e_state e) (e_bodyQ e) x) ->
  (forall k, mget [] k (s_aug s) = aug_at e k) ->
  forall imus gpss cams fids, (forall id, In id imus <-> In id (keys (s_imu s))) ->
  (forall id, In id gpss <-> In id (keys (s_gps s))) ->
  (forall id, In id cams <-> In id (keys (s_cam s))) ->
  (forall id, In id fids <-> In id (keys (s_fid s))) ->
  twin (with_state e s) (with_ids a imus gpss cams fids (n_primary a)).
Proof.
  intros e a s T Hr L O W imus gpss cams fids K1 K2 K3 K4. destruct T.
  constructor; cbn [with_ids n_names n_cov n_rate n_body n_stab n_time n_started n_gravity n_max n_primary n_imus n_gpss n_cams n_fids n_first n_next
    with_state e_state e_par e_bodyQ e_Q e_time e_time_init e_gravity e_max_len e_primary]; rewrite ?L; auto.
  - intros x y Hx Hy. unfold cov_is. cbn [e_state with_state]. rewrite L. apply tw_cov; auto.
  - intros i x Hx. unfold at_ in *. rewrite L in Hx. auto.
  - intros x Hx. rewrite O by exact Hx. auto.
  - intros k. rewrite tw_win. unfold aug_at at 2. cbn [e_state with_state]. rewrite W. reflexivity.
Qed.

Lemma own_touch : forall A (m : amap A) d id k, mfind id m <> None -> mfind id (mtouch d k m) = mfind id m.
Proof.
  intros A m d id k H. unfold mtouch. destruct (mfind k m) eqn:E; [reflexivity|].
  rewrite mfind_mset_neq; [reflexivity|]. intros ->. congruence.
Qed.
Lemma in_find : forall A (m : amap A) id v, sorted m -> In (id, v) m -> mfind id m <> None.
Proof. intros A m id v S H. rewrite (in_mfind _ _ _ _ S H). discriminate. Qed.

Lemma step_twin : forall e a c e', reachable e -> twin e a -> contract e (op_of c) -> in_order a c ->
  match c with Measure H jac _ _ => columns e a jac H | _ => True end ->
  step e (op_of c) = OK e' -> twin e' (nm_step (p_aug (e_par e)) (taken e e') a c).
Proof.
  intros e a c e' Hr T C O M E. pose proof (reachable_inv e Hr) as I.
  pose proof (reachable_step e (op_of c) e' Hr C E) as Hr'. pose proof (reachable_inv e' Hr') as I'.
  pose proof (pre_sorted _ (wf_pre _ (proj1 I))) as (S1 & S2 & S3 & S4 & S5).
  destruct c as [o|H jac y noise].
  2: { cbn [op_of step] in *. cbn [nm_step]. exact (step_measure e a H jac y noise e' Hr T C M E). }
  cbn [op_of] in *. destruct o; cbn [step nm_step in_order] in *.
  - eapply (step_imu e); eauto.
  - eapply (step_gps e); eauto.
  - eapply (step_cam e); eauto.
  - destruct O. eapply (step_fid e); eauto.
  - eapply (step_predict e); eauto.
  - eapply (step_frame e); eauto.
  - eapply (step_settle e); eauto.
  - pose proof (refreshing_configured e ORefresh e' Hr C Logic.I E) as CF.
    destruct (Refresh_pre e (wf_pre _ (proj1 I))) as [e2 [E2 [_ [_ [ST [CV [SZ [_ [_ [_ [_ [Q' EQ]]]]]]]]]]]]. rewrite E in E2. injection E2 as <-.
    assert (LY : layout (e_state e') = layout (e_state e)) by (rewrite ST; apply ix_layout).
    assert (FD : e_par e' = e_par e /\ e_bodyQ e' = e_bodyQ e /\ e_time e' = e_time e /\ e_time_init e' = e_time_init e /\
      e_gravity e' = e_gravity e /\ e_max_len e' = e_max_len e /\ e_primary e' = e_primary e /\ e_cov e' = e_cov e /\ e_size e' = e_size e).
    { clear - EQ. rewrite EQ. repeat split. }
    destruct FD as (D1 & D2 & D3 & D4 & D5 & D6 & D7 & D8 & D9).
    assert (OW : forall x, In x (layout (e_state e)) -> own_rate (e_state e') (e_bodyQ e') x = own_rate (e_state e) (e_bodyQ e) x).
    { intros x Hx. rewrite D2, ST. apply own_ix; [apply (pre_sorted _ (wf_pre _ (proj1 I)))|apply ix_sorted, (pre_sorted _ (wf_pre _ (proj1 I)))|exact Hx]. }
    destruct T. constructor;
      cbn [nm_refresh n_names n_cov n_rate n_body n_stab n_time n_started n_gravity n_max n_primary n_imus n_gpss n_cams n_fids n_first n_next];
      rewrite ?LY, ?D1, ?D3, ?D4, ?D5, ?D6, ?D7; auto.
    + intros x y Hx Hy. unfold cov_is, covariance. rewrite LY, D1, D8, D9. apply tw_cov; auto.
    + intros i x Hx. rewrite (configured_rate e' i x CF); [|congruence|exact Hx]. unfold at_ in Hx. rewrite LY in Hx.
      apply nth_error_In in Hx. rewrite OW by exact Hx. auto.
    + intros x Hx. rewrite OW by exact Hx. auto.
    + intros k. rewrite D2. auto.
    + intros id. rewrite ST. cbn [ix_state s_imu]. rewrite ix_imus_keys. auto.
    + intros id. rewrite ST. cbn [ix_state s_gps]. rewrite ix_gpss_keys. auto.
    + intros id. rewrite ST. cbn [ix_state s_cam]. rewrite ix_cams_keys. auto.
    + intros id. rewrite ST. cbn [ix_state s_fid]. rewrite ix_fids_keys. auto.
    + intros k. rewrite tw_win. f_equal. unfold aug_at at 2. rewrite ST, (reg_windows (e_state e) (e_state e)) by reflexivity. reflexivity.
  - destruct O.
  - injection E as <-. unfold GetImuState in *. cbn [snd] in *. apply twin_state; auto; cbn [state_with_imu s_imu s_gps s_cam s_fid s_aug layout];
      try apply T; try (intros id0; apply learn_keys; apply T).
    + unfold layout. cbn [state_with_imu s_imu s_gps s_cam s_fid s_aug]. rewrite touch_fixed by reflexivity. reflexivity.
    + intros x Hx. apply in_layout in Hx. destruct x; try reflexivity; cbn [own_rate state_with_imu s_imu];
        destruct Hx as [v [Hv _]]; rewrite own_touch by (eapply in_find; eauto); reflexivity.
  - injection E as <-. unfold GetGpsState in *. cbn [snd] in *. apply twin_state; auto; cbn [state_with_gps s_imu s_gps s_cam s_fid s_aug layout];
      try apply T; try (intros id0; apply learn_keys; apply T).
    + unfold layout. cbn [state_with_gps s_imu s_gps s_cam s_fid s_aug]. rewrite (touch_fixed _ gps_labels) by reflexivity. reflexivity.
    + intros x Hx. apply in_layout in Hx. destruct x; try reflexivity; cbn [own_rate state_with_gps s_gps];
        destruct Hx as [v [Hv _]]; rewrite own_touch by (eapply in_find; eauto); reflexivity.
  - injection E as <-. unfold GetCamState in *. cbn [snd] in *. apply twin_state; auto; cbn [state_with_cam s_imu s_gps s_cam s_fid s_aug layout];
      try apply T; try (intros id0; apply learn_keys; apply T).
    + unfold layout. cbn [state_with_cam s_imu s_gps s_cam s_fid s_aug]. rewrite (touch_fixed _ cam_labels) by reflexivity. reflexivity.
    + intros x Hx. apply in_layout in Hx. destruct x; try reflexivity; cbn [own_rate state_with_cam s_cam];
        destruct Hx as [v [Hv _]]; rewrite own_touch by (eapply in_find; eauto); reflexivity.
  - destruct (query_ok e cam frame t C) as [s [e2 [E2 [k ->]]]]. rewrite E2 in E. injection E as <-.
    replace a with (with_ids a (n_imus a) (n_gpss a) (n_cams a) (n_fids a) (n_primary a)) by (destruct a; reflexivity).
    apply twin_state; try apply T; auto.
    + unfold layout. cbn [state_with_aug s_imu s_gps s_cam s_fid s_aug]. rewrite (touch_fixed _ aug_labels) by reflexivity. reflexivity.
    + intros j. cbn [state_with_aug s_aug]. apply touch_windows.
  - injection E as <-. destruct T. constructor; auto.
  - injection E as <-. destruct T. constructor; auto.
    intros x Hx. cbn [SetBodyProcessNoise with_bodyQ e_state e_bodyQ nm_step n_body n_stab n_first]. specialize (tw_own x Hx).
    destruct x; try exact tw_own; reflexivity.
  - injection E as <-. destruct T. constructor; auto.
  - injection E as <-. destruct T. constructor; auto.
  - injection E as <-. destruct T. constructor; auto.
  - injection E as <-. destruct T. constructor; auto.
  - injection E as <-. destruct T. constructor; auto.
  - injection E as <-. unfold CalculateLocalTime in *. rewrite <- (tw_started _ _ T). destruct (e_time_init e) eqn:TI; [exact T|].
    destruct T. constructor; auto.
  - injection E as <-. unfold AttemptGpsInitialization in *. destruct (4 <=? _); [destruct (align _ _) as [[p b]|]|]; destruct T; constructor; auto.
Qed.

(** *** Histories *)
Lemma init_twin : forall p q pe an, noise_arg q -> p_root p = false -> twin (EKF_init p q pe an) (nm_init q).
Proof.
  intros p q pe an Hq RT.
  assert (LY : layout (e_state (EKF_init p q pe an)) = map LBody (seq 0 18)) by reflexivity.
  assert (AT : forall i x, at_ (e_state (EKF_init p q pe an)) x i -> i < 18 /\ x = LBody i).
  { intros i x H. unfold at_ in H. rewrite LY in H. pose proof H as B. apply nth_error_In, in_map_iff in B.
    destruct B as [k [<- Hk]]. apply in_seq in Hk. rewrite nth_error_map in H.
    destruct (nth_error (seq 0 18) i) eqn:N; [|discriminate]. injection H as ->.
    pose proof (nth_error_nth _ _ 0 N) as N'. assert (i < 18) by (rewrite <- (seq_length 18 0); apply nth_error_Some; congruence).
    rewrite seq_nth in N' by lia. split; [lia|]. f_equal. lia. }
  constructor; try reflexivity; auto using init_inv.
  - intros x Hx. rewrite LY in Hx. apply in_map_iff in Hx. destruct Hx as [k [<- Hk]]. cbn [nm]. apply in_map. exact Hk.
  - intros n Hn. cbn [nm_init n_names] in Hn. apply in_map_iff in Hn. destruct Hn as [k [<- Hk]]. exists (LBody k).
    split; [rewrite LY; apply in_map; exact Hk|reflexivity].
  - apply FinFun.Injective_map_NoDup; [intros i j X; congruence|apply seq_NoDup].
  - intros x y Hx Hy. destruct (In_nth_error _ _ Hx) as [i Hi]. destruct (In_nth_error _ _ Hy) as [j Hj].
    destruct (AT i x Hi) as [Bi ->]. destruct (AT j y Hj) as [Bj ->]. exists i, j. split; [exact Hi|]. split; [exact Hj|].
    unfold covariance. cbn [EKF_init e_par e_cov]. rewrite RT. cbn [stands_for nm nm_init n_cov mscale midm ent]. unfold mscal, idm.
    destruct (name_dec (NBody i) (NBody j)) as [X|X]; destruct (Nat.eqb_spec i j) as [Y|Y]; try ring; exfalso; congruence.
  - intros x Hx. destruct (In_nth_error _ _ Hx) as [i Hi]. destruct (AT i x Hi) as [Bi ->]. reflexivity.
Qed.

Lemma par_step : forall e o e', inv e -> contract e o -> step e o = OK e' -> e_par e' = e_par e.
Proof.
  intros e o e' I C E. pose proof (step_frame' e o e' I C E) as F. destruct o; try (exact (proj1 F)); try (rewrite F; reflexivity).
  - rewrite F. unfold CalculateLocalTime. destruct (e_time_init e); reflexivity.
  - rewrite F. unfold AttemptGpsInitialization. destruct (4 <=? _); [destruct (align _ _) as [[p b]|]|]; reflexivity.
Qed.

Lemma run_twin : forall l e a e', reachable e -> twin e a -> respects e (map op_of l) -> valid (p_aug (e_par e)) e a l ->
  run e (map op_of l) = OK e' -> reachable e' /\ twin e' (nm_run (p_aug (e_par e)) a (combine l (decisions e l))).
Proof.
  induction l as [|c l IH]; intros e a e' Hr T RS V E.
  - injection E as <-. split; auto.
  - cbn [map run] in E. destruct (step e (op_of c)) as [e1|] eqn:E1; cbn [bind] in E; [|discriminate].
    destruct RS as [C RS]. destruct V as [V1 [V2 V3]].
    pose proof (step_twin e a c e1 Hr T C V1 V2 E1) as T1. pose proof (reachable_step e (op_of c) e1 Hr C E1) as Hr1.
    pose proof (par_step e (op_of c) e1 (reachable_inv e Hr) C E1) as P.
    destruct (IH e1 _ e' Hr1 T1) as [Hr' T']; [apply RS; exact E1|rewrite P; apply V3; exact E1|exact E|].
    split; [exact Hr'|]. cbn [decisions]. rewrite E1. cbn [combine nm_run fold_left fst snd]. rewrite P in T'. exact T'.
Qed.

Lemma history_agrees : forall p q pe an l e, noise_arg q -> p_root p = false ->
  respects (EKF_init p q pe an) (map op_of l) -> valid (p_aug p) (EKF_init p q pe an) (nm_init q) l ->
  run (EKF_init p q pe an) (map op_of l) = OK e ->
  agree e (nm_run (p_aug p) (nm_init q) (combine l (decisions (EKF_init p q pe an) l))).
Proof.
  intros p q pe an l e Hq RT RS V E. apply twin_agree.
  refine (proj2 (run_twin l (EKF_init p q pe an) (nm_init q) e _ (init_twin p q pe an Hq RT) RS V E)).
  exists p, q, pe, an, []. split; [exact Hq|]. split; [exact Logic.I|reflexivity].
Qed.
