(** Maps of feature tracks; the simulated tracker. *)
From Coq Require Import Reals List Arith ZArith Bool Lia Lra Sorted Permutation.
From Verif Require Import Base.Res Base.RDec Base.Geom Base.AMap Model.Types Model.MsckfUpdater Model.Trackers
  Spec.Sub Spec.Matches Spec.Tracks Proofs.Matches.
Import ListNotations.
Open Scope nat_scope.

(** *** Association lists *)
Lemma mfind_filter : forall A (g : nat * A -> bool) m k, sorted m ->
  mfind k (filter g m) = match mfind k m with Some v => if g (k, v) then Some v else None | None => None end.
Proof.
  unfold sorted. induction m as [|[k' v] m IH]; simpl; intros k Hs; [reflexivity|].
  inversion Hs as [|? ? Hs' F]; subst. specialize (IH k Hs').
  destruct (Nat.eqb k k') eqn:E.
  - apply Nat.eqb_eq in E. subst. destruct (g (k', v)) eqn:G; simpl.
    + now rewrite Nat.eqb_refl.
    + rewrite IH. destruct (mfind k' m) eqn:M; [|reflexivity]. apply mfind_in in M.
      apply (in_map fst) in M. simpl in M. rewrite Forall_forall in F. specialize (F k' M). lia.
  - destruct (g (k', v)); simpl; [rewrite E|]; auto.
Qed.
Lemma filter_sorted : forall A (g : nat * A -> bool) m, sorted m -> sorted (filter g m).
Proof.
  unfold sorted. induction m as [|[k v] m IH]; simpl; intros Hs; [constructor|].
  inversion Hs as [|? ? Hs' F]; subst. destruct (g (k, v)); simpl; auto. constructor; auto.
  rewrite Forall_forall in *. intros x Hx. apply F. unfold keys in *. apply in_map_iff in Hx.
  destruct Hx as [y [<- Hy]]. apply filter_In in Hy. apply in_map. tauto.
Qed.
Lemma in_mset : forall A k (v : A) m j w, sorted m -> In (j, w) (mset k v m) -> (j = k /\ w = v) \/ (j <> k /\ In (j, w) m).
Proof.
  unfold sorted. induction m as [|[k' v'] m IH]; simpl; intros j w Hs H.
  - destruct H as [H|[]]. injection H as <- <-. auto.
  - inversion Hs as [|? ? Hs' F]; subst. rewrite Forall_forall in F.
    assert (K : forall x y, In (x, y) m -> k' < x) by (intros x y Hx; apply F; apply (in_map fst) in Hx; exact Hx).
    destruct (Nat.eqb k k') eqn:E.
    + apply Nat.eqb_eq in E. subst. destruct H as [H|H]; [injection H as <- <-; auto|].
      right. split; auto. apply K in H. lia.
    + apply Nat.eqb_neq in E. destruct (Nat.ltb k k') eqn:E2; simpl in H.
      * apply Nat.ltb_lt in E2. destruct H as [H|[H|H]]; [injection H as <- <-; auto| |].
        -- injection H as <- <-. right. split; auto.
        -- right. split; auto. apply K in H. lia.
      * destruct H as [H|H]; [injection H as <- <-; right; split; auto|].
        destruct (IH j w Hs' H) as [|[]]; auto.
Qed.
Lemma sorted_in_mfind : forall A (m : amap A) k v, sorted m -> In (k, v) m -> mfind k m = Some v.
Proof.
  unfold sorted. induction m as [|[k' v'] m IH]; simpl; intros k v Hs H; [contradiction|].
  inversion Hs as [|? ? Hs' F]; subst. destruct H as [H|H].
  - injection H as <- <-. now rewrite Nat.eqb_refl.
  - rewrite Forall_forall in F. pose proof (F k (in_map fst _ _ H)).
    assert (E : Nat.eqb k k' = false) by (apply Nat.eqb_neq; lia). rewrite E. auto.
Qed.

(** *** Well-formed maps of tracks *)
Definition class_is (k : nat) (p : FeaturePoint) : bool := is_feature k (fp_kp p).
Definition wfm (m : feature_map) : Prop :=
  sorted m /\ forall k t, In (k, t) m -> t <> [] /\ Forall (fun p => class_is k p = true) t.
Lemma wfm_nil : wfm [].
Proof. split; [apply sorted_nil|]. intros k t []. Qed.

Lemma mget_in : forall m k, wfm m -> mget [] k m <> [] -> In (k, mget [] k m) m.
Proof. intros m k [Hs _] H. unfold mget in *. destruct (mfind k m) eqn:E; [now apply mfind_in|congruence]. Qed.
Lemma in_mget : forall m k t, wfm m -> In (k, t) m -> mget [] k m = t.
Proof. intros m k t [Hs _] H. unfold mget. now rewrite (sorted_in_mfind _ _ _ _ Hs H). Qed.

Lemma class_is_spec : forall k p, class_is k p = true <-> kp_class (fp_kp p) = Z.of_nat k.
Proof. intros. unfold class_is, is_feature. apply Z.eqb_eq. Qed.
Lemma class_is_to_nat : forall k p, (0 <= kp_class (fp_kp p))%Z -> class_is k p = true <-> k = Z.to_nat (kp_class (fp_kp p)).
Proof. intros k p H. rewrite class_is_spec. lia. Qed.

Lemma push_point_spec : forall m p, wfm m -> (0 <= kp_class (fp_kp p))%Z -> exists m',
  push_point m p = OK m' /\ wfm m' /\
  forall k, mget [] k m' = mget [] k m ++ filter (class_is k) [p].
Proof.
  intros m p W Hp. unfold push_point. apply Z.leb_le in Hp. rewrite Hp. apply Z.leb_le in Hp. cbn [guard bind].
  set (k0 := Z.to_nat (kp_class (fp_kp p))). eexists. split; [reflexivity|]. split.
  - destruct W as [Hs Hw]. split; [now apply mset_sorted|]. intros k t H.
    apply in_mset in H; auto. destruct H as [[-> ->]|[_ H]]; [|now apply Hw].
    split; [intro E; apply app_eq_nil in E; destruct E; discriminate|].
    apply Forall_app. split.
    + unfold mget. destruct (mfind k0 m) eqn:E; [|constructor]. apply mfind_in in E. now apply Hw in E.
    + repeat constructor. now apply class_is_to_nat.
  - intros k. simpl. destruct (class_is k p) eqn:E.
    + apply class_is_to_nat in E; auto. subst k. fold k0. unfold mget at 1. now rewrite mfind_mset_eq.
    + rewrite app_nil_r. unfold mget at 1. rewrite mfind_mset_neq; [reflexivity|].
      intro Hk. assert (X : class_is k p = true) by (apply class_is_to_nat; auto). congruence.
Qed.
Lemma push_points_spec : forall l m, wfm m -> Forall (fun p => (0 <= kp_class (fp_kp p))%Z) l -> exists m',
  push_points m l = OK m' /\ wfm m' /\ forall k, mget [] k m' = mget [] k m ++ filter (class_is k) l.
Proof.
  induction l as [|p l IH]; intros m W F.
  - exists m. split; [reflexivity|]. split; [assumption|]. intros k. simpl. now rewrite app_nil_r.
  - inversion F as [|? ? Hp F']; subst. destruct (push_point_spec m p W Hp) as [m1 [E1 [W1 G1]]].
    destruct (IH m1 W1 F') as [m2 [E2 [W2 G2]]]. exists m2. simpl. rewrite E1. cbn [bind]. split; [auto|]. split; [auto|].
    intros k. rewrite G2, G1. simpl. destruct (class_is k p); simpl; rewrite <- app_assoc; reflexivity.
Qed.

(** *** Flushing *)
Definition done (frame max_len : nat) (t : list FeaturePoint) : bool :=
  Nat.ltb (back_frame t) frame || Nat.leb max_len (length t).
Lemma flush_spec : forall frame mn mx m, (forall k t, In (k, t) m -> t <> []) ->
  flush frame mn mx m = OK
    (filter (fun t => Nat.leb mn (length t)) (filter (done frame mx) (map snd m)),
     filter (fun q => negb (done frame mx (snd q))) m).
Proof.
  induction m as [|[k t] m IH]; intros H; [reflexivity|]. simpl.
  assert (Ht : t <> []) by (apply (H k); now left).
  assert (E : Nat.eqb (length t) 0 = false) by (apply Nat.eqb_neq; destruct t; simpl; [congruence|lia]).
  rewrite E. cbn [guard bind negb]. rewrite IH by (intros k' t' Hi; apply (H k'); now right). cbn [bind].
  fold (back_frame t). fold (done frame mx t). destruct (done frame mx t) eqn:D; simpl; [|reflexivity].
  destruct (Nat.leb mn (length t)); reflexivity.
Qed.

Lemma filter_perm : forall A (f : A -> bool) l, Permutation l (filter f l ++ filter (fun x => negb (f x)) l).
Proof.
  induction l as [|a l IH]; simpl; [constructor|]. destruct (f a); simpl.
  - now constructor.
  - eapply perm_trans; [apply perm_skip, IH|]. apply Permutation_middle.
Qed.
Lemma map_filter_snd : forall (A B : Type) (g : B -> bool) (m : list (A * B)),
  map snd (filter (fun q => g (snd q)) m) = filter g (map snd m).
Proof. induction m as [|[a b] m IH]; simpl; [reflexivity|]. destruct (g b); simpl; [f_equal|]; auto. Qed.

(** The tracks of one feature in a well-formed map *)
Lemma about_class : forall k t, Forall (fun p => class_is k p = true) t -> t <> [] ->
  forall j, about j t = Nat.eqb j k.
Proof.
  intros k t F Ht j. destruct t as [|p t]; [congruence|]. simpl. inversion F as [|? ? H _]; subst.
  unfold class_is, is_feature in *. apply Z.eqb_eq in H. rewrite H.
  destruct (Nat.eqb j k) eqn:E; [apply Nat.eqb_eq in E; subst; apply Z.eqb_refl|].
  apply Nat.eqb_neq in E. apply Z.eqb_neq. lia.
Qed.
Lemma about_map : forall m k, wfm m ->
  filter (about k) (map snd m) = match mget [] k m with [] => [] | t => [t] end.
Proof.
  intros m k [Hs Hw]. revert Hs Hw. unfold sorted. induction m as [|[j t] m IH]; intros Hs Hw; [reflexivity|].
  inversion Hs as [|? ? Hs' F]; subst.
  destruct (Hw j t (or_introl eq_refl)) as [Ht Hc].
  assert (IH' := IH Hs' (fun a b Hi => Hw a b (or_intror Hi))).
  simpl. rewrite (about_class j t Hc Ht). unfold mget. simpl. destruct (Nat.eqb k j) eqn:E.
  - apply Nat.eqb_eq in E. subst. destruct t; [congruence|].
    f_equal. rewrite IH'. unfold mget. destruct (mfind j m) eqn:M; [|reflexivity].
    apply mfind_in in M. apply (in_map fst) in M. rewrite Forall_forall in F. specialize (F j M). lia.
  - rewrite IH'. reflexivity.
Qed.

(** *** One frame *)
Lemma filter_filter_comm : forall A (f g : A -> bool) l, filter f (filter g l) = filter g (filter f l).
Proof.
  induction l as [|a l IH]; simpl; [reflexivity|].
  destruct (g a) eqn:G; destruct (f a) eqn:F; simpl; rewrite ?G, ?F, IH; reflexivity.
Qed.

Lemma frame_step : forall frame mn mx m l, wfm m -> Forall (fun p => (0 <= kp_class (fp_kp p))%Z) l -> exists m1 out kept,
  push_points m l = OK m1 /\ flush frame mn mx m1 = OK (out, kept) /\ wfm m1 /\ wfm kept /\
  (forall k, mget [] k m1 = mget [] k m ++ filter (class_is k) l) /\
  (forall k, mget [] k kept = if done frame mx (mget [] k m1) then [] else mget [] k m1) /\
  (forall k, filter (about k) out =
     match mget [] k m1 with
     | [] => []
     | t => if done frame mx t && Nat.leb mn (length t) then [t] else []
     end) /\
  (forall t, In t out -> exists k, In (k, t) m1 /\ done frame mx t = true /\ mn <= length t).
Proof.
  intros frame mn mx m l W F. destruct (push_points_spec l m W F) as [m1 [E1 [W1 G1]]].
  exists m1. pose proof W1 as [Hs Hw].
  eexists. eexists. split; [exact E1|]. split; [apply flush_spec; intros k t H; now apply Hw in H|].
  split; [auto|]. split; [|split; [exact G1|split; [|split]]].
  - split; [now apply filter_sorted|]. intros k t H. apply filter_In in H. now apply Hw.
  - intros k. unfold mget at 1. rewrite mfind_filter by auto. unfold mget.
    destruct (mfind k m1) as [t|] eqn:E; [simpl; destruct (done frame mx t); reflexivity|].
    destruct (done frame mx []); reflexivity.
  - intros k. rewrite filter_filter_comm, (filter_filter_comm _ (about k)), about_map by auto.
    destruct (mget [] k m1) as [|p t]; [reflexivity|]. cbv zeta. cbn [filter].
    destruct (done frame mx (p :: t)); cbn [andb filter]; [|reflexivity].
    destruct (Nat.leb mn (length (p :: t))); reflexivity.
  - intros t H. apply filter_In in H. destruct H as [H H1]. apply filter_In in H. destruct H as [H H2].
    apply in_map_iff in H. destruct H as [[k t'] [E H]]. simpl in E. subst. exists k.
    apply Nat.leb_le in H1. auto.
Qed.
