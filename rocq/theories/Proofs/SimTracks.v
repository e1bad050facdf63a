(** The simulated tracker over a history of frames. *)
From Coq Require Import Reals List Arith ZArith Bool Lia Lra Sorted Permutation.
From Verif Require Import Base.Res Base.RDec Base.Geom Base.AMap Model.Types Model.MsckfUpdater Model.Trackers
  Spec.Sub Spec.Matches Spec.Tracks Proofs.Matches Proofs.Tracks.
Import ListNotations.
Open Scope nat_scope.

(** *** The feature list and its map agree *)
Definition known (f : features) : Prop := f_map f = combine (seq 0 (length (f_points f))) (f_points f).
Lemma combine_find : forall A (l : list A) s k, s <= k -> mfind k (combine (seq s (length l)) l) = nth_error l (k - s).
Proof.
  induction l as [|a l IH]; simpl; intros s k H; [destruct (k - s); reflexivity|].
  destruct (Nat.eqb k s) eqn:E.
  - apply Nat.eqb_eq in E. subst. now rewrite Nat.sub_diag.
  - apply Nat.eqb_neq in E. rewrite IH by lia. replace (k - s) with (S (k - S s)) by lia. reflexivity.
Qed.
Lemma combine_keys : forall A (l : list A) s, keys (combine (seq s (length l)) l) = seq s (length l).
Proof. induction l as [|a l IH]; simpl; intros s; [reflexivity|]. f_equal. apply IH. Qed.
Lemma seq_sorted : forall n s, StronglySorted lt (seq s n).
Proof.
  induction n as [|n IH]; simpl; intros s; constructor; auto.
  apply Forall_forall. intros x Hx. apply in_seq in Hx. lia.
Qed.
Lemma combine_seq_app : forall A (l1 l2 : list A) s, combine (seq s (length (l1 ++ l2))) (l1 ++ l2) =
  combine (seq s (length l1)) l1 ++ combine (seq (s + length l1) (length l2)) l2.
Proof.
  induction l1 as [|a l1 IH]; simpl; intros l2 s; [now rewrite Nat.add_0_r|].
  rewrite IH, Nat.add_succ_r. reflexivity.
Qed.
Lemma combine_app_last : forall A (l : list A) p, combine (seq 0 (length (l ++ [p]))) (l ++ [p]) =
  combine (seq 0 (length l)) l ++ [(length l, p)].
Proof. intros A l p. rewrite combine_seq_app. reflexivity. Qed.
Lemma mset_same : forall A (m : amap A) k v, mfind k m = Some v -> sorted m -> mset k v m = m.
Proof. intros A m k v H Hs. destruct (mset_present _ k v m v H Hs) as [l [r [E1 E2]]]. congruence. Qed.
Lemma known_append : forall f p, known f -> known (mkFeat (f_points f ++ [p]) (mset (length (f_map f)) p (f_map f))).
Proof.
  unfold known. intros f p H. cbn [f_map f_points]. rewrite combine_app_last, <- H.
  assert (L : length (f_map f) = length (f_points f)) by (rewrite H, combine_length, seq_length; lia).
  rewrite L. apply mset_append. rewrite H. apply Forall_forall. intros [k v] Hk. apply in_combine_l in Hk.
  apply in_seq in Hk. simpl. lia.
Qed.
Lemma more_points : forall l f, f_points (GenerateVisibleFeatures l f) = f_points f ++ l.
Proof.
  unfold GenerateVisibleFeatures. induction l as [|p l IH]; intros f; simpl; [now rewrite app_nil_r|].
  rewrite IH. simpl. now rewrite <- app_assoc.
Qed.
Lemma known_more : forall l f, known f -> known (GenerateVisibleFeatures l f).
Proof.
  unfold GenerateVisibleFeatures. induction l as [|p l IH]; intros f H; simpl; [auto|]. apply IH, known_append, H.
Qed.
Lemma fold_same : forall A (l : list (nat * A)) m, sorted m -> (forall k v, In (k, v) l -> mfind k m = Some v) ->
  fold_left (fun m q => mset (fst q) (snd q) m) l m = m.
Proof.
  induction l as [|[k v] l IH]; simpl; intros m Hs H; [reflexivity|].
  rewrite mset_same; auto.
Qed.
Lemma fold_append : forall A (l : list A) s m, Forall (fun x => fst x < s) m ->
  fold_left (fun m q => mset (fst q) (snd q) m) (combine (seq s (length l)) l) m = m ++ combine (seq s (length l)) l.
Proof.
  induction l as [|a l IH]; simpl; intros s m H; [now rewrite app_nil_r|].
  rewrite (mset_append _ s a m H), IH.
  - now rewrite <- app_assoc.
  - apply Forall_app. split; [eapply Forall_impl; [|exact H]; simpl; intros; lia|]. repeat constructor.
Qed.
Lemma known_grid : forall n room f, known f -> known (GenerateGridFeatures n room f).
Proof.
  unfold known, GenerateGridFeatures. intros n room f H. cbn [f_map f_points].
  set (new := flat_map _ _). rewrite combine_seq_app, fold_left_app, <- H.
  assert (Hs : sorted (f_map f)) by (unfold sorted; rewrite H, combine_keys; apply seq_sorted).
  rewrite (fold_same _ (f_map f) (f_map f) Hs).
  - apply fold_append. rewrite H. apply Forall_forall. intros [k v] Hk. apply in_combine_l in Hk. apply in_seq in Hk. simpl. lia.
  - intros k v Hi. now apply sorted_in_mfind.
Qed.
Lemma grown_known : forall f, grown f -> known f.
Proof. induction 1; [reflexivity|now apply known_grid|now apply known_more]. Qed.
Lemma known_find : forall f k, known f -> mfind k (f_map f) = nth_error (f_points f) k.
Proof. intros f k H. rewrite H, combine_find by lia. now rewrite Nat.sub_0_r. Qed.
Lemma get_feature : forall f k p, known f -> nth_error (f_points f) k = Some p -> GetFeature f k = (p, f).
Proof.
  intros f k p H E. unfold GetFeature, mget, mtouch. rewrite known_find, E by auto. now destruct f.
Qed.

(** *** Visible points *)
Lemma fip_filter : forall ne v pts k, filter (is_feature k) (FilterInvisiblePoints ne v pts) =
  match nth_error pts k with
  | Some p => if visible v p then [key_point ne v k p] else []
  | None => []
  end.
Proof.
  intros ne v pts k.
  assert (C : forall i p, is_feature k (key_point ne v i p) = Nat.eqb i k).
  { intros i p. unfold is_feature, key_point. destruct ne; simpl;
    (destruct (Nat.eqb i k) eqn:E; [apply Nat.eqb_eq in E; subst; apply Z.eqb_refl|
       apply Nat.eqb_neq in E; apply Z.eqb_neq; lia]). }
  assert (K : forall pts s, filter (is_feature k) (flat_map (fun q => if visible v (snd q) then [key_point ne v (fst q) (snd q)] else [])
       (combine (seq s (length pts)) pts)) =
     if Nat.leb s k then match nth_error pts (k - s) with
       | Some p => if visible v p then [key_point ne v k p] else []
       | None => [] end else []).
  { clear pts. induction pts as [|p pts IH]; intros s.
    - simpl. destruct (Nat.leb s k); [destruct (k - s); reflexivity|reflexivity].
    - cbn [length seq combine flat_map]. rewrite filter_app, IH. cbn [fst snd].
      assert (F1 : filter (is_feature k) (if visible v p then [key_point ne v s p] else []) =
        if Nat.eqb s k then (if visible v p then [key_point ne v k p] else []) else []).
      { destruct (visible v p); simpl; [rewrite C|destruct (Nat.eqb s k); reflexivity].
        destruct (Nat.eqb s k) eqn:E; [apply Nat.eqb_eq in E; subst|]; reflexivity. }
      rewrite F1. destruct (lt_eq_lt_dec s k) as [[L|L]|L].
      + assert (E1 : Nat.eqb s k = false) by (apply Nat.eqb_neq; lia).
        assert (E2 : Nat.leb (S s) k = true) by (apply Nat.leb_le; lia).
        assert (E3 : Nat.leb s k = true) by (apply Nat.leb_le; lia).
        rewrite E1, E2, E3. replace (k - s) with (S (k - S s)) by lia. reflexivity.
      + subst. rewrite Nat.eqb_refl, Nat.leb_refl, Nat.sub_diag.
        assert (E2 : Nat.leb (S k) k = false) by (apply Nat.leb_gt; lia). rewrite E2.
        simpl. now rewrite app_nil_r.
      + assert (E1 : Nat.eqb s k = false) by (apply Nat.eqb_neq; lia).
        assert (E2 : Nat.leb (S s) k = false) by (apply Nat.leb_gt; lia).
        assert (E3 : Nat.leb s k = false) by (apply Nat.leb_gt; lia).
        now rewrite E1, E2, E3. }
  unfold FilterInvisiblePoints. rewrite K. simpl. now rewrite Nat.sub_0_r.
Qed.
Lemma fip_in : forall ne v pts kp, In kp (FilterInvisiblePoints ne v pts) -> exists k p,
  nth_error pts k = Some p /\ visible v p = true /\ kp = key_point ne v k p /\ k < length pts.
Proof.
  intros ne v pts kp H. unfold FilterInvisiblePoints in H. apply in_flat_map in H. destruct H as [[k p] [H1 H2]].
  cbn [fst snd] in H2. destruct (visible v p) eqn:V; [|contradiction]. destruct H2 as [<-|[]].
  exists k, p. assert (K : mfind k (combine (seq 0 (length pts)) pts) = Some p).
  { apply sorted_in_mfind; auto. unfold sorted. rewrite combine_keys. apply seq_sorted. }
  rewrite combine_find, Nat.sub_0_r in K by lia. repeat split; auto. apply nth_error_Some. congruence.
Qed.
Lemma find_filter : forall A (f : A -> bool) l, find f l = hd_error (filter f l).
Proof. induction l as [|a l IH]; simpl; [reflexivity|]. destruct (f a); auto. Qed.

Lemma visible_points : forall s v f kps f', known f -> GetVisibleKeypoints s v f = (kps, f') ->
  known f' /\ (exists more, f_points f' = f_points f ++ more) /\ kps = FilterInvisiblePoints (st_no_errors s) v (f_points f').
Proof.
  intros s v f kps f' K H. unfold GetVisibleKeypoints in H.
  destruct (Nat.ltb _ _); injection H as <- <-.
  - split; [now apply known_more|]. split; [|reflexivity]. eexists. apply more_points.
  - split; auto. split; auto. exists []. now rewrite app_nil_r.
Qed.

(** *** One frame *)
Definition held (f : features) (m : feature_map) : Prop :=
  forall k t, In (k, t) m -> k < length (f_points f).
Definition track_id (t : list FeaturePoint) : nat := Z.to_nat (kp_class (fp_kp (hd (mkFP 0 0 (mkKP 0 0 0)) t))).

Lemma with_truth_spec : forall f out, known f -> Forall (fun t => track_id t < length (f_points f)) out ->
  with_truth f out = (map (fun t => mkFT t (nth_error (f_points f) (track_id t))) out, f).
Proof.
  intros f out K F. induction F as [|t out Ht F IH]; [reflexivity|].
  change (with_truth f (t :: out)) with (let '(p, f) := GetFeature f (track_id t) in
    let '(r, f) := with_truth f out in (mkFT t (Some p) :: r, f)).
  destruct (nth_error (f_points f) (track_id t)) as [p|] eqn:E; [|apply nth_error_None in E; lia].
  rewrite (get_feature f _ p K E), IH. cbn [map]. rewrite E. reflexivity.
Qed.
Lemma track_id_class : forall k t, Forall (fun p => class_is k p = true) t -> t <> [] -> track_id t = k.
Proof.
  intros k t F H. destruct t as [|p t]; [congruence|]. inversion F as [|? ? Hp _]; subst.
  unfold track_id. simpl. apply class_is_spec in Hp. rewrite Hp. lia.
Qed.

Lemma message_step : forall s f time frame v, known f -> wfm (st_map s) -> held f (st_map s) ->
  exists kps f' m1 out kept,
  GetVisibleKeypoints s v f = (kps, f') /\ known f' /\ (exists more, f_points f' = f_points f ++ more) /\
  kps = FilterInvisiblePoints (st_no_errors s) v (f_points f') /\
  GenerateMessage s f time frame v = OK (map (fun t => mkFT t (nth_error (f_points f') (track_id t))) out,
    mkST (st_min s) (st_max s) (st_count s) (st_no_errors s) kept, f') /\
  wfm m1 /\ wfm kept /\ held f' m1 /\ held f' kept /\
  (forall k, mget [] k m1 = mget [] k (st_map s) ++ filter (class_is k) (map (mkFP frame time) kps)) /\
  (forall k, mget [] k kept = if done frame (st_max s) (mget [] k m1) then [] else mget [] k m1) /\
  (forall k, filter (about k) out =
     match mget [] k m1 with
     | [] => []
     | t => if done frame (st_max s) t && Nat.leb (st_min s) (length t) then [t] else []
     end) /\
  (forall t, In t out -> exists k, In (k, t) m1 /\ done frame (st_max s) t = true /\ st_min s <= length t).
Proof.
  intros s f time frame v K W Hh. destruct (GetVisibleKeypoints s v f) as [kps f'] eqn:EV.
  destruct (visible_points s v f kps f' K EV) as [K' [[more Em] Ek]].
  assert (F : Forall (fun p => (0 <= kp_class (fp_kp p))%Z) (map (mkFP frame time) kps)).
  { apply Forall_forall. intros p Hp. apply in_map_iff in Hp. destruct Hp as [kp [<- Hk]]. simpl.
    rewrite Ek in Hk. apply fip_in in Hk. destruct Hk as [k [q [_ [_ [-> _]]]]]. unfold key_point.
    destruct (st_no_errors s); simpl; lia. }
  destruct (frame_step frame (st_min s) (st_max s) (st_map s) _ W F)
    as [m1 [out [kept [E1 [E2 [W1 [Wk [G1 [G2 [G3 G4]]]]]]]]]].
  assert (H1 : held f' m1).
  { intros k t Hi. destruct W1 as [Hs Hw]. pose proof (in_mget m1 k t (conj Hs Hw) Hi) as E. rewrite G1 in E.
    rewrite Em, app_length. unfold mget in E. destruct (mfind k (st_map s)) as [t0|] eqn:Ef.
    - apply mfind_in in Ef. apply Hh in Ef. lia.
    - destruct (Hw k t Hi) as [Ht _]. simpl in E. destruct t as [|p t]; [congruence|].
      assert (Hp : In p (filter (class_is k) (map (mkFP frame time) kps))) by (rewrite E; now left).
      apply filter_In in Hp. destruct Hp as [Hp Hc]. apply in_map_iff in Hp. destruct Hp as [kp [<- Hk]].
      rewrite Ek in Hk. apply fip_in in Hk. destruct Hk as [j [q [_ [_ [-> Hj]]]]].
      apply class_is_spec in Hc. rewrite Em, app_length in Hj.
      unfold key_point in Hc. destruct (st_no_errors s); simpl in Hc; lia. }
  exists kps, f', m1, out, kept. split; [reflexivity|]. split; [auto|]. split; [eauto|]. split; [auto|].
  split.
  - unfold GenerateMessage. rewrite EV, E1. cbn [bind]. rewrite E2. cbn [bind].
    rewrite with_truth_spec; [reflexivity|auto|]. apply Forall_forall. intros t Ht.
    apply G4 in Ht. destruct Ht as [k [Hi _]]. destruct W1 as [Hs Hw]. destruct (Hw k t Hi) as [Hn Hc].
    rewrite (track_id_class k t Hc Hn). eapply H1; eauto.
  - split; [auto|]. split; [auto|]. split; [auto|]. split; [|auto].
    intros k t Hi. assert (E := in_mget kept k t Wk Hi). rewrite G2 in E. destruct (Wk) as [_ Hw].
    destruct (Hw k t Hi) as [Hn _]. destruct (done _ _ _); [congruence|].
    apply (H1 k (mget [] k m1)). apply mget_in; auto. congruence.
Qed.

(** *** Histories *)
Definition open_before (m : feature_map) (l : list sim_frame) : Prop :=
  forall k t x, In (k, t) m -> In x l -> back_frame t < sf_frame x.
Lemma back_app : forall t p, back_frame (t ++ [p]) = fp_frame p.
Proof. intros. unfold back_frame. now rewrite last_last. Qed.

Lemma class_filter_map : forall k frame time kps, filter (class_is k) (map (mkFP frame time) kps) =
  map (mkFP frame time) (filter (is_feature k) kps).
Proof.
  induction kps as [|p kps IH]; simpl; [reflexivity|]. unfold class_is at 1. simpl.
  destruct (is_feature k p); simpl; [f_equal|]; auto.
Qed.
Lemma sighting_points : forall ne v pts frame time k,
  filter (class_is k) (map (mkFP frame time) (FilterInvisiblePoints ne v pts)) =
  match sighting k (frame, time, FilterInvisiblePoints ne v pts) with Some p => [p] | None => [] end /\
  (forall p, sighting k (frame, time, FilterInvisiblePoints ne v pts) = Some p -> fp_frame p = frame).
Proof.
  intros. rewrite class_filter_map. unfold sighting. cbn [fst snd]. rewrite find_filter, fip_filter.
  destruct (nth_error pts k) as [p|]; [destruct (visible v p)|]; simpl; split; auto; intros q H; try discriminate.
  injection H as <-. reflexivity.
Qed.

Lemma sim_step_open : forall s time frame kept m1 kps l,
  wfm m1 -> wfm kept ->
  (forall k, mget [] k m1 = mget [] k (st_map s) ++ filter (class_is k) (map (mkFP frame time) kps)) ->
  (forall k, mget [] k kept = if done frame (st_max s) (mget [] k m1) then [] else mget [] k m1) ->
  Forall (fun x => frame < sf_frame x) l ->
  (forall k t, In (k, t) m1 -> back_frame t <= frame) ->
  open_before kept l /\ (forall k t, In (k, t) kept -> back_frame t = frame /\ length t < st_max s).
Proof.
  intros s time frame kept m1 kps l W1 Wk G1 G2 Hl Hb.
  assert (E : forall k t, In (k, t) kept -> In (k, t) m1 /\ done frame (st_max s) t = false).
  { intros k t Hi. pose proof (in_mget kept k t Wk Hi) as E. rewrite G2 in E. destruct Wk as [_ Hw].
    destruct (Hw k t Hi) as [Hn _]. destruct (done _ _ _) eqn:D; [congruence|]. rewrite E in D. split; auto.
    rewrite <- E. apply mget_in; auto. congruence. }
  assert (K : forall k t, In (k, t) kept -> back_frame t = frame /\ length t < st_max s).
  { intros k t Hi. destruct (E k t Hi) as [H1 D]. unfold done in D. apply orb_false_iff in D. destruct D as [D1 D2].
    apply Nat.ltb_ge in D1. apply Nat.leb_gt in D2. specialize (Hb k t H1). split; lia. }
  split; auto. intros k t x Hi Hx. destruct (K k t Hi) as [-> _]. rewrite Forall_forall in Hl. now apply Hl.
Qed.

Lemma back_le : forall s frame time ne v pts m1,
  wfm (st_map s) -> wfm m1 -> (forall k t, In (k, t) (st_map s) -> back_frame t < frame) ->
  (forall k, mget [] k m1 = mget [] k (st_map s) ++ filter (class_is k) (map (mkFP frame time) (FilterInvisiblePoints ne v pts))) ->
  forall k t, In (k, t) m1 -> back_frame t <= frame.
Proof.
  intros s frame time ne v pts m1 W W1 Hb G k t Hi. pose proof (in_mget m1 k t W1 Hi) as E. rewrite G in E.
  destruct (sighting_points ne v pts frame time k) as [S1 S2]. rewrite S1 in E.
  destruct (sighting _ _) as [p|].
  - rewrite <- E, back_app, (S2 p eq_refl). lia.
  - rewrite app_nil_r in E. destruct W1 as [_ Hw]. destruct (Hw k t Hi) as [Hn _].
    assert (I : In (k, t) (st_map s)) by (rewrite <- E; apply mget_in; auto; congruence).
    apply Hb in I. lia.
Qed.

Lemma shown_ext : forall l s s1 f, st_count s = st_count s1 -> st_no_errors s = st_no_errors s1 -> shown s f l = shown s1 f l.
Proof.
  induction l as [|x l IH]; intros s s1 f H1 H2; [reflexivity|]. simpl. unfold GetVisibleKeypoints. rewrite H1, H2.
  destruct (Nat.ltb _ _); f_equal; auto.
Qed.

Definition sim_good (s : sim_tracker) (f : features) (l : list sim_frame) : Prop :=
  known f /\ wfm (st_map s) /\ held f (st_map s) /\ open_before (st_map s) l /\ ascending (map sf_frame l).

Lemma sim_good_new : forall mn mx c ne f l, known f -> ascending (map sf_frame l) -> sim_good (sim_tracker_new mn mx c ne) f l.
Proof.
  intros mn mx c ne f l H1 H2. split; [auto|]. split; [apply wfm_nil|]. split; [intros k t []|].
  split; [intros k t x []|auto].
Qed.

Lemma held_more : forall f f' m more, held f m -> f_points f' = f_points f ++ more -> held f' m.
Proof. intros f f' m more H E k t Hi. rewrite E, app_length. specialize (H k t Hi). lia. Qed.

Lemma sim_step : forall s f x l, sim_good s f (x :: l) -> exists kps f' out kept,
  let f0 := GenerateVisibleFeatures (sf_others x) f in
  GetVisibleKeypoints s (sf_view x) f0 = (kps, f') /\
  kps = FilterInvisiblePoints (st_no_errors s) (sf_view x) (f_points f') /\
  (exists more, f_points f' = f_points f ++ more) /\
  GenerateMessage s f0 (sf_time x) (sf_frame x) (sf_view x) =
    OK (map (fun t => mkFT t (nth_error (f_points f') (track_id t))) out,
        mkST (st_min s) (st_max s) (st_count s) (st_no_errors s) kept, f') /\
  sim_good (mkST (st_min s) (st_max s) (st_count s) (st_no_errors s) kept) f' l /\
  (forall k t, In (k, t) kept -> back_frame t = sf_frame x /\ length t < st_max s) /\
  (forall k, let cur := mget [] k (st_map s) in
     match sighting k (sf_frame x, sf_time x, kps) with
     | None => mget [] k kept = [] /\
         filter (about k) out = match cur with [] => [] | t => if Nat.leb (st_min s) (length t) then [t] else [] end
     | Some p => fp_frame p = sf_frame x /\
         if Nat.leb (st_max s) (length (cur ++ [p])) then
           mget [] k kept = [] /\ filter (about k) out = if Nat.leb (st_min s) (length (cur ++ [p])) then [cur ++ [p]] else []
         else mget [] k kept = cur ++ [p] /\ filter (about k) out = []
     end) /\
  (forall t, In t out -> t <> [] /\ st_min s <= length t /\ track_id t < length (f_points f') /\
     Forall (fun p => class_is (track_id t) p = true) t).
Proof.
  intros s f x l [K [W [Hh [Ho Ha]]]].
  destruct (message_step s (GenerateVisibleFeatures (sf_others x) f) (sf_time x) (sf_frame x) (sf_view x))
    as [kps [f' [m1 [out [kept [E1 [K' [[more Em] [Ek [Eg [W1 [Wk [H1 [Hk [G1 [G2 [G3 G4]]]]]]]]]]]]]]]]].
  { now apply known_more. } { auto. } { eapply held_more; [exact Hh|apply more_points]. }
  exists kps, f', out, kept. cbv zeta. split; [exact E1|]. split; [exact Ek|].
  split; [rewrite more_points in Em; rewrite <- app_assoc in Em; eauto|]. split; [exact Eg|].
  inversion Ha as [|? ? Ha' Hf]; subst. rewrite Forall_map in Hf.
  assert (Hb : forall k t, In (k, t) (st_map s) -> back_frame t < sf_frame x).
  { intros k t Hi. apply (Ho k t x Hi). now left. }
  assert (Hl : forall k t, In (k, t) m1 -> back_frame t <= sf_frame x) by (eapply back_le; eauto).
  destruct (sim_step_open s (sf_time x) (sf_frame x) kept m1 _ l W1 Wk G1 G2 Hf Hl) as [O1 O2].
  split; [split; [exact K'|]; split; [exact Wk|]; split; [exact Hk|]; split; [exact O1|exact Ha']|]. split; [exact O2|].
  split.
  - intros k. destruct (sighting_points (st_no_errors s) (sf_view x) (f_points f') (sf_frame x) (sf_time x) k) as [S1 S2].
    pose proof (G1 k) as Gk. rewrite S1 in Gk. pose proof (G2 k) as Gk2. pose proof (G3 k) as Gk3.
    destruct (sighting k _) as [p|] eqn:Sg.
    + specialize (S2 p eq_refl). split; [auto|]. rewrite Gk in Gk2, Gk3.
      assert (D : done (sf_frame x) (st_max s) (mget [] k (st_map s) ++ [p]) = Nat.leb (st_max s) (length (mget [] k (st_map s) ++ [p]))).
      { unfold done. rewrite back_app, S2, Nat.ltb_irrefl. reflexivity. }
      destruct (mget [] k (st_map s) ++ [p]) as [|q t] eqn:Et; [destruct (mget [] k (st_map s)); discriminate|].
      cbv zeta in Gk3. rewrite D in Gk2, Gk3. destruct (Nat.leb (st_max s) (length (q :: t))); auto.
    + rewrite app_nil_r in Gk. rewrite Gk in Gk2, Gk3.
      destruct (mget [] k (st_map s)) as [|q t] eqn:Et.
      * split; auto. rewrite Gk2. destruct (done _ _ _); reflexivity.
      * assert (D : done (sf_frame x) (st_max s) (q :: t) = true).
        { unfold done. apply orb_true_iff. left. apply Nat.ltb_lt. apply (Hb k). rewrite <- Et. apply mget_in; auto. congruence. }
        cbv zeta in Gk3. rewrite D in Gk2, Gk3. split; auto.
  - intros t Ht. apply G4 in Ht. destruct Ht as [k [Hi [_ Hm]]]. pose proof W1 as [_ Hw].
    destruct (Hw k t Hi) as [Hn Hc]. rewrite (track_id_class k t Hc Hn). repeat split; auto. eapply H1; eauto.
Qed.

Lemma filter_app' : forall A (f : A -> bool) l m, filter f (l ++ m) = filter f l ++ filter f m.
Proof. intros. apply filter_app. Qed.

Lemma tracks_of : forall f out, map ft_track (map (fun t => mkFT t (nth_error (f_points f) (track_id t))) out) = out.
Proof. intros. rewrite map_map. simpl. apply map_id. Qed.

Lemma sim_refines : forall l s f, sim_good s f l -> exists outs s' f',
  sim_run s f l = OK (outs, s', f') /\ sim_good s' f' [] /\
  st_min s' = st_min s /\ st_max s' = st_max s /\ st_count s' = st_count s /\ st_no_errors s' = st_no_errors s /\
  forall k, let r := runs (st_max s) (mget [] k (st_map s)) (map (sighting k) (shown s f l)) in
    filter (about k) (map ft_track (concat outs)) = filter (fun t => Nat.leb (st_min s) (length t)) (fst r) /\
    mget [] k (st_map s') = snd r.
Proof.
  induction l as [|x l IH]; intros s f G.
  - exists [], s, f. split; [reflexivity|]. split; [exact G|]. do 4 (split; [reflexivity|]). intros k. simpl. auto.
  - destruct (sim_step s f x l G) as [kps [f' [out [kept [E1 [Ek [_ [Eg [G' [_ [St _]]]]]]]]]]].
    destruct (IH _ _ G') as [outs [s' [f2 [E2 [G2 [M1 [M2 [M3 [M4 R]]]]]]]]].
    exists ((map (fun t => mkFT t (nth_error (f_points f') (track_id t))) out) :: outs), s', f2.
    split; [simpl; rewrite Eg; cbn [bind]; rewrite E2; reflexivity|]. split; [exact G2|].
    do 4 (split; [assumption|]). intros k. specialize (St k). specialize (R k). cbv zeta in *.
    cbn [concat]. rewrite map_app, filter_app', tracks_of.
    cbn [shown]. rewrite E1. cbn [map]. rewrite (shown_ext l s (mkST (st_min s) (st_max s) (st_count s) (st_no_errors s) kept)) by reflexivity.
    cbn [st_max st_min st_map st_count st_no_errors] in *.
    destruct (sighting k (sf_frame x, sf_time x, kps)) as [p|].
    + destruct St as [_ St]. cbn [runs]. destruct (Nat.leb (st_max s) (length (mget [] k (st_map s) ++ [p]))).
      * destruct St as [S1 S2]. rewrite S1 in R. rewrite S2. destruct (runs (st_max s) [] _) as [o c]. cbn [fst snd] in *.
        destruct R as [R1 R2]. rewrite R1. split; [|auto]. cbn [filter].
        destruct (Nat.leb (st_min s) (length (mget [] k (st_map s) ++ [p]))); reflexivity.
      * destruct St as [S1 S2]. rewrite S1 in R. rewrite S2. exact R.
    + destruct St as [S1 S2]. rewrite S1 in R. rewrite S2. cbn [runs].
      destruct (mget [] k (st_map s)) as [|q t]; [exact R|].
      destruct (runs (st_max s) [] _) as [o c]. cbn [fst snd] in *. destruct R as [R1 R2]. rewrite R1. split; [|auto].
      cbn [filter]. destruct (Nat.leb (st_min s) (length (q :: t))); reflexivity.
Qed.

(** *** Properties of runs *)
Fixpoint somes {A} (l : list (option A)) : list A :=
  match l with [] => [] | Some a :: l => a :: somes l | None :: l => somes l end.
Lemma runs_all : forall A mx l (cur : list A), concat (fst (runs mx cur l)) ++ snd (runs mx cur l) = cur ++ somes l.
Proof.
  induction l as [|[p|] l IH]; intros cur; simpl; [now rewrite app_nil_r| |].
  - destruct (Nat.leb mx (length (cur ++ [p]))).
    + specialize (IH []). destruct (runs mx [] l) as [o c]. simpl in *. rewrite <- app_assoc, IH, <- app_assoc. reflexivity.
    + rewrite IH, <- app_assoc. reflexivity.
  - destruct cur as [|a cur]; [apply IH|]. specialize (IH []). destruct (runs mx [] l) as [o c]. simpl in *.
    rewrite <- app_assoc, IH. reflexivity.
Qed.
Lemma segment_here : forall A (s l : list A), segment s (s ++ l).
Proof. intros. exists [], l. reflexivity. Qed.
Lemma segment_later : forall A (s a l : list A), segment s l -> segment s (a ++ l).
Proof. intros A s a l [x [y E]]. exists (a ++ x), y. rewrite E, !app_assoc. reflexivity. Qed.
Lemma segment_map : forall A B (f : A -> B) s l, segment s l -> segment (map f s) (map f l).
Proof. intros A B f s l [x [y E]]. exists (map f x), (map f y). now rewrite E, !map_app. Qed.

Lemma runs_segment : forall A mx l (cur : list A) r, In r (fst (runs mx cur l)) -> segment (map Some r) (map Some cur ++ l).
Proof.
  induction l as [|[p|] l IH]; intros cur r H; simpl in H; [contradiction| |].
  - replace (map Some cur ++ Some p :: l) with (map Some (cur ++ [p]) ++ l) by (rewrite map_app, <- app_assoc; reflexivity).
    destruct (Nat.leb mx (length (cur ++ [p]))).
    + specialize (IH [] r). destruct (runs mx [] l) as [o c]. simpl in *. destruct H as [<-|H]; [apply segment_here|].
      apply segment_later, IH, H.
    + apply IH, H.
  - destruct cur as [|a cur].
    + apply (segment_later _ _ (map Some [] ++ [None])). apply (IH [] r H).
    + specialize (IH [] r). destruct (runs mx [] l) as [o c]. simpl in H. destruct H as [<-|H]; [apply segment_here|].
      replace (map Some (a :: cur) ++ None :: l) with ((map Some (a :: cur) ++ [None]) ++ l) by (rewrite <- app_assoc; reflexivity).
      apply segment_later. apply IH, H.
Qed.
Lemma runs_length : forall A mx l (cur : list A), (cur = [] \/ length cur < mx) ->
  Forall (fun r => length r <= Nat.max 1 mx) (fst (runs mx cur l)) /\
  (snd (runs mx cur l) = [] \/ length (snd (runs mx cur l)) < mx).
Proof.
  induction l as [|[p|] l IH]; intros cur H; cbn [runs]; [cbn [fst snd]; auto| |].
  - destruct (Nat.leb mx (length (cur ++ [p]))) eqn:E.
    + destruct (IH [] (or_introl eq_refl)) as [A1 A2]. destruct (runs mx [] l) as [o c]. cbn [fst snd] in *. split; auto.
      constructor; auto. rewrite app_length. cbn [length]. destruct H as [->|H]; cbn [length]; lia.
    + apply IH. right. now apply Nat.leb_gt in E.
  - destruct cur as [|a cur]; [now apply IH|].
    destruct (IH [] (or_introl eq_refl)) as [A1 A2]. destruct (runs mx [] l) as [o c]. cbn [fst snd] in *. split; auto.
    constructor; auto. destruct H as [H|H]; [discriminate|]. cbn [length] in *. lia.
Qed.

(** *** The sightings *)
Lemma shown_from : forall l s f, known f -> Forall2 (fun x h => exists fx more,
    fst (fst h) = sf_frame x /\ snd (fst h) = sf_time x /\
    snd h = FilterInvisiblePoints (st_no_errors s) (sf_view x) (f_points fx) /\ f_points fx = f_points f ++ more) l (shown s f l).
Proof.
  induction l as [|x l IH]; intros s f K; [constructor|]. simpl.
  destruct (GetVisibleKeypoints s (sf_view x) (GenerateVisibleFeatures (sf_others x) f)) as [kps f'] eqn:E.
  destruct (visible_points s _ _ _ _ (known_more (sf_others x) f K) E) as [K' [[more Em] Ek]].
  rewrite more_points, <- app_assoc in Em.
  constructor.
  - exists f'. eexists. repeat split; eauto.
  - specialize (IH s f' K'). clear - IH Em. induction IH as [|y h l r [fx [m [H1 [H2 [H3 H4]]]]] F IHF]; constructor; auto.
    exists fx. eexists. repeat split; eauto. rewrite H4, Em, <- app_assoc. reflexivity.
Qed.
Lemma shown_frames : forall l s f, map (fun h => fst (fst h)) (shown s f l) = map sf_frame l.
Proof.
  induction l as [|x l IH]; intros s f; [reflexivity|]. simpl.
  destruct (GetVisibleKeypoints _ _ _) as [kps f']. simpl. f_equal. apply IH.
Qed.
Lemma sighting_frame : forall k h p, sighting k h = Some p -> fp_frame p = fst (fst h) /\ class_is k p = true /\
  fp_time p = snd (fst h) /\ In (fp_kp p) (snd h).
Proof.
  intros k h p H. unfold sighting in H. destruct (find (is_feature k) (snd h)) as [q|] eqn:E; [|discriminate].
  injection H as <-. apply find_some in E. unfold class_is. simpl. tauto.
Qed.
Lemma somes_frames : forall k h, sub (map fp_frame (somes (map (sighting k) h))) (map (fun h => fst (fst h)) h).
Proof.
  induction h as [|x h IH]; simpl; [constructor|]. destruct (sighting k x) as [p|] eqn:E; simpl; [|subc; auto].
  destruct (sighting_frame k x p E) as [-> _]. apply sub_keep. auto.
Qed.
Lemma ascending_nodup : forall l, ascending l -> NoDup l.
Proof.
  induction 1 as [|a l H IH F]; constructor; auto. intro Hi. rewrite Forall_forall in F. specialize (F a Hi). lia.
Qed.
Lemma somes_labels : forall k h, ascending (map (fun h => fst (fst h)) h) -> NoDup (map label (somes (map (sighting k) h))).
Proof.
  intros k h H. apply ascending_nodup in H. pose proof (sub_nodup _ _ _ (somes_frames k h) H) as N.
  assert (E : map fp_frame (somes (map (sighting k) h)) = map fst (map label (somes (map (sighting k) h)))).
  { rewrite map_map. reflexivity. }
  rewrite E in N. now apply NoDup_map_inv in N.
Qed.
Lemma somes_in : forall A (l : list (option A)) a, In a (somes l) <-> In (Some a) l.
Proof.
  induction l as [|[b|] l IH]; simpl; intros a; [tauto| |].
  - rewrite IH. split; intros [H|H]; auto; [left; congruence|left; congruence].
  - rewrite IH. split; [auto|]. intros [H|H]; [discriminate|auto].
Qed.

Lemma concat_filter_about : forall k ts, Forall (fun t => t <> [] /\ exists j, Forall (fun p => class_is j p = true) t) ts ->
  filter (class_is k) (concat ts) = concat (filter (about k) ts).
Proof.
  intros k ts F. induction F as [|t ts [Hn [j Hj]] F IH]; [reflexivity|]. simpl. rewrite filter_app', IH.
  rewrite (about_class j t Hj Hn). destruct (Nat.eqb k j) eqn:E.
  - apply Nat.eqb_eq in E. subst. simpl. f_equal. clear - Hj. induction Hj as [|p t Hp _ IH]; simpl; [reflexivity|].
    rewrite Hp. now f_equal.
  - apply Nat.eqb_neq in E. replace (filter (class_is k) t) with (@nil FeaturePoint); [reflexivity|].
    clear - Hj E. induction Hj as [|p t Hp _ IH]; simpl; [reflexivity|].
    destruct (class_is k p) eqn:C; auto. apply class_is_spec in C. apply class_is_spec in Hp. lia.
Qed.
Lemma nodup_by_class : forall l, (forall p, In p l -> exists k, class_is k p = true) ->
  (forall k, NoDup (map label (filter (class_is k) l))) -> NoDup (map label l).
Proof.
  induction l as [|p l IH]; intros H1 H2; simpl; constructor.
  - intro Hi. apply in_map_iff in Hi. destruct Hi as [q [E Hq]]. destruct (H1 p (or_introl eq_refl)) as [k Hk].
    specialize (H2 k). simpl in H2. rewrite Hk in H2. simpl in H2. inversion H2; subst. apply H3.
    rewrite <- E. apply in_map. apply filter_In. split; auto. apply class_is_spec. apply class_is_spec in Hk.
    unfold label in E. injection E as _ E. congruence.
  - apply IH; [intros q Hq; apply H1; now right|]. intros k. specialize (H2 k). simpl in H2.
    destruct (class_is k p); auto. simpl in H2. now inversion H2.
Qed.
Lemma sub_concat_filter : forall A (g : list A -> bool) ts, sub (concat (filter g ts)) (concat ts).
Proof.
  induction ts as [|t ts IH]; simpl; [constructor|]. destruct (g t); simpl.
  - clear - IH. induction t; simpl; auto. now apply sub_keep.
  - clear - IH. induction t; simpl; auto. now apply sub_skip.
Qed.
Lemma sub_app_l : forall A (a b : list A), sub a (a ++ b).
Proof. induction a; simpl; intros; [apply sub_empty|apply sub_keep; auto]. Qed.

(** *** Tracks that were handed over *)
Lemma sim_run_shape : forall l s f outs s' f', sim_good s f l -> sim_run s f l = OK (outs, s', f') ->
  (exists more, f_points f' = f_points f ++ more) /\
  forall T, In T (concat outs) -> let t := ft_track T in
    t <> [] /\ st_min s <= length t /\ ft_true T = nth_error (f_points f') (track_id t) /\ track_id t < length (f_points f') /\
    Forall (fun p => class_is (track_id t) p = true) t.
Proof.
  induction l as [|x l IH]; intros s f outs s' f' G H.
  - simpl in H. injection H as <- <- <-. split; [exists []; now rewrite app_nil_r|]. intros T [].
  - destruct (sim_step s f x l G) as [kps [f1 [out [kept [E1 [Ek [[m1 Em1] [Eg [G' [_ [_ Ot]]]]]]]]]]].
    simpl in H. rewrite Eg in H. cbn [bind] in H. apply bind_OK in H. destruct H as [[[outs2 s2] f2] [E2 H]].
    injection H as <- <- <-. destruct (IH _ _ _ _ _ G' E2) as [[m2 Em2] R].
    split; [exists (m1 ++ m2); rewrite Em2, Em1, app_assoc; reflexivity|].
    intros T HT. simpl in HT. apply in_app_or in HT. destruct HT as [HT|HT]; [|now apply R].
    apply in_map_iff in HT. destruct HT as [t [<- Ht]]. destruct (Ot t Ht) as [O1 [O2 [O3 O4]]]. cbv zeta. cbn [ft_track ft_true].
    repeat split; auto.
    + rewrite Em2, nth_error_app1 by auto. reflexivity.
    + rewrite Em2, app_length. lia.
Qed.

Lemma shown_source : forall l s f1 outs s' f' h, sim_good s f1 l -> sim_run s f1 l = OK (outs, s', f') -> In h (shown s f1 l) ->
     exists x fx more, In x l /\ fst (fst h) = sf_frame x /\ snd (fst h) = sf_time x /\
     snd h = FilterInvisiblePoints (st_no_errors s) (sf_view x) (f_points fx) /\ f_points f' = f_points fx ++ more.
Proof.
  induction l as [|x l IH]; intros s f1 outs s' f' h G H Hh; [contradiction|].
    destruct (sim_step s f1 x l G) as [kps [f2 [out [kept [E1 [Ek [[m1 Em1] [Eg [G' _]]]]]]]]].
    simpl in H. rewrite Eg in H. cbn [bind] in H. apply bind_OK in H. destruct H as [[[outs2 s2] f3] [E2 H]].
    injection H as <- <- <-. cbn [shown] in Hh. rewrite E1 in Hh. destruct Hh as [<-|Hh].
    - destruct (sim_run_shape l _ _ _ _ _ G' E2) as [[m2 Em2] _].
      exists x, f2, m2. repeat split; auto. now left.
    - rewrite (shown_ext l s (mkST (st_min s) (st_max s) (st_count s) (st_no_errors s) kept)) in Hh by reflexivity.
      destruct (IH _ _ _ _ _ _ G' E2 Hh) as [y [fx [mo [A1 [A2 [A3 [A4 A5]]]]]]].
      exists y, fx, mo. repeat split; auto. now right.
Qed.

Section Finals.
Variables (mn mx count : nat) (ne : bool) (f : features) (l : list sim_frame).
Hypothesis Hg : grown f.
Hypothesis Ha : ascending (map sf_frame l).
Let s0 := sim_tracker_new mn mx count ne.
Let G0 : sim_good s0 f l := sim_good_new mn mx count ne f l (grown_known f Hg) Ha.

Lemma final_total : exists outs s' f', sim_run s0 f l = OK (outs, s', f').
Proof. destruct (sim_refines l s0 f G0) as [outs [s' [f' [E _]]]]. eauto. Qed.

Variables (outs : list (list FeatureTrack)) (s' : sim_tracker) (f' : features).
Hypothesis Hr : sim_run s0 f l = OK (outs, s', f').

Lemma final_runs : forall k,
  let r := runs mx [] (map (sighting k) (shown s0 f l)) in
  filter (about k) (map ft_track (concat outs)) = filter (fun t => Nat.leb mn (length t)) (fst r) /\
  mget [] k (st_map s') = snd r.
Proof.
  destruct (sim_refines l s0 f G0) as [outs2 [s2 [f2 [E [_ [_ [_ [_ [_ R]]]]]]]]].
  rewrite Hr in E. injection E as <- <- <-. exact R.
Qed.

Lemma in_runs : forall T, In T (concat outs) -> let k := track_id (ft_track T) in
  In (ft_track T) (fst (runs mx [] (map (sighting k) (shown s0 f l)))).
Proof.
  intros T HT k. destruct (sim_run_shape l s0 f outs s' f' G0 Hr) as [_ R]. specialize (R T HT). cbv zeta in R.
  destruct R as [Hn [_ [_ [_ Hc]]]]. fold k in Hc.
  assert (I : In (ft_track T) (filter (about k) (map ft_track (concat outs)))).
  { apply filter_In. split; [now apply in_map|]. rewrite (about_class k _ Hc Hn). apply Nat.eqb_refl. }
  destruct (final_runs k) as [E _]. rewrite E in I. apply filter_In in I. tauto.
Qed.

Lemma final_tracks : forall T, In T (concat outs) ->
  one_feature (ft_track T) /\ mn <= length (ft_track T) <= Nat.max 1 mx /\
  segment (frames (ft_track T)) (map sf_frame l).
Proof.
  intros T HT. destruct (sim_run_shape l s0 f outs s' f' G0 Hr) as [_ R]. specialize (R T HT). cbv zeta in R.
  destruct R as [Hn [Hm [_ [_ Hc]]]]. pose proof (in_runs T HT) as I. cbv zeta in I.
  split; [|split; [split; [exact Hm|]|]].
  - split; [auto|]. exists (Z.of_nat (track_id (ft_track T))). split; [lia|].
    eapply Forall_impl; [|exact Hc]. intros p Hp. now apply class_is_spec.
  - destruct (runs_length _ mx (map (sighting (track_id (ft_track T))) (shown s0 f l)) [] (or_introl eq_refl)) as [L _].
    rewrite Forall_forall in L. now apply L.
  - apply runs_segment in I. simpl in I. destruct I as [a [b E]].
    rewrite <- (shown_frames l s0 f). revert E. generalize (shown s0 f l) as h. intros h E.
    assert (La : exists h1 h2 h3, h = h1 ++ h2 ++ h3 /\ map (sighting (track_id (ft_track T))) h1 = a /\
      map (sighting (track_id (ft_track T))) h2 = map Some (ft_track T)).
    { apply map_eq_app in E. destruct E as [h1 [r [-> [E1 E]]]]. apply map_eq_app in E. destruct E as [h2 [h3 [-> [E2 E3]]]]. exists h1, h2, h3. auto. }
    destruct La as [h1 [h2 [h3 [-> [E1 E2]]]]]. rewrite !map_app.
    assert (F2 : map (fun h => fst (fst h)) h2 = frames (ft_track T)).
    { clear - E2. revert E2. generalize (track_id (ft_track T)). generalize (ft_track T) as t. induction h2 as [|x h2 IH]; intros t k E.
      - destruct t; [reflexivity|discriminate].
      - destruct t as [|p t]; [discriminate|]. simpl in E. injection E as Ex E. simpl.
        destruct (sighting_frame k x p Ex) as [Hf _]. unfold frames in *. simpl. rewrite Hf. f_equal. eauto. }
    exists (map (fun h => fst (fst h)) h1), (map (fun h => fst (fst h)) h3). rewrite F2. reflexivity.
Qed.

Lemma final_once : NoDup (map label (concat (map ft_track (concat outs)))).
Proof.
  destruct (sim_run_shape l s0 f outs s' f' G0 Hr) as [_ R].
  assert (F : Forall (fun t => t <> [] /\ exists j, Forall (fun p => class_is j p = true) t) (map ft_track (concat outs))).
  { apply Forall_forall. intros t Ht. apply in_map_iff in Ht. destruct Ht as [T [<- HT]]. specialize (R T HT). cbv zeta in R.
    split; [tauto|]. eexists. apply R. }
  apply nodup_by_class.
  - intros p Hp. apply in_concat in Hp. destruct Hp as [t [Ht Hp]]. rewrite Forall_forall in F.
    destruct (F t Ht) as [_ [j Hj]]. rewrite Forall_forall in Hj. exists j. now apply Hj.
  - intros k. rewrite concat_filter_about by auto. destruct (final_runs k) as [-> _].
    eapply sub_nodup; [|apply (somes_labels k (shown s0 f l)); rewrite shown_frames; exact Ha].
    apply sub_map. pose proof (runs_all _ mx (map (sighting k) (shown s0 f l)) []) as E. simpl in E. rewrite <- E.
    eapply sub_trans; [apply sub_concat_filter|apply sub_app_l].
Qed.

Lemma final_truth : forall T p, In T (concat outs) -> In p (ft_track T) -> exists x pos,
  In x l /\ ft_true T = Some pos /\ fp_frame p = sf_frame x /\ fp_time p = sf_time x /\
  visible (sf_view x) pos = true /\ nth_error (f_points f') (Z.to_nat (kp_class (fp_kp p))) = Some pos /\
  (kp_x (fp_kp p), kp_y (fp_kp p)) =
    (let px := vw_project (sf_view x) pos in if ne then px else (c_round (fst px), c_round (snd px))).
Proof.
  intros T p HT Hp. destruct (sim_run_shape l s0 f outs s' f' G0 Hr) as [[more Em] R]. specialize (R T HT). cbv zeta in R.
  destruct R as [Hn [_ [Ht [Hl Hc]]]]. set (k := track_id (ft_track T)) in *.
  pose proof (in_runs T HT) as I. cbv zeta in I. fold k in I.
  assert (Is : In p (somes (map (sighting k) (shown s0 f l)))).
  { pose proof (runs_all _ mx (map (sighting k) (shown s0 f l)) []) as E. simpl in E. rewrite <- E.
    apply in_or_app. left. apply in_concat. eauto. }
  apply somes_in in Is. apply in_map_iff in Is. destruct Is as [h [Es Hh]].
  destruct (sighting_frame k h p Es) as [S1 [S2 [S3 S4]]].
  destruct (shown_source l s0 f outs s' f' h G0 Hr Hh) as [x [fx [mo [A1 [A2 [A3 [A4 A5]]]]]]].
  rewrite A4 in S4. apply fip_in in S4. destruct S4 as [j [pos [J1 [J2 [J3 J4]]]]].
  assert (j = k).
  { apply class_is_spec in S2. rewrite J3 in S2. unfold key_point in S2. destruct (st_no_errors s0); simpl in S2; lia. }
  subst j. exists x, pos.
  assert (N : nth_error (f_points f') k = Some pos) by (rewrite A5, nth_error_app1 by auto; auto).
  apply class_is_spec in S2.
  repeat split; try congruence.
  - rewrite S2, Nat2Z.id. auto.
  - rewrite J3. unfold key_point. subst s0. simpl. destruct ne; simpl; [|reflexivity].
    destruct (vw_project (sf_view x) pos); reflexivity.
Qed.

(** The next frame *)
Lemma final_timing : forall x new s2 f2, Forall (fun y => sf_frame y < sf_frame x) l ->
  GenerateMessage s' (GenerateVisibleFeatures (sf_others x) f') (sf_time x) (sf_frame x) (sf_view x) = OK (new, s2, f2) ->
  let seen := fst (GetVisibleKeypoints s0 (sf_view x) (GenerateVisibleFeatures (sf_others x) f')) in
  (forall T, In T new ->
     (mx <= length (ft_track T) /\ back_frame (ft_track T) = sf_frame x) \/
     (back_frame (ft_track T) < sf_frame x /\ forall p q, In p (ft_track T) -> In q seen -> kp_class (fp_kp p) <> kp_class q)) /\
  (forall k t, In (k, t) (st_map s2) -> length t < mx /\ back_frame t = sf_frame x).
Proof.
  intros x new s2 f2 Hx H. destruct (sim_refines l s0 f G0) as [outs2 [s3 [f3 [E [G3 [M1 [M2 [M3 [M4 R]]]]]]]]].
  rewrite Hr in E. injection E as <- <- <-.
  assert (Fr : forall k t, In (k, t) (st_map s') -> back_frame t < sf_frame x).
  { intros k t Hi. destruct G3 as [_ [W _]]. pose proof (in_mget _ k t W Hi) as Em. destruct (final_runs k) as [_ Ek].
    rewrite Em in Ek. destruct W as [_ Hw]. destruct (Hw k t Hi) as [Hn _].
    assert (Il : In (last t (mkFP 0 0 (mkKP 0 0 0))) t).
    { destruct (exists_last Hn) as [t' [a Ea]]. rewrite Ea, last_last. apply in_or_app. right. now left. }
    assert (Is : In (last t (mkFP 0 0 (mkKP 0 0 0))) (somes (map (sighting k) (shown s0 f l)))).
    { pose proof (runs_all _ mx (map (sighting k) (shown s0 f l)) []) as Ea. simpl in Ea. rewrite <- Ea, <- Ek.
      apply in_or_app. now right. }
    apply (in_map fp_frame) in Is. apply (sub_in _ _ _ (somes_frames k (shown s0 f l))) in Is.
    rewrite shown_frames in Is. apply in_map_iff in Is. destruct Is as [y [E1 E2]]. rewrite Forall_forall in Hx.
    specialize (Hx y E2). unfold back_frame. lia. }
  assert (G4 : sim_good s' f' [x]).
  { destruct G3 as [K [W [Hh _]]]. split; [auto|]. split; [auto|]. split; [auto|]. split.
    - intros k t y Hi [<-|[]]. eauto.
    - repeat constructor. }
  destruct (sim_step s' f' x [] G4) as [kps [f4 [out [kept [E1 [Ek [_ [Eg [G' [St [Sk Ot]]]]]]]]]]].
  rewrite Eg in H. injection H as <- <- <-. cbv zeta.
  assert (Es : fst (GetVisibleKeypoints s0 (sf_view x) (GenerateVisibleFeatures (sf_others x) f')) = kps).
  { assert (X : GetVisibleKeypoints s0 (sf_view x) (GenerateVisibleFeatures (sf_others x) f') =
       GetVisibleKeypoints s' (sf_view x) (GenerateVisibleFeatures (sf_others x) f')).
    { unfold GetVisibleKeypoints. rewrite M3, M4. reflexivity. }
    rewrite X, E1. reflexivity. }
  rewrite Es. split.
  - intros T HT. apply in_map_iff in HT. destruct HT as [t [<- Ht]]. cbn [ft_track].
    destruct (Ot t Ht) as [Hn [_ [_ Hc]]]. set (k := track_id t) in *. specialize (Sk k). cbv zeta in Sk.
    assert (I : In t (filter (about k) out)).
    { apply filter_In. split; auto. rewrite (about_class k t Hc Hn). apply Nat.eqb_refl. }
    clearbody k. destruct (sighting k (sf_frame x, sf_time x, kps)) as [p|] eqn:Sg.
    + left. destruct Sk as [Sp Sk]. destruct (Nat.leb (st_max s') (length (mget [] k (st_map s') ++ [p]))) eqn:L.
      * destruct Sk as [_ Sk]. rewrite Sk in I. destruct (Nat.leb (st_min s') _); [|contradiction].
        destruct I as [<-|[]]. apply Nat.leb_le in L. rewrite M2 in L. split; [exact L|]. rewrite back_app. exact Sp.
      * destruct Sk as [_ Sk]. rewrite Sk in I. contradiction.
    + right. destruct Sk as [_ Sk]. rewrite Sk in I. split.
      * apply (Fr k). destruct (mget [] k (st_map s')) as [|q u] eqn:Em; [contradiction|].
        destruct (Nat.leb (st_min s') (length (q :: u))); [|contradiction]. destruct I as [<-|[]].
        rewrite <- Em. apply mget_in; [apply G3|]. congruence.
      * intros p q Hp Hq E. rewrite Forall_forall in Hc. specialize (Hc p Hp). apply class_is_spec in Hc.
        unfold sighting in Sg. cbn [snd] in Sg. destruct (find (is_feature k) kps) eqn:Fd; [discriminate|].
        apply find_none with (x := q) in Fd; auto. unfold is_feature in Fd. apply Z.eqb_neq in Fd. congruence.
  - intros k t Hi. destruct (St k t Hi) as [B1 B2]. rewrite M2 in B2. split; [exact B2|exact B1].
Qed.
End Finals.
