(** GetAugState. *)
From Coq Require Import Reals List Arith Bool Lia Lra Sorted.
From Verif Require Import Base.Res Base.Mat Base.RDec Base.LinAlg Base.Geom Base.AMap Base.RMat
  Model.TypeHelper Model.Types Model.Ekf Model.Ops Spec.Layout Spec.History Spec.Contract Spec.Lookup
  Proofs.Wf Proofs.Register Proofs.Augment Proofs.Invariant Proofs.Named Proofs.Sizes Proofs.Windows Proofs.Vector.
Import ListNotations.
Open Scope nat_scope.

Lemma find_none : forall l f acc, (forall c, In c l -> a_frame c <> f) -> find_frame l f acc = acc.
Proof.
  induction l as [|s t IH]; intros f acc H; [reflexivity|]. cbn [find_frame].
  destruct (Nat.eqb_spec (a_frame s) f) as [E|E]; [exfalso; apply (H s (or_introl eq_refl) E)|].
  apply IH. intros c Hc. apply H. right. exact Hc.
Qed.
Lemma find_app : forall l m f acc, find_frame (l ++ m) f acc = find_frame m f (find_frame l f acc).
Proof. induction l as [|s t IH]; intros m f acc; [reflexivity|]. cbn [app find_frame]. apply IH. Qed.
Lemma find_youngest : forall l f acc c, youngest l f c -> find_frame l f acc = c.
Proof.
  intros l f acc c [l1 [l2 [-> [H1 H2]]]]. rewrite find_app. cbn [find_frame]. rewrite H1, Nat.eqb_refl.
  apply find_none. exact H2.
Qed.
Lemma youngest_dec : forall l f, (exists c, youngest l f c) \/ (forall c, In c l -> a_frame c <> f).
Proof.
  induction l as [|s t IH]; intros f; [right; intros c []|].
  destruct (IH f) as [[c [l1 [l2 [-> H]]]]|H].
  - left. exists c, (s :: l1), l2. split; [reflexivity|exact H].
  - destruct (Nat.eq_dec (a_frame s) f) as [E|E].
    + left. exists s, [], t. split; [reflexivity|]. split; [exact E|exact H].
    + right. intros c [<-|Hc]; [exact E|apply H; exact Hc].
Qed.
Lemma aug_touch : forall e k j, aug_at (touch_aug e k) j = aug_at e j.
Proof.
  intros e k j. unfold aug_at, touch_aug. cbn [e_state with_state state_with_aug s_aug]. unfold mtouch, mget.
  destruct (mfind k (s_aug (e_state e))) eqn:E; [reflexivity|].
  destruct (Nat.eq_dec j k) as [->|D].
  - rewrite mfind_mset_eq, E. reflexivity.
  - rewrite mfind_mset_neq by exact D. reflexivity.
Qed.

Lemma lookup_frame : forall e cam frame time, per_frame e cam = true ->
  exists a e', GetAugState e cam frame time = OK (a, e') /\ (forall k, aug_at e' k = aug_at e k) /\
    (forall c, youngest (aug_at e cam) frame c -> a = c) /\
    ((forall c, In c (aug_at e cam) -> a_frame c <> frame) -> a_pos a = v0 /\ a_ang a = qid /\ a_index a = 0).
Proof.
  intros e cam frame time H. unfold per_frame in H. unfold GetAugState. rewrite H.
  do 2 eexists. split; [reflexivity|]. split; [intros k; apply aug_touch|]. rewrite aug_touch. split.
  - intros c Hc. apply find_youngest. exact Hc.
  - intros Hn. rewrite find_none by exact Hn. repeat split.
Qed.

(** *** Interpolation *)
Lemma back_app : forall A (l : list A) x, back (l ++ [x]) = OK x.
Proof. induction l as [|y t IH]; intros x; [reflexivity|]. cbn [app back]. destruct (t ++ [x]) eqn:E; [destruct t; discriminate|]. rewrite <- E. apply IH. Qed.

(** No interval of the list starts at or before the time. *)
Lemma interval_none : forall l time acc, Forall (fun a => (time < a_time a)%R) l -> find_interval l time acc = acc.
Proof.
  induction l as [|s t IH]; intros time acc H; [reflexivity|]. inversion H as [|? ? H1 H2]; subst.
  destruct t as [|s1 t]; [reflexivity|]. cbn [find_interval] in *.
  replace (Rleb (a_time s) time) with false; [cbn [andb]; apply IH; exact H2|].
  symmetry. apply not_true_iff_false. rewrite Rleb_spec. lra.
Qed.
Lemma interval_hit : forall l time acc first, StronglySorted Rle (map a_time (first :: l)) -> (a_time first <= time)%R ->
  (exists b, In b l /\ (time < a_time b)%R) ->
  exists l1 s0 s1 l2, first :: l = l1 ++ s0 :: s1 :: l2 /\ (a_time s0 <= time)%R /\ (time < a_time s1)%R /\
    find_interval (first :: l) time acc = (OK ((time - a_time s0) / (a_time s1 - a_time s0))%R, s0, s1).
Proof.
  induction l as [|s1 t IH]; intros time acc first S H [b [Hb Hlt]]; [destruct Hb|].
  cbn [map] in S. inversion S as [|? ? S1 S2]; subst.
  destruct (Rlt_dec time (a_time s1)) as [L|L].
  - exists [], first, s1, t. split; [reflexivity|]. split; [exact H|]. split; [exact L|].
    cbn [find_interval].
    replace (Rleb (a_time first) time) with true by (symmetry; apply Rleb_spec; exact H).
    replace (Rleb time (a_time s1)) with true by (symmetry; apply Rleb_spec; lra). cbn [andb].
    assert (F : Forall (fun a => (time < a_time a)%R) (s1 :: t)).
    { constructor; [exact L|]. cbn [map] in S1. inversion S1 as [|? ? _ S3]; subst. apply Forall_forall. intros a Ha.
      rewrite Forall_forall in S3. specialize (S3 (a_time a) (in_map a_time _ _ Ha)). lra. }
    change (match t with [] => _ | _ => _ end) with (find_interval (s1 :: t) time
      (rdiv (time - a_time first) (a_time s1 - a_time first), first, s1)).
    rewrite interval_none by exact F. unfold rdiv. 
    replace (Reqb (a_time s1 - a_time first) 0) with false; [reflexivity|].
    symmetry. apply not_true_iff_false. rewrite Reqb_spec. lra.
  - destruct (IH time (if Rleb (a_time first) time && Rleb time (a_time s1)
         then (rdiv (time - a_time first) (a_time s1 - a_time first), first, s1) else acc) s1) as [l1 [s0 [s2 [l2 [E1 [E2 [E3 E4]]]]]]].
    + exact S1.
    + lra.
    + destruct Hb as [->|Hb]; [lra|]. exists b. auto.
    + exists (first :: l1), s0, s2, l2. split; [rewrite E1; reflexivity|]. split; [exact E2|]. split; [exact E3|].
      exact E4.
Qed.

Lemma slerp_0 : forall a b, qslerp a 0 b = a.
Proof.
  intros [w x y z] b. unfold qslerp. destruct (Rleb (1 - dbl_eps) (Rabs (qdot (mkQ w x y z) b))) eqn:E.
  - destruct (Rltb _ 0); cbn [qw qx qy qz]; f_equal; ring.
  - assert (S : sin (acos (Rabs (qdot (mkQ w x y z) b))) <> 0%R).
    { assert (N : (Rabs (qdot (mkQ w x y z) b) < 1 - dbl_eps)%R).
      { apply Rnot_le_lt. intros X. apply Rleb_spec in X. congruence. }
      assert (0 < dbl_eps)%R by (unfold dbl_eps; apply Rinv_0_lt_compat; apply pow_lt; lra).
      pose proof (Rabs_pos (qdot (mkQ w x y z) b)). rewrite sin_acos by lra. intros X. apply sqrt_eq_0 in X.
      - unfold Rsqr in X. nra.
      - unfold Rsqr. nra. }
    rewrite Rminus_0_r, Rmult_1_l, Rmult_0_l, sin_0. unfold Rdiv. rewrite Rinv_r by exact S. rewrite Rmult_0_l.
    destruct (Rltb _ 0); cbn [qw qx qy qz]; f_equal; ring.
Qed.

Lemma part_way_0 : forall p q x, part_way p q 0 x -> x = p.
Proof.
  intros [a b c] [d f g] [x y z] [H1 [H2 H3]]. cbn in *. f_equal; lra.
Qed.
Lemma part_way_1 : forall p q x, part_way p q 1 x -> x = q.
Proof.
  intros [a b c] [d f g] [x y z] [H1 [H2 H3]]. cbn in *. f_equal; lra.
Qed.
Lemma part_way_lin : forall p q t, part_way p q t (vadd p (vscale t (vsub q p))).
Proof. intros [a b c] [d f g] t. unfold part_way, vadd, vscale, vsub. cbn. repeat split; ring. Qed.

Lemma lookup_unfold : forall e cam frame time, per_frame e cam = false ->
  GetAugState e cam frame time =
    (let e := touch_aug e (shared_key e) in
     let l := aug_at e (shared_key e) in
     let* first := vnth l 0 in
     let* last := back l in
     let '(alpha, s0, s1) :=
       if Rltb time (a_time first) then (OK 0%R, first, default_aug)
       else if Rltb time (a_time last) then find_interval l time (OK 0%R, default_aug, default_aug)
       else (rdiv (time - a_time last) (e_time e - a_time last), last,
             mkAug 0 0 (b_pos (s_body (e_state e))) (b_ang (s_body (e_state e))) 0 0) in
     let* alpha := alpha in
     OK (mkAug 0 time (vadd (a_pos s0) (vscale alpha (vsub (a_pos s1) (a_pos s0))))
           (qslerp (a_ang s0) alpha (a_ang s1)) (a_index s0) alpha, e)).
Proof. intros e cam frame time H. unfold per_frame in H. unfold GetAugState. rewrite H. reflexivity. Qed.

Lemma touch_key : forall e, shared_key (touch_aug e (shared_key e)) = shared_key e.
Proof. reflexivity. Qed.

Lemma lookup_before : forall e cam frame time first rest, per_frame e cam = false ->
  aug_at e (shared_key e) = first :: rest -> (time < a_time first)%R ->
  exists a e', GetAugState e cam frame time = OK (a, e') /\ pose_of first a /\ a_index a = a_index first /\ a_alpha a = 0%R.
Proof.
  intros e cam frame time first rest H L T. rewrite lookup_unfold by exact H. cbv zeta. rewrite aug_touch, touch_key, L.
  cbn [vnth nth_error]. change (vnth (first :: rest) 0) with (OK first). cbn [bind].
  destruct (exists_last (l := first :: rest) ltac:(discriminate)) as [m [x E]]. 
  assert (B : back (first :: rest) = OK x) by (rewrite E; apply back_app). rewrite B. cbn [bind].
  replace (Rltb time (a_time first)) with true by (symmetry; apply Rltb_spec; exact T). cbn [bind].
  do 2 eexists. split; [reflexivity|]. cbn [a_pos a_ang a_index a_alpha]. split; [|split; reflexivity]. split; cbn [a_pos a_ang].
  - apply (part_way_0 _ (a_pos default_aug)). apply part_way_lin.
  - apply slerp_0.
Qed.

Lemma lookup_inside : forall e cam frame time first rest last, per_frame e cam = false ->
  aug_at e (shared_key e) = first :: rest -> StronglySorted Rle (map a_time (first :: rest)) ->
  (a_time first <= time)%R -> In last rest -> (time < a_time last)%R ->
  exists a e' l1 s0 s1 l2, GetAugState e cam frame time = OK (a, e') /\
    aug_at e (shared_key e) = l1 ++ s0 :: s1 :: l2 /\ (a_time s0 <= time)%R /\ (time < a_time s1)%R /\
    blend (a_pos s0) (a_ang s0) (a_pos s1) (a_ang s1) ((time - a_time s0) / (a_time s1 - a_time s0)) a /\
    (0 <= a_alpha a)%R /\ (a_alpha a < 1)%R /\ a_index a = a_index s0 /\ (time = a_time s0 -> pose_of s0 a).
Proof.
  intros e cam frame time first rest last H L S T1 Hin T2. rewrite lookup_unfold by exact H. cbv zeta. rewrite aug_touch, touch_key, L.
  change (vnth (first :: rest) 0) with (OK first). cbn [bind].
  destruct (exists_last (l := first :: rest) ltac:(discriminate)) as [m [x E]]. 
  assert (B : back (first :: rest) = OK x) by (rewrite E; apply back_app). rewrite B. cbn [bind].
  replace (Rltb time (a_time first)) with false by (symmetry; apply not_true_iff_false; rewrite Rltb_spec; lra).
  assert (X : (time < a_time x)%R).
  { assert (I : In last (first :: rest)) by (right; exact Hin). rewrite E in I. apply in_app_iff in I. destruct I as [I|[->|[]]]; [|exact T2].
    rewrite E, map_app in S. cbn [map] in S.
    assert (G : forall l y z, StronglySorted Rle (l ++ [z]) -> In y l -> (y <= z)%R).
    { clear. induction l as [|a l IH]; intros y z S [].
      - subst. cbn in S. inversion S as [|? ? S1 S2]; subst. rewrite Forall_forall in S2. apply S2. apply in_app_iff. right. left. reflexivity.
      - cbn in S. inversion S as [|? ? S1 S2]; subst. apply IH; assumption. }
    specialize (G _ _ _ S (in_map a_time _ _ I)). lra. }
  replace (Rltb time (a_time x)) with true by (symmetry; apply Rltb_spec; exact X).
  destruct (interval_hit rest time (OK 0%R, default_aug, default_aug) first S T1) as [l1 [s0 [s1 [l2 [E1 [E2 [E3 E4]]]]]]].
  { exists last. auto. }
  rewrite E4. cbn [bind]. do 2 eexists. exists l1, s0, s1, l2. split; [reflexivity|].
  split; [exact E1|]. split; [exact E2|]. split; [exact E3|].
  assert (D : (0 < a_time s1 - a_time s0)%R) by lra.
  cbn [a_alpha a_index]. split; [|split; [|split; [|split; [reflexivity|]]]].
  - split; [|split; reflexivity]. cbn [a_pos]. apply part_way_lin.
  - apply Rmult_le_pos; [lra|]. left. apply Rinv_0_lt_compat. exact D.
  - apply (Rmult_lt_reg_r (a_time s1 - a_time s0)); [exact D|]. unfold Rdiv. rewrite Rmult_assoc, Rinv_l by lra. lra.
  - intros Et. replace ((time - a_time s0) / (a_time s1 - a_time s0))%R with 0%R.
    + split; cbn [a_pos a_ang]; [|apply slerp_0]. apply (part_way_0 _ (a_pos s1)). apply part_way_lin.
    + rewrite Et. unfold Rdiv. ring.
Qed.

Lemma lookup_after : forall e cam frame time before last, per_frame e cam = false ->
  aug_at e (shared_key e) = before ++ [last] -> StronglySorted Rle (map a_time (before ++ [last])) ->
  (a_time last <= time)%R -> (a_time last < e_time e)%R ->
  exists a e', GetAugState e cam frame time = OK (a, e') /\
    blend (a_pos last) (a_ang last) (b_pos (s_body (e_state e))) (b_ang (s_body (e_state e)))
      ((time - a_time last) / (e_time e - a_time last)) a /\
    (0 <= a_alpha a)%R /\ (time <= e_time e -> a_alpha a <= 1)%R /\ (e_time e < time -> 1 < a_alpha a)%R /\
    a_index a = a_index last /\ (time = a_time last -> pose_of last a) /\
    (time = e_time e -> a_pos a = b_pos (s_body (e_state e))).
Proof.
  intros e cam frame time before last H L S T1 T2. rewrite lookup_unfold by exact H. cbv zeta. rewrite aug_touch, touch_key, L.
  assert (exists first, vnth (before ++ [last]) 0 = OK first /\ (a_time first <= time)%R) as [first [V F]].
  { destruct before as [|f b]; [exists last; auto|]. exists f. split; [reflexivity|]. cbn [app map] in S.
    inversion S as [|? ? S1 S2]; subst. rewrite Forall_forall in S2.
    assert (a_time f <= a_time last)%R; [|lra]. apply S2. apply in_map. apply in_app_iff. right. left. reflexivity. }
  rewrite V, back_app. cbn [bind].
  replace (Rltb time (a_time first)) with false by (symmetry; apply not_true_iff_false; rewrite Rltb_spec; lra).
  replace (Rltb time (a_time last)) with false by (symmetry; apply not_true_iff_false; rewrite Rltb_spec; lra).
  change (e_time (touch_aug e (shared_key e))) with (e_time e).
  change (s_body (e_state (touch_aug e (shared_key e)))) with (s_body (e_state e)).
  assert (D : (0 < e_time e - a_time last)%R) by lra.
  unfold rdiv. replace (Reqb (e_time e - a_time last) 0) with false by (symmetry; apply not_true_iff_false; rewrite Reqb_spec; lra).
  cbn [bind]. do 2 eexists. split; [reflexivity|]. cbn [a_alpha a_index a_pos].
  split; [|split; [|split; [|split; [|split; [reflexivity|split]]]]].
  - split; [|split; reflexivity]. cbn [a_pos]. apply part_way_lin.
  - apply Rmult_le_pos; [lra|]. left. apply Rinv_0_lt_compat. exact D.
  - intros X. apply (Rmult_le_reg_r (e_time e - a_time last)); [exact D|]. unfold Rdiv. rewrite Rmult_assoc, Rinv_l by lra. lra.
  - intros X. apply (Rmult_lt_reg_r (e_time e - a_time last)); [exact D|]. unfold Rdiv. rewrite Rmult_assoc, Rinv_l by lra. lra.
  - intros Et. replace ((time - a_time last) / (e_time e - a_time last))%R with 0%R.
    + split; cbn [a_pos a_ang]; [|apply slerp_0]. apply (part_way_0 _ (b_pos (s_body (e_state e)))). apply part_way_lin.
    + rewrite Et. unfold Rdiv. ring.
  - intros Et. replace ((time - a_time last) / (e_time e - a_time last))%R with 1%R.
    + apply (part_way_1 (a_pos last)). apply part_way_lin.
    + rewrite Et. field. lra.
Qed.

(** The newest clone is as old as the clock: division by zero. *)
Lemma lookup_fresh : forall e cam frame before last, per_frame e cam = false ->
  aug_at e (shared_key e) = before ++ [last] -> Forall (fun a => (a_time a <= e_time e)%R) (aug_at e (shared_key e)) -> a_time last = e_time e ->
  GetAugState e cam frame (e_time e) = UB.
Proof.
  intros e cam frame before last H L S T. rewrite lookup_unfold by exact H. cbv zeta. rewrite aug_touch, touch_key, L in *.
  assert (exists first, vnth (before ++ [last]) 0 = OK first /\ (a_time first <= e_time e)%R) as [first [V F]].
  { destruct before as [|f b]; [exists last; split; [reflexivity|lra]|]. exists f. split; [reflexivity|]. cbn [app] in S.
    inversion S; assumption. }
  rewrite V, back_app. cbn [bind].
  replace (Rltb (e_time e) (a_time first)) with false by (symmetry; apply not_true_iff_false; rewrite Rltb_spec; lra).
  replace (Rltb (e_time e) (a_time last)) with false by (symmetry; apply not_true_iff_false; rewrite Rltb_spec; lra).
  change (e_time (touch_aug e (shared_key e))) with (e_time e). unfold rdiv.
  replace (Reqb (e_time e - a_time last) 0) with true by (symmetry; apply Reqb_spec; lra). reflexivity.
Qed.
Lemma lookup_empty : forall e cam frame time, per_frame e cam = false -> aug_at e (shared_key e) = [] ->
  GetAugState e cam frame time = UB.
Proof. intros e cam frame time H L. rewrite lookup_unfold by exact H. cbv zeta. rewrite aug_touch, touch_key, L. reflexivity. Qed.

(** *** The arc between two orientations *)
Lemma slerp_arc : forall a b t, qnorm2 a = 1%R -> qnorm2 b = 1%R -> (Rabs (qdot a b) < 1 - dbl_eps)%R ->
  qnorm2 (qslerp a t b) = 1%R /\ qdot a (qslerp a t b) = cos (t * acos (Rabs (qdot a b))) /\
  qdot b (qslerp a t b) = ((if Rltb (qdot a b) 0 then -1 else 1) * cos ((1 - t) * acos (Rabs (qdot a b))))%R.
Proof.
  intros a b t Ha Hb H. unfold qslerp.
  replace (Rleb (1 - dbl_eps) (Rabs (qdot a b))) with false by (symmetry; apply not_true_iff_false; rewrite Rleb_spec; lra).
  set (th := acos (Rabs (qdot a b))).
  assert (E0 : (0 < dbl_eps)%R) by (unfold dbl_eps; apply Rinv_0_lt_compat; apply pow_lt; lra).
  pose proof (Rabs_pos (qdot a b)) as P.
  assert (C : cos th = Rabs (qdot a b)) by (apply cos_acos; lra).
  assert (S : sin th <> 0%R).
  { unfold th. rewrite sin_acos by lra. intros X. apply sqrt_eq_0 in X; unfold Rsqr in *; nra. }
  clearbody th. set (g := (if Rltb (qdot a b) 0 then -1 else 1)%R).
  set (s0 := (sin ((1 - t) * th) / sin th)%R). set (s1 := (sin (t * th) / sin th)%R).
  assert (G : (g * g = 1 /\ qdot a b = g * cos th)%R).
  { unfold g. rewrite C. destruct (Rltb (qdot a b) 0) eqn:E.
    - apply Rltb_spec in E. rewrite Rabs_left by lra. split; ring.
    - assert (0 <= qdot a b)%R. { apply Rnot_lt_le. intros X. apply Rltb_spec in X. congruence. }
      rewrite Rabs_pos_eq by lra. split; ring. }
  destruct G as [G1 G2].
  replace (if Rltb (qdot a b) 0 then (- s1)%R else s1) with (g * s1)%R by (unfold g; destruct (Rltb (qdot a b) 0); ring).
  assert (K0 : (s0 + s1 * cos th = cos (t * th))%R).
  { unfold s0, s1. apply (Rmult_eq_reg_r (sin th)); [|exact S].
    replace ((sin ((1 - t) * th) / sin th + sin (t * th) / sin th * cos th) * sin th)%R
      with (sin ((1 - t) * th) + sin (t * th) * cos th)%R by (field; exact S).
    replace ((1 - t) * th)%R with (th - t * th)%R by ring. rewrite sin_minus. ring. }
  assert (K1 : (s0 * cos th + s1 = cos ((1 - t) * th))%R).
  { unfold s0, s1. apply (Rmult_eq_reg_r (sin th)); [|exact S].
    replace ((sin ((1 - t) * th) / sin th * cos th + sin (t * th) / sin th) * sin th)%R
      with (sin ((1 - t) * th) * cos th + sin (t * th))%R by (field; exact S).
    replace (t * th)%R with (th - (1 - t) * th)%R by ring. rewrite sin_minus. ring. }
  assert (K2 : (s0 * s0 + 2 * s0 * s1 * cos th + s1 * s1 = 1)%R).
  { replace (s0 * s0 + 2 * s0 * s1 * cos th + s1 * s1)%R with (s0 * (s0 + s1 * cos th) + s1 * (s0 * cos th + s1))%R by ring.
    rewrite K0, K1. unfold s0, s1. apply (Rmult_eq_reg_r (sin th)); [|exact S].
    replace ((sin ((1 - t) * th) / sin th * cos (t * th) + sin (t * th) / sin th * cos ((1 - t) * th)) * sin th)%R
      with (sin ((1 - t) * th) * cos (t * th) + cos ((1 - t) * th) * sin (t * th))%R by (field; exact S).
    rewrite <- sin_plus. replace ((1 - t) * th + t * th)%R with th by ring. ring. }
  destruct a as [aw ax ay az], b as [bw bx by_ bz]. unfold qnorm2, qdot in *. cbn [qw qx qy qz] in *.
  split; [|split].
  - transitivity (s0 * s0 * (aw * aw + ax * ax + ay * ay + az * az) + 2 * s0 * s1 * g * (aw * bw + ax * bx + ay * by_ + az * bz)
      + (g * g) * (s1 * s1) * (bw * bw + bx * bx + by_ * by_ + bz * bz))%R.
    { ring_simplify. ring. }
    replace (aw * aw + ax * ax + ay * ay + az * az)%R with 1%R by lra.
    replace (bw * bw + bx * bx + by_ * by_ + bz * bz)%R with 1%R by lra.
    replace (aw * bw + ax * bx + ay * by_ + az * bz)%R with (g * cos th)%R by lra. rewrite G1.
    transitivity (s0 * s0 + 2 * s0 * s1 * cos th * (g * g) + s1 * s1)%R; [ring|]. rewrite G1, Rmult_1_r. exact K2.
  - rewrite <- K0. transitivity (s0 * (aw * aw + ax * ax + ay * ay + az * az) + s1 * g * (aw * bw + ax * bx + ay * by_ + az * bz))%R; [ring|].
    replace (aw * aw + ax * ax + ay * ay + az * az)%R with 1%R by lra.
    replace (aw * bw + ax * bx + ay * by_ + az * bz)%R with (g * cos th)%R by lra.
    transitivity (s0 + s1 * cos th * (g * g))%R; [ring|]. rewrite G1. ring.
  - rewrite <- K1. transitivity (s0 * (aw * bw + ax * bx + ay * by_ + az * bz) + g * s1 * (bw * bw + bx * bx + by_ * by_ + bz * bz))%R; [ring|].
    replace (bw * bw + bx * bx + by_ * by_ + bz * bz)%R with 1%R by lra.
    replace (aw * bw + ax * bx + ay * by_ + az * bz)%R with (g * cos th)%R by lra. ring.
Qed.
