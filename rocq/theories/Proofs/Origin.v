(** The filter does the same wherever the origins are. *)
From Coq Require Import Reals List Arith Bool ZArith Lia Lra.
From Verif Require Import Base.Res Base.Mat Base.RDec Base.Geom Base.AMap Base.RMat Base.LinAlg
  Model.TypeHelper Model.Types Model.Ekf Model.Updater Model.Ops Spec.Origin.
Import ListNotations.
Open Scope R_scope.

Lemma bind_ext : forall A B (m : res A) (f g : A -> res B),
  (forall x, m = OK x -> f x = g x) -> bind m f = bind m g.
Proof. intros A B [x|] f g H; [apply H; reflexivity | reflexivity]. Qed.
Lemma rmap_bind : forall A B D (h : B -> D) (m : res A) (f : A -> res B),
  rmap h (bind m f) = bind m (fun x => rmap h (f x)).
Proof. intros A B D h [x|] f; reflexivity. Qed.
Lemma bind_rmap : forall A B D (h : A -> B) (m : res A) (f : B -> res D),
  bind (rmap h m) f = bind m (fun x => f (h x)).
Proof. intros A B D h [x|] f; reflexivity. Qed.
Lemma rmap_if : forall A B (h : A -> B) (b : bool) x y, rmap h (if b then x else y) = if b then rmap h x else rmap h y.
Proof. intros A B h [|]; reflexivity. Qed.

(** *** Maps *)
Lemma over_find : forall A B (f : A -> B) m k, mfind k (over f m) = option_map f (mfind k m).
Proof.
  intros A B f m k. induction m as [|[k' x] m IH]; [reflexivity|].
  cbn [over map mfind fst snd]. destruct (Nat.eqb k k'); [reflexivity|exact IH].
Qed.
Lemma over_set : forall A B (f : A -> B) m k x, mset k (f x) (over f m) = over f (mset k x m).
Proof.
  intros A B f m k x. induction m as [|[k' y] m IH]; [reflexivity|].
  cbn [over map mset fst snd]. destruct (Nat.eqb k k'); [reflexivity|]. destruct (Nat.ltb k k'); [reflexivity|].
  cbn [over map fst snd]. f_equal. exact IH.
Qed.
Lemma over_touch : forall A B (f : A -> B) m k x, mtouch (f x) k (over f m) = over f (mtouch x k m).
Proof.
  intros A B f m k x. unfold mtouch. rewrite over_find. destruct (mfind k m); [reflexivity|]. apply over_set.
Qed.
Lemma over_get : forall A B (f : A -> B) m k x, mget (f x) k (over f m) = f (mget x k m).
Proof. intros A B f m k x. unfold mget. rewrite over_find. destruct (mfind k m); reflexivity. Qed.
Lemma over_length : forall A B (f : A -> B) (m : amap A), length (over f m) = length m.
Proof. intros. unfold over. apply map_length. Qed.
Lemma over_keys : forall A B (f : A -> B) (m : amap A), keys (over f m) = keys m.
Proof. intros. unfold over, keys. rewrite map_map. reflexivity. Qed.

(** *** Vectors and times *)
Lemma vext : forall a b : V3, vx a = vx b -> vy a = vy b -> vz a = vz b -> a = b.
Proof. intros [? ? ?] [? ? ?]; cbn; intros; subst; reflexivity. Qed.
Ltac vring := apply vext; unfold vadd, vsub, vscale, vopp; cbn [vx vy vz]; ring.
Lemma far : forall p q v, vsub (vadd p v) (vadd q v) = vsub p q.
Proof. intros. vring. Qed.
Lemma moved_on : forall p v u, vadd (vadd p v) u = vadd (vadd p u) v.
Proof. intros. vring. Qed.
Lemma since : forall a b c : R, (a + c) - (b + c) = a - b.
Proof. intros. ring. Qed.
Lemma ltb_since : forall a b c : R, Rltb (a + c) (b + c) = Rltb a b.
Proof.
  intros. unfold Rltb. destruct (Rlt_dec (a + c) (b + c)), (Rlt_dec a b); try reflexivity; exfalso; lra.
Qed.
Lemma leb_since : forall a b c : R, Rleb (a + c) (b + c) = Rleb a b.
Proof.
  intros. unfold Rleb. destruct (Rle_dec (a + c) (b + c)), (Rle_dec a b); try reflexivity; exfalso; lra.
Qed.

Section Origin.
Variable v : V3.
Variables c d : R.
Notation F := (filter' v c d).
Notation S' := (state' v c).
Notation C' := (clone' v c).

(** *** Indices *)
Lemma refresh_fids' : forall m cur Q,
  refresh_fids (over (board' v) m) cur Q
  = rmap (fun x => let '(m, cur, Q) := x in (over (board' v) m, cur, Q)) (refresh_fids m cur Q).
Proof.
  induction m as [|[k s] m IH]; intros cur Q; [reflexivity|].
  cbn [over map refresh_fids fst snd]. rewrite rmap_bind.
  change (f_ext (fid_with_index (board' v s) cur)) with (f_ext (fid_with_index s cur)).
  apply bind_ext. intros [cur1 Q1] _. rewrite rmap_bind.
  fold (over (board' v) m). rewrite IH, bind_rmap. apply bind_ext. intros [[m' cur2] Q2] _. reflexivity.
Qed.
Lemma refresh_augv' : forall l cur,
  refresh_augv (map C' l) cur = (let '(l, n) := refresh_augv l cur in (map C' l, n)).
Proof.
  induction l as [|s l IH]; intros cur; [reflexivity|].
  cbn [map refresh_augv]. rewrite IH. destruct (refresh_augv l (cur + g_aug_state_size)). reflexivity.
Qed.
Lemma refresh_augs' : forall m cur,
  refresh_augs (over (map C') m) cur = (let '(m, n) := refresh_augs m cur in (over (map C') m, n)).
Proof.
  induction m as [|[k l] m IH]; intros cur; [reflexivity|].
  cbn [over map refresh_augs fst snd]. rewrite refresh_augv'. destruct (refresh_augv l cur) as [l' n].
  fold (over (map C') m). rewrite IH. destruct (refresh_augs m n). reflexivity.
Qed.
Lemma refresh' : forall e, RefreshIndices (F e) = rmap F (RefreshIndices e).
Proof.
  intros e. unfold RefreshIndices. rewrite rmap_bind.
  change (e_size (F e)) with (e_size e). change (e_bodyQ (F e)) with (e_bodyQ e).
  apply bind_ext. intros Q0 _. rewrite rmap_bind.
  change (s_imu (e_state (F e))) with (s_imu (e_state e)). apply bind_ext. intros [[im c1] Q1] _. rewrite rmap_bind.
  change (s_gps (e_state (F e))) with (s_gps (e_state e)). apply bind_ext. intros [[gm c2] Q2] _. rewrite rmap_bind.
  change (s_cam (e_state (F e))) with (s_cam (e_state e)). apply bind_ext. intros [[cm c3] Q3] _. rewrite rmap_bind.
  change (s_fid (e_state (F e))) with (over (board' v) (s_fid (e_state e))). rewrite refresh_fids', bind_rmap.
  apply bind_ext. intros [[fm c4] Q4] _.
  change (s_aug (e_state (F e))) with (over (map C') (s_aug (e_state e))). rewrite refresh_augs'.
  destruct (refresh_augs (s_aug (e_state e)) c4) as [am c5]. rewrite rmap_bind.
  change (is_root (F e)) with (is_root e). apply bind_ext. intros Q5 _. reflexivity.
Qed.

(** *** Registration *)
(** Two computations that do the same and give filters that differ by the
    origins. *)
Lemma both : forall A (m m' : res ekf) (k k' : ekf -> res A) (h : A -> A),
  m' = rmap F m -> (forall e, m = OK e -> k' (F e) = rmap h (k e)) -> bind m' k' = rmap h (bind m k).
Proof. intros A m m' k k' h -> H. destruct m; cbn [bind rmap]; [apply H; reflexivity|reflexivity]. Qed.
Lemma same : forall A B (m : res A) (k k' : A -> res B) (h : B -> B),
  (forall x, m = OK x -> k' x = rmap h (k x)) -> bind m k' = rmap h (bind m k).
Proof. intros A B m k k' h H. destruct m; cbn [bind rmap]; [apply H; reflexivity|reflexivity]. Qed.

Lemma reg_imu' : forall e id st K, RegisterIMU (F e) id st K = rmap F (RegisterIMU e id st K).
Proof.
  intros e id st K. unfold RegisterIMU. change (s_imu (e_state (F e))) with (s_imu (e_state e)).
  destruct (mfind id (s_imu (e_state e))); [reflexivity|]. cbv zeta. apply both.
  - destruct (i_ext st || i_int st); [|reflexivity].
    apply same. intros b _. apply same. intros K1 _. reflexivity.
  - intros e1 _. destruct (i_ext st), (i_int st); rewrite <- refresh'; reflexivity.
Qed.
Lemma reg_gps' : forall e id st K, RegisterGPS (F e) id st K = rmap F (RegisterGPS e id st K).
Proof.
  intros e id st K. unfold RegisterGPS. change (s_gps (e_state (F e))) with (s_gps (e_state e)).
  destruct (mfind id (s_gps (e_state e))); [reflexivity|]. cbv zeta. apply both.
  - destruct (g_ext st); [|reflexivity].
    apply same. intros b _. apply same. intros K1 _. reflexivity.
  - intros e1 _. apply refresh'.
Qed.
Lemma reg_cam' : forall e id st K, RegisterCamera (F e) id st K = rmap F (RegisterCamera e id st K).
Proof.
  intros e id st K. unfold RegisterCamera. change (s_cam (e_state (F e))) with (s_cam (e_state e)).
  destruct (mfind id (s_cam (e_state e))); [reflexivity|]. apply same. intros p _. cbv zeta. apply both.
  - destruct (Nat.eqb (e_primary e) 0) eqn:E.
    + replace (Nat.eqb (e_primary (with_periods (F e) (Rmax (e_frame_period (F e)) p)
        (Rmax (e_frame_period (F e)) p * INR (e_max_len (F e) + 1)) (Rmin (e_min_aug (F e)) p))) 0) with true by (symmetry; exact E).
      replace (Nat.eqb (e_primary (with_periods e (Rmax (e_frame_period e) p)
        (Rmax (e_frame_period e) p * INR (e_max_len e + 1)) (Rmin (e_min_aug e) p))) 0) with true by (symmetry; exact E).
      destruct (c_ext st); [|reflexivity]. apply same. intros b _. apply same. intros K1 _. reflexivity.
    + replace (Nat.eqb (e_primary (with_periods (F e) (Rmax (e_frame_period (F e)) p)
        (Rmax (e_frame_period (F e)) p * INR (e_max_len (F e) + 1)) (Rmin (e_min_aug (F e)) p))) 0) with false by (symmetry; exact E).
      replace (Nat.eqb (e_primary (with_periods e (Rmax (e_frame_period e) p)
        (Rmax (e_frame_period e) p * INR (e_max_len e + 1)) (Rmin (e_min_aug e) p))) 0) with false by (symmetry; exact E).
      destruct (c_ext st); [|reflexivity]. apply same. intros b _. apply same. intros K1 _. reflexivity.
  - intros e1 _. apply refresh'.
Qed.
Lemma reg_fid' : forall e st K, RegisterFiducial (F e) (board' v st) K = rmap F (RegisterFiducial e st K).
Proof.
  intros e st K. unfold RegisterFiducial.
  change (s_fid (e_state (F e))) with (over (board' v) (s_fid (e_state e))). rewrite over_find.
  change (f_id (board' v st)) with (f_id st).
  destruct (mfind (f_id st) (s_fid (e_state e))); [reflexivity|]. cbn [option_map]. cbv zeta. rewrite over_set.
  apply both.
  - change (f_ext (board' v st)) with (f_ext st). destruct (f_ext st); [|reflexivity].
    change (f_size (board' v st)) with (f_size st).
    apply same. intros b _. apply same. intros K1 _. reflexivity.
  - intros e1 _. apply refresh'.
Qed.

(** *** Clones *)
Lemma aug_at' : forall e k, aug_at (F e) k = map C' (aug_at e k).
Proof. intros e k. unfold aug_at. apply (over_get _ _ (map C') (s_aug (e_state e)) k []). Qed.
Lemma set_aug' : forall e k l, set_aug (F e) k (map C' l) = F (set_aug e k l).
Proof.
  intros e k l. unfold set_aug. change (s_aug (e_state (F e))) with (over (map C') (s_aug (e_state e))).
  rewrite over_set. reflexivity.
Qed.
Lemma touch_aug' : forall e k, touch_aug (F e) k = F (touch_aug e k).
Proof.
  intros e k. unfold touch_aug. change (s_aug (e_state (F e))) with (over (map C') (s_aug (e_state e))).
  change (@nil AugState) with (map C' []) at 1. rewrite over_touch. reflexivity.
Qed.
Lemma clone_of' : forall e f, clone_of (F e) f = C' (clone_of e f).
Proof. reflexivity. Qed.
Lemma back' : forall A B (h : A -> B) l, back (map h l) = rmap h (back l).
Proof.
  intros A B h l. induction l as [|x [|y l] IH]; [reflexivity|reflexivity|]. exact IH.
Qed.
Lemma vnth' : forall A B (h : A -> B) l i, vnth (map h l) i = rmap h (vnth l i).
Proof.
  intros A B h l i. unfold vnth. rewrite nth_error_map. destruct (nth_error l i); reflexivity.
Qed.
Lemma erase' : forall A B (h : A -> B) l i, erase i (map h l) = map h (erase i l).
Proof. intros. unfold erase. rewrite map_app, firstn_map, skipn_map. reflexivity. Qed.

Lemma aug_needed' : forall e, aug_needed (F e) = aug_needed e.
Proof.
  intros e. unfold aug_needed. rewrite aug_at'.
  change (p_aug (e_par (F e))) with (p_aug (e_par e)).
  destruct (aug_at e 0) as [|a l] eqn:El; [reflexivity|]. cbn [map].
  destruct (p_aug (e_par e)); try reflexivity.
  - change (e_aug_prev (F e)) with (option_map (fun t => t + c) (e_aug_prev e)).
    destruct (e_aug_prev e) as [t|]; [|reflexivity]. cbn [option_map].
    change (e_time (F e)) with (e_time e + c). rewrite since. reflexivity.
  - change (C' a :: map C' l) with (map C' (a :: l)). rewrite back', bind_rmap. apply bind_ext. intros x _.
    change (e_time (F e)) with (e_time e + c). change (a_time (C' x)) with (a_time x + c). rewrite since.
    change (s_body (e_state (F e))) with (body' v (s_body (e_state e))). cbv zeta.
    replace (vsub (vsub (b_pos (body' v (s_body (e_state e))))
        (vscale (e_time e - a_time x) (b_vel (body' v (s_body (e_state e)))))) (a_pos (C' x)))
      with (vsub (vsub (b_pos (s_body (e_state e))) (vscale (e_time e - a_time x) (b_vel (s_body (e_state e)))))
              (a_pos x)) by (cbn [body' clone' b_pos b_vel a_pos]; vring).
    reflexivity.
Qed.

Lemma prune' : forall k e, prune k (F e) = rmap F (prune k e).
Proof.
  induction k as [|k IH]; intros e; [reflexivity|].
  cbn [prune]. rewrite aug_at', vnth', bind_rmap. apply same. intros nxt _.
  rewrite map_length. change (e_time (F e)) with (e_time e + c). change (a_time (C' nxt)) with (a_time nxt + c).
  rewrite since. change (e_track_dur (F e)) with (e_track_dur e).
  destruct (Rltb (e_track_dur e) (e_time e - a_time nxt) && Nat.ltb k (length (aug_at e 0))); [|apply IH].
  apply same. intros sz _. apply same. intros asz _. rewrite vnth', bind_rmap. apply same. intros old _.
  cbv zeta. rewrite erase'.
  change (with_aug_sizes (F e) sz asz) with (F (with_aug_sizes e sz asz)). rewrite set_aug'.
  apply same. intros K _.
  change (with_cov (F (set_aug (with_aug_sizes e sz asz) 0 (erase k (aug_at e 0)))) K)
    with (F (with_cov (set_aug (with_aug_sizes e sz asz) 0 (erase k (aug_at e 0))) K)).
  apply both; [apply refresh'|]. intros e1 _. apply IH.
Qed.

Lemma augment' : forall e, AugmentStateIfNeeded (F e) = rmap F (AugmentStateIfNeeded e).
Proof.
  intros e. unfold AugmentStateIfNeeded. change (p_aug (e_par (F e))) with (p_aug (e_par e)).
  assert (forall e, (let* needed := aug_needed (F e) in
      let* e0 := prune (length (aug_at (F e) 0) - 1) (F e) in
      if needed && e_frame_recv e0 then
        let e1 := with_aug_prev e0 (Some (e_time e0)) in
        let e2 := set_aug e1 0 (aug_at e1 0 ++ [clone_of e1 0]) in
        let e3 := with_aug_sizes e2 (e_size e2 + g_aug_state_size) (e_aug_size e2 + g_aug_state_size) in
        let* e4 := RefreshIndices e3 in
        let* last := back (aug_at e4 0) in
        let* K := AugmentCovariance (is_root e4) (e_cov e4) (a_index last) in
        OK (with_frame_recv (with_cov e4 K) false)
      else OK e0) =
     rmap F (let* needed := aug_needed e in
      let* e0 := prune (length (aug_at e 0) - 1) e in
      if needed && e_frame_recv e0 then
        let e1 := with_aug_prev e0 (Some (e_time e0)) in
        let e2 := set_aug e1 0 (aug_at e1 0 ++ [clone_of e1 0]) in
        let e3 := with_aug_sizes e2 (e_size e2 + g_aug_state_size) (e_aug_size e2 + g_aug_state_size) in
        let* e4 := RefreshIndices e3 in
        let* last := back (aug_at e4 0) in
        let* K := AugmentCovariance (is_root e4) (e_cov e4) (a_index last) in
        OK (with_frame_recv (with_cov e4 K) false)
      else OK e0)) as Hgo.
  { clear e. intros e. rewrite aug_needed', aug_at', map_length. apply same. intros needed _.
    apply both; [apply prune'|]. intros e0 _. change (e_frame_recv (F e0)) with (e_frame_recv e0).
    destruct (needed && e_frame_recv e0); [|reflexivity]. cbv zeta.
    change (with_aug_prev (F e0) (Some (e_time (F e0)))) with (F (with_aug_prev e0 (Some (e_time e0)))).
    rewrite aug_at', clone_of'.
    change [C' (clone_of (with_aug_prev e0 (Some (e_time e0))) 0)]
      with (map C' [clone_of (with_aug_prev e0 (Some (e_time e0))) 0]).
    rewrite <- map_app, set_aug'.
    match goal with |- context [RefreshIndices (with_aug_sizes (F ?x) ?a ?b)] =>
      change (with_aug_sizes (F x) a b) with (F (with_aug_sizes x a b)) end.
    apply both; [apply refresh'|]. intros e4 _. rewrite aug_at', back', bind_rmap. apply same. intros last _.
    apply same. intros K _. reflexivity. }
  destruct (p_aug (e_par e)); try reflexivity; cbv zeta; rewrite touch_aug'; apply Hgo.
Qed.

Lemma frame' : forall e cam f, AugmentStateFrame (F e) cam f = rmap F (AugmentStateFrame e cam f).
Proof.
  intros e cam f. unfold AugmentStateFrame. cbv zeta.
  change (with_frame_recv (F e) true) with (F (with_frame_recv e true)).
  set (e0 := with_frame_recv e true). clearbody e0.
  change (p_aug (e_par (F e0))) with (p_aug (e_par e0)). change (e_primary (F e0)) with (e_primary e0).
  destruct ((match p_aug (e_par e0) with AAll => true | _ => false end) ||
     ((match p_aug (e_par e0) with APrimary => true | _ => false end) && Nat.eqb cam (e_primary e0))); [|reflexivity].
  rewrite aug_at', clone_of'. change [C' (clone_of e0 f)] with (map C' [clone_of e0 f]).
  rewrite <- map_app, set_aug'. set (e1 := set_aug e0 cam (aug_at e0 cam ++ [clone_of e0 f])). clearbody e1.
  apply both.
  - rewrite aug_at', map_length. change (e_max_len (F e1)) with (e_max_len e1).
    destruct (Nat.leb (length (aug_at e1 cam)) (e_max_len e1)); [reflexivity|].
    rewrite vnth', bind_rmap. apply same. intros first _. rewrite erase', set_aug'.
    apply same. intros K _. reflexivity.
  - intros e2 _. apply both; [apply refresh'|]. intros e3 _. rewrite aug_at', back', bind_rmap.
    apply same. intros last _. apply same. intros K _. reflexivity.
Qed.

(** *** Prediction and correction *)
Lemma predict_body' : forall e dt, predict_body (F e) dt = body' v (predict_body e dt).
Proof.
  intros e dt. unfold predict_body. cbv zeta. change (e_zero_acc (F e)) with (e_zero_acc e).
  change (s_body (e_state (F e))) with (body' v (s_body (e_state e))). unfold body'. cbn [b_pos b_vel b_acc b_ang b_ang_vel b_ang_acc b_index].
  f_equal. vring.
Qed.
Lemma predict' : forall e t, PredictModel (F e) (t + c) = rmap F (PredictModel e t).
Proof.
  intros e t. unfold PredictModel. change (e_time (F e)) with (e_time e + c). rewrite ltb_since.
  destruct (Rltb t (e_time e)); [reflexivity|]. apply both.
  - change (e_gravity (F e)) with (e_gravity e). destruct (e_gravity e); [|reflexivity].
    rewrite since. cbv zeta. rewrite predict_body'. apply same. intros K _. reflexivity.
  - intros e1 _. cbv zeta. change (with_time (F e1) (t + c)) with (F (with_time e1 t)). apply augment'.
Qed.

Lemma fids_plus' : forall m r idx,
  fids_plus_vec (over (board' v) m) r idx
  = rmap (fun x => (over (board' v) (fst x), snd x)) (fids_plus_vec m r idx).
Proof.
  induction m as [|[k s] m IH]; intros r idx; [reflexivity|].
  cbn [over map fids_plus_vec fst snd]. change (f_ext (board' v s)) with (f_ext s).
  fold (over (board' v) m). destruct (f_ext s).
  - destruct (seg3 r idx) as [dp|]; [|reflexivity]. cbn [bind].
    destruct (seg3 r (idx + 3)) as [da|]; [|reflexivity]. cbn [bind]. rewrite IH.
    destruct (fids_plus_vec m r (idx + g_fid_extrinsic_state_size)) as [[m' i']|]; [|reflexivity].
    cbn [rmap bind fst snd over map].
    assert (fid_with_pose (board' v s) (vadd (f_pos (board' v s)) dp) (qmul (f_ang (board' v s)) (RotVecToQuat da))
      = board' v (fid_with_pose s (vadd (f_pos s) dp) (qmul (f_ang s) (RotVecToQuat da)))) as ->; [|reflexivity].
    unfold board', fid_with_pose.
    cbn [f_pos f_ang f_pos_stab f_ang_stab f_size f_index f_id f_ext]. f_equal. apply moved_on.
  - cbn [bind]. rewrite IH. destruct (fids_plus_vec m r idx) as [[m' i']|]; reflexivity.
Qed.
Lemma augv_plus' : forall l r idx,
  augv_plus_vec (map C' l) r idx = rmap (fun x => (map C' (fst x), snd x)) (augv_plus_vec l r idx).
Proof.
  induction l as [|s l IH]; intros r idx; [reflexivity|].
  cbn [map augv_plus_vec]. destruct (seg3 r (idx + 0)) as [dp|]; [|reflexivity]. cbn [bind].
  destruct (seg3 r (idx + 3)) as [da|]; [|reflexivity]. cbn [bind]. rewrite IH.
  destruct (augv_plus_vec l r (idx + g_aug_state_size)) as [[l' i']|]; [|reflexivity].
  cbn [rmap bind fst snd map].
  assert (aug_with_pose (C' s) (vadd (a_pos (C' s)) dp) (qmul (a_ang (C' s)) (RotVecToQuat da))
      = C' (aug_with_pose s (vadd (a_pos s) dp) (qmul (a_ang s) (RotVecToQuat da)))) as ->; [|reflexivity].
  unfold clone', aug_with_pose.
  cbn [a_frame a_time a_pos a_ang a_index a_alpha]. f_equal. apply moved_on.
Qed.
Lemma augs_plus' : forall m r idx,
  augs_plus_vec (over (map C') m) r idx = rmap (fun x => (over (map C') (fst x), snd x)) (augs_plus_vec m r idx).
Proof.
  induction m as [|[k l] m IH]; intros r idx; [reflexivity|].
  cbn [over map augs_plus_vec fst snd]. rewrite augv_plus'.
  destruct (augv_plus_vec l r idx) as [[l' i']|]; [|reflexivity]. cbn [rmap bind fst snd].
  fold (over (map C') m). rewrite IH. destruct (augs_plus_vec m r i') as [[m' i2]|]; reflexivity.
Qed.
Lemma plus' : forall s r, state_plus_vec (S' s) r = rmap S' (state_plus_vec s r).
Proof.
  intros s r. unfold state_plus_vec.
  apply same with (h := S'). intros rb _. change (s_body (S' s)) with (body' v (s_body s)).
  assert (body_plus_vec (body' v (s_body s)) rb = rmap (body' v) (body_plus_vec (s_body s) rb)) as ->.
  { unfold body_plus_vec. repeat (destruct (seg3 rb _); [cbn [bind]|reflexivity]). cbn [rmap]. f_equal.
    unfold body'. cbn [b_pos b_vel b_acc b_ang b_ang_vel b_ang_acc b_index]. f_equal. apply moved_on. }
  rewrite bind_rmap. apply same with (h := S'). intros b _.
  change (s_imu (S' s)) with (s_imu s). apply same with (h := S'). intros [im i1] _.
  change (s_gps (S' s)) with (s_gps s). apply same with (h := S'). intros [gm i2] _.
  change (s_cam (S' s)) with (s_cam s). apply same with (h := S'). intros [cm i3] _.
  change (s_fid (S' s)) with (over (board' v) (s_fid s)). rewrite fids_plus', bind_rmap.
  apply same with (h := S'). intros [fm i4] _. cbn [fst snd].
  change (s_aug (S' s)) with (over (map C') (s_aug s)). rewrite augs_plus', bind_rmap.
  apply same with (h := S'). intros [am i5] _. reflexivity.
Qed.
Lemma kalman' : forall e jac resid noise,
  KalmanUpdate (F e) jac resid noise = rmap F (KalmanUpdate e jac resid noise).
Proof.
  intros e jac resid noise. unfold KalmanUpdate. change (is_root (F e)) with (is_root e).
  change (e_cov (F e)) with (e_cov e). apply same. intros [gain K] _. apply same. intros u _.
  change (e_state (F e)) with (S' (e_state e)). rewrite plus', bind_rmap. apply same. intros s _. reflexivity.
Qed.

(** *** Looking up clones *)
Lemma shown_in : forall e cam f, by_frame e cam = true -> shown e cam f ->
  exists a, In a (aug_at e cam) /\ a_frame a = f.
Proof.
  intros e cam f Hb H. destruct (H Hb) as (l & a & Hl & Ha & Hf). exists a. split; [|exact Hf].
  unfold aug_at, mget. rewrite Hl. exact Ha.
Qed.
Lemma find_frame_all : forall l f y, find_frame (map C' l) f (C' y) = C' (find_frame l f y).
Proof.
  induction l as [|s l IH]; intros f y; [reflexivity|]. cbn [map find_frame].
  change (a_frame (C' s)) with (a_frame s). destruct (Nat.eqb (a_frame s) f); apply IH.
Qed.
Lemma find_frame_acc : forall l f x y, (exists a, In a l /\ a_frame a = f) ->
  find_frame (map C' l) f x = C' (find_frame l f y).
Proof.
  induction l as [|s l IH]; intros f x y (a & Ha & Hf); [destruct Ha|].
  cbn [map find_frame]. change (a_frame (C' s)) with (a_frame s).
  destruct (Nat.eqb (a_frame s) f) eqn:E; [apply find_frame_all|].
  apply IH. exists a. split; [|exact Hf]. destruct Ha as [->|Ha]; [|exact Ha].
  apply Nat.eqb_neq in E. contradiction.
Qed.

(** Whatever the first and the last time, an interval in between is found. *)
Definition ival (x : res R * AugState * AugState) : res R * AugState * AugState :=
  let '(al, s0, s1) := x in (al, C' s0, C' s1).
Lemma find_interval_all : forall l t x,
  find_interval (map C' l) (t + c) (ival x) = ival (find_interval l t x).
Proof.
  induction l as [|s l IH]; intros t x; [reflexivity|]. destruct l as [|s1 l]; [reflexivity|].
  specialize (IH t (if Rleb (a_time s) t && Rleb t (a_time s1)
         then (rdiv (t - a_time s) (a_time s1 - a_time s), s, s1) else x)).
  transitivity (find_interval (map C' (s1 :: l)) (t + c)
     (if Rleb (a_time s + c) (t + c) && Rleb (t + c) (a_time s1 + c)
      then (rdiv (t + c - (a_time s + c)) (a_time s1 + c - (a_time s + c)), C' s, C' s1) else ival x));
    [reflexivity|].
  rewrite !leb_since, !since.
  transitivity (find_interval (map C' (s1 :: l)) (t + c) (ival (if Rleb (a_time s) t && Rleb t (a_time s1)
         then (rdiv (t - a_time s) (a_time s1 - a_time s), s, s1) else x))).
  - f_equal. destruct (Rleb (a_time s) t && Rleb t (a_time s1)); reflexivity.
  - exact IH.
Qed.
Lemma find_interval_acc : forall l t x y first last, hd_error l = Some first -> back l = OK last ->
  a_time first <= t -> t < a_time last ->
  find_interval (map C' l) (t + c) x = ival (find_interval l t y).
Proof.
  induction l as [|s l IH]; intros t x y first last Hf Hb H0 H1; [discriminate|].
  injection Hf as <-. destruct l as [|s1 l].
  { injection Hb as <-. lra. }
  transitivity (find_interval (map C' (s1 :: l)) (t + c)
     (if Rleb (a_time s + c) (t + c) && Rleb (t + c) (a_time s1 + c)
      then (rdiv (t + c - (a_time s + c)) (a_time s1 + c - (a_time s + c)), C' s, C' s1) else x));
    [reflexivity|].
  rewrite !leb_since, !since.
  destruct (Rle_dec t (a_time s1)) as [Hle|Hle].
  - transitivity (ival (find_interval (s1 :: l) t
       (rdiv (t - a_time s) (a_time s1 - a_time s), s, s1))).
    + rewrite <- find_interval_all. f_equal.
      unfold Rleb. destruct (Rle_dec (a_time s) t); [|lra]. destruct (Rle_dec t (a_time s1)); [|lra]. reflexivity.
    + f_equal. change (find_interval (s :: s1 :: l) t y) with (find_interval (s1 :: l) t
        (if Rleb (a_time s) t && Rleb t (a_time s1)
         then (rdiv (t - a_time s) (a_time s1 - a_time s), s, s1) else y)). f_equal.
      unfold Rleb. destruct (Rle_dec (a_time s) t); [|lra]. destruct (Rle_dec t (a_time s1)); [|lra]. reflexivity.
  - apply Rnot_le_lt in Hle.
    rewrite (IH t _ (if Rleb (a_time s) t && Rleb t (a_time s1)
         then (rdiv (t - a_time s) (a_time s1 - a_time s), s, s1) else y) s1 last);
      [reflexivity|reflexivity|exact Hb|lra|exact H1].
Qed.

Lemma mk_looked : forall f t p p' q i a (e : ekf), p' = p ->
  OK (mkAug f t p' q i a, e) = OK (mkAug f t p q i a, e).
Proof. intros. subst. reflexivity. Qed.
Definition looked' (x : AugState * ekf) : AugState * ekf := (C' (fst x), F (snd x)).
Lemma get_aug' : forall e cam f t, found v c e cam f ->
  GetAugState (F e) cam f (t + c) = rmap looked' (GetAugState e cam f t).
Proof.
  intros e cam f t Hs. unfold GetAugState.
  change (p_aug (e_par (F e))) with (p_aug (e_par e)). change (e_primary (F e)) with (e_primary e).
  pose proof (shown_in e cam f) as Hin. unfold by_frame in Hin.
  destruct ((match p_aug (e_par e) with AAll => true | _ => false end) ||
     ((match p_aug (e_par e) with APrimary => true | _ => false end) && Nat.eqb cam (e_primary e))) eqn:Eb.
  - cbv zeta. rewrite touch_aug', aug_at'. cbn [rmap]. unfold looked'. cbn [fst snd].
    do 2 f_equal. destruct Hs as [[Hv Hc]|Hs].
    { replace default_aug with (C' default_aug) at 1; [apply find_frame_all|].
      unfold clone', default_aug. cbn [a_frame a_time a_pos a_ang a_index a_alpha]. rewrite Hv, Hc.
      f_equal; [ring|]. apply vext; unfold vadd, v0; cbn [vx vy vz]; ring. }
    apply find_frame_acc.
    assert (aug_at (touch_aug e cam) cam = aug_at e cam) as ->.
    { unfold aug_at, touch_aug, with_state, state_with_aug. cbn [e_state s_aug].
      unfold mget, mtouch. destruct (mfind cam (s_aug (e_state e))) eqn:E; [rewrite E; reflexivity|].
      rewrite mfind_mset_eq. reflexivity. }
    apply Hin; [|exact Hs]. destruct (p_aug (e_par e)); try discriminate; [reflexivity|exact Eb].
  - clear Hin Hs. cbv zeta. set (key := match p_aug (e_par e) with APrimary => e_primary e | _ => 0%nat end).
    rewrite touch_aug', aug_at'. set (e1 := touch_aug e key). set (l := aug_at e1 key). clearbody e1 key.
    rewrite vnth', bind_rmap. cbv beta. rewrite rmap_bind. apply bind_ext. intros first Hf.
    rewrite back', bind_rmap, rmap_bind. apply bind_ext. intros last Hl.
    change (a_time (C' first)) with (a_time first + c). change (a_time (C' last)) with (a_time last + c).
    change (e_time (F e1)) with (e_time e1 + c). rewrite !ltb_since, !since.
    destruct (Rltb t (a_time first)) eqn:E0.
    { cbn [bind rmap]. unfold looked'. cbn [fst snd clone' a_frame a_time a_pos a_ang a_index a_alpha].
      apply mk_looked. unfold default_aug. cbn [a_pos]. vring. }
    assert (Ht : a_time first <= t).
    { unfold Rltb in E0. destruct (Rlt_dec t (a_time first)); [discriminate|lra]. }
    destruct (Rltb t (a_time last)) eqn:E1.
    + assert (Ht' : t < a_time last) by (unfold Rltb in E1; destruct (Rlt_dec t (a_time last)); [assumption|discriminate]).
      assert (Hh : hd_error l = Some first).
      { unfold vnth in Hf. clearbody l. destruct l; cbn in Hf |- *; [discriminate|]. injection Hf as ->. reflexivity. }
      rewrite (find_interval_acc l t _ (OK 0, default_aug, default_aug) first last Hh Hl Ht Ht').
      destruct (find_interval l t (OK 0, default_aug, default_aug)) as [[al s0] s1]. cbn [ival].
      rewrite rmap_bind. apply bind_ext. intros a _. cbn [rmap]. unfold looked'.
      cbn [fst snd clone' a_frame a_time a_pos a_ang a_index a_alpha]. apply mk_looked.
      cbn [a_pos]. vring.
    + rewrite rmap_bind. apply bind_ext. intros a _. cbn [rmap]. unfold looked'.
      cbn [fst snd clone' a_frame a_time a_pos a_ang a_index a_alpha].
      change (b_pos (s_body (e_state (F e1)))) with (vadd (b_pos (s_body (e_state e1))) v).
      change (b_ang (s_body (e_state (F e1)))) with (b_ang (s_body (e_state e1))). apply mk_looked. cbn [a_pos]. vring.
Qed.

(** *** Calls *)
Lemma local' : forall e t, clocked c e ->
  CalculateLocalTime (F e) (t + (c + d))
  = (fst (CalculateLocalTime e t) + c, F (snd (CalculateLocalTime e t))).
Proof.
  intros e t H. unfold CalculateLocalTime. change (e_time_init (F e)) with (e_time_init e).
  destruct (e_time_init e) eqn:E; cbn [fst snd].
  - f_equal. change (e_ref_time (F e)) with (if e_time_init e then e_ref_time e + d else e_ref_time e). rewrite E. ring.
  - destruct H as [H|H]; [congruence|]. f_equal; [lra|].
    transitivity (with_clock (F e) (0 + c) (t + d) true); [f_equal; lra|reflexivity].
Qed.
Lemma v0_map : forall l : list V3, map (fun p => vadd p v0) l = l.
Proof. intros l. rewrite <- (map_id l) at 2. apply map_ext. intros [x y z]. apply vext; unfold vadd, v0; cbn [vx vy vz]; ring. Qed.

Lemma gps_sample' : forall e lla_to_ecef align t lla, v = v0 ->
  AttemptGpsInitialization lla_to_ecef align (F e) (t + c) lla = F (AttemptGpsInitialization lla_to_ecef align e t lla).
Proof.
  intros e lla_to_ecef align t lla H. unfold AttemptGpsInitialization.
    change (e_gps_time (F e)) with (map (fun t => t + c) (e_gps_time e)).
    change (e_gps_ecef (F e)) with (e_gps_ecef e).
    change (e_gps_xyz (F e)) with (map (fun p => vadd p v) (e_gps_xyz e)).
    change (b_pos (s_body (e_state (F e)))) with (vadd (b_pos (s_body (e_state e))) v).
    cbv zeta.
    change (e_gps_time (with_gps_samples (F e) (map (fun t0 => t0 + c) (e_gps_time e) ++ [t + c])
      (e_gps_ecef e ++ [lla_to_ecef lla]) (map (fun p => vadd p v) (e_gps_xyz e) ++ [vadd (b_pos (s_body (e_state e))) v])))
      with (map (fun t0 => t0 + c) (e_gps_time e) ++ map (fun t0 => t0 + c) [t]).
    rewrite <- map_app, map_length.
    change (e_gps_time (with_gps_samples e (e_gps_time e ++ [t]) (e_gps_ecef e ++ [lla_to_ecef lla])
      (e_gps_xyz e ++ [b_pos (s_body (e_state e))]))) with (e_gps_time e ++ [t]).
    assert (Hw : with_gps_samples (F e) (map (fun t0 => t0 + c) (e_gps_time e) ++ [t + c])
      (e_gps_ecef e ++ [lla_to_ecef lla]) (map (fun p => vadd p v) (e_gps_xyz e) ++ [vadd (b_pos (s_body (e_state e))) v])
      = F (with_gps_samples e (e_gps_time e ++ [t]) (e_gps_ecef e ++ [lla_to_ecef lla])
      (e_gps_xyz e ++ [b_pos (s_body (e_state e))]))).
    { unfold with_gps_samples, filter'.
      cbn [e_par e_state e_cov e_size e_imu_size e_gps_size e_cam_size e_aug_size e_fid_size e_time e_ref_time
         e_time_init e_max_len e_Q e_bodyQ e_lla_init e_pos_e_in_g e_ang_l_to_e e_gps_time e_gps_ecef e_gps_xyz
         e_aug_prev e_primary e_frame_period e_track_dur e_min_aug e_imu_start e_gps_start e_cam_start e_aug_start
         e_fid_start e_gravity e_zero_acc e_frame_recv]. rewrite !map_app. reflexivity. }
    rewrite Hw. set (e1 := with_gps_samples e (e_gps_time e ++ [t]) (e_gps_ecef e ++ [lla_to_ecef lla])
      (e_gps_xyz e ++ [b_pos (s_body (e_state e))])).
    destruct (Nat.leb 4 (length (e_gps_time e ++ [t]))); [|reflexivity].
    assert (e_gps_xyz (F e1) = e_gps_xyz e1) as ->.
    { change (e_gps_xyz (F e1)) with (map (fun p => vadd p v) (e_gps_xyz e1)). rewrite H. apply v0_map. }
    change (e_gps_ecef (F e1)) with (e_gps_ecef e1).
    destruct (align (e_gps_xyz e1) (e_gps_ecef e1)) as [[p a]|]; reflexivity.
Qed.

Lemma step' : forall e o, clocked c e -> free v c d e o -> step (F e) (op' v c d o) = rmap F (step e o).
Proof.
  intros e o Hk H. destruct o; cbn [op' step].
  - apply reg_imu'.
  - apply reg_gps'.
  - apply reg_cam'.
  - apply reg_fid'.
  - apply predict'.
  - apply frame'.
  - apply augment'.
  - apply refresh'.
  - apply kalman'.
  - reflexivity.
  - reflexivity.
  - reflexivity.
  - cbn [free] in H. rewrite get_aug' by exact H. rewrite bind_rmap. apply same. intros [a e1] _. reflexivity.
  - cbn [free] in H. cbn [rmap]. f_equal. unfold Initialize.
    transitivity (with_state (with_clock (F e) (t + c) (e_ref_time e + d) true)
      (state_with_body (e_state (F e)) (body' v b))); [|reflexivity].
    f_equal. f_equal. change (e_ref_time (F e)) with (if e_time_init e then e_ref_time e + d else e_ref_time e).
    destruct (e_time_init e); [reflexivity|]. destruct H as [H|H]; [discriminate|lra].
  - reflexivity.
  - reflexivity.
  - reflexivity.
  - reflexivity.
  - reflexivity.
  - reflexivity.
  - rewrite local' by exact Hk. reflexivity.
  - cbn [rmap]. f_equal. apply gps_sample'. exact H.
Qed.

End Origin.
