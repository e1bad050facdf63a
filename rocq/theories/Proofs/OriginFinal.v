(** Runs from the constructor, a look-up that depends on the origin, and a
    case. *)
From Coq Require Import Reals List Arith Bool ZArith Lia Lra.
From Verif Require Import Base.Res Base.Mat Base.RDec Base.Geom Base.AMap Base.RMat Base.LinAlg
  Model.TypeHelper Model.Types Model.Ekf Model.Ops Model.MathHelper Model.FiducialUpdater Model.MsckfUpdater Model.Sensors
  Spec.History Spec.Contract Spec.Named Spec.Origin
  Proofs.Named Proofs.Demo Proofs.CamTrackDemo Proofs.Windows Proofs.Finals Proofs.Origin Proofs.OriginWorld Proofs.OriginRun.
Import ListNotations.
Open Scope R_scope.

Lemma vadd_v0 : forall p, vadd p v0 = p.
Proof. intros [x y z]. unfold vadd, v0. cbn. f_equal; ring. Qed.

(** The simulation gives the filter the time and the true pose first. *)
Lemma simulated : forall svd hull ecef_to_lla mat_quat solve v c p q pe a t b l,
  (forall w, wstep svd hull ecef_to_lla mat_quat solve (world_init (EKF_init p q pe a)) (EConf (OInit t b)) = OK w ->
    all_free_events v c 0 svd hull ecef_to_lla mat_quat solve w l) ->
  wrun svd hull ecef_to_lla mat_quat solve (world_init (EKF_init p q pe a)) (EConf (OInit (t + c) (body' v b)) :: map (event' v c 0) l)
  = rmap (world' v c 0) (wrun svd hull ecef_to_lla mat_quat solve (world_init (EKF_init p q pe a)) (EConf (OInit t b) :: l)).
Proof.
  intros svd hull ecef_to_lla mat_quat solve v c p q pe a t b l H. cbn [wrun wstep step bind] in H |- *.
  specialize (H _ eq_refl). rewrite <- wrun'; [|left; reflexivity|exact H]. f_equal.
  unfold world', world_init. cbn [w_ekf w_cnt w_sensors over map]. f_equal.
  transitivity (with_state (with_clock (EKF_init p q pe a) (t + c) (0 + 0) true) (state_with_body default_state (body' v b))); [|reflexivity].
  replace (0 + 0) with 0 by ring. reflexivity.
Qed.
(** Without Initialize the first time stamp sets the clock. *)
Lemma stamped : forall svd hull ecef_to_lla mat_quat solve d p q pe a l,
  all_free_events v0 0 d svd hull ecef_to_lla mat_quat solve (world_init (EKF_init p q pe a)) l ->
  wrun svd hull ecef_to_lla mat_quat solve (world_init (EKF_init p q pe a)) (map (event' v0 0 d) l)
  = rmap (world' v0 0 d) (wrun svd hull ecef_to_lla mat_quat solve (world_init (EKF_init p q pe a)) l).
Proof.
  intros svd hull ecef_to_lla mat_quat solve d p q pe a l H. rewrite <- wrun'; [|right; reflexivity|exact H]. f_equal.
  unfold world', world_init. cbn [w_ekf w_cnt w_sensors over map]. f_equal.
  symmetry. transitivity (with_state (with_clock (EKF_init p q pe a) (0 + 0) 0 false) (state' v0 0 default_state)); [reflexivity|].
  assert (E : state' v0 0 default_state = default_state).
  { unfold state', body', default_state, default_body.
    cbn [s_body s_imu s_gps s_cam s_fid s_aug b_pos b_vel b_acc b_ang b_ang_vel b_ang_acc b_index over map].
    rewrite vadd_v0. reflexivity. }
  rewrite E. replace (0 + 0) with 0 by ring. reflexivity.
Qed.
(** Without Initialize no event of the program depends on the date. *)
Lemma undated : forall svd hull ecef_to_lla mat_quat solve d l w,
  Forall (fun x => match x with EConf (OInit _ _) => False | _ => True end) l ->
  all_free_events v0 0 d svd hull ecef_to_lla mat_quat solve w l.
Proof.
  induction l as [|x l IH]; intros w H; [exact I|]. inversion H as [|x0 l0 Hx Hl]; subst. split.
  - destruct x as [p|p|p ts fs|m|id t image seen board|o]; cbn [free_event]; try exact I.
    + destruct m; try exact I; [reflexivity|]. intros trs fids _ e1 _ k l2 tr x q _ _ _ _. left. split; reflexivity.
    + intros trs fids _ e1 _ k l2 tr x q _ _ _ _. left. split; reflexivity.
    + destruct o; try exact I; try contradiction; [left; split; reflexivity|reflexivity].
  - intros w' _. apply IH. exact Hl.
Qed.
Lemma dated : forall svd hull ecef_to_lla mat_quat solve d p q pe a l,
  Forall (fun x => match x with EConf (OInit _ _) => False | _ => True end) l ->
  wrun svd hull ecef_to_lla mat_quat solve (world_init (EKF_init p q pe a)) (map (event' v0 0 d) l)
  = rmap (world' v0 0 d) (wrun svd hull ecef_to_lla mat_quat solve (world_init (EKF_init p q pe a)) l).
Proof. intros. apply stamped. apply undated. assumption. Qed.
(** Nothing of that is seen in the estimates. *)
Lemma same_date : forall d w, w_cnt (world' v0 0 d w) = w_cnt w /\ e_cov (w_ekf (world' v0 0 d w)) = e_cov (w_ekf w) /\
  e_time (w_ekf (world' v0 0 d w)) = e_time (w_ekf w) /\ e_state (w_ekf (world' v0 0 d w)) = e_state (w_ekf w).
Proof.
  intros d w. unfold world'. cbn [w_cnt w_ekf]. repeat split.
  - unfold filter'. cbn [e_time]. ring.
  - unfold filter'. cbn [e_state]. destruct (e_state (w_ekf w)) as [b i g m f a]. unfold state'. cbn [s_body s_imu s_gps s_cam s_fid s_aug].
    f_equal.
    + destruct b as [p x1 x2 x3 x4 x5 x6]. unfold body'. cbn [b_pos b_vel b_acc b_ang b_ang_vel b_ang_acc b_index]. rewrite vadd_v0. reflexivity.
    + induction f as [|[k x] f IH]; [reflexivity|]. unfold over in *. cbn [map fst snd]. rewrite IH. do 2 f_equal.
      destruct x. unfold board'. cbn. rewrite vadd_v0. reflexivity.
    + induction a as [|[k x] a IH]; [reflexivity|]. unfold over in *. cbn [map fst snd]. rewrite IH. do 2 f_equal.
      clear IH. induction x as [|y x IH]; [reflexivity|]. cbn [map]. rewrite IH. f_equal.
      destruct y. unfold clone'. cbn. rewrite vadd_v0. f_equal. ring.
Qed.

(** A frame that is not in the window is made up at the origin, wherever that is. *)
Lemma made_up : forall e cam f t, by_frame e cam = true ->
  (forall a, In a (aug_at e cam) -> a_frame a <> f) ->
  exists e', GetAugState e cam f t = OK (default_aug, e').
Proof.
  intros e cam f t Hb Hn. unfold GetAugState.
  replace ((match p_aug (e_par e) with AAll => true | _ => false end) ||
     ((match p_aug (e_par e) with APrimary => true | _ => false end) && Nat.eqb cam (e_primary e))) with true.
  2:{ symmetry. unfold by_frame in Hb. destruct (p_aug (e_par e)); try discriminate; [reflexivity|exact Hb]. }
  eexists. rewrite Lookup.find_none; [reflexivity|]. intros a Ha. apply Hn.
  rewrite <- (MsckfCallback.touch_at e cam cam). exact Ha.
Qed.
Lemma init_at : forall e t b k, aug_at (Initialize e t b) k = aug_at e k.
Proof. reflexivity. Qed.
Lemma origin_refuted : exists e v, reachable e /\ e_time_init e = true /\
  exists a e1 e2, GetAugState e 2 9 0 = OK (a, e1) /\ GetAugState (filter' v 0 0 e) 2 9 (0 + 0) = OK (a, e2) /\
    a <> clone' v 0 a.
Proof.
  exists (Initialize track_e 0 (s_body (e_state track_e))), (mkV3 1 0 0).
  assert (R1 : reachable (Initialize track_e 0 (s_body (e_state track_e)))).
  { apply (Named.reachable_step track_e (OInit 0 (s_body (e_state track_e)))); [exact track_reachable| |reflexivity].
    cbn [contract]. pose proof (Named.reachable_inv _ track_reachable). auto. }
  split; [exact R1|]. split; [reflexivity|].
  destruct (made_up (Initialize track_e 0 (s_body (e_state track_e))) 2 9 0) as [e1 H1]; [reflexivity| |].
  { intros a Ha. destruct track_clones as (x & y & W & _ & _ & Fx & Fy).
    rewrite init_at, W in Ha. destruct Ha as [<-|[<-|[]]]; lia. }
  destruct (made_up (filter' (mkV3 1 0 0) 0 0 (Initialize track_e 0 (s_body (e_state track_e)))) 2 9 (0 + 0)) as [e2 H2]; [reflexivity| |].
  { intros a Ha. destruct track_clones as (x & y & W & _ & _ & Fx & Fy). rewrite aug_at' in Ha.
    rewrite init_at, W in Ha. destruct Ha as [<-|[<-|[]]]; cbn [clone' a_frame]; lia. }
  exists default_aug, e1, e2. split; [exact H1|]. split; [exact H2|].
  intros H. apply (f_equal (fun a => vx (a_pos a))) in H. cbn in H. lra.
Qed.

(** The frames a window shows after one more. *)
Lemma recent : forall v c e id t frame trs tracks, reachable e -> p_aug (e_par e) = AAll ->
  respects e [OLocalTime t; OPredict (fst (CalculateLocalTime e t)); OFrame id frame] ->
  (length (aug_at e id) <= e_max_len e)%nat ->
  (forall k l tr, In (k, l) tracks -> mfind k trs = Some tr -> mu_id (tk_upd tr) = id /\
     forall x p, In x l -> In p (ft_track x) -> In (fp_frame p) (last_n (e_max_len e) (map a_frame (aug_at e id) ++ [frame]))) ->
  tracks_shown v c e id t frame trs tracks.
Proof.
  intros v c e id t frame trs tracks Re A Rs Hl H e1 Hr k l tr x p Hk Ht Hx Hp. right. intros _.
  destruct (H k l tr Hk Ht) as [-> Hin]. specialize (Hin x p Hx Hp).
  assert (W : map a_frame (aug_at e1 id) = last_n (e_max_len e) (map a_frame (aug_at e id) ++ frames_of id [OLocalTime t; OPredict (fst (CalculateLocalTime e t)); OFrame id frame])).
  { apply (window_exact _ e e1 id (map a_frame (aug_at e id)) Re Rs Hr A).
    - repeat constructor.
    - symmetry. unfold last_n. rewrite map_length. replace (length (aug_at e id) - e_max_len e)%nat with 0%nat by lia. reflexivity. }
  cbn [frames_of flat_map app] in W. rewrite Nat.eqb_refl in W. cbn [app] in W. rewrite <- W in Hin.
  apply in_map_iff in Hin. destruct Hin as [a [Ha Hin]]. unfold aug_at, mget in Hin.
  destruct (mfind id (s_aug (e_state e1))) as [w|] eqn:E; [|destruct Hin]. exists w, a. auto.
Qed.
Lemma case_shown : forall v c t trs k tr p, mfind k trs = Some tr -> mu_id (tk_upd tr) = 2%nat ->
  tracks_shown v c track_e 2 t 9 trs [(k, [one_track p])].
Proof.
  intros v c t trs k tr p Ht Hu. destruct track_clones as (x & y & W & _ & _ & Fx & Fy).
  apply recent.
  - exact track_reachable.
  - reflexivity.
  - cbn [respects contract]. split; [exact I|]. intros. split; [exact I|]. intros. split; [exact I|]. intros. exact I.
  - rewrite W. replace (e_max_len track_e) with 20%nat by (vm_compute; reflexivity). cbn. lia.
  - intros k0 l tr0 Hin Hf. destruct Hin as [Hin|[]]. injection Hin as <- <-. assert (tr0 = tr) by congruence. subst tr0.
    split; [exact Hu|]. rewrite W. replace (e_max_len track_e) with 20%nat by (vm_compute; reflexivity).
    intros z q [<-|[]] Hq. cbn [map app]. rewrite Fx, Fy. destruct Hq as [<-|[<-|[]]]; cbn; auto.
Qed.
