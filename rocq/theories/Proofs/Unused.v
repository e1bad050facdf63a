(** Camera data that leads to no correction. *)
From Coq Require Import Reals List Arith Bool Lia Lra ZArith.
From Verif Require Import Base.Res Base.Mat Base.RDec Base.LinAlg Base.Geom Base.AMap Base.RMat
  Model.TypeHelper Model.Types Model.MathHelper Model.GpsHelper Model.Matrix3 Model.Ekf Model.Updater Model.Ops
  Model.ImuUpdater Model.GpsUpdater Model.FiducialUpdater Model.MsckfUpdater Model.Sensors
  Spec.Layout Spec.History Spec.Contract Spec.Callback Spec.World Spec.Unused
  Proofs.Invariant Proofs.Follows Proofs.ImuCallback Proofs.MsckfCallback Proofs.World Proofs.Ids Proofs.Demo Proofs.WorldFinals Proofs.StationaryFinals.
Import ListNotations.
Open Scope nat_scope.

Lemma predicted_split : forall e t lt e0, CalculateLocalTime e t = (lt, e0) ->
  lt = local_of e t /\ forall e', PredictModel e0 lt = OK e' <-> only_predicted e t e'.
Proof.
  intros e t lt e0 E.
  assert (L : lt = local_of e t).
  { unfold CalculateLocalTime, local_of in *. destruct (e_time_init e); injection E as <- _; reflexivity. }
  split; [exact L|]. intros e'. unfold only_predicted. cbn [run step]. rewrite E. cbn [bind snd]. rewrite L.
  destruct (PredictModel e0 (local_of e t)) as [x|]; cbn [bind]; reflexivity.
Qed.

Lemma no_tracks : forall solve u e t px u' e',
  msckf_UpdateEKF solve u e t [] px = OK (u', e') <-> u' = u /\ only_predicted e t e'.
Proof.
  intros solve u e t px u' e'. unfold msckf_UpdateEKF. destruct (CalculateLocalTime e t) as [lt e0] eqn:E.
  destruct (predicted_split e t lt e0 E) as [_ P]. rewrite <- P. clear P. destruct (PredictModel e0 lt) as [x|]; cbn [bind].
  - split; [intros H; injection H as <- <-; auto|]. intros [-> H]. injection H as <-. reflexivity.
  - split; [discriminate|]. intros [_ H]. discriminate.
Qed.

(** *** Reading clones of a filter with other empty windows *)
Lemma with_with : forall e s s', with_state (with_state e s) s' = with_state e s'.
Proof. reflexivity. Qed.
Lemma same_refl : forall e, same_estimates e e.
Proof.
  intros e. exists (s_aug (e_state e)). split; [|reflexivity].
  replace (state_with_aug (e_state e) (s_aug (e_state e))) with (e_state e) by (destruct (e_state e); reflexivity).
  destruct e. reflexivity.
Qed.
Lemma same_touch : forall e k, same_estimates e (touch_aug e k).
Proof. intros e k. exists (mtouch [] k (s_aug (e_state e))). split; [reflexivity|]. intros j. apply (touch_at e k j). Qed.
Lemma same_trans : forall a b c, same_estimates a b -> same_estimates b c -> same_estimates a c.
Proof.
  intros a b c [m [-> H]] [n [-> G]]. exists n. split; [reflexivity|]. intros k. rewrite G. cbn. apply H.
Qed.
Lemma same_sym : forall a b, same_estimates a b -> same_estimates b a.
Proof.
  intros a b [m [-> H]]. exists (s_aug (e_state a)). split.
  - rewrite with_with. replace (state_with_aug (e_state (with_state a (state_with_aug (e_state a) m))) (s_aug (e_state a))) with (e_state a)
      by (cbn; destruct (e_state a); reflexivity). destruct a. reflexivity.
  - intros k. cbn. symmetry. apply H.
Qed.

Definition orel (e : ekf) {A} (r s : res (A * ekf)) : Prop :=
  match r, s with
  | OK (a, x), OK (b, y) => a = b /\ same_estimates e x /\ same_estimates e y
  | UB, UB => True
  | _, _ => False
  end.

Lemma get_aug_same : forall e e' c f t, same_estimates e e' -> orel e (GetAugState e c f t) (GetAugState e' c f t).
Proof.
  intros e e' c f t S. pose proof S as [m [E H]].
  assert (A : forall k, aug_at e' k = aug_at e k) by (intros k; rewrite E; unfold aug_at; cbn; apply H).
  assert (P : e_par e' = e_par e) by (rewrite E; reflexivity). assert (Q : e_primary e' = e_primary e) by (rewrite E; reflexivity).
  assert (T : e_time e' = e_time e) by (rewrite E; reflexivity).
  assert (B : s_body (e_state e') = s_body (e_state e)) by (rewrite E; reflexivity).
  unfold GetAugState. rewrite P, Q. destruct (_ || _).
  - cbv zeta. rewrite !touch_at, A. cbn. split; [reflexivity|]. split; [apply same_touch|]. eapply same_trans; [exact S|apply same_touch].
  - cbv zeta. rewrite !touch_at, A. destruct (vnth _ 0) as [x|]; cbn [bind]; [|exact I].
    destruct (back _) as [y|]; cbn [bind]; [|exact I]. cbn [e_time with_state touch_aug]. rewrite T.
    change (e_time (touch_aug e ?k)) with (e_time e).
    change (s_body (e_state (touch_aug e' (match p_aug (e_par e) with APrimary => e_primary e | _ => 0 end)))) with (s_body (e_state e')).
    change (s_body (e_state (touch_aug e (match p_aug (e_par e) with APrimary => e_primary e | _ => 0 end)))) with (s_body (e_state e)).
    rewrite B. match goal with |- orel _ (let '(_, _) := ?p in _) _ => destruct p as [[al s0] s1] end.
    destruct al as [al|]; cbn [bind]; [|exact I]. cbn. split; [reflexivity|]. split; [apply same_touch|].
    eapply same_trans; [exact S|apply same_touch].
Qed.

Section U.
Variable solve : mat R -> V3 -> V3.
Lemma tri_rows_same : forall l u k pc ac a0 e e' A b, same_estimates e e' ->
  orel e (tri_rows u k pc ac a0 e l A b) (tri_rows u k pc ac a0 e' l A b).
Proof.
  induction l as [|f l IH]; intros u k pc ac a0 e e' A b S; cbn [tri_rows].
  - cbn. split; [reflexivity|]. split; [apply same_refl|exact S].
  - pose proof (get_aug_same e e' (mu_id u) (fp_frame f) (fp_time f) S) as G.
    destruct (GetAugState e _ _ _) as [[a x]|], (GetAugState e' _ _ _) as [[a' x']|]; cbn in G; try contradiction; [|exact I].
    destruct G as [<- [G1 G2]]. cbn [bind]. cbv zeta. destruct (undo_pixel k (fp_kp f)) as [[px py]|]; cbn [bind]; [|exact I].
    destruct (rdiv 1 _) as [s|]; cbn [bind]; [|exact I].
    assert (SX : same_estimates x x') by (eapply same_trans; [apply same_sym; exact G1|exact G2]).
    match goal with |- orel _ (tri_rows _ _ _ _ _ _ _ ?AA ?BB) _ => specialize (IH u k pc ac a0 x x' AA BB SX) end.
    destruct (tri_rows _ _ _ _ _ x _ _ _) as [[[q r] y]|], (tri_rows _ _ _ _ _ x' _ _ _) as [[[q' r'] y']|]; cbn in *; try contradiction; auto.
    destruct IH as [IH1 [IH2 IH3]]. split; [exact IH1|]. split; apply (same_trans e x); auto.
Qed.
Lemma triangulate_same : forall u k pc ac e e' t, same_estimates e e' ->
  orel e (TriangulateFeature solve u k pc ac e t) (TriangulateFeature solve u k pc ac e' t).
Proof.
  intros u k pc ac e e' t S. unfold TriangulateFeature. destruct (vnth (ft_track t) 0) as [f|]; cbn [bind]; [|exact I].
  pose proof (get_aug_same e e' (mu_id u) (fp_frame f) (fp_time f) S) as G.
  destruct (GetAugState e _ _ _) as [[a x]|], (GetAugState e' _ _ _) as [[a' x']|]; cbn in G; try contradiction; [|exact I].
  destruct G as [<- [G1 G2]]. cbn [bind].
  assert (SX : same_estimates x x') by (eapply same_trans; [apply same_sym; exact G1|exact G2]).
  pose proof (tri_rows_same (ft_track t) u k pc ac a x x' (mzero 3 3) v0 SX) as H.
  destruct (tri_rows _ _ _ _ _ x _ _ _) as [[[q r] y]|], (tri_rows _ _ _ _ _ x' _ _ _) as [[[q' r'] y']|]; cbn in H; try contradiction; [|exact I].
  destruct H as [H1 [H2 H3]]. injection H1 as <- <-. cbn [bind]. cbv zeta.
  assert (SY : same_estimates e y) by (apply (same_trans e x); auto). assert (SY' : same_estimates e y') by (apply (same_trans e x); auto).
  destruct (mu_use_true u); [destruct (ft_true t); cbn; auto|]. destruct (_ || _); cbn; auto.
Qed.

Lemma rejected_rows : forall l u k pc ac n ci e0 e ct Hx rx, same_estimates e0 e ->
  Forall (fun t => exists e', TriangulateFeature solve u k pc ac e0 t = OK (None, e')) l ->
  exists e', track_rows solve u k pc ac n ci e l ct Hx rx = OK (Hx, rx, ct, e') /\ same_estimates e0 e'.
Proof.
  induction l as [|t l IH]; intros u k pc ac n ci e0 e ct Hx rx S F; cbn [track_rows]; [eauto|].
  inversion F as [|? ? [x X] F']; subst. pose proof (triangulate_same u k pc ac e0 e t S) as T. rewrite X in T.
  destruct (TriangulateFeature solve u k pc ac e t) as [[p y]|]; cbn in T; [|contradiction]. destruct T as [<- [_ T]].
  cbn [bind]. apply (IH u k pc ac n ci e0 y ct Hx rx T F').
Qed.

Lemma all_declined : forall u e t tracks px u' e' e1, reachable e -> has_cam e (mu_id u) (mu_ext u) ->
  msckf_UpdateEKF solve u e t tracks px = OK (u', e') -> only_predicted e t e1 -> Forall (declined solve u' e1) tracks ->
  same_estimates e1 e'.
Proof.
  intros u e t tracks px u' e' e1 Hr [c [HK HE]] E HP F. unfold msckf_UpdateEKF in E.
  destruct (CalculateLocalTime e t) as [lt e0] eqn:E0. destruct (predicted_split e t lt e0 E0) as [L P].
  apply P in HP. rewrite HP in E. cbn [bind] in E.
  destruct (local_went e t Hr) as [W0 _]. rewrite E0 in W0. cbn [snd] in W0.
  destruct (predict_went e0 lt (w_reach _ _ W0)) as [x [E1 [W1 _]]]. rewrite HP in E1. injection E1 as <-.
  assert (W : went e e1) by (eapply went_trans; eauto).
  destruct tracks as [|tr trs]; [injection E as _ <-; apply same_refl|].
  destruct (w_keeps _ _ W) as [_ [_ [KC _]]]. destruct (KC _ _ HK) as [c1 [HK1 _]].
  rewrite (get_cam_same _ _ _ HK1) in E.
  set (uu := if negb (p_fej (e_par e1)) || mu_first u then mkMU (mu_id u) (mu_ext u) false (Some (c_intr c1, c_pos c1, c_ang c1))
               (mu_min_dist u) (mu_max_dist u) (mu_use_true u) else u).
  assert (EU : (if negb (p_fej (e_par e1)) || mu_first u then
         (mkMU (mu_id u) (mu_ext u) false (Some (c_intr c1, c_pos c1, c_ang c1))
               (mu_min_dist u) (mu_max_dist u) (mu_use_true u), e1)
       else (u, e1)) = (uu, e1)) by (unfold uu; destruct (_ || _); reflexivity).
  rewrite EU in E. assert (M : mu_id uu = mu_id u) by (unfold uu; destruct (_ || _); reflexivity).
  clearbody uu. clear EU. destruct (mu_poses uu) as [[[k pc] ac]|] eqn:PO; [|discriminate].
  rewrite M, (get_cam_same _ _ _ HK1) in E. cbv zeta in E.
  assert (UU : u' = uu).
  { destruct (track_rows _ _ _ _ _ _ _ _ _ _ _ _) as [[[[Hx rx] ct] e2]|]; cbn [bind] in E; [|discriminate].
    destruct (Nat.eqb ct 0); [injection E as <- _; reflexivity|].
    destruct (CompressMeasurements Hx rx) as [[H' r']|]; cbn [bind] in E; [|discriminate].
    destruct (Nat.leb (nr r') 1); [injection E as <- _; reflexivity|].
    destruct (KalmanUpdate _ _ _ _); cbn [bind] in E; [|discriminate]. injection E as <- _. reflexivity. }
  subst u'.
  match type of E with bind (track_rows _ _ _ _ _ ?n ?ci _ _ ?z ?A ?B) _ = _ =>
    destruct (rejected_rows (tr :: trs) uu k pc ac n ci e1 e1 z A B (same_refl e1)) as [e2 [E2 S2]] end.
  { apply Forall_impl with (2 := F). intros d (k' & pc' & ac' & y & Q1 & Q2). rewrite PO in Q1. injection Q1 as <- <- <-. eauto. }
  rewrite E2 in E. cbn [bind Nat.eqb] in E. injection E as <-. exact S2.
Qed.

(** An updater as constructed never declines. *)
Lemma never_declines : forall u e t, mu_use_true u = true -> ~ declined solve u e t.
Proof.
  intros u e t U (k & pc & ac & e' & _ & E). unfold TriangulateFeature in E.
  destruct (vnth (ft_track t) 0); cbn [bind] in E; [|discriminate].
  destruct (GetAugState _ _ _ _) as [[a x]|]; cbn [bind] in E; [|discriminate].
  destruct (tri_rows _ _ _ _ _ _ _ _ _) as [[[q r] y]|]; cbn [bind] in E; [|discriminate].
  rewrite U in E. destruct (ft_true t); discriminate.
Qed.
End U.

(** *** Camera callbacks without content *)
Section C.
Variable mat_quat : mat R -> quat.
Variable solve : mat R -> V3 -> V3.
Lemma empty_tracks : forall l trs e t, Forall (fun x => snd x = []) l -> track_all solve trs e t l = OK (trs, e).
Proof.
  induction l as [|[k x] l IH]; intros trs e t F; cbn [track_all]; [reflexivity|].
  inversion F as [|? ? X F']; subst. cbn in X. subst x. apply IH. exact F'.
Qed.
Lemma empty_boards : forall l fids e t fids' e', Forall (fun x => snd x = None) l -> board_all mat_quat fids e t l = OK (fids', e') ->
  fids' = fids /\ e' = e.
Proof.
  induction l as [|[k x] l IH]; intros fids e t fids' e' F E; cbn [board_all] in E; [injection E as <- <-; auto|].
  inversion F as [|? ? X F']; subst. cbn in X. subst x. destruct (mfind k fids); [|discriminate]. eapply IH; eauto.
Qed.
End C.

Lemma mset_same : forall A (m : amap A) k x, sorted m -> mfind k m = Some x -> mset k x m = m.
Proof.
  unfold sorted. induction m as [|[j y] m IH]; intros k x S F; cbn [mset mfind keys map fst] in *; [discriminate|]. inversion S as [|? ? S1 S2]; subst.
  destruct (Nat.eqb_spec k j) as [->|D]; [congruence|].
  destruct (Nat.ltb_spec k j) as [L|L]; [|rewrite (IH k x S1 F); reflexivity].
  exfalso. apply mfind_in in F.
  assert (X : In k (keys m)) by (apply in_map_iff; exists (k, x); auto).
  rewrite Forall_forall in S2. specialize (S2 k X). lia.
Qed.

Lemma camera_nothing : forall svd hull ecef_to_lla mat_quat solve w id t frame tracks boards w',
  lived svd hull ecef_to_lla mat_quat solve w -> addressed w (MCam id t frame tracks boards) ->
  Forall (fun x => snd x = []) tracks -> Forall (fun x => snd x = None) boards ->
  wstep svd hull ecef_to_lla mat_quat solve w (EMsg (MCam id t frame tracks boards)) = OK w' ->
  w_sensors w' = w_sensors w /\ w_cnt w' = w_cnt w /\
  run (w_ekf w) [OLocalTime t; OPredict (local_of (w_ekf w) t); OFrame id frame] = OK (w_ekf w').
Proof.
  intros svd hull ecef mq solve w id t frame tracks boards w' HL HA HT HB E.
  destruct (lived_winv _ _ _ _ _ _ HL) as [_ II]. cbn [wstep] in E. unfold deliver in E. unfold addressed in HA. cbn [msg_id] in *.
  destruct (mfind id (w_sensors w)) as [[x|x|trs fids]|] eqn:F; try contradiction.
  destruct (sim_camera_Callback mq solve trs fids (w_ekf w) id t frame tracks boards) as [[[a b] e']|] eqn:C; cbn [bind] in E; [|discriminate].
  injection E as <-. cbn [w_sensors w_cnt w_ekf]. unfold sim_camera_Callback in C.
  destruct (CalculateLocalTime (w_ekf w) t) as [lt e0] eqn:L.
  destruct (predicted_split _ _ _ _ L) as [-> _].
  destruct (PredictModel e0 (local_of (w_ekf w) t)) as [e1|] eqn:P; cbn [bind] in C; [|discriminate].
  destruct (AugmentStateFrame e1 id frame) as [e2|] eqn:A; cbn [bind] in C; [|discriminate].
  rewrite empty_tracks in C by exact HT. cbn [bind] in C.
  destruct (board_all mq fids e2 t boards) as [[f2 e3]|] eqn:B; cbn [bind] in C; [|discriminate].
  injection C as <- <- <-. destruct (empty_boards _ _ _ _ _ _ _ HB B) as [-> ->].
  split; [apply mset_same; [|exact F]|].
  - unfold sorted. rewrite (ii_keys _ II). apply seq_sorted.
  - split; [reflexivity|]. cbn [run step]. rewrite L. cbn [snd bind]. rewrite P. cbn [bind]. rewrite A. reflexivity.
Qed.

(** *** Concrete cases *)
Definition near_track : FeatureTrack := mkFT [mkFP 0 0 (mkKP 0 0 0)] None.
Definition strict_updater : msckf_updater := mkMU 2 true false (Some (default_intrinsics, v0, qid)) 1 100 false.

Lemma declined_demo : forall a e, e_par e = demo_par AAll a -> declined (fun _ _ => v0) strict_updater e near_track.
Proof.
  intros a e P. exists default_intrinsics, v0, qid.
  assert (G : forall x, e_par x = demo_par AAll a -> exists s y, GetAugState x 2 0 0 = OK (s, y) /\ e_par y = demo_par AAll a).
  { intros x H. unfold GetAugState. rewrite H. cbn [p_aug demo_par orb]. eexists. eexists. split; [reflexivity|exact H]. }
  destruct (G e P) as [s [e1 [E1 P1]]]. destruct (G e1 P1) as [s2 [e2 [E2 P2]]]. exists e2. split; [reflexivity|].
  unfold TriangulateFeature. cbn [ft_track near_track vnth bind fp_frame fp_time mu_id strict_updater nth_error].
  rewrite E1. cbn [bind tri_rows fp_frame fp_time fp_kp mu_id strict_updater ft_track near_track]. rewrite E2. cbn [bind].
  unfold undo_pixel. unfold default_intrinsics. cbn [in_f_x in_f_y in_pixel_size in_width in_height kp_x kp_y].
  assert (K : (1 / 100 / (5 / 1000000) = 2000)%R) by field.
  rewrite !rdiv_ok by lra. cbn [bind]. rewrite K. rewrite !rdiv_ok by lra. cbn [bind]. rewrite rdiv_ok.
  2:{ unfold vnorm, vnorm2, vdot. cbn. apply Rgt_not_eq. apply sqrt_lt_R0. nra. }
  cbn [bind mu_use_true mu_min_dist vz v0 strict_updater]. rewrite (Rltb_true 0 1) by lra. reflexivity.
Qed.

Definition camera_events : list event := [ENewImu ex_imu; ENewCam ex_cam [ex_tr] [ex_fid]].
Lemma camera_run : forall svd hull ecef_to_lla mat_quat solve e w,
  wrun svd hull ecef_to_lla mat_quat solve (world_init e) camera_events = OK w ->
  forall t f tr b, addressed w (MCam 2 t f tr b).
Proof.
  intros svd hull ecef mq solve e w E t f tr b. unfold camera_events in E. cbn [wrun wstep] in E.
  unfold imu_new in E. cbn [new_sensor_id] in E. destruct (imu_cov_of ex_imu) as [cov|]; cbn [bind] in E; [|discriminate].
  destruct (RegisterIMU _ _ _ _) as [e1|]; cbn [bind] in E; [|discriminate].
  unfold camera_new, cam_new in E. cbn [new_sensor_id install w_cnt w_ekf] in E.
  destruct (RegisterCamera _ _ _ _) as [e2|]; cbn [bind] in E; [|discriminate].
  cbn [add_trackers tracker_new new_tracker_id add_fiducials] in E. unfold fid_new in E. cbn [new_tracker_id] in E.
  destruct (guard _) as [g|]; cbn [bind] in E; [|discriminate].
  destruct (RegisterFiducial _ _ _) as [e3|]; cbn [bind] in E; [|discriminate]. injection E as <-. exact I.
Qed.
Lemma camera_events_ok : forall svd hull ecef_to_lla mat_quat solve,
  events_ok svd hull ecef_to_lla mat_quat solve (world_init (demo0 AAll false)) camera_events.
Proof.
  intros svd hull ecef mq solve. pose proof (ex_ok svd hull ecef mq solve AAll false) as O. unfold ex_events in O. cbn [events_ok] in O. unfold camera_events. cbn [events_ok].
  destruct O as [O1 O2]. split; [exact O1|]. intros w1 E1. destruct (O2 w1 E1) as [O3 _]. split; [exact O3|auto].
Qed.
Lemma camera_events_plain : forall svd hull ecef_to_lla mat_quat solve w,
  events_plain svd hull ecef_to_lla mat_quat solve w camera_events.
Proof. intros. unfold camera_events. cbn [events_plain plain_event]. auto. Qed.

Lemma camera_world : forall svd hull ecef_to_lla mat_quat solve, exists w,
  lived svd hull ecef_to_lla mat_quat solve w /\ forall t f tr b, addressed w (MCam 2 t f tr b).
Proof.
  intros svd hull ecef mq solve.
  destruct (callback_total svd hull ecef mq solve (demo_par AAll false) demo_noise v0 0%R camera_events demo_noise_arg eq_refl) as [w E].
  - cbn. lra.
  - apply camera_events_ok.
  - apply camera_events_plain.
  - exists w. split; [|exact (camera_run _ _ _ _ _ _ _ E)].
    exists (demo_par AAll false), demo_noise, v0, 0%R, camera_events.
    split; [apply demo_noise_arg|]. split; [apply camera_events_ok|exact E].
Qed.
