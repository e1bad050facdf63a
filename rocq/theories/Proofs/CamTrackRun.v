(** Tracks the updater can handle. *)
From Coq Require Import Reals List Arith Bool Lia Lra.
From Verif Require Import Base.Res Base.Mat Base.RDec Base.RSum Base.LinAlg Base.Inverse Base.Geom Base.AMap Base.RMat
  Model.TypeHelper Model.Types Model.MathHelperMat Model.QR Model.MathHelper Model.Matrix3 Model.Ekf Model.Updater Model.Ops Model.MsckfUpdater
  Spec.Layout Spec.History Spec.Contract Spec.Correct Spec.Named Spec.Same Spec.Callback Spec.KF Spec.Unused Spec.Towards Spec.Deriv Spec.Triangulation Spec.Chance Spec.CamTrack
  Proofs.Sizes Proofs.Scalars Proofs.Follows Proofs.BlockDiag Proofs.ImuCallback Proofs.GpsCallback Proofs.Compress Proofs.MsckfCallback Proofs.Unused Proofs.Towards Proofs.RestLookup Proofs.TowardsImu Proofs.CamTrack Proofs.CamTrackFinal.
Import ListNotations.
Open Scope nat_scope.

(** *** Every clone has its place *)
Lemma window_index : forall e k a, reachable e -> In a (aug_at e k) -> a_index a + 6 <= e_size e.
Proof.
  intros e k a Hr H. destruct (partition_ok e Hr) as [P [_ L]]. destruct P as (_ & _ & _ & _ & _ & P).
  unfold aug_at, mget in H. destruct (mfind k (s_aug (e_state e))) as [l|] eqn:E; [|contradiction].
  apply mfind_in in E. destruct (In_nth_error _ _ H) as [pos HP]. specialize (P k l pos a E HP 5 ltac:(lia)).
  assert (a_index a + 5 < length (layout (e_state e))) by (apply nth_error_Some; congruence). lia.
Qed.
Lemma size_18 : forall e, reachable e -> 18 <= e_size e.
Proof.
  intros e Hr. destruct (partition_ok e Hr) as [_ [_ <-]]. unfold layout. rewrite app_length, map_length, seq_length. lia.
Qed.
Lemma find_frame_in : forall l f acc, find_frame l f acc = acc \/ In (find_frame l f acc) l.
Proof.
  induction l as [|s l IH]; intros f acc; cbn [find_frame]; [auto|].
  destruct (IH f (if Nat.eqb (a_frame s) f then s else acc)) as [H|H]; [|right; right; exact H].
  rewrite H. destruct (Nat.eqb _ f); [right; left; reflexivity|auto].
Qed.
Lemma find_interval_in : forall l t acc, snd (fst (find_interval l t acc)) = snd (fst acc) \/ In (snd (fst (find_interval l t acc))) l.
Proof.
  induction l as [|s l IH]; intros t acc; [left; reflexivity|]. destruct l as [|s1 l]; [left; reflexivity|].
  change (find_interval (s :: s1 :: l) t acc) with
    (find_interval (s1 :: l) t (if Rleb (a_time s) t && Rleb t (a_time s1) then (rdiv (t - a_time s) (a_time s1 - a_time s), s, s1) else acc)).
  destruct (IH t (if Rleb (a_time s) t && Rleb t (a_time s1) then (rdiv (t - a_time s) (a_time s1 - a_time s), s, s1) else acc)) as [H|H]; [|right; right; exact H].
  rewrite H. destruct (_ && _); [right; left; reflexivity|auto].
Qed.
Lemma lookup_index : forall e id f t a e', reachable e -> GetAugState e id f t = OK (a, e') -> a_index a + 6 <= e_size e.
Proof.
  intros e id f t a e' Hr H. pose proof (size_18 e Hr) as S18. unfold GetAugState in H. destruct (_ || _).
  - cbv zeta in H. rewrite touch_at in H. injection H as <- _.
    destruct (find_frame_in (aug_at e id) f default_aug) as [->|HI]; [cbn; lia|]. apply (window_index e id); assumption.
  - cbv zeta in H. rewrite touch_at in H. set (key := match p_aug (e_par e) with APrimary => _ | _ => _ end) in *. clearbody key.
    destruct (vnth (aug_at e key) 0) as [x|] eqn:E1; cbn [bind] in H; [|discriminate].
    destruct (back (aug_at e key)) as [y|] eqn:E2; cbn [bind] in H; [|discriminate].
    assert (X : In x (aug_at e key)).
    { unfold vnth in E1. destruct (nth_error _ 0) eqn:N; [|discriminate]. injection E1 as <-. eapply nth_error_In; eauto. }
    assert (Y : In y (aug_at e key)).
    { apply RestLookup.back_in. exact E2. }
    assert (D : a_index default_aug + 6 <= e_size e) by (cbn; lia).
    pose proof (find_interval_in (aug_at e key) t (OK 0%R, default_aug, default_aug)) as FI.
    destruct (Rltb t (a_time x)); [|destruct (Rltb t (a_time y))].
    + cbn [bind] in H. injection H as <- _. cbn. apply (window_index e key); assumption.
    + destruct (find_interval _ _ _) as [[al s0] s1]. cbn [fst snd] in FI. destruct al; cbn [bind] in H; [|discriminate]. injection H as <- _. cbn.
      destruct FI as [->|FI]; [exact D|apply (window_index e key); assumption].
    + destruct (rdiv _ _); cbn [bind] in H; [|discriminate]. injection H as <- _. cbn. apply (window_index e key); assumption.
Qed.

(** *** One observation, one track *)
Lemma proj_ok : forall q, (vz q <> 0)%R -> (exists x y, Project q = OK (x, y)) /\ exists m, ProjectionJacobian q = OK m.
Proof.
  intros q H. assert ((vz q * vz q <> 0)%R) by (apply Rmult_integral_contrapositive; auto).
  unfold Project, ProjectionJacobian. rewrite !rdiv_ok by assumption. cbn [bind]. eauto.
Qed.
Lemma lens_ok : forall k, has_lens k -> (in_pixel_size k <> 0)%R /\ (in_f_x k / in_pixel_size k <> 0)%R /\ (in_f_y k / in_pixel_size k <> 0)%R.
Proof.
  intros k (F1 & F2 & F3). split; [exact F3|]. split; unfold Rdiv; apply Rmult_integral_contrapositive; split; auto; apply Rinv_neq_0_compat; exact F3.
Qed.
Ltac blk := match goal with
  | |- context [set_block ?m ?i ?j ?p ?q ?b] =>
      rewrite (set_block_ok R m i j p q b) by (try reflexivity; try (cbn [nr nc] in *; lia)); cbn [bind nr nc]
  | |- context [block ?m ?i ?j ?p ?q] =>
      rewrite (block_ok R m i j p q) by (cbn; lia); cbn [bind nr nc]
  end.
Lemma jac_runs : forall u k pc ac n ci pf ai i mx my Hf Hc, vz (in_picture pc ac ai pf) <> 0%R -> 2 * i + 2 <= nr Hf -> nc Hf = 3 ->
  2 * i + 2 <= nr Hc -> nc Hc = n -> a_index ai + 6 <= n -> 18 <= n -> (mu_ext u = true -> ci + 6 <= n) ->
  exists Hf' Hc', jac_part u k pc ac n ci pf ai i mx my Hf Hc = OK (Hf', Hc') /\ nr Hf' = nr Hf /\ nc Hf' = nc Hf /\ nr Hc' = nr Hc /\ nc Hc' = nc Hc.
Proof.
  intros u k pc ac n ci pf ai i mx my Hf Hc Z F1 F2 C1 C2 AI N18 CI. unfold jac_part. cbv zeta. fold (in_picture pc ac ai pf).
  destruct (proj_ok _ Z) as [_ [P ->]]. cbn [bind]. blk.
  assert (E1 : forall H1, nr H1 = nr Hc -> nc H1 = nc Hc -> forall P Q, exists H2, (if mu_ext u then
      let* H_c := set_block H1 (2 * i) (ci + 0) 2 3 (neg2 (dp (DistortionJacobian mx my k) P (m3tr (qmat ac)))) in
      set_block H_c (2 * i) (ci + 3) 2 3 (dp (DistortionJacobian mx my k) P (m3mul (m3mul (m3tr (qmat ac)) Q) (m3tr (QuaternionJacobian ac))))
    else OK H1) = OK H2 /\ nr H2 = nr Hc /\ nc H2 = nc Hc).
  { intros H1 X1 X2 P0 Q. destruct (mu_ext u); [|eauto]. specialize (CI eq_refl). blk. blk. eexists. split; [reflexivity|]. cbn. auto. }
  match goal with |- context [if mu_ext u then let* _ := set_block _ _ _ _ _ (neg2 (dp _ ?P _)) in set_block _ _ _ _ _ (dp _ _ (m3mul (m3mul _ ?Q) _)) else _] =>
    destruct (E1 Hc eq_refl eq_refl P Q) as (H2 & E2 & X1 & X2) end.
  rewrite E2. cbn [bind]. clear E1 E2. unfold g_aug_state_size. destruct (Reqb (a_alpha ai) 0); cbn [negb].
  - blk. do 2 eexists. split; [reflexivity|]. cbn. auto.
  - blk. destruct (Nat.ltb_spec n (a_index ai + 2 * 6)).
    + rewrite !block_ok by (cbn; lia). cbn [bind]. blk. blk. do 2 eexists. split; [reflexivity|]. cbn. auto.
    + blk. do 2 eexists. split; [reflexivity|]. cbn. auto.
Qed.
Lemma row_runs : forall u k pc ac n ci pf e1 e i f rf Hf Hc a x, reachable e1 -> same_estimates e1 e -> n = e_size e1 -> has_lens k ->
  (mu_ext u = true -> ci + 6 <= n) -> GetAugState e1 (mu_id u) (fp_frame f) (fp_time f) = OK (a, x) -> vz (in_picture pc ac a pf) <> 0%R ->
  2 * i + 2 <= nr rf -> nc rf = 1 -> 2 * i + 2 <= nr Hf -> nc Hf = 3 -> 2 * i + 2 <= nr Hc -> nc Hc = n ->
  exists rf' Hf' Hc' e', feature_row u k pc ac n ci pf e i f rf Hf Hc = OK (rf', Hf', Hc', e') /\ same_estimates e1 e' /\
    nr rf' = nr rf /\ nc rf' = nc rf /\ nr Hf' = nr Hf /\ nc Hf' = nc Hf /\ nr Hc' = nr Hc /\ nc Hc' = nc Hc.
Proof.
  intros u k pc ac n ci pf e1 e i f rf Hf Hc a x Hr S NE L CI G Z R1 R2 F1 F2 C1 C2. rewrite feature_row_form.
  pose proof (get_aug_same e1 e (mu_id u) (fp_frame f) (fp_time f) S) as GS. rewrite G in GS.
  destruct (GetAugState e _ _ _) as [[b y]|]; cbn in GS; [|contradiction]. destruct GS as [<- [_ S2]]. cbn [bind].
  destruct (proj_ok _ Z) as [(px & py & ->) _]. cbn [bind]. destruct (lens_ok k L) as (L1 & L2 & L3). rewrite undo_pixel_ok by assumption. cbn [bind].
  blk. pose proof (lookup_index _ _ _ _ _ _ Hr G). pose proof (size_18 e1 Hr).
  edestruct (jac_runs u k pc ac n ci pf a i) as (Hf' & Hc' & -> & D); [exact Z|exact F1|exact F2|exact C1|exact C2|lia|lia|exact CI|].
  cbn [bind]. do 4 eexists. split; [reflexivity|]. split; [exact S2|]. split; [reflexivity|]. split; [reflexivity|]. exact D.
Qed.
Lemma rows_run : forall l u k pc ac n ci pf e1 e i rf Hf Hc, reachable e1 -> same_estimates e1 e -> n = e_size e1 -> has_lens k ->
  (mu_ext u = true -> ci + 6 <= n) ->
  Forall (fun f => exists a e', GetAugState e1 (mu_id u) (fp_frame f) (fp_time f) = OK (a, e') /\ vz (in_picture pc ac a pf) <> 0%R) l ->
  2 * (i + length l) <= nr rf -> nc rf = 1 -> 2 * (i + length l) <= nr Hf -> nc Hf = 3 -> 2 * (i + length l) <= nr Hc -> nc Hc = n ->
  exists rf' Hf' Hc' e', feature_rows u k pc ac n ci pf e i l rf Hf Hc = OK (rf', Hf', Hc', e') /\ same_estimates e1 e' /\
    nr rf' = nr rf /\ nc rf' = nc rf /\ nr Hf' = nr Hf /\ nc Hf' = nc Hf /\ nr Hc' = nr Hc /\ nc Hc' = nc Hc.
Proof.
  induction l as [|f l IH]; intros u k pc ac n ci pf e1 e i rf Hf Hc Hr S NE L CI V R1 R2 F1 F2 C1 C2.
  - cbn. do 4 eexists. split; [reflexivity|]. auto 10.
  - inversion V as [|? ? (a & x & G & Z) V']; subst. cbn [length] in *.
    destruct (row_runs u k pc ac (e_size e1) ci pf e1 e i f rf Hf Hc a x Hr S eq_refl L CI G Z) as (rf1 & Hf1 & Hc1 & e2 & E & S2 & D1 & D2 & D3 & D4 & D5 & D6); try assumption; try lia.
    cbn [feature_rows]. rewrite E. cbn [bind].
    destruct (IH u k pc ac (e_size e1) ci pf e1 e2 (Datatypes.S i) rf1 Hf1 Hc1 Hr S2 eq_refl L CI V') as (rf' & Hf' & Hc' & e' & E' & S' & D); try lia.
    exists rf', Hf', Hc', e'. split; [exact E'|]. split; [exact S'|]. intuition congruence.
Qed.

Section S.
Variable solve : mat R -> V3 -> V3.
Lemma tri_rows_run : forall l u k pc ac pf a0 e1 e A b, same_estimates e1 e -> has_lens k ->
  Forall (fun f => exists a e', GetAugState e1 (mu_id u) (fp_frame f) (fp_time f) = OK (a, e') /\ vz (in_picture pc ac a pf) <> 0%R) l ->
  exists A' b' e', tri_rows u k pc ac a0 e l A b = OK (A', b', e') /\ same_estimates e1 e'.
Proof.
  induction l as [|f l IH]; intros u k pc ac pf a0 e1 e A b S L V; [cbn; eauto 6|].
  inversion V as [|? ? (a & x & G & _) V']; subst. cbn [tri_rows].
  pose proof (get_aug_same e1 e (mu_id u) (fp_frame f) (fp_time f) S) as GS. rewrite G in GS.
  destruct (GetAugState e _ _ _) as [[b0 y]|]; cbn in GS; [|contradiction]. destruct GS as [<- [_ S2]]. cbn [bind]. cbv zeta.
  destruct (lens_ok k L) as (L1 & L2 & L3). rewrite undo_pixel_ok by assumption. cbn [bind].
  set (X := ((_ - _) / _)%R). set (Y := ((_ - _) / _)%R). clearbody X Y.
  assert (N : vnorm (mkV3 X Y 1) <> 0%R).
  { unfold vnorm. apply Rgt_not_eq. apply sqrt_lt_R0. unfold vnorm2, vdot. cbn [vx vy vz]. pose proof (Rle_0_sqr X). pose proof (Rle_0_sqr Y). unfold Rsqr in *. lra. }
  rewrite rdiv_ok by exact N. cbn [bind]. apply (IH u k pc ac pf a0 e1 y); assumption.
Qed.
Lemma tri_runs : forall u k pc ac e1 e t, mu_use_true u = true -> same_estimates e1 e -> has_lens k -> clear_view e1 (mu_id u) pc ac t ->
  exists p e', ft_true t = Some p /\ TriangulateFeature solve u k pc ac e t = OK (Some p, e') /\ same_estimates e1 e' /\
    Forall (fun f => exists a e', GetAugState e1 (mu_id u) (fp_frame f) (fp_time f) = OK (a, e') /\ vz (in_picture pc ac a p) <> 0%R) (ft_track t).
Proof.
  intros u k pc ac e1 e t U S L (N & p & T & V). unfold TriangulateFeature. rewrite U, T.
  destruct (ft_track t) as [|f l] eqn:FT; [cbn in N; lia|]. cbn [vnth nth_error bind].
  pose proof V as V'. inversion V as [|? ? (a & x & G & _) V2]; subst.
  pose proof (get_aug_same e1 e (mu_id u) (fp_frame f) (fp_time f) S) as GS. rewrite G in GS.
  destruct (GetAugState e _ _ _) as [[b0 y]|] eqn:EG; cbn in GS; [|contradiction]. destruct GS as [<- [_ S2]].
  cbn [bind].
  destruct (tri_rows_run (f :: l) u k pc ac p a e1 y (mzero 3 3) v0 S2 L V') as (A & b & e' & -> & S3). cbn [bind]. exists p, e'. auto.
Qed.

Lemma track_rows_run : forall T u k pc ac n ci e1 e ct Hx rx, reachable e1 -> same_estimates e1 e -> n = e_size e1 -> has_lens k ->
  mu_use_true u = true -> (mu_ext u = true -> ci + 6 <= n) -> Forall (clear_view e1 (mu_id u) pc ac) T ->
  ct + pixels T <= nr Hx -> nc Hx = n -> nr rx = nr Hx -> nc rx = 1 ->
  exists Hx' rx' ct' e', track_rows solve u k pc ac n ci e T ct Hx rx = OK (Hx', rx', ct', e') /\ same_estimates e1 e' /\
    nr Hx' = nr Hx /\ nc Hx' = nc Hx /\ nr rx' = nr rx /\ nc rx' = nc rx /\ (T <> [] -> ct < ct').
Proof.
  induction T as [|t T IH]; intros u k pc ac n ci e1 e ct Hx rx Hr S NE L U CI V B1 B2 B3 B4.
  - cbn. do 4 eexists. split; [reflexivity|]. split; [exact S|]. repeat (split; [reflexivity|]). congruence.
  - inversion V as [|? ? V1 V2]; subst. destruct (tri_runs u k pc ac e1 e t U S L V1) as (p & e2 & TP & E & S2 & VV).
    cbn [track_rows]. rewrite E. cbn [bind]. destruct V1 as (N2 & _). set (m := length (ft_track t)) in *.
    change (pixels (t :: T)) with (2 * (m + list_sum (map (fun t => length (ft_track t)) T))) in B1. fold m.
    destruct (rows_run (ft_track t) u k pc ac (e_size e1) ci p e1 e2 0 (mzero (2 * m) 1) (mzero (2 * m) 3) (mzero (2 * m) (e_size e1)) Hr S2 eq_refl L CI VV)
      as (rf & Hf & Hc & e3 & E3 & S3 & D1 & D2 & D3 & D4 & D5 & D6); try reflexivity; mz; fold m; try lia.
    unfold m in E3 at 1 2 3. fold m in E3. rewrite E3. cbn [bind]. mz.
    destruct (nullspace_map Hf ltac:(lia)) as [Q [_ Q2]]. destruct (Q2 Hc rf ltac:(lia) ltac:(lia)) as (A & b & EN & Z1 & Z2 & Z3 & Z4 & _).
    rewrite EN. cbn [bind]. unfold pixels in IH. blk. blk.
    match goal with |- context [track_rows _ _ _ _ _ _ _ _ T ?c ?h ?r] => edestruct (IH u k pc ac (e_size e1) ci e1 e3 c h r) as (Hx' & rx' & ct' & e' & E' & S' & W1 & W2 & W3 & W4 & W5) end;
      [exact Hr|exact S3|reflexivity|exact L|exact U|exact CI|exact V2|cbn [nr]; lia|cbn [nc]; lia|cbn [nr]; lia|cbn [nc]; lia|].
    do 4 eexists. split; [exact E'|]. split; [exact S'|]. cbn [nr nc] in *. split; [exact W1|]. split; [exact W2|]. split; [exact W3|]. split; [exact W4|].
    intros _. destruct T as [|t2 T]; [cbn in E'; injection E' as _ _ <- _; lia|]. assert (ct + nr A < ct') by (apply W5; discriminate). lia.
Qed.

Lemma tracks_run : forall u e t e1 c T px, reachable e -> p_fej (e_par e) = false \/ mu_first u = true -> mu_use_true u = true ->
  only_predicted e t e1 -> mfind (mu_id u) (s_cam (e_state e1)) = Some c -> c_ext c = mu_ext u -> has_lens (c_intr c) ->
  Forall (clear_view e1 (mu_id u) (c_pos c) (c_ang c)) T ->
  exists u' e', msckf_UpdateEKF solve u e t T px = OK (u', e') /\ (T <> [] -> mu_poses u' = Some (c_intr c, c_pos c, c_ang c)).
Proof.
  intros u e t e1 c T px Hr FJ U P HC CE L V. unfold msckf_UpdateEKF. destruct (CalculateLocalTime e t) as [lt e0] eqn:E0.
  destruct (predicted_split e t lt e0 E0) as [_ PS].
  destruct (local_went e t Hr) as [W0 _]. rewrite E0 in W0. cbn [snd] in W0.
  destruct (predict_went e0 lt (w_reach _ _ W0)) as [e2 [E1 [W1 [_ [_ [_ FR]]]]]]. assert (e2 = e1) by (apply PS in P; congruence). subst e2.
  rewrite E1. cbn [bind]. destruct T as [|tr T]; [do 2 eexists; split; [reflexivity|congruence]|].
  assert (W : went e e1) by (eapply went_trans; eauto). pose proof (w_reach _ _ W) as Hr1.
  assert (FJ1 : negb (p_fej (e_par e1)) || mu_first u = true).
  { replace (p_fej (e_par e1)) with (p_fej (e_par e)); [destruct FJ as [-> | ->]; [reflexivity|apply orb_true_r]|].
    destruct (local_kept _ _ _ _ E0) as [_ [_ [_ K]]]. unfold Scalars.frame' in FR. cbn in FR. decompose [and] FR. congruence. }
  rewrite FJ1. rewrite (get_cam_same _ _ _ HC). cbn [mu_poses mu_id]. rewrite (get_cam_same _ _ _ HC). cbv zeta.
  set (u1 := mkMU _ _ _ _ _ _ _). rewrite meas_pixels.
  assert (CI : mu_ext u1 = true -> c_index c + 6 <= e_size e1).
  { intros X. destruct (partition_ok e1 Hr1) as [(_ & _ & _ & PC & _) [_ LL]]. pose proof (PC _ _ (mfind_in _ _ _ _ HC) ltac:(cbn in X; congruence) 5 ltac:(lia)) as Q.
    assert (c_index c + 5 < length (layout (e_state e1))) by (apply nth_error_Some; congruence). lia. }
  destruct (track_rows_run (tr :: T) u1 (c_intr c) (c_pos c) (c_ang c) (e_size e1) (c_index c) e1 e1 0 (mzero (pixels (tr :: T)) (e_size e1)) (mzero (pixels (tr :: T)) 1)
    Hr1 (same_refl e1) eq_refl L U CI V) as (Hx & rx & ct & e3 & E3 & S3 & D1 & D2 & D3 & D4 & D5); mz; try lia; try reflexivity.
  rewrite E3. cbn [bind]. destruct (Nat.eqb ct 0); [do 2 eexists; split; [reflexivity|reflexivity]|].
  destruct (compress_map Hx) as (Q & J' & C1 & C2 & _ & C4). destruct (C4 rx ltac:(lia) ltac:(lia)) as (r' & EC & R1 & R2 & _). rewrite EC. cbn [bind].
  destruct (Nat.leb _ 1); [do 2 eexists; split; [reflexivity|reflexivity]|].
  assert (LK : reachable e3 /\ e_size e3 = e_size e1).
  { destruct (track_rows_looked _ _ _ _ _ _ _ _ _ _ _ _ _ _ _ _ Hr1 E3) as [LK _]. split; [exact (looked_reach _ _ LK)|]. destruct S3 as [m [-> _]]. reflexivity. }
  destruct (pixel_moved e3 J' r' px (proj1 LK)) as [e4 [d [EK _]]]; [destruct LK; lia|exact R1|exact R2|].
  unfold in_pixels in EK. rewrite EK. cbn [bind]. do 2 eexists. split; reflexivity.
Qed.
End S.
