(** One feature seen twice makes the filter surer of where the body is. *)
From Coq Require Import Reals List Arith Bool Lia Lra.
From Verif Require Import Base.Res Base.Mat Base.RDec Base.RSum Base.LinAlg Base.Inverse Base.Geom Base.AMap Base.RMat
  Model.TypeHelper Model.Types Model.MathHelperMat Model.QR Model.MathHelper Model.Matrix3 Model.Ekf Model.Updater Model.Ops Model.MsckfUpdater
  Spec.Layout Spec.History Spec.Contract Spec.Correct Spec.Named Spec.Same Spec.Callback Spec.KF Spec.Unused Spec.Towards Spec.Deriv Spec.Triangulation Spec.CamTrack Spec.ByName Spec.Unsure
  Proofs.Invariant Proofs.Demo Proofs.Named Proofs.Sizes Proofs.Kalman Proofs.Update Proofs.Nullspace Proofs.Compress Proofs.BlockDiag Proofs.Follows Proofs.ImuCallback Proofs.TowardsImu Proofs.Unused Proofs.MsckfCallback Proofs.CamTrack Proofs.CamTrackFinal Proofs.CamTrackRun Proofs.CamTrackDemo
  Proofs.UnsureTrack Proofs.UnsureQr.
Import ListNotations.
Open Scope R_scope.

(** *** A measurement correlated with a quantity makes it surer *)
Lemma gain_less : forall n m P H Rn K i r, psd n P -> spd m Rn -> is_gain n m P H Rn K -> (i < n)%nat -> (r < m)%nat ->
  rsum n (fun j => P i j * H r j) <> 0 -> joseph n m P H Rn K i i < P i i.
Proof.
  intros n m P H Rn K i r HP HR HK Hi Hr NZ. pose proof (innov_spd n m P H Rn HP HR) as [SS SP].
  rewrite (joseph_gain n m P H Rn K (proj1 HP) HK i i Hi Hi). unfold msub.
  set (S := innov n P H Rn) in *.
  assert (G : forall s, (s < m)%nat -> mv m S (K i) s = rsum n (fun j => P i j * H s j)).
  { intros s Hs. transitivity (mm m K S i s).
    - unfold mv, mm. apply rsum_ext. intros j Hj. rewrite (SS s j) by assumption. ring.
    - exact (HK i s Hi Hs). }
  assert (N : nonzero m (K i)).
  { destruct (Req_dec 0 (rsum m (fun s => K i s * K i s))) as [Z|Z].
    - exfalso. apply NZ. rewrite <- (G r Hr). unfold mv. apply rsum_0. intros j Hj.
      assert (K i j = 0); [|nra].
      destruct (Req_dec (K i j) 0) as [|N]; [assumption|]. exfalso.
      assert (0 < K i j * K i j) by (pose proof (Rle_0_sqr (K i j)) as Q; unfold Rsqr in Q; assert (K i j * K i j <> 0) by (apply Rmult_integral_contrapositive; auto); lra).
      assert (rsum m (fun s => if Nat.eqb s j then K i j * K i j else 0) <= rsum m (fun s => K i s * K i s)).
      { apply rsum_le. intros s Hs. destruct (Nat.eqb_spec s j) as [->|]; [lra|apply Rle_0_sqr]. }
      rewrite (rsum_single m j) in H1; [|exact Hj|intros k _ NK; rewrite (proj2 (Nat.eqb_neq k j)) by exact NK; reflexivity].
      rewrite Nat.eqb_refl in H1. lra.
    - destruct (Classical_Prop.classic (nonzero m (K i))) as [|NN]; [assumption|]. exfalso. apply Z. symmetry. apply rsum_0. intros j Hj.
      destruct (Req_dec (K i j) 0) as [E|E]; [rewrite E; ring|]. exfalso. apply NN. exists j. auto. }
  specialize (SP (K i) N).
  assert (E : mm n (mm m K H) P i i = qf m S (K i)).
  { unfold qf, dot. rewrite (rsum_ext m _ (fun s => K i s * rsum n (fun j => P i j * H s j))) by (intros s Hs; rewrite G by exact Hs; reflexivity).
    unfold mm. rewrite (rsum_ext n _ (fun j => rsum m (fun s => K i s * (P i j * H s j)))).
    - rewrite rsum_swap. apply rsum_ext. intros s Hs. rewrite rsum_scal_l. reflexivity.
    - intros j Hj. rewrite <- rsum_scal_r. apply rsum_ext. intros s Hs. rewrite (proj1 HP j i) by assumption. ring. }
  rewrite E. lra.
Qed.

(** *** The derivative of the projection *)
Lemma set_in : forall (m : mat R) i j p q b m' r c, set_block m i j p q b = OK m' -> (r < p)%nat -> (c < q)%nat -> ent m' (i + r)%nat (j + c)%nat = ent b r c.
Proof.
  intros m i j p q b m' r c E Hr Hc. unfold set_block in E. destruct (_ && _)%bool; [|discriminate].
  apply (f_equal (fun x => match x with OK y => ent y (i + r)%nat (j + c)%nat | UB => 0 end)) in E. cbn [ent] in E. rewrite <- E.
  rewrite (proj2 (in_range_spec _ _ _)) by lia. rewrite (proj2 (in_range_spec _ _ _)) by lia. cbn [andb].
  replace (i + r - i)%nat with r by lia. replace (j + c - j)%nat with c by lia. reflexivity.
Qed.
Lemma jac_feature : forall u k n ci pf ai i mx my Hf Hc Hf' Hc', jac_part u k v0 qid n ci pf ai i mx my Hf Hc = OK (Hf', Hc') ->
  nc Hf = 3%nat -> no_distortion k -> a_ang ai = qid -> let d := vsub pf (a_pos ai) in vz d <> 0 ->
  ent Hf' (2 * i)%nat 0%nat = 1 / vz d /\ ent Hf' (2 * i)%nat 1%nat = 0 /\ ent Hf' (2 * i)%nat 2%nat = - vx d / (vz d * vz d) /\
  ent Hf' (2 * i + 1)%nat 0%nat = 0 /\ ent Hf' (2 * i + 1)%nat 1%nat = 1 / vz d /\ ent Hf' (2 * i + 1)%nat 2%nat = - vy d / (vz d * vz d).
Proof.
  intros u k n ci pf ai i mx my Hf Hc Hf' Hc' E NF ND Q d Z. unfold jac_part in E. cbv zeta in E. rewrite Q in E. fold d in E.
  assert (I3 : forall x, mat_vec (m3tr (qmat qid)) (vsub (mat_vec (m3tr (qmat qid)) x) v0) = x).
  { intros [x y z]. unfold mat_vec, vsub. cbn. f_equal; ring. }
  rewrite I3 in E. unfold ProjectionJacobian in E. assert (ZZ : vz d * vz d <> 0) by (apply Rmult_integral_contrapositive; auto).
  rewrite !rdiv_ok in E by assumption. cbn [bind] in E.
  destruct (set_block Hf _ _ _ _ _) as [f1|] eqn:F1; cbn [bind] in E; [|discriminate].
  match type of E with bind ?x _ = _ => destruct x as [c1|] eqn:C1; cbn [bind] in E; [|discriminate] end.
  match type of E with bind ?x _ = _ => destruct x as [c2|] eqn:C2; cbn [bind] in E; [|discriminate] end. injection E as <- _. clear C1 C2 c1 c2.
  assert (SI : forall r c, (r < 2)%nat -> (c < 3)%nat -> ent f1 (2 * i + r)%nat c = _) by (intros r c Hr0 Hc0; exact (set_in _ _ _ _ _ _ _ r c F1 Hr0 Hc0)).
  replace (ent f1 (2 * i)%nat) with (ent f1 (2 * i + 0)%nat) by (f_equal; lia). rewrite !SI by lia.
  clear F1.
  destruct ND as (K1 & K2 & P1 & P2).
  unfold dp. cbn [ent]. unfold mm. cbn [rsum]. unfold DistortionJacobian. cbn [ent].
  rewrite K1, K2, P1, P2. cbn. set (iz := 1 / vz d). set (jx := - vx d / (vz d * vz d)). set (jy := - vy d / (vz d * vz d)).
  repeat split; ring.
Qed.
Lemma calm_cov : forall e t e1, e_gravity e = false -> p_aug (e_par e) = AAll -> only_predicted e t e1 -> e_cov e1 = e_cov e.
Proof.
  intros e t e1 G A P. destruct (CalculateLocalTime e t) as [lt e0] eqn:E0. destruct (predicted_split e t lt e0 E0) as [_ PS]. apply PS in P.
  assert (K : e_cov e0 = e_cov e /\ e_par e0 = e_par e /\ e_gravity e0 = e_gravity e).
  { unfold CalculateLocalTime in E0. destruct (e_time_init e); injection E0 as <- <-; auto. }
  destruct K as (K1 & K2 & K4). unfold PredictModel in P. destruct (Rltb _ _); [injection P as <-; auto|].
  rewrite K4, G in P. cbn [bind] in P. unfold AugmentStateIfNeeded in P. cbn [with_time e_par] in P. rewrite K2, A in P. injection P as <-. cbn. auto.
Qed.
Lemma kalman_less : forall e H y px e' r, reachable e -> nc H = e_size e -> nr y = nr H -> nc y = 1%nat -> (r < nr H)%nat ->
  KalmanUpdate e H y (in_pixels px (nr y)) = OK e' -> rsum (e_size e) (fun j => covariance e 0%nat j * ent H r j) <> 0 -> covariance e' 0%nat 0%nat < covariance e 0%nat 0%nat.
Proof.
  intros e H y px e' r Hr H1 H2 H3 R0 E NZ. pose proof (reachable_inv e Hr) as I. pose proof (size_18 e Hr) as S18.
  assert (PX : (0 < Rmax px (1 / 2))%R) by (pose proof (Rmax_r px (1 / 2)); lra).
  assert (HM : meas_arg (p_root (e_par e)) (e_size e) H y (in_pixels px (nr y))).
  { apply (noise_meas _ (nr y)); [|congruence|exact H1|reflexivity|exact H3].
    apply (diag_noise_ok _ _ _ (fun _ => (Rmax px (1 / 2) * Rmax px (1 / 2))%R)); [reflexivity|reflexivity|intros; nra|].
    intros a b Ha Hb. cbn. unfold mscal, idm, diagm. destruct (Nat.eqb a b); ring. }
  assert (C : contract e (OKalman H y (in_pixels px (nr y)))) by (cbn [contract]; rewrite (dim_size e (proj1 I)); exact HM).
  destruct (kalman_full e H y _ I C) as [e2 [K [E2 [_ [_ [P1 [P2 [G1 [J1 _]]]]]]]]].
  assert (e2 = e') by congruence. subst e2. rewrite (dim_size e (proj1 I)) in *. rewrite (J1 0%nat 0%nat) by lia.
  apply (gain_less (e_size e) (nr H) _ _ _ _ 0 r P1 P2 G1); [lia|exact R0|exact NZ].
Qed.

Definition seen_at (e : ekf) (id f : nat) (z : R) : Prop :=
  forall t, exists a x, GetAugState e id f t = OK (a, x) /\ a_ang a = qid /\ a_pos a = mkV3 0 0 z.
Definition seen_point : V3 := mkV3 0 1 (1 / 3).
Definition seen_track : FeatureTrack := mkFT [mkFP 7 0 (mkKP 320 240 1); mkFP 8 0 (mkKP 320 240 1)] (Some seen_point).
Lemma two_jac : forall u k n ci e1 e rf Hf Hc e', same_estimates e1 e -> no_distortion k -> seen_at e1 (mu_id u) 7 0 -> seen_at e1 (mu_id u) 8 (1 / 12) ->
  feature_rows u k v0 qid n ci seen_point e 0 (ft_track seen_track) (mzero 4 1) (mzero 4 3) (mzero 4 n) = OK (rf, Hf, Hc, e') -> seen_jac (ent Hf).
Proof.
  intros u k n ci e1 e rf Hf Hc e' S ND V7 V8 E. cbn [ft_track seen_track feature_rows] in E. rewrite feature_row_form in E.
  destruct (V7 0) as (a & x & GA & A1 & A2). destruct (V8 0) as (b & y & GB & B1 & B2).
  cbn [fp_frame fp_time fp_kp] in E.
  destruct (GetAugState e (mu_id u) 7 0) as [[ai e2]|] eqn:EA; cbn [bind] in E; [|discriminate].
  destruct (aug_again _ _ _ _ _ _ _ S EA) as [S2 [x' EA1]]. assert (ai = a) by congruence. subst ai.
  destruct (Project _) as [[px py]|] eqn:EP; cbn [bind] in E; [|discriminate].
  destruct (undo_pixel k _) as [[mx my]|] eqn:EU; cbn [bind] in E; [|discriminate].
  destruct (set_block (mzero 4 1) _ _ _ _ _) as [r1|] eqn:ER; cbn [bind] in E; [|discriminate].
  destruct (jac_part _ _ _ _ _ _ _ _ _ _ _ _ _) as [[f1 c1]|] eqn:EJ; cbn [bind] in E; [|discriminate].
  rewrite feature_row_form in E. cbn [fp_frame fp_time fp_kp] in E.
  destruct (GetAugState e2 (mu_id u) 8 0) as [[bi e3]|] eqn:EB; cbn [bind] in E; [|discriminate].
  destruct (aug_again _ _ _ _ _ _ _ S2 EB) as [S3 [y' EB1]]. assert (bi = b) by congruence. subst bi.
  destruct (Project (in_picture v0 qid b seen_point)) as [[qx' qy']|] eqn:EQ; cbn [bind] in E; [|discriminate].
  rewrite EU in E. cbn [bind] in E.
  destruct (set_block r1 _ _ _ _ _) as [r2|] eqn:ER2; cbn [bind] in E; [|discriminate].
  destruct (jac_part _ _ _ _ _ _ _ _ 1 _ _ _ _) as [[f2 c2]|] eqn:EK; cbn [bind] in E; [|discriminate]. injection E as _ <- _ _.
  assert (N1 : nc f1 = 3%nat).
  { clear - EJ. unfold jac_part in EJ. cbv zeta in EJ. destruct (ProjectionJacobian _); cbn [bind] in EJ; [|discriminate].
    destruct (set_block (mzero 4 3) _ _ _ _ _) as [f|] eqn:F1; cbn [bind] in EJ; [|discriminate].
    match type of EJ with bind ?x _ = _ => destruct x; cbn [bind] in EJ; [|discriminate] end.
    match type of EJ with bind ?x _ = _ => destruct x; cbn [bind] in EJ; [|discriminate] end. injection EJ as <- _.
    apply set_block_shape in F1. destruct F1 as [_ F1]. rewrite F1. reflexivity. }
  assert (KEEP : forall r c, (r < 2)%nat -> ent f2 r c = ent f1 r c).
  { clear - EK N1. intros r c Hr. unfold jac_part in EK. cbv zeta in EK. destruct (ProjectionJacobian _); cbn [bind] in EK; [|discriminate].
    destruct (set_block f1 _ _ _ _ _) as [f|] eqn:F1; cbn [bind] in EK; [|discriminate].
    match type of EK with bind ?x _ = _ => destruct x; cbn [bind] in EK; [|discriminate] end.
    match type of EK with bind ?x _ = _ => destruct x; cbn [bind] in EK; [|discriminate] end. injection EK as <- _.
    apply (set_other _ _ _ _ _ _ _ r c F1). destruct (in_range r (2 * 1) 2) eqn:X; [apply in_range_spec in X; lia|reflexivity]. }
  pose proof (jac_feature _ _ _ _ _ _ _ _ _ _ _ _ _ EJ eq_refl ND A1) as JA. pose proof (jac_feature _ _ _ _ _ _ _ _ _ _ _ _ _ EK N1 ND B1) as JB.
  rewrite A2 in JA. rewrite B2 in JB. cbv zeta in JA, JB. cbn [seen_point vsub vx vy vz Nat.mul Nat.add] in JA, JB.
  destruct JA as (J1 & J2 & J3 & J4 & J5 & J6); [lra|]. destruct JB as (K1 & K2 & K3 & K4 & K5 & K6); [lra|].
  unfold seen_jac. rewrite !KEEP by lia. rewrite J1, J2, J3, J4, J5, J6, K1, K2, K3, K4, K5, K6. repeat split; field.
Qed.

Lemma null_row : forall Hf Hc rf Hc' rf', nr Hf = 4%nat -> nc Hf = 3%nat -> ApplyLeftNullspace Hf Hc rf = OK (Hc', rf') ->
  nr Hc' = 1%nat /\ nc Hc' = nc Hc /\ nr rf' = 1%nat /\ nc rf' = nc rf /\
  forall j, ent Hc' 0%nat j = rsum 4 (fun i => tr (hqt 4 3 (ent Hf)) 3%nat i * ent Hc i j).
Proof.
  intros Hf Hc rf Hc' rf' R4 C3 E. unfold ApplyLeftNullspace in E. cbv zeta in E. rewrite R4, C3 in E. change (usub 4 3) with (OK 1%nat) in E. cbn [bind] in E.
  rewrite block_ok in E by (cbn [nr nc]; lia). cbn [bind] in E. unfold mulc in E. cbn [nc nr] in E.
  destruct (Nat.eqb 4 (nr Hc)) eqn:N1; cbn [bind] in E; [|discriminate]. destruct (Nat.eqb 4 (nr rf)) eqn:N2; cbn [bind] in E; [|discriminate].
  injection E as <- <-. cbn [nr nc]. repeat (split; [reflexivity|]). intros j. reflexivity.
Qed.

Section S.
Variable solve : mat R -> V3 -> V3.
Lemma seen_less : forall u e t e1 c px u' e' w, reachable e -> p_fej (e_par e) = false -> p_aug (e_par e) = AAll -> e_gravity e = false -> mu_use_true u = true ->
  only_predicted e t e1 -> mfind (mu_id u) (s_cam (e_state e)) = Some c -> c_ext c = mu_ext u -> has_lens (c_intr c) -> no_distortion (c_intr c) ->
  c_pos c = v0 -> c_ang c = qid -> (forall a, In a (aug_at e (mu_id u)) -> a_alpha a = 0) -> seen_at e1 (mu_id u) 7 0 -> seen_at e1 (mu_id u) 8 (1 / 12) ->
  moved_along e (fun k => if Nat.eqb k 0 then 1 else 0) w -> (forall j, (j < e_size e)%nat -> covariance e 0%nat j = 1 / 100 * w j) ->
  msckf_UpdateEKF solve u e t [seen_track] px = OK (u', e') -> covariance e' 0%nat 0%nat < covariance e 0%nat 0%nat.
Proof.
  intros u e t e1 c px u' e' w Hr FJ A G U P HC CE L ND CP CA AL V7 V8 M CW E.
  destruct (calm_state _ _ _ G A P) as (ST & PA & SZ). pose proof (calm_cov _ _ _ G A P) as CV.
  assert (COV : covariance e1 = covariance e) by (unfold covariance; rewrite PA, SZ, CV; reflexivity).
  assert (M1 : moved_along e1 (fun k => if Nat.eqb k 0 then 1 else 0) w) by (unfold moved_along, aug_at in *; rewrite ST, SZ; exact M).
  unfold msckf_UpdateEKF in E. destruct (CalculateLocalTime e t) as [lt e0] eqn:E0.
  destruct (predicted_split e t lt e0 E0) as [_ PS].
  destruct (local_went e t Hr) as [W0 _]. rewrite E0 in W0. cbn [snd] in W0.
  destruct (predict_went e0 lt (w_reach _ _ W0)) as [e2 [E1 [W1 _]]]. assert (e2 = e1) by (apply PS in P; congruence). subst e2.
  rewrite E1 in E. cbn [bind] in E.
  assert (W : went e e1) by (eapply went_trans; eauto). pose proof (w_reach _ _ W) as Hr1.
  rewrite PA, FJ in E. cbn [negb orb] in E. rewrite <- ST in HC. rewrite (get_cam_same _ _ _ HC) in E. cbn [mu_poses mu_id] in E. rewrite (get_cam_same _ _ _ HC) in E. cbv zeta in E.
  set (u1 := mkMU _ _ _ _ _ _ _) in *. change (max_meas_size [seen_track]) with 4%nat in E. rewrite CP, CA in E.
  assert (CV1 : clear_view e1 (mu_id u1) v0 qid seen_track).
  { split; [cbn; lia|]. exists seen_point. split; [reflexivity|]. destruct (V7 0) as (a & x & GA & A1 & A2). destruct (V8 0) as (b & y & GB & B1 & B2).
    constructor; [|constructor; [|constructor]].
    - exists a, x. split; [exact GA|]. unfold in_picture. rewrite A1, A2. unfold mat_vec, vsub. cbn. lra.
    - exists b, y. split; [exact GB|]. unfold in_picture. rewrite B1, B2. unfold mat_vec, vsub. cbn. lra. }
  cbn [track_rows] in E.
  destruct (tri_runs solve u1 (c_intr c) v0 qid e1 e1 seen_track U (same_refl e1) L CV1) as (p & e2 & TP & ET & S2 & _).
  injection TP as <-. rewrite ET in E. cbn [bind] in E. change (2 * length (ft_track seen_track))%nat with 4%nat in E.
  assert (CI : mu_ext u1 = true -> (c_index c + 6 <= e_size e1)%nat).
  { intros X. destruct (partition_ok e1 Hr1) as [(_ & _ & _ & PC & _) [_ LL]]. pose proof (PC _ _ (mfind_in _ _ _ _ HC) ltac:(cbn in X; congruence) 5%nat ltac:(lia)) as Q.
    assert (c_index c + 5 < length (layout (e_state e1)))%nat by (apply nth_error_Some; congruence). lia. }
  destruct CV1 as (_ & p & TP & VV). injection TP as <-.
  destruct (rows_run (ft_track seen_track) u1 (c_intr c) v0 qid (e_size e1) (c_index c) seen_point e1 e2 0 (mzero 4 1) (mzero 4 3) (mzero 4 (e_size e1)) Hr1 S2 eq_refl L CI VV)
    as (rf & Hf & Hc & e3 & ER & S3 & D1 & D2 & D3 & D4 & D5 & D6); try reflexivity; try (cbn; lia).
  cbn [nr nc mzero] in D1, D2, D3, D4, D5, D6. rewrite ER in E. cbn [bind] in E.
  assert (SJ : seen_jac (ent Hf)) by (apply (two_jac u1 (c_intr c) (e_size e1) (c_index c) e1 e2 rf Hf Hc e3 S2 ND V7 V8 ER)).
  destruct (seen_q _ SJ) as (Q0 & Q1 & Q2 & Q3).
  destruct (rows_shift (ft_track seen_track) u1 (c_intr c) v0 qid (e_size e1) (c_index c) seen_point e1 e2 0 (mzero 4 1) (mzero 4 3) (mzero 4 (e_size e1)) rf Hf Hc e3
    (fun k => if Nat.eqb k 0 then 1 else 0) w S2 ER) as (RS & _ & _); try reflexivity.
  { intros X j Hj. destruct (partition_ok e1 Hr1) as [(_ & _ & _ & PC & _) _]. apply (still e1 _ w _ (LCam (mu_id u1) j) Hr1 M1); [|exact Logic.I].
    apply (PC _ c (mfind_in _ _ _ _ HC)); [cbn in X; congruence|exact Hj]. }
  { intros f t0 a x GA. apply (lookup_all e1 (mu_id u1) f t0 a x _ w Hr1); [congruence| |exact M1|exact GA]. intros a0 Ha. apply AL. unfold aug_at in *. rewrite ST in Ha. exact Ha. }
  { intros r _ j. cbn. ring. }
  destruct (ApplyLeftNullspace Hf Hc rf) as [[Hn rn]|] eqn:EN; cbn [bind] in E; [|discriminate].
  destruct (null_row _ _ _ _ _ D3 D4 EN) as (Z1 & Z2 & Z3 & Z4 & Z5).
  destruct (set_block (mzero 4 (e_size e1)) _ _ _ _ _) as [Hx|] eqn:EX; cbn [bind] in E; [|discriminate].
  destruct (set_block (mzero 4 1) _ _ _ _ _) as [rx|] eqn:EY; cbn [bind] in E; [|discriminate].
  pose proof (set_block_shape _ _ _ _ _ _ _ _ EX) as [X1 X2]. pose proof (set_block_shape _ _ _ _ _ _ _ _ EY) as [Y1 Y2]. change (nr (mzero 4 (e_size e1))) with 4%nat in *. change (nc (mzero 4 (e_size e1))) with (e_size e1) in *. change (nr (mzero 4 1)) with 4%nat in *. change (nc (mzero 4 1)) with 1%nat in *.
  rewrite Z1 in E. cbn [Nat.add Nat.eqb] in E. pose proof (size_18 e1 Hr1) as S18.
  rewrite compress_fat in E by lia. cbn [bind] in E. rewrite Y1 in E. cbn [Nat.leb] in E.
  destruct (KalmanUpdate e3 Hx rx _) as [e4|] eqn:EK; cbn [bind] in E; [|discriminate]. injection E as _ <-.
  assert (R3 : reachable e3).
  { pose proof (triangulate_looked solve _ _ _ _ _ _ _ _ Hr1 ET) as LK0.
    destruct (feature_rows_looked _ _ _ _ _ _ _ _ _ _ _ _ _ _ _ _ _ (looked_reach _ _ LK0) ER) as [LK _]. exact (looked_reach _ _ LK). }
  assert (R4 : e_size e3 = e_size e1 /\ covariance e3 = covariance e1) by (destruct S3 as [m [-> _]]; split; reflexivity).
  destruct R4 as [R4 R5]. rewrite <- COV, <- R5. fold (in_pixels px 4) in EK.
  apply (kalman_less e3 Hx rx px e4 0); [exact R3|congruence|congruence|exact Y2|lia|rewrite Y1; exact EK|].
  rewrite R4, R5, COV, SZ in *.
  assert (HX : forall j, (j < e_size e)%nat -> ent Hx 0%nat j = ent Hn 0%nat j).
  { intros j Hj. pose proof (set_in _ _ _ _ _ _ _ 0 j EX ltac:(lia) ltac:(lia)) as Q. exact Q. }
  rewrite (rsum_ext _ _ (fun j => 1 / 100 * (rsum 4 (fun i => tr (hqt 4 3 (ent Hf)) 3%nat i * ent Hc i j) * w j))).
  2:{ intros j Hj. rewrite CW, HX, Z5 by assumption. ring. }
  rewrite rsum_scal_l. pose proof (mm_row 4 (e_size e) (tr (hqt 4 3 (ent Hf))) Hc w 3%nat) as MR. unfold mm in MR. rewrite MR. clear MR.
  assert (F0 : forall r, (r < 4)%nat -> rsum (e_size e) (fun j => ent Hc r j * w j) = - ent Hf r 0%nat).
  { intros r Hr0. pose proof (RS r ltac:(cbn; lia)) as Q. unfold along_row in Q. rewrite Q. cbn [rsum Nat.eqb]. ring. }
  cbn [rsum]. rewrite !F0 by lia. rewrite Q0, Q1, Q2, Q3. destruct SJ as ((J1 & _) & (J2 & _) & (J3 & _) & (J4 & _)). rewrite J1, J2, J3, J4.
  lra.
Qed.
End S.
