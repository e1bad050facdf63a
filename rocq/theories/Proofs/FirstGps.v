(** A receiver's updater with first estimates: the lever arm it works with,
    and what that does to exact measurements. *)
From Coq Require Import Reals List Arith Bool Lia Lra ZArith.
From Verif Require Import Base.Res Base.Mat Base.RDec Base.RSum Base.LinAlg Base.Inverse Base.Geom Base.AMap Base.RMat
  Model.TypeHelper Model.Types Model.MathHelperMat Model.MathHelper Model.Matrix3 Model.GpsHelper Model.Ekf Model.Updater Model.Ops
  Model.GpsUpdater Model.ImuUpdater Model.FiducialUpdater
  Spec.Layout Spec.History Spec.Contract Spec.Correct Spec.Named Spec.Same Spec.Callback Spec.KF Spec.Unused Spec.Towards Spec.Deriv Spec.FirstUse
  Proofs.Refresh Proofs.Wf Proofs.Invariant Proofs.Named Proofs.Same Proofs.Update Proofs.Scalars Proofs.Clock Proofs.Effects Proofs.Kalman Proofs.CovGood Proofs.Follows Proofs.BlockDiag
  Proofs.ImuCallback Proofs.GpsCallback Proofs.FidCallback Proofs.Unused Proofs.Sizes Proofs.Finals Proofs.Weigh Proofs.Towards Proofs.Jacobians Proofs.AtRestSteps Proofs.BoardTurn.
Import ListNotations.
Open Scope nat_scope.

(** *** The lever arm *)
Lemma first_refresh : forall u e s, p_fej (e_par e) = true -> gknows u e s ->
  gps_refresh u e = (mkGU (gu_id u) (gu_ext u) false (lever u e), e).
Proof.
  intros u e s F [H _]. unfold gps_refresh, lever. rewrite F. cbn [negb orb]. destruct u as [i x f p]. cbn [gu_first gu_id gu_ext gu_pos] in *.
  destruct f; [|reflexivity]. rewrite (get_gps_same _ _ _ H). unfold mget. rewrite H. reflexivity.
Qed.
Lemma first_jac : forall u e s, p_fej (e_par e) = true -> gknows u e s ->
  gps_GetMeasurementJacobian (mkGU (gu_id u) (gu_ext u) false (lever u e)) e = gps_GetMeasurementJacobian u e.
Proof.
  intros u e s F HK. unfold gps_GetMeasurementJacobian. rewrite (first_refresh u e s F HK).
  rewrite (first_refresh (mkGU (gu_id u) (gu_ext u) false (lever u e)) e s F HK). reflexivity.
Qed.
Lemma first_jac_kept : forall u e s j u', reachable e -> p_fej (e_par e) = true -> gknows u e s ->
  gps_GetMeasurementJacobian u e = OK (j, u', e) -> u' = mkGU (gu_id u) (gu_ext u) false (lever u e).
Proof.
  intros u e s j u' Hr F HK EJ. unfold gps_GetMeasurementJacobian in EJ. rewrite (first_refresh u e s F HK) in EJ.
  destruct (set_block _ 0 0 3 3 m3id); [|discriminate]. cbn [bind] in EJ. destruct (set_block _ 0 9 3 3 _); [|discriminate].
  cbn [bind gu_ext gu_id] in EJ. destruct (gu_ext u).
  - rewrite (get_gps_same _ _ _ (proj1 HK)) in EJ. destruct (set_block _ 0 (g_index s) 3 3 _); [|discriminate]. cbn [bind] in EJ.
    injection EJ as _ <-. reflexivity.
  - injection EJ as _ <-. reflexivity.
Qed.

Section Gps.
Variable svd : m2 -> m2 * m2.
Variable hull : list (Z * Z) -> list (Z * Z).
Variable ecef_to_lla : V3 -> V3.

Lemma gps_first : forall u e t lla N u' e', reachable e -> p_fej (e_par e) = true ->
  has_gps e (gu_id u) (gu_ext u) -> noise_ok (p_root (e_par e)) 3 N -> e_lla_init e = true ->
  gps_UpdateEKF svd hull ecef_to_lla u e t lla N = OK (u', e') ->
  exists e1 q H d, only_predicted e t e1 /\ lla_to_enu lla (e_pos_e_in_g e) = OK q /\
    u' = mkGU (gu_id u) (gu_ext u) false (lever u e1) /\
    gps_GetMeasurementJacobian u e1 = OK (H, u', e1) /\
    moved_by e1 H (v3mat (vsub (enu_to_local q (e_ang_l_to_e e))
      (vadd (b_pos (s_body (e_state e1))) (qrot (b_ang (s_body (e_state e1))) (lever u e1))))) N d e'.
Proof.
  intros u e t lla N u' e' Hr F [s HK] HN LI E. change (gknows u e s) in HK.
  unfold gps_UpdateEKF in E. destruct (CalculateLocalTime e t) as [lt e0] eqn:EL.
  destruct (predicted_split e t lt e0 EL) as [L PS].
  destruct (local_went e t Hr) as [W0 [_ [_ [_ [_ [_ [LL0 _]]]]]]].
  assert (X0 : e_pos_e_in_g e0 = e_pos_e_in_g e /\ e_ang_l_to_e e0 = e_ang_l_to_e e).
  { unfold CalculateLocalTime in EL. destruct (e_time_init e); injection EL as _ <-; split; reflexivity. }
  rewrite EL in W0, LL0. cbn [snd] in W0, LL0.
  destruct (predict_went e0 lt (w_reach _ _ W0)) as [e1 [E1 [W1 [_ [_ [_ F1]]]]]].
  pose proof (proj1 (PS e1) E1) as OP. rewrite E1 in E. cbn [bind] in E. unfold frame' in F1. cbn in F1.
  destruct F1 as [_ [_ [_ [_ [_ [_ [D1 [D2 [D3 [D4 [_ [_ [D5 D6]]]]]]]]]]]]].
  assert (W : went e e1) by (eapply went_trans; eauto).
  destruct (gknows_keeps u e e1 s HK (w_keeps _ _ W)) as [s1 HK1]. pose proof (w_reach _ _ W) as Hr1.
  assert (F1 : p_fej (e_par e1) = true) by (rewrite (w_par _ _ W); exact F).
  replace (e_lla_init e1) with true in E by congruence. cbn [negb] in E.
  replace (e_pos_e_in_g e1) with (e_pos_e_in_g e) in E by (destruct X0; congruence).
  replace (e_ang_l_to_e e1) with (e_ang_l_to_e e) in E by (destruct X0; congruence).
  destruct (lla_to_enu lla (e_pos_e_in_g e)) as [q|]; [|discriminate]. cbn [bind] in E.
  unfold gps_PredictMeasurement in E. rewrite (first_refresh u e1 s1 F1 HK1) in E. cbv zeta in E. cbn [gu_pos] in E.
  rewrite (first_jac u e1 s1 F1 HK1) in E.
  destruct (gps_jac_ok u e1 s1 Hr1 HK1) as [j [u2 [E3 [S2 [J1 J2]]]]]. rewrite E3 in E. cbn [bind] in E.
  match type of E with bind ?x _ = _ => destruct x as [e2|] eqn:EK; [|discriminate] end. cbn [bind] in E. injection E as <- <-.
  apply kalman_moved' in EK; [|exact Hr1|].
  2:{ apply (noise_meas _ 3); auto. rewrite (w_par _ _ W). exact HN. }
  destruct EK as [d M]. exists e1, q, j, d. pose proof (first_jac_kept u e1 s1 j u2 Hr1 F1 HK1 E3) as U. subst u2.
  repeat (split; [assumption || reflexivity|]). exact M.
Qed.
End Gps.

(** *** A gain misses nothing *)
Lemma gain_faithful : forall n m P H Rn K y, spd n P -> spd m Rn -> is_gain n m P H Rn K ->
  (forall z, (forall j, j < n -> mv m (tr H) z j = 0%R) -> forall i, i < m -> z i = 0%R) ->
  (forall i, i < n -> mv m K y i = 0%R) -> forall i, i < m -> y i = 0%R.
Proof.
  intros n m P H Rn K y SP SR G INJ KZ.
  pose proof (innov_spd n m P H Rn (spd_psd _ _ SP) SR) as SS. set (S := innov n P H Rn) in *.
  destruct (inv_spd m S SS) as [IA IB]. set (T := finv m S) in *.
  set (z := mv m T y).
  assert (SZ : forall i, i < m -> mv m S z i = y i).
  { intros i Hi. unfold z. change (mm m S (mm m T (fun k _ => y k)) i 0 = y i).
    rewrite <- (mm_assoc m m m 1 S T (fun k _ => y k) i 0 Hi Nat.lt_0_1).
    transitivity (mm m idm (fun k _ => y k) i 0); [|apply (mm_id_l m 1 (fun k _ => y k) i 0 Hi Nat.lt_0_1)].
    unfold mm at 1 3. apply rsum_ext. intros k Hk. f_equal. first [apply (IA i k Hi Hk)|apply (IB i k Hi Hk)]. }
  assert (PZ : forall i, i < n -> mv n P (mv m (tr H) z) i = 0%R).
  { intros i Hi. rewrite <- (KZ i Hi).
    change (mm n P (mm m (tr H) (fun k _ => z k)) i 0 = mv m K y i).
    rewrite <- (mm_assoc n n m 1 P (tr H) (fun k _ => z k) i 0 Hi Nat.lt_0_1).
    transitivity (mm m (mm m K S) (fun k _ => z k) i 0).
    - unfold mm at 1 3. apply rsum_ext. intros k Hk. f_equal. symmetry. apply (G i k Hi Hk).
    - rewrite (mm_assoc n m m 1 K S (fun k _ => z k) i 0 Hi Nat.lt_0_1). unfold mm at 1. unfold mv.
      apply rsum_ext. intros k Hk. f_equal. apply (SZ k Hk). }
  assert (HZ : forall j, j < n -> mv m (tr H) z j = 0%R).
  { intros j Hj. destruct (Req_dec (mv m (tr H) z j) 0) as [Z|NZ]; [exact Z|exfalso].
    assert (Q : (0 < qf n P (mv m (tr H) z))%R) by (apply (proj2 SP); exists j; auto).
    revert Q. unfold qf, dot. rewrite (rsum_ext n _ (fun _ => 0%R)); [rewrite rsum_0 by reflexivity; lra|].
    intros i Hi. rewrite (PZ i Hi). ring. }
  pose proof (INJ z HZ) as Z. intros i Hi. rewrite <- (SZ i Hi). unfold mv.
  rewrite (rsum_ext m _ (fun _ => 0%R)); [apply rsum_0; reflexivity|]. intros k Hk. rewrite (Z k Hk). ring.
Qed.

(** *** The Jacobian of a fix has the identity in the position columns *)
Lemma gpss_ge : forall m cur id s, gpss_at m cur -> mfind id m = Some s -> g_ext s = true -> cur <= g_index s.
Proof.
  induction m as [|[k x] m IH]; intros cur id s A F X; [discriminate|]. cbn [gpss_at] in A. destruct A as [A1 A2].
  cbn [mfind] in F. destruct (Nat.eqb id k).
  - injection F as ->. rewrite (A1 X). lia.
  - pose proof (IH _ _ _ A2 F X). lia.
Qed.
Lemma gps_18 : forall e id s, reachable e -> mfind id (s_gps (e_state e)) = Some s -> g_ext s = true -> 18 <= g_index s.
Proof.
  intros e id s Hr F X. destruct (reachable_inv e Hr) as [W _]. destruct (wf_ix _ W) as [_ [_ [G _]]].
  pose proof (gpss_ge _ _ _ _ G F X). unfold start_gps in *. lia.
Qed.
Lemma gps_position_columns : forall u e s j u', reachable e -> gknows u e s ->
  gps_GetMeasurementJacobian u e = OK (j, u', e) -> nr j = 3 -> nc j = e_size e ->
  forall i c, i < 3 -> c < 3 -> ent j i c = (if Nat.eqb i c then 1 else 0)%R.
Proof.
  intros u e s j u' Hr HK EJ N1 N2 i c Hi Hc.
  set (x := fun k => if Nat.eqb k c then 1%R else 0%R).
  assert (S18 : 18 <= e_size e) by (apply size_ge; apply (proj1 (reachable_inv e Hr))).
  assert (M : mget default_gps (gu_id u) (s_gps (e_state e)) = s) by (unfold mget; rewrite (proj1 HK); reflexivity).
  assert (G18 : gu_ext u = true -> 18 <= g_index s).
  { intros X. apply (gps_18 e (gu_id u) s Hr (proj1 HK)). destruct HK as [_ HK2]. congruence. }
  pose proof (gps_rows u e j u' e x s EJ (eq_sym M) G18) as RR. cbv zeta in RR.
  assert (AR : forall r, apply_row j x r = ent j r c).
  { intros r. unfold apply_row, x. rewrite N2. rewrite (rsum_single (e_size e) c) by
      (try lia; intros k Hk Hn; rewrite (proj2 (Nat.eqb_neq k c) Hn); ring). rewrite Nat.eqb_refl. ring. }
  assert (Z9 : slice x 9 = v0).
  { unfold slice, x. rewrite !(proj2 (Nat.eqb_neq _ c)) by lia. reflexivity. }
  rewrite Z9 in RR.
  assert (ZG : (if gu_ext u then mat_vec (qmat (b_ang (s_body (e_state e)))) (slice x (g_index s)) else v0) = v0).
  { destruct (gu_ext u); [|reflexivity]. specialize (G18 eq_refl). unfold slice, x. rewrite !(proj2 (Nat.eqb_neq _ c)) by lia.
    unfold mat_vec, v0. cbn. f_equal; ring. }
  rewrite ZG in RR. unfold rows3 in RR. rewrite !AR in RR.
  assert (Z0 : forall A, mat_vec A v0 = v0) by (intros; unfold mat_vec, v0; cbn; f_equal; ring). rewrite Z0 in RR.
  unfold slice, vadd, v0, x in RR. cbn [vx vy vz] in RR. injection RR as R0 R1 R2.
  do 3 (destruct i as [|i]; [cbn [Nat.add] in *; rewrite ?R0, ?R1, ?R2; do 3 (destruct c as [|c]; [cbn; ring|]); lia|]). lia.
Qed.

(** *** An exact measurement *)
Lemma all_or : forall (f : nat -> R) n, (forall i, i < n -> f i = 0%R) \/ exists i, i < n /\ f i <> 0%R.
Proof.
  intros f. induction n as [|n [IH|[i [Hi X]]]].
  - left. lia.
  - destruct (Req_dec (f n) 0) as [Z|NZ]; [left|right; exists n; auto].
    intros i Hi. destruct (Nat.eq_dec i n) as [->|]; [exact Z|apply IH; lia].
  - right. exists i. auto.
Qed.
Lemma exact_moves : forall u e N H u' d e' s, reachable e -> noise_ok (p_root (e_par e)) 3 N -> gknows u e s ->
  spd (e_size e) (covariance e) -> qnorm2 (b_ang (s_body (e_state e))) = 1%R ->
  gps_GetMeasurementJacobian u e = OK (H, u', e) -> gu_first u = false -> g_pos s <> gu_pos u ->
  moved_by e H (v3mat (vsub (antenna e (gu_id u))
    (vadd (b_pos (s_body (e_state e))) (qrot (b_ang (s_body (e_state e))) (lever u e))))) N d e' ->
  exists i, i < e_size e /\ column d i <> 0%R.
Proof.
  intros u e N H u' d e' s Hr HN HK SP Q EJ F NE [_ [_ [_ [K [G C]]]]].
  destruct (gps_jac_ok u e s Hr HK) as [j [u2 [E3 [S2 [J1 J2]]]]]. rewrite EJ in E3. injection E3 as <- <-.
  rewrite J1 in *.
  set (y := v3mat _) in *.
  assert (MA : meas_arg (p_root (e_par e)) (e_size e) H y N) by (apply (noise_meas _ 3); auto).
  destruct (kalman_moved e H y N Hr MA) as [_ [_ [_ [_ [_ SN]]]]]. rewrite J1 in SN.
  destruct (all_or (column d) (e_size e)) as [DZ|X]; [exfalso; apply NE|exact X].
  assert (YZ : forall i, i < 3 -> column y i = 0%R).
  { apply (gain_faithful (e_size e) 3 (covariance e) (ent H) _ K (column y) SP SN G).
    - intros z Z i Hi. pose proof (size_ge e (proj1 (reachable_inv e Hr))) as S18.
      rewrite <- (Z i) by lia. unfold mv, tr. rewrite (rsum_single 3 i) by
        (try lia; intros k Hk Hn; rewrite (gps_position_columns u e s H u' Hr HK EJ J1 J2 k i Hk Hi), (proj2 (Nat.eqb_neq k i) Hn); ring).
      rewrite (gps_position_columns u e s H u' Hr HK EJ J1 J2 i i Hi Hi), Nat.eqb_refl. ring.
    - intros i Hi. rewrite <- (C i Hi). apply (DZ i Hi). }
  pose proof (YZ 0 ltac:(lia)) as Y0. pose proof (YZ 1 ltac:(lia)) as Y1. pose proof (YZ 2 ltac:(lia)) as Y2.
  assert (V : qrot (b_ang (s_body (e_state e))) (vsub (g_pos s) (gu_pos u)) = v0).
  { rewrite qrot_vsub. unfold y, antenna, lever, mget in Y0, Y1, Y2. rewrite (proj1 HK), F in Y0, Y1, Y2.
    revert Y0 Y1 Y2. generalize (qrot (b_ang (s_body (e_state e))) (g_pos s)) (qrot (b_ang (s_body (e_state e))) (gu_pos u)).
    intros [a1 a2 a3] [b1 b2 b3]. unfold column, v3mat. cbn. intros. unfold v0, vsub. cbn. f_equal; lra. }
  apply qrot_cancel in V; [|exact Q]. destruct (g_pos s) as [a1 a2 a3], (gu_pos u) as [b1 b2 b3].
  unfold vsub, v0 in V. cbn in V. injection V as V1 V2 V3. f_equal; lra.
Qed.

Section Exact.
Variable svd : m2 -> m2 * m2.
Variable hull : list (Z * Z) -> list (Z * Z).
Variable ecef_to_lla : V3 -> V3.

Lemma gps_exact_moves : forall u e t lla N u' e' e1 q, reachable e -> p_fej (e_par e) = true ->
  has_gps e (gu_id u) (gu_ext u) -> noise_ok (p_root (e_par e)) 3 N -> e_lla_init e = true ->
  only_predicted e t e1 -> spd (e_size e1) (covariance e1) -> qnorm2 (b_ang (s_body (e_state e1))) = 1%R ->
  lla_to_enu lla (e_pos_e_in_g e) = OK q -> enu_to_local q (e_ang_l_to_e e) = antenna e1 (gu_id u) ->
  gu_first u = false -> g_pos (mget default_gps (gu_id u) (s_gps (e_state e1))) <> gu_pos u ->
  gps_UpdateEKF svd hull ecef_to_lla u e t lla N = OK (u', e') ->
  exists d i, e_state e' = correct d (e_state e1) /\ i < e_size e1 /\ column d i <> 0%R.
Proof.
  intros u e t lla N u' e' e1 q Hr F HG HN LI OP SP Q EQ EX FU NE E.
  destruct (gps_first svd hull ecef_to_lla u e t lla N u' e' Hr F HG HN LI E) as [e2 [q2 [H [d [OP2 [EQ2 [U [EJ M]]]]]]]].
  unfold only_predicted in OP, OP2. rewrite OP in OP2. injection OP2 as <-. rewrite EQ in EQ2. injection EQ2 as <-. rewrite EX in M.
  destruct HG as [s HK]. change (gknows u e s) in HK.
  assert (W : went e e1).
  { cbn [run step] in OP. destruct (CalculateLocalTime e t) as [lt e0] eqn:EL.
    destruct (local_went e t Hr) as [W0 _]. rewrite EL in W0. cbn [snd] in W0. cbn [bind snd] in OP.
    destruct (predict_went e0 (local_of e t) (w_reach _ _ W0)) as [e3 [E3 [W3 _]]]. rewrite E3 in OP. cbn [bind] in OP. injection OP as <-.
    eapply went_trans; eauto. }
  destruct (gknows_keeps u e e1 s HK (w_keeps _ _ W)) as [s1 HK1].
  assert (NE1 : g_pos s1 <> gu_pos u) by (unfold mget in NE; rewrite (proj1 HK1) in NE; exact NE).
  destruct (exact_moves u e1 N H u' d e' s1) as [i [Hi Xi]]; try assumption.
  - exact (w_reach _ _ W).
  - rewrite (w_par _ _ W). exact HN.
  - exists d, i. split; [exact (proj1 (proj2 (proj2 M)))|]. auto.
Qed.
End Exact.
