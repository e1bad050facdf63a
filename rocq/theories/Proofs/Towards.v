(** What the measurements do to the estimates. *)
From Coq Require Import Reals List Arith Bool Lia Lra ZArith.
From Verif Require Import Base.Res Base.Mat Base.RDec Base.RSum Base.LinAlg Base.Inverse Base.Geom Base.AMap Base.RMat
  Model.TypeHelper Model.Types Model.MathHelperMat Model.MathHelper Model.Matrix3 Model.GpsHelper Model.Ekf Model.Updater Model.Ops
  Model.GpsUpdater Model.ImuUpdater Model.FiducialUpdater
  Spec.Layout Spec.History Spec.Contract Spec.Correct Spec.Named Spec.Same Spec.Callback Spec.KF Spec.Unused Spec.Towards
  Proofs.Refresh Proofs.Wf Proofs.Invariant Proofs.Named Proofs.Same Proofs.Update Proofs.Scalars Proofs.Clock Proofs.Effects Proofs.Kalman Proofs.CovGood Proofs.Follows Proofs.BlockDiag
  Proofs.ImuCallback Proofs.GpsCallback Proofs.FidCallback Proofs.Unused Proofs.Sizes Proofs.Finals Proofs.Weigh.
Import ListNotations.
Open Scope nat_scope.

Lemma kalman_moved : forall e H y N, reachable e -> meas_arg (p_root (e_par e)) (e_size e) H y N ->
  exists e' d, KalmanUpdate e H y N = OK e' /\ moved_by e H y N d e' /\
    psd (e_size e) (covariance e) /\ spd (nr H) (noise_meant e (nr H) N).
Proof.
  intros e H y N Hr HM. pose proof (reachable_inv e Hr) as I.
  assert (C : contract e (OKalman H y N)) by (cbn [contract]; rewrite (dim_size e (proj1 I)); exact HM).
  destruct (kalman_full e H y N I C) as [e' [K [E [K1 [K2 [P1 [P2 [G1 [J1 [[d [D1 [D2 [D3 D4]]]] X]]]]]]]]]].
  rewrite (dim_size e (proj1 I)) in *. exists e', d. split; [exact E|].
  split; [|split; [exact P1|exact P2]]. split; [exact D1|]. split; [exact D2|]. split; [exact D4|].
  exists (ent K). split; [exact G1|]. intros i Hi. unfold column. rewrite (D3 i Hi). reflexivity.
Qed.
Lemma kalman_moved' : forall e H y N e', reachable e -> meas_arg (p_root (e_par e)) (e_size e) H y N ->
  KalmanUpdate e H y N = OK e' -> exists d, moved_by e H y N d e'.
Proof.
  intros e H y N e' Hr HM E. destruct (kalman_moved e H y N Hr HM) as [e2 [d [E2 [M _]]]].
  rewrite E in E2. injection E2 as <-. eauto.
Qed.

(** The estimates move to the least-squares answer. *)
Lemma answer : forall e H y N, reachable e -> meas_arg (p_root (e_par e)) (e_size e) H y N ->
  exists e' d, KalmanUpdate e H y N = OK e' /\ moved_by e H y N d e' /\
  forall M, is_inv (nr H) (noise_meant e (nr H) N) M ->
    exists z, (forall i, i < e_size e -> column d i = mv (e_size e) (covariance e) z i) /\
      (forall z', misfit (e_size e) H y M (mv (e_size e) (covariance e) z) + qf (e_size e) (covariance e) z <=
                  misfit (e_size e) H y M (mv (e_size e) (covariance e) z') + qf (e_size e) (covariance e) z')%R /\
      (misfit (e_size e) H y M (column d) <= misfit (e_size e) H y M (fun _ => 0))%R /\
      (misfit (e_size e) H y M (column d) = misfit (e_size e) H y M (fun _ => 0)%R -> forall i, i < e_size e -> column d i = 0%R).
Proof.
  intros e H y N Hr HM. destruct (kalman_moved e H y N Hr HM) as [e' [d [E [M [PP PN]]]]].
  exists e', d. split; [exact E|]. split; [exact M|]. intros W HW. destruct M as [D1 [D2 [D3 [K [G D4]]]]].
  set (n := e_size e) in *. set (m := nr H) in *. set (P := covariance e) in *.
  destruct (least_squares n m P (ent H) _ K (column y) PP PN G W HW) as [z [Z1 Z2]]. exists z.
  assert (PW : psd m W).
  { split; [apply (inv_symm m _ _ (proj1 PN) HW)|]. intros x.
    assert (A : qf m W x = qf m (noise_meant e m N) (mv m W x)).
    { unfold qf.
      rewrite (dot_ext m (mv m W x) (mv m (noise_meant e m N) (mv m W x)) (mv m W x) x); [apply dot_sym|reflexivity|].
      intros i Hi. rewrite <- mv_mm. transitivity (mv m idm x i); [|apply mv_idm; exact Hi]. apply mv_ext; [|reflexivity].
      intros j Hj. apply HW; auto. }
    rewrite A. apply (proj2 (spd_psd _ _ PN)). }
  assert (D : forall i, i < n -> column d i = mv n P z i) by (intros i Hi; rewrite D4 by exact Hi; apply Z1; exact Hi).
  split; [exact D|].
  assert (Q : forall x, (0 <= qf n P x)%R) by apply PP. assert (Q' : forall x, (0 <= qf m W x)%R) by apply PW.
  split.
  { intros z'. unfold misfit. fold m. specialize (Z2 z').
    pose proof (Q' (fun i => mv n (ent H) (mv n P (fun k => (z' k - z k)%R)) i)). pose proof (Q (fun k => (z' k - z k)%R)). lra. }
  assert (Z0 : misfit n H y W (mv n P (fun _ => 0%R)) = misfit n H y W (fun _ => 0%R)).
  { unfold misfit. fold m. apply qf_ext; [reflexivity|]. intros i Hi. f_equal. apply mv_ext; [reflexivity|].
    intros j Hj. unfold mv. apply rsum_0. intros; ring. }
  assert (ZD : misfit n H y W (column d) = misfit n H y W (mv n P z)).
  { unfold misfit. fold m. apply qf_ext; [reflexivity|]. intros i Hi. f_equal. apply mv_ext; [reflexivity|exact D]. }
  specialize (Z2 (fun _ => 0%R)). fold m in Z0. unfold misfit in Z0 at 1. fold m in Z0.
  assert (Q0 : qf n P (fun _ => 0%R) = 0%R) by (unfold qf, dot; apply rsum_0; intros; ring).
  assert (QZ : qf n P (fun k => (0 - z k)%R) = qf n P z).
  { rewrite (qf_ext n P P _ (fun k => (-1 * z k)%R)) by (try reflexivity; intros; ring). rewrite qf_scal. ring. }
  pose proof (Q z) as A1. pose proof (Q' (fun i => mv n (ent H) (mv n P (fun k => (0 - z k)%R)) i)) as A2.
  rewrite ZD. unfold misfit at 1 3. fold m. rewrite <- Z0. split.
  - lra.
  - intros EQ i Hi. rewrite (D i Hi). apply psd_kernel; [exact PP| |exact Hi]. lra.
Qed.

(** Equal independent noise: rows that say the same give the same answer. *)
Lemma noise_iso : forall e m c, (0 < c)%R -> eqm m m (noise_meant e m (mscale c (midm m m))) (mscal c idm).
Proof.
  intros e m c Hc i j Hi Hj. unfold noise_meant. destruct (p_root (e_par e)); [|reflexivity].
  unfold gram, mm, tr. unfold mscal, idm.
  assert (E : forall a b, sqrt (ent (mscale c (midm m m)) a b) = if Nat.eqb a b then sqrt c else 0%R).
  { intros a b. change (ent (mscale c (midm m m)) a b) with (c * (if Nat.eqb a b then 1 else 0))%R.
    destruct (Nat.eqb a b); [rewrite Rmult_1_r; reflexivity|rewrite Rmult_0_r; apply sqrt_0]. }
  rewrite (rsum_ext m _ (fun k => if Nat.eqb k i then (if Nat.eqb i j then c else 0)%R else 0%R)).
  - rewrite (rsum_single m i) by (try exact Hi; intros k _ Hk; apply Nat.eqb_neq in Hk; rewrite Hk; reflexivity).
    rewrite Nat.eqb_refl. destruct (Nat.eqb i j); ring.
  - intros k Hk. rewrite !E. destruct (Nat.eqb_spec k i) as [->|]; [|ring].
    destruct (Nat.eqb i j); [rewrite sqrt_sqrt by lra; reflexivity|ring].
Qed.

Lemma iso_meas : forall e H y c, (0 < c)%R -> nc H = e_size e -> nr y = nr H -> nc y = 1 ->
  meas_arg (p_root (e_par e)) (e_size e) H y (mscale c (midm (nr H) (nr H))).
Proof.
  intros e H y c Hc H1 H2 H3. apply (noise_meas _ (nr H)); auto.
  apply (diag_noise_ok _ _ _ (fun _ => c)); [reflexivity|reflexivity|auto|].
  intros i j Hi Hj. change (ent (mscale c (midm (nr H) (nr H))) i j) with (c * (if Nat.eqb i j then 1 else 0))%R.
  unfold diagm. destruct (Nat.eqb i j); ring.
Qed.

Lemma alike : forall e H y H' y' c, reachable e -> (0 < c)%R -> nc H = e_size e -> nr y = nr H -> nc y = 1 ->
  nc H' = e_size e -> nr y' = nr H' -> nc y' = 1 ->
  eqm (e_size e) (e_size e) (gram (nr H) (ent H)) (gram (nr H') (ent H')) ->
  eqm (e_size e) 1 (mm (nr H) (tr (ent H)) (ent y)) (mm (nr H') (tr (ent H')) (ent y')) ->
  exists e1 e2, KalmanUpdate e H y (mscale c (midm (nr H) (nr H))) = OK e1 /\
    KalmanUpdate e H' y' (mscale c (midm (nr H') (nr H'))) = OK e2 /\
    e_state e1 = e_state e2 /\ eqm (e_size e) (e_size e) (covariance e1) (covariance e2).
Proof.
  intros e H y H' y' c Hr Hc A1 A2 A3 B1 B2 B3 EG EB. pose proof (reachable_inv e Hr) as I.
  assert (C : contract e (OKalman H y (mscale c (midm (nr H) (nr H)))))
    by (cbn [contract]; rewrite (dim_size e (proj1 I)); apply iso_meas; auto).
  assert (C' : contract e (OKalman H' y' (mscale c (midm (nr H') (nr H')))))
    by (cbn [contract]; rewrite (dim_size e (proj1 I)); apply iso_meas; auto).
  destruct (kalman_full e _ _ _ I C) as [e1 [K [E [K1 [K2 [P1 [P2 [G1 [J1 [[d [D1 [D2 [D3 D4]]]] X]]]]]]]]]].
  destruct (kalman_full e _ _ _ I C') as [e2 [K' [E' [K1' [K2' [P1' [P2' [G1' [J1' [[d' [D1' [D2' [D3' D4']]]] X']]]]]]]]]].
  rewrite (dim_size e (proj1 I)) in *. exists e1, e2. split; [exact E|]. split; [exact E'|].
  change (noise_used (p_root (e_par e)) (nr H) (mscale c (midm (nr H) (nr H)))) with (noise_meant e (nr H) (mscale c (midm (nr H) (nr H)))) in *.
  change (noise_used (p_root (e_par e)) (nr H') (mscale c (midm (nr H') (nr H')))) with (noise_meant e (nr H') (mscale c (midm (nr H') (nr H')))) in *.
  pose proof (noise_iso e (nr H) c Hc) as N1. pose proof (noise_iso e (nr H') c Hc) as N2.
  set (n := e_size e) in *. set (P := covariance e) in *.
  assert (SI : forall v v', (forall j, j < n -> mv (nr H) (tr (ent H)) v j = mv (nr H') (tr (ent H')) v' j) ->
    forall i, i < n -> mv (nr H) (ent K) v i = mv (nr H') (ent K') v' i).
  { intros v v' EV. apply (same_information n (nr H) (nr H') P (ent H) (ent H') _ _ (ent K) (ent K') v v' c P1 Hc P2 N1 P2' N2 G1 G1' EG EV). }
  split.
  - rewrite D4, D4'.
    assert (ED : forall i, i < n -> ent d i 0 = ent d' i 0).
    { intros i Hi. rewrite D3, D3' by exact Hi. apply (SI (fun k => ent y k 0) (fun k => ent y' k 0)); [|exact Hi].
      intros j Hj. apply (EB j 0 Hj Nat.lt_0_1). }
    apply correct_ext; [apply partition_ok; exact Hr|].
    rewrite (dim_size e (proj1 I)). exact ED.
  - rewrite J1, J1'. rewrite (joseph_gain n (nr H) P (ent H) _ (ent K)) by (apply P1 || exact G1).
    rewrite (joseph_gain n (nr H') P (ent H') _ (ent K')) by (apply P1 || exact G1').
    intros i j Hi Hj. unfold msub. f_equal.
    rewrite (mm_assoc n (nr H) n n (ent K) (ent H) P i j Hi Hj), (mm_assoc n (nr H') n n (ent K') (ent H') P i j Hi Hj).
    apply (SI (fun k => mm n (ent H) P k j) (fun k => mm n (ent H') P k j)); [|exact Hi].
    intros l Hl. change (mm (nr H) (tr (ent H)) (mm n (ent H) P) l j = mm (nr H') (tr (ent H')) (mm n (ent H') P) l j).
    rewrite <- (mm_assoc n (nr H) n n (tr (ent H)) (ent H) P l j Hl Hj), <- (mm_assoc n (nr H') n n (tr (ent H')) (ent H') P l j Hl Hj).
    unfold mm at 1 3. apply rsum_ext. intros k Hk. f_equal. apply (EG l k Hl Hk).
Qed.

(** *** A position fix *)
Lemma gps_current : forall u e s, p_fej (e_par e) = false -> gknows u e s ->
  gps_refresh u e = (mkGU (gu_id u) (gu_ext u) false (g_pos s), e).
Proof. intros u e s F [H _]. unfold gps_refresh. rewrite F. cbn [negb orb]. rewrite (get_gps_same _ _ _ H). reflexivity. Qed.

Lemma gps_jac_refreshed : forall u e s, p_fej (e_par e) = false -> gknows u e s ->
  gps_GetMeasurementJacobian (mkGU (gu_id u) (gu_ext u) false (g_pos s)) e = gps_GetMeasurementJacobian u e.
Proof.
  intros u e s F HK. unfold gps_GetMeasurementJacobian. rewrite (gps_current u e s F HK).
  rewrite (gps_current (mkGU (gu_id u) (gu_ext u) false (g_pos s)) e s F HK). reflexivity.
Qed.

Section Gps.
Variable svd : m2 -> m2 * m2.
Variable hull : list (Z * Z) -> list (Z * Z).
Variable ecef_to_lla : V3 -> V3.

Lemma gps_towards : forall u e t lla N u' e', reachable e -> p_fej (e_par e) = false ->
  has_gps e (gu_id u) (gu_ext u) -> noise_ok (p_root (e_par e)) 3 N -> e_lla_init e = true ->
  gps_UpdateEKF svd hull ecef_to_lla u e t lla N = OK (u', e') ->
  exists e1 q H d, only_predicted e t e1 /\ lla_to_enu lla (e_pos_e_in_g e) = OK q /\
    gps_GetMeasurementJacobian u e1 = OK (H, u', e1) /\
    moved_by e1 H (v3mat (vsub (enu_to_local q (e_ang_l_to_e e)) (antenna e1 (gu_id u)))) N d e'.
Proof.
  intros u e t lla N u' e' Hr F [s HK] HN LI E. change (gknows u e s) in HK.
  unfold gps_UpdateEKF in E. destruct (CalculateLocalTime e t) as [lt e0] eqn:EL.
  destruct (predicted_split e t lt e0 EL) as [L PS].
  destruct (local_went e t Hr) as [W0 [_ [_ [_ [_ [_ [LL0 _]]]]]]].
  assert (X0 : e_pos_e_in_g e0 = e_pos_e_in_g e /\ e_ang_l_to_e e0 = e_ang_l_to_e e).
  { unfold CalculateLocalTime in EL. destruct (e_time_init e); injection EL as _ <-; split; reflexivity. }
  rewrite EL in W0, LL0. cbn [snd] in W0, LL0.
  destruct (predict_went e0 lt (w_reach _ _ W0)) as [e1 [E1 [W1 [_ [_ [_ F1]]]]]].
  pose proof (proj1 (PS e1) E1) as OP. rewrite E1 in E. cbn [bind] in E. unfold frame' in F1. cbn in F1.
  destruct F1 as [_ [_ [_ [_ [_ [_ [D1 [D2 [D3 [D4 [_ [_ [D5 D6]]]]]]]]]]]]].
  assert (W : went e e1) by (eapply went_trans; eauto).
  destruct (gknows_keeps u e e1 s HK (w_keeps _ _ W)) as [s1 HK1]. pose proof (w_reach _ _ W) as Hr1.
  assert (F1 : p_fej (e_par e1) = false) by (rewrite (w_par _ _ W); exact F).
  replace (e_lla_init e1) with true in E by congruence. cbn [negb] in E.
  replace (e_pos_e_in_g e1) with (e_pos_e_in_g e) in E by (destruct X0; congruence).
  replace (e_ang_l_to_e e1) with (e_ang_l_to_e e) in E by (destruct X0; congruence).
  destruct (lla_to_enu lla (e_pos_e_in_g e)) as [q|]; [|discriminate]. cbn [bind] in E.
  unfold gps_PredictMeasurement in E. rewrite (gps_current u e1 s1 F1 HK1) in E. cbv zeta in E. cbn [gu_pos] in E.
  rewrite (gps_jac_refreshed u e1 s1 F1 HK1) in E.
  destruct (gps_jac_ok u e1 s1 Hr1 HK1) as [j [u2 [E3 [S2 [J1 J2]]]]]. rewrite E3 in E. cbn [bind] in E.
  assert (A : vadd (b_pos (s_body (e_state e1))) (qrot (b_ang (s_body (e_state e1))) (g_pos s1)) = antenna e1 (gu_id u)).
  { unfold antenna, mget. rewrite (proj1 HK1). reflexivity. }
  rewrite A in E.
  match type of E with bind ?x _ = _ => destruct x as [e2|] eqn:EK; [|discriminate] end. cbn [bind] in E. injection E as <- <-.
  apply kalman_moved' in EK; [|exact Hr1|].
  2:{ apply (noise_meas _ 3); auto. rewrite (w_par _ _ W). exact HN. }
  destruct EK as [d M]. exists e1, q, j, d. auto.
Qed.

(** *** The stack of fixes after self-alignment *)
Lemma sb_inv : forall T (m : mat T) i j p q b m', set_block m i j p q b = OK m' ->
  nr m' = nr m /\ nc m' = nc m /\ i + p <= nr m /\ j + q <= nc m /\
  forall x y, ent m' x y = if in_range x i p && in_range y j q then ent b (x - i) (y - j) else ent m x y.
Proof.
  intros T m i j p q b m' E. unfold set_block, guard in E. destruct (_ && _ && _ && _) eqn:G; [|discriminate].
  apply andb_true_iff in G. destruct G as [G G4]. apply andb_true_iff in G. destruct G as [G G3].
  apply andb_true_iff in G. destruct G as [G1 G2]. apply Nat.leb_le in G1, G2.
  injection E as <-. repeat split; auto.
Qed.

Lemma multi_rows_entries : forall ecef xyz u e s j v ref h i jac resid J R' u' e', reachable e -> p_fej (e_par e) = false -> gknows u e s ->
  gps_GetMeasurementJacobian u e = OK (j, v, e) ->
  multi_rows u e ref h ecef xyz i jac resid = OK (J, R', u', e') ->
  (forall r c, r < 3 * i -> ent J r c = ent jac r c /\ ent R' r c = ent resid r c) /\
  forall k p x, nth_error ecef k = Some p -> nth_error xyz k = Some x ->
    exists q, ecef_to_enu p ref = OK q /\ forall r, r < 3 ->
      column R' (3 * (i + k) + r) = (vget (enu_to_local q h) r - vget x r)%R /\
      forall c, c < e_size e -> ent J (3 * (i + k) + r) c = ent j r c.
Proof.
  induction ecef as [|p ecef IH]; intros xyz u e s j v ref h i jac resid J R' u' e' Hr F HK EJ E.
  - cbn in E. injection E as <- <- <- <-. split; [auto|]. intros [|k] p x; discriminate.
  - destruct xyz as [|x xyz]; [discriminate|]. cbn [multi_rows] in E.
    destruct (ecef_to_enu p ref) as [g|] eqn:EG; [|discriminate]. cbn [bind] in E.
    destruct (gps_jac_ok u e s Hr HK) as [j1 [u1 [E1 [S1 [N1 M1]]]]]. rewrite EJ in E1. injection E1 as <- <-.
    rewrite EJ in E. cbn [bind] in E.
    destruct (set_block jac (3 * i) 0 3 (e_size e) j) as [jac'|] eqn:E2; [|discriminate]. cbn [bind] in E.
    destruct (set_block resid (3 * i) 0 3 1 _) as [resid'|] eqn:E3; [|discriminate]. cbn [bind] in E.
    assert (EJ' : exists v', gps_GetMeasurementJacobian v e = OK (j, v', e)).
    { unfold gps_GetMeasurementJacobian in EJ. rewrite (gps_current u e s F HK) in EJ.
      assert (V : v = mkGU (gu_id u) (gu_ext u) false (g_pos s)).
      { destruct (set_block _ 0 0 3 3 m3id); [|discriminate]. cbn [bind] in EJ. destruct (set_block _ 0 9 3 3 _); [|discriminate].
        cbn [bind gu_ext gu_id] in EJ. destruct (gu_ext u).
        - rewrite (get_gps_same _ _ _ (proj1 HK)) in EJ. destruct (set_block _ 0 (g_index s) 3 3 _); [|discriminate]. cbn [bind] in EJ.
          injection EJ as _ <-. reflexivity.
        - injection EJ as _ <-. reflexivity. }
      exists v. subst v. unfold gps_GetMeasurementJacobian.
      rewrite (gps_current (mkGU (gu_id u) (gu_ext u) false (g_pos s)) e s F HK). exact EJ. }
    destruct EJ' as [v' EJ'].
    destruct (IH xyz v e s j v' ref h (S i) jac' resid' J R' u' e' Hr F (gsame_knows _ _ _ _ S1 HK) EJ' E) as [A B].
    destruct (sb_inv _ _ _ _ _ _ _ _ E2) as [_ [_ [_ [_ X2]]]]. destruct (sb_inv _ _ _ _ _ _ _ _ E3) as [_ [_ [_ [_ X3]]]].
    split.
    + intros r c Hc. destruct (A r c ltac:(lia)) as [A1 A2]. rewrite A1, A2, X2, X3. unfold in_range.
      rewrite (proj2 (Nat.leb_gt (3 * i) r)) by lia. cbn [andb]. auto.
    + intros [|k] p' x' Hp Hx.
      * cbn in Hp, Hx. injection Hp as <-. injection Hx as <-. exists g. split; [exact EG|]. intros r Hr3.
        rewrite Nat.add_0_r. unfold column. destruct (A (3 * i + r) 0 ltac:(lia)) as [_ A2]. rewrite A2, X3. unfold in_range.
        rewrite (proj2 (Nat.leb_le (3 * i) (3 * i + r))), (proj2 (Nat.ltb_lt (3 * i + r) (3 * i + 3))) by lia.
        cbn [andb Nat.leb Nat.ltb]. replace (3 * i + r - 3 * i) with r by lia. split.
        -- do 3 (destruct r as [|r]; [reflexivity|]). lia.
        -- intros c Hc. destruct (A (3 * i + r) c ltac:(lia)) as [A1 _]. rewrite A1, X2. unfold in_range.
           rewrite (proj2 (Nat.leb_le (3 * i) (3 * i + r))), (proj2 (Nat.ltb_lt (3 * i + r) (3 * i + 3))) by lia.
           rewrite (proj2 (Nat.leb_le 0 c)), (proj2 (Nat.ltb_lt c (0 + e_size e))) by lia. cbn [andb].
           replace (3 * i + r - 3 * i) with r by lia. now rewrite Nat.sub_0_r.
      * cbn in Hp, Hx. destruct (B k p' x' Hp Hx) as [q [Q1 Q2]]. exists q. split; [exact Q1|]. intros r Hr3.
        replace (3 * (i + S k) + r) with (3 * (S i + k) + r) by lia. apply Q2. exact Hr3.
Qed.

Lemma survey_towards : forall u e t lla N u' e', reachable e -> p_fej (e_par e) = false ->
  has_gps e (gu_id u) (gu_ext u) -> e_lla_init e = false ->
  gps_UpdateEKF svd hull ecef_to_lla u e t lla N = OK (u', e') -> e_lla_init e' = true ->
  exists e1 e2 j v H y H' y', only_predicted e t e1 /\ AttemptGps svd hull ecef_to_lla e1 (local_of e t) lla = OK e2 /\
    gps_GetMeasurementJacobian u e2 = OK (j, v, e2) /\ stacked e2 j H y /\
    CompressMeasurements H y = OK (H', y') /\
    (if Nat.leb (nr y') 1 then e' = e2 else exists d, moved_by e2 H' y' (midm (nr y') (nr y')) d e').
Proof.
  intros u e t lla N u' e' Hr F [s HK] LI E LI'. change (gknows u e s) in HK.
  unfold gps_UpdateEKF in E. destruct (CalculateLocalTime e t) as [lt e0] eqn:EL.
  destruct (predicted_split e t lt e0 EL) as [L PS].
  destruct (local_went e t Hr) as [W0 [_ [_ [_ [_ [_ [LL0 _]]]]]]].
  rewrite EL in W0, LL0. cbn [snd] in W0, LL0.
  destruct (predict_went e0 lt (w_reach _ _ W0)) as [e1 [E1 [W1 [_ [_ [_ F1]]]]]].
  pose proof (proj1 (PS e1) E1) as OP. rewrite E1 in E. cbn [bind] in E. unfold frame' in F1. cbn in F1.
  destruct F1 as [_ [_ [_ [_ [_ [_ [D1 [D2 [D3 [D4 [_ [_ [D5 D6]]]]]]]]]]]]].
  assert (W : went e e1) by (eapply went_trans; eauto).
  destruct (gknows_keeps u e e1 s HK (w_keeps _ _ W)) as [s1 HK1]. pose proof (w_reach _ _ W) as Hr1.
  replace (e_lla_init e1) with false in E by congruence. cbn [negb] in E.
  destruct (AttemptGps svd hull ecef_to_lla e1 lt lla) as [e2|] eqn:EA; [|discriminate]. cbn [bind] in E.
  destruct (attempt_sound _ _ _ _ _ _ _ Hr1 EA) as [W2 _].
  destruct (e_lla_init e2) eqn:L2; [|injection E as <- <-; congruence].
  destruct (gknows_keeps u e1 e2 s1 HK1 (w_keeps _ _ W2)) as [s2 HK2].
  assert (F2 : p_fej (e_par e2) = false) by (rewrite (w_par _ _ W2), (w_par _ _ W); exact F).
  pose proof (w_reach _ _ W2) as Hr2.
  destruct (gps_jac_ok u e2 s2 Hr2 HK2) as [j [v [EJ [S2 [J1 J2]]]]].
  unfold MultiUpdateEKF in E.
  destruct (multi_rows _ _ _ _ _ _ _ _ _) as [[[[H y] u1] e3]|] eqn:EM; [|discriminate]. cbn [bind] in E.
  destruct (multi_rows_sound _ _ _ _ s2 _ _ _ _ _ _ _ _ _ Hr2 HK2 EM) as [-> [S1 [A [B [C D]]]]]. cbn [nr nc mzero mconst] in A, B, C, D.
  destruct (multi_rows_entries _ _ _ _ s2 j v _ _ _ _ _ _ _ _ _ Hr2 F2 HK2 EJ EM) as [_ X].
  destruct (CompressMeasurements H y) as [[H' y']|] eqn:EC; [|discriminate]. cbn [bind] in E.
  exists e1, e2, j, v, H, y, H', y'. subst lt. split; [exact OP|]. split; [exact EA|]. split; [exact EJ|].
  split. { split; [exact A|]. split; [congruence|]. split; [exact B|]. split; [exact D|]. exact X. }
  split; [exact EC|]. destruct (compress_shape _ _ _ _ EC) as [Y1 [Y2 Y3]]; [congruence|congruence|].
  destruct (Nat.leb (nr y') 1); [injection E as _ <-; reflexivity|].
  destruct (KalmanUpdate e2 H' y' _) as [e3|] eqn:EK; [|discriminate]. cbn [bind] in E. injection E as _ <-.
  apply kalman_moved' in EK; [exact EK|exact Hr2|].
  apply (noise_meas _ (nr y')); [|congruence|congruence|reflexivity|exact Y3].
  apply (diag_noise_ok _ _ _ (fun _ => 1%R)); [reflexivity|reflexivity|intros; lra|]. intros a b Ha Hb. reflexivity.
Qed.
End Gps.
