(** What feature tracks do to the estimates, and which noise they are taken to
    have. *)
From Coq Require Import Reals List Arith Bool Lia Lra FunctionalExtensionality.
From Verif Require Import Base.Res Base.Mat Base.RDec Base.RSum Base.LinAlg Base.Inverse Base.Geom Base.AMap Base.RMat
  Model.TypeHelper Model.Types Model.MathHelperMat Model.QR Model.MathHelper Model.Matrix3 Model.Ekf Model.Updater Model.Ops Model.MsckfUpdater
  Spec.Layout Spec.History Spec.Contract Spec.Correct Spec.Named Spec.Same Spec.Callback Spec.KF Spec.Unused Spec.Towards Spec.Deriv Spec.Chance Spec.CamTrack
  Proofs.Follows Proofs.BlockDiag Proofs.ImuCallback Proofs.GpsCallback Proofs.Compress Proofs.MsckfCallback Proofs.Unused Proofs.Towards Proofs.Chance Proofs.SimNoise Proofs.CamTrack.
Import ListNotations.
Open Scope R_scope.

Lemma moved_col : forall e H y y' N d e', (forall i, (i < nr H)%nat -> column y i = column y' i) -> moved_by e H y N d e' -> moved_by e H y' N d e'.
Proof.
  intros e H y y' N d e' E (D1 & D2 & D3 & K & K1 & K2). split; [exact D1|]. split; [exact D2|]. split; [exact D3|]. exists K. split; [exact K1|].
  intros i Hi. rewrite K2 by exact Hi. unfold mv. apply rsum_ext. intros j Hj. rewrite E by exact Hj. reflexivity.
Qed.

Lemma pixel_moved : forall e H y px, reachable e -> nc H = e_size e -> nr y = nr H -> nc y = 1%nat ->
  exists e' d, KalmanUpdate e H y (in_pixels px (nr y)) = OK e' /\ moved_by e H y (in_pixels px (nr y)) d e'.
Proof.
  intros e H y px Hr H1 H2 H3. assert (PX : (0 < Rmax px (1 / 2))%R) by (pose proof (Rmax_r px (1 / 2)); lra).
  destruct (kalman_moved e H y (in_pixels px (nr y)) Hr) as [e' [d [E [M _]]]]; [|eauto].
  apply (noise_meas _ (nr y)); [|congruence|exact H1|reflexivity|exact H3].
  apply (diag_noise_ok _ _ _ (fun _ => (Rmax px (1 / 2) * Rmax px (1 / 2))%R)); [reflexivity|reflexivity|intros; nra|].
  intros a b Ha Hb. cbn. unfold mscal, idm, diagm. destruct (Nat.eqb a b); ring.
Qed.

Section F.
Variable solve : mat R -> V3 -> V3.

(** The update, up to the stacking of the rows. *)
Lemma opened : forall u e t T px u' e' ext, reachable e -> has_cam e (mu_id u) ext -> T <> [] ->
  msckf_UpdateEKF solve u e t T px = OK (u', e') ->
  exists e1 c k pc ac, only_predicted e t e1 /\ reachable e1 /\ mu_poses u' = Some (k, pc, ac) /\ mu_use_true u' = mu_use_true u /\
    (forall T', T' <> [] -> msckf_UpdateEKF solve u e t T' px =
      let m := max_meas_size T' in
      let* (H_x, res_x, ct, e) := track_rows solve u' k pc ac (e_size e1) c e1 T' 0 (mzero m (e_size e1)) (mzero m 1) in
      if Nat.eqb ct 0 then OK (u', e)
      else
        let* (H_x, res_x) := CompressMeasurements H_x res_x in
        if Nat.leb (nr res_x) 1 then OK (u', e)
        else
          let* e := KalmanUpdate e H_x res_x (in_pixels px (nr res_x)) in
          OK (u', e)).
Proof.
  intros u e t T px u' e' ext Hr [c [HK HE]] NE E. unfold msckf_UpdateEKF in E |- *.
  destruct (CalculateLocalTime e t) as [lt e0] eqn:E0. destruct (predicted_split e t lt e0 E0) as [L P].
  destruct (local_went e t Hr) as [W0 _]. rewrite E0 in W0. cbn [snd] in W0.
  destruct (predict_went e0 lt (w_reach _ _ W0)) as [e1 [E1 [W1 _]]]. rewrite E1 in E |- *. cbn [bind] in E |- *.
  assert (W : went e e1) by (eapply went_trans; eauto).
  destruct (w_keeps _ _ W) as [_ [_ [KC _]]]. destruct (KC _ _ HK) as [c1 [HK1 _]].
  rewrite (get_cam_same _ _ _ HK1) in E |- *.
  set (uu := if negb (p_fej (e_par e1)) || mu_first u then mkMU (mu_id u) (mu_ext u) false (Some (c_intr c1, c_pos c1, c_ang c1))
               (mu_min_dist u) (mu_max_dist u) (mu_use_true u) else u).
  assert (EU : (if negb (p_fej (e_par e1)) || mu_first u then
         (mkMU (mu_id u) (mu_ext u) false (Some (c_intr c1, c_pos c1, c_ang c1))
               (mu_min_dist u) (mu_max_dist u) (mu_use_true u), e1)
       else (u, e1)) = (uu, e1)) by (unfold uu; destruct (_ || _); reflexivity).
  rewrite EU in E |- *. assert (M : mu_id uu = mu_id u) by (unfold uu; destruct (_ || _); reflexivity).
  assert (M' : mu_use_true uu = mu_use_true u) by (unfold uu; destruct (_ || _); reflexivity).
  clearbody uu. clear EU. destruct (mu_poses uu) as [[[k pc] ac]|] eqn:PO; [|destruct T; [congruence|discriminate]].
  rewrite M, (get_cam_same _ _ _ HK1) in E |- *. cbv zeta in E |- *.
  assert (UU : u' = uu).
  { destruct T as [|tr T]; [congruence|].
    destruct (track_rows _ _ _ _ _ _ _ _ _ _ _ _) as [[[[Hx rx] ct] e2]|]; cbn [bind] in E; [|discriminate].
    destruct (Nat.eqb ct 0); [injection E as <- _; reflexivity|].
    destruct (CompressMeasurements Hx rx) as [[H' r']|]; cbn [bind] in E; [|discriminate].
    destruct (Nat.leb (nr r') 1); [injection E as <- _; reflexivity|].
    destruct (KalmanUpdate _ _ _ _); cbn [bind] in E; [|discriminate]. injection E as <- _. reflexivity. }
  subst u'. exists e1, (c_index c1), k, pc, ac. split; [apply P; exact E1|]. split; [exact (w_reach _ _ W)|]. split; [exact PO|]. split; [exact M'|].
  intros T' NE'. destruct T' as [|tr T']; [congruence|]. reflexivity.
Qed.

Lemma tracks_towards : forall u e t T px u' e' ext, reachable e -> has_cam e (mu_id u) ext -> T <> [] ->
  msckf_UpdateEKF solve u e t T px = OK (u', e') ->
  exists e1 k pc ac s, only_predicted e t e1 /\ mu_poses u' = Some (k, pc, ac) /\ all_misses solve u' e1 k pc ac T s /\
    (same_estimates e1 e' \/
     exists e2 H y d, same_estimates e1 e2 /\ reachable e2 /\ nr y = nr H /\ length2 (nr y) (column y) <= s /\ moved_by e2 H y (in_pixels px (nr y)) d e').
Proof.
  intros u e t T px u' e' ext Hr HC NE E.
  destruct (opened u e t T px u' e' ext Hr HC NE E) as (e1 & c & k & pc & ac & P & Hr1 & PO & _ & EQ).
  rewrite (EQ T NE) in E. cbv zeta in E.
  destruct (track_rows _ _ _ _ _ _ _ _ _ _ _ _) as [[[[Hx rx] ct] e2]|] eqn:ET; cbn [bind] in E; [|discriminate].
  destruct (track_rows_looked _ _ _ _ _ _ _ _ _ _ _ _ _ _ _ _ Hr1 ET) as [LK [N1 [N2 [N3 N4]]]]. mz.
  destruct (tracks_misses solve _ _ _ _ _ _ _ _ _ _ _ _ _ _ _ _ (same_refl e1) ET) as (S & _ & s & MS & LS). mz.
  assert (Z0 : length2 (max_meas_size T) (column (mzero (max_meas_size T) 1)) = 0) by (apply rsum_0; intros; unfold column; cbn; ring).
  rewrite Z0 in LS. exists e1, k, pc, ac, s. split; [exact P|]. split; [exact PO|]. split; [exact MS|].
  destruct (Nat.eqb ct 0); [injection E as <-; left; exact S|].
  destruct (compress_map Hx) as (Q & J' & C1 & C2 & C3 & C4).
  destruct (C4 rx ltac:(congruence) N4) as (r' & EC & R1 & R2 & R3). rewrite EC in E. cbn [bind] in E.
  destruct (Nat.leb (nr r') 1); [injection E as <-; left; exact S|]. right.
  assert (SZ : e_size e2 = e_size e1) by (destruct S as [m [-> _]]; reflexivity).
  destruct (pixel_moved e2 J' r' px (looked_reach _ _ LK) ltac:(congruence) R1 R2) as [e3 [d [EK M]]].
  rewrite EK in E. cbn [bind] in E. injection E as <-. exists e2, J', r', d. split; [exact S|]. split; [exact (looked_reach _ _ LK)|]. split; [exact R1|]. split; [|exact M].
  rewrite R1. rewrite (length2_ext _ (column r') (mv (nr Hx) Q (column rx))) by (intros i Hi; unfold column; rewrite R3 by lia; reflexivity).
  eapply Rle_trans; [apply C3|]. rewrite N1. lra.
Qed.

(** *** At other pixels *)
Lemma seen_size : forall T p off, max_meas_size (seen p off T) = max_meas_size T.
Proof.
  intros T p off. unfold max_meas_size. set (f := fun (n : nat) (t : FeatureTrack) => (n + _)%nat). set (z := O). assert (Z : z = z) by reflexivity. clearbody z.
  revert z Z p off. induction T as [|t T IH]; intros z Z p off; [reflexivity|].
  cbn [seen fold_left]. unfold f at 2 4. cbn [ft_track]. rewrite seen_at_length. apply IH; reflexivity.
Qed.

Lemma composed : forall m q n g (Q G : fmat), (forall z, length2 q (mv m Q z) <= length2 m z) -> bounded m n g G ->
  bounded q n g (mm m Q G) /\ forall v i, mv n (mm m Q G) v i = mv m Q (mv n G v) i.
Proof.
  intros m q n g Q G HQ HG.
  assert (E : forall v i, mv n (mm m Q G) v i = mv m Q (mv n G v) i).
  { intros v i. unfold mv, mm. rewrite (rsum_ext n _ (fun j => rsum m (fun l => Q i l * G l j * v j))) by (intros; rewrite rsum_scal_r; reflexivity).
    rewrite rsum_swap. apply rsum_ext. intros l _. rewrite <- rsum_scal_l. apply rsum_ext. intros j _. ring. }
  split; [|exact E]. intros v. rewrite (length2_ext q _ (mv m Q (mv n G v))) by (intros; apply E).
  eapply Rle_trans; [apply HQ|apply HG].
Qed.

Lemma meas_pixels : forall T, max_meas_size T = pixels T.
Proof.
  intros T. unfold max_meas_size, pixels. assert (G : forall T n, fold_left (fun n t => (n + 2 * length (ft_track t))%nat) T n = (n + 2 * list_sum (map (fun t => length (ft_track t)) T))%nat).
  { induction T0 as [|t T0 IH]; intros n; cbn [fold_left map]; [cbn; lia|]. rewrite IH.
    change (list_sum (length (ft_track t) :: map (fun t => length (ft_track t)) T0)) with (length (ft_track t) + list_sum (map (fun t => length (ft_track t)) T0))%nat. lia. }
  rewrite G. reflexivity.
Qed.

(** Tracks whose feature is known are all used. *)
Lemma used : forall T u k pc ac n ci e ct Hx rx Hx' rx' ct' e', mu_use_true u = true ->
  track_rows solve u k pc ac n ci e T ct Hx rx = OK (Hx', rx', ct', e') ->
  (ct <= ct')%nat /\ (T <> [] -> (ct < ct')%nat /\ (4 <= max_meas_size T)%nat).
Proof.
  induction T as [|t T IH]; intros u k pc ac n ci e ct Hx rx Hx' rx' ct' e' U E.
  - cbn in E. injection E as _ _ <- _. split; [lia|congruence].
  - cbn [track_rows] in E. destruct (TriangulateFeature solve u k pc ac e t) as [[o e1]|] eqn:ET; cbn [bind] in E; [|discriminate].
    assert (O : o <> None).
    { unfold TriangulateFeature in ET. destruct (vnth _ 0); cbn [bind] in ET; [|discriminate]. destruct (GetAugState e _ _ _) as [[a x]|]; cbn [bind] in ET; [|discriminate].
      destruct (tri_rows _ _ _ _ _ _ _ _ _) as [[[A b] y]|]; cbn [bind] in ET; [|discriminate]. rewrite U in ET. destruct (ft_true t); [injection ET as <- _; discriminate|discriminate]. }
    destruct o as [pf|]; [|congruence]. set (N := (2 * length (ft_track t))%nat) in E.
    destruct (feature_rows _ _ _ _ _ _ _ _ _ _ _ _ _) as [[[[rf Hf] Hc] e2]|] eqn:EF; cbn [bind] in E; [|discriminate].
    destruct (rows_misses _ _ _ _ _ _ _ _ _ _ _ _ _ _ _ _ _ _ (same_refl e1) EF) as (_ & D1 & D2 & D3 & D4 & D5 & D6 & _). mz.
    destruct (ApplyLeftNullspace Hf Hc rf) as [[A b]|] eqn:EN; cbn [bind] in E; [|discriminate].
    pose proof (null_le _ _ _ _ _ EN) as LE. destruct (nullspace_map Hf LE) as [Q [_ Q2]].
    destruct (Q2 Hc rf ltac:(congruence) ltac:(congruence)) as (A' & b' & EN' & Z1 & _). rewrite EN in EN'. injection EN' as <- <-.
    destruct (set_block Hx _ _ _ _ _) as [Hx2|]; cbn [bind] in E; [|discriminate].
    destruct (set_block rx _ _ _ _ _) as [rx2|]; cbn [bind] in E; [|discriminate].
    destruct (IH _ _ _ _ _ _ _ _ _ _ _ _ _ _ U E) as [I1 _].
    assert (N4 : (4 <= N)%nat) by (unfold N in *; lia). split; [lia|]. intros _. split; [lia|].
    assert (G : forall T z, (z <= fold_left (fun n t => (n + 2 * length (ft_track t))%nat) T z)%nat).
    { induction T0 as [|t0 T0 IH0]; intros z; cbn [fold_left]; [lia|]. eapply Nat.le_trans; [|apply IH0]. lia. }
    unfold max_meas_size. cbn [fold_left]. eapply Nat.le_trans; [|apply G]. exact N4.
Qed.

Lemma repixelled : forall u e t T px u' e' ext k pc ac g, reachable e -> has_cam e (mu_id u) ext -> T <> [] ->
  mu_use_true u = true -> msckf_UpdateEKF solve u e t T px = OK (u', e') ->
  mu_poses u' = Some (k, pc, ac) -> no_distortion k ->
  Rabs (1 / (in_f_x k / in_pixel_size k)) <= g -> Rabs (1 / (in_f_y k / in_pixel_size k)) <= g ->
  exists e1 e2, only_predicted e t e1 /\ same_estimates e1 e2 /\
    ((e_size e1 <= pixels T)%nat /\ (forall p, msckf_UpdateEKF solve u e t (seen p 0 T) px = OK (u', e2)) \/
     exists H c G, (1 < nr H)%nat /\ bounded (nr H) (pixels T) g G /\
       forall p y, (forall i, (i < nr H)%nat -> column y i = c i + mv (pixels T) G p i) ->
       exists d e'', msckf_UpdateEKF solve u e t (seen p 0 T) px = OK (u', e'') /\ moved_by e2 H y (in_pixels px (nr H)) d e'').
Proof.
  intros u e t T px u' e' ext k pc ac g Hr HC NE U E PO' K G1 G2.
  destruct (opened u e t T px u' e' ext Hr HC NE E) as (e1 & c & k0 & pc0 & ac0 & P & Hr1 & PO & UT & EQ).
  rewrite PO in PO'. injection PO' as -> -> ->.
  rewrite (EQ T NE) in E. cbv zeta in E.
  destruct (track_rows _ _ _ _ _ _ _ _ _ _ _ _) as [[[[Hx rx] ct] e2]|] eqn:ET; cbn [bind] in E; [|discriminate].
  destruct (track_rows_looked _ _ _ _ _ _ _ _ _ _ _ _ _ _ _ _ Hr1 ET) as [LK [N1 [N2 [N3 N4]]]]. mz.
  destruct (tracks_misses solve _ _ _ _ _ _ _ _ _ _ _ _ _ _ _ _ (same_refl e1) ET) as (S & _ & _).
  assert (SZ : e_size e2 = e_size e1) by (destruct S as [m [-> _]]; reflexivity).
  exists e1, e2. split; [exact P|]. split; [exact S|].
  assert (B0 : bounded (nr (mzero (max_meas_size T) 1)) 0 g zm).
  { intros v. unfold mv. cbn [rsum]. unfold length2. rewrite rsum_0 by (intros; ring). cbn. nra. }
  assert (UT' : mu_use_true u' = true) by congruence.
  destruct (tracks_pixels solve _ _ _ _ _ _ _ _ _ _ _ _ _ _ _ g UT' K G1 G2 ET 0%nat (fun _ => 0) zm B0) as (c' & G' & BD & TP).
  mz. cbn [plus] in BD, TP.
  assert (NS : forall p, seen p 0 T <> []) by (intros p; destruct T; [congruence|discriminate]).
  assert (RUN : forall p, exists rx', track_rows solve u' k pc ac (e_size e1) c e1 (seen p 0 T) 0 (mzero (max_meas_size T) (e_size e1)) (mzero (max_meas_size T) 1) = OK (Hx, rx', ct, e2) /\
     fit (max_meas_size T) (pixels T) c' G' p rx').
  { intros p. apply TP. split; [reflexivity|]. split; [reflexivity|]. intros i Hi. cbn. unfold mv. cbn. ring. }
  destruct (used _ _ _ _ _ _ _ _ _ _ _ _ _ _ _ UT' ET) as [_ UD]. destruct (UD NE) as [CTP M4].
  assert (CT : Nat.eqb ct 0 = false) by (apply Nat.eqb_neq; lia).
  destruct (compress_map Hx) as (Q & J' & C1 & C2 & C3 & C4).
  assert (RUN2 : forall p, exists rx' r', track_rows solve u' k pc ac (e_size e1) c e1 (seen p 0 T) 0 (mzero (max_meas_size T) (e_size e1)) (mzero (max_meas_size T) 1) = OK (Hx, rx', ct, e2) /\
     CompressMeasurements Hx rx' = OK (J', r') /\ nr r' = nr J' /\ nc r' = 1%nat /\
     forall i, (i < nr J')%nat -> column r' i = mv (nr Hx) Q c' i + mv (pixels T) (mm (nr Hx) Q G') p i).
  { intros p. destruct (RUN p) as [rx' [X (F1 & F2 & F3)]]. destruct (C4 rx' ltac:(congruence) F2) as (r' & EC & R1 & R2 & R3).
    exists rx', r'. repeat (split; [assumption|]). intros i Hi. unfold column. rewrite R3 by lia.
    rewrite (proj2 (composed (nr Hx) (nr J') (pixels T) g Q G' C3 ltac:(rewrite N1; exact BD))).
    unfold mv at 1 2 3. rewrite <- rsum_plus. apply rsum_ext. intros l Hl. rewrite N1 in Hl. rewrite F3 by exact Hl. ring. }
  destruct (Nat.leb (nr J') 1) eqn:LE.
  { left. split.
    { apply Nat.leb_le in LE. destruct (Nat.le_gt_cases (e_size e1) (pixels T)) as [|X]; [assumption|]. rewrite <- meas_pixels in X.
      pose proof (proj2 C2 ltac:(lia)). lia. }
    intros p. rewrite (EQ _ (NS p)), seen_size. cbv zeta. destruct (RUN2 p) as (rx' & r' & -> & EC & R1 & _). cbn [bind]. rewrite CT, EC. cbn [bind].
    rewrite R1, LE. reflexivity. }
  right. apply Nat.leb_gt in LE. exists J', (mv (nr Hx) Q c'), (mm (nr Hx) Q G'). split; [exact LE|]. split; [apply (composed (nr Hx) (nr J') (pixels T) g Q G' C3); rewrite N1; exact BD|].
  intros p y Y. destruct (RUN2 p) as (rx' & r' & X & EC & R1 & R2 & R3).
  destruct (pixel_moved e2 J' r' px (looked_reach _ _ LK) ltac:(congruence) R1 R2) as [e3 [d [EK M]]].
  exists d, e3. split.
  - rewrite (EQ _ (NS p)), seen_size. cbv zeta. rewrite X. cbn [bind]. rewrite CT, EC. cbn [bind]. rewrite R1. rewrite (proj2 (Nat.leb_gt _ _) LE). rewrite R1 in EK. rewrite EK. reflexivity.
  - rewrite R1 in M. apply (moved_col e2 J' r'); [|exact M]. intros i Hi. rewrite R3, Y by exact Hi. reflexivity.
Qed.

(** *** By chance *)
Lemma transposed : forall m n g (G : fmat) x, 0 < g -> bounded m n g G -> length2 n (fun j => rsum m (fun i => x i * G i j)) <= g * g * length2 m x.
Proof.
  intros m n g G x Hg B. set (z := fun j => rsum m (fun i => x i * G i j)).
  assert (Z : rsum m (fun i => x i * mv n G z i) = length2 n z).
  { unfold mv. rewrite (rsum_ext m _ (fun i => rsum n (fun j => x i * G i j * z j))) by (intros; rewrite <- rsum_scal_l; apply rsum_ext; intros; ring).
    rewrite rsum_swap. unfold length2. apply rsum_ext. intros j _. rewrite rsum_scal_r. reflexivity. }
  assert (P : 0 <= rsum m (fun i => (mv n G z i - g * g * x i) * (mv n G z i - g * g * x i))) by (apply rsum_nonneg; intros; apply (Rle_0_sqr (mv n G z i - g * g * x i))).
  rewrite (rsum_ext m _ (fun i => mv n G z i * mv n G z i + (-2 * (g * g)) * (x i * mv n G z i) + (g * g * (g * g)) * (x i * x i))) in P by (intros; ring).
  rewrite !rsum_plus, !rsum_scal_l, Z in P. pose proof (B z) as Bz. fold (length2 m (mv n G z)) in P. fold (length2 m x) in P.
  assert (GG : 0 < g * g) by nra. apply Rmult_le_reg_l with (g * g); [exact GG|]. lra.
Qed.

Lemma pixel_noise : forall A (L : law A), chances L -> forall m n g s c (G : fmat) (p : A -> nat -> R) (y : A -> nat -> R) x, 0 < g -> bounded m n g G ->
  blurred L n p s -> (forall a i, (i < m)%nat -> y a i = c i + mv n G (p a) i) ->
  qf m (fun i j => spread L (fun a => y a i) (fun a => y a j)) x <= (s * g) * (s * g) * length2 m x.
Proof.
  intros A L W m n g s c G p y x Hg B BL Y. set (z := fun j => rsum m (fun i => x i * G i j)).
  assert (ONE : forall i j, (i < m)%nat -> (j < m)%nat -> spread L (fun a => y a i) (fun a => y a j) = s * s * rsum n (fun k => G i k * G j k)).
  { intros i j Hi Hj. rewrite (spread_ext L _ (fun a => c i + mv n G (p a) i) _ (fun a => c j + mv n G (p a) j)) by (intros a; apply Y; assumption).
    rewrite (spread_plus_l L (fun _ => c i)), !(spread_plus_r L _ (fun _ => c j)), !(spread_const L W), (spread_sym L _ (fun _ => c j)), (spread_const L W).
    unfold mv. rewrite (spread_rsum_l L n (fun a k => G i k * p a k)). rewrite (rsum_ext n _ (fun k => s * s * (G i k * G j k))).
    2:{ intros k Hk. rewrite (spread_scal_l L (G i k) (fun a => p a k)), (spread_rsum_r L n (fun a l => G j l * p a l)).
        rewrite (rsum_single n k); [|exact Hk|].
        - rewrite (spread_scal_r L (G j k) _ (fun a => p a k)), (BL k k Hk Hk), Nat.eqb_refl. ring.
        - intros l Hl N. rewrite (spread_scal_r L (G j l) _ (fun a => p a l)), (BL k l Hk Hl), (proj2 (Nat.eqb_neq k l)) by auto. ring. }
    rewrite rsum_scal_l. ring. }
  assert (QF : qf m (fun i j => spread L (fun a => y a i) (fun a => y a j)) x = s * s * length2 n z).
  { unfold qf, dot, mv.
    rewrite (rsum_ext m _ (fun i => rsum m (fun j => rsum n (fun k => s * s * (x i * G i k * (x j * G j k)))))).
    2:{ intros i Hi. rewrite <- rsum_scal_l. apply rsum_ext. intros j Hj. rewrite ONE by assumption.
        rewrite rsum_scal_l. replace (rsum n (fun k => x i * G i k * (x j * G j k))) with (x i * x j * rsum n (fun k => G i k * G j k)); [ring|].
        rewrite <- rsum_scal_l. apply rsum_ext. intros k _. ring. }
    rewrite (rsum_ext m _ (fun i => rsum n (fun k => s * s * (x i * G i k * z k)))).
    2:{ intros i Hi. rewrite rsum_swap. apply rsum_ext. intros k _. unfold z. rewrite !rsum_scal_l. reflexivity. }
    rewrite rsum_swap. unfold length2. rewrite <- rsum_scal_l. apply rsum_ext. intros k _. rewrite rsum_scal_l. f_equal.
    unfold z at 2. rewrite <- rsum_scal_r. reflexivity. }
  rewrite QF. pose proof (transposed m n g G x Hg B) as T. fold z in T.
  replace (s * g * (s * g) * length2 m x) with (s * s * (g * g * length2 m x)) by ring.
  apply Rmult_le_compat_l; [apply Rle_0_sqr|exact T].
Qed.

Lemma tracks_noise : forall A (L : law A), chances L ->
  forall u e t T px u' e' ext k pc ac g s p, reachable e -> has_cam e (mu_id u) ext -> T <> [] ->
  mu_use_true u = true -> msckf_UpdateEKF solve u e t T px = OK (u', e') ->
  mu_poses u' = Some (k, pc, ac) -> no_distortion k -> 0 < g ->
  Rabs (1 / (in_f_x k / in_pixel_size k)) <= g -> Rabs (1 / (in_f_y k / in_pixel_size k)) <= g ->
  blurred L (pixels T) p s ->
  exists e1 e2, only_predicted e t e1 /\ same_estimates e1 e2 /\
    ((e_size e1 <= pixels T)%nat /\ (forall a, msckf_UpdateEKF solve u e t (seen (p a) 0 T) px = OK (u', e2)) \/
     exists H y, (1 < nr H)%nat /\ (forall a, nr (y a) = nr H /\ exists d e'', msckf_UpdateEKF solve u e t (seen (p a) 0 T) px = OK (u', e'') /\
         moved_by e2 H (y a) (in_pixels px (nr H)) d e'') /\
       forall x, qf (nr H) (fun i j => spread L (fun a => column (y a) i) (fun a => column (y a) j)) x <= (s * g) * (s * g) * length2 (nr H) x).
Proof.
  intros A L W u e t T px u' e' ext k pc ac g s p Hr HC NE U E PO K Hg G1 G2 BL.
  destruct (repixelled u e t T px u' e' ext k pc ac g Hr HC NE U E PO K G1 G2) as (e1 & e2 & P & S & [[D0 D]|(H & c & G & M1 & B & M)]).
  - exists e1, e2. split; [exact P|]. split; [exact S|]. left. split; [exact D0|]. intros a. apply D.
  - exists e1, e2. split; [exact P|]. split; [exact S|]. right.
    exists H, (fun a => mkmat (nr H) 1 (fun i _ => c i + mv (pixels T) G (p a) i)). split; [exact M1|]. split.
    + intros a. split; [reflexivity|]. apply (M (p a)). intros i Hi. reflexivity.
    + intros x. apply (pixel_noise A L W (nr H) (pixels T) g s c G p); auto.
Qed.
End F.
