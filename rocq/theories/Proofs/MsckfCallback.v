(** The camera callback: multi-state constraint update. *)
From Coq Require Import Reals List Arith Bool Lia Lra.
From Verif Require Import Base.Res Base.Mat Base.RDec Base.RSum Base.LinAlg Base.Inverse Base.Geom Base.AMap Base.RMat
  Model.TypeHelper Model.Types Model.MathHelperMat Model.MathHelper Model.Matrix3 Model.Ekf Model.Updater Model.Ops
  Model.MsckfUpdater
  Spec.Layout Spec.History Spec.Contract Spec.Correct Spec.Named Spec.Same Spec.Callback Spec.KF
  Proofs.Refresh Proofs.Wf Proofs.Register Proofs.Augment Proofs.Invariant Proofs.Named Proofs.Same Proofs.Update
  Proofs.Scalars Proofs.Clock Proofs.Effects Proofs.Columns Proofs.Kalman Proofs.CovGood Proofs.Follows Proofs.BlockDiag
  Proofs.ImuCallback Proofs.GpsCallback.
Import ListNotations.
Open Scope nat_scope.

(** Reading a clone inserts at most an empty window. *)
Definition looked (e e' : ekf) : Prop :=
  went e e' /\ same_clock e e' /\ frame' e e' /\ e_size e' = e_size e /\ e_cov e' = e_cov e /\
  bare (state_with_aug (e_state e') []) = bare (state_with_aug (e_state e) []) /\ forall k, aug_at e' k = aug_at e k.
Lemma looked_refl : forall e, reachable e -> looked e e.
Proof.
  intros e H. split; [apply went_refl; exact H|]. split; [apply same_clock_refl|]. repeat split.
Qed.
Lemma looked_trans : forall a b c, looked a b -> looked b c -> looked a c.
Proof.
  intros a b c [A1 [A2 [A3 [A4 [A5 [A6 A7]]]]]] [B1 [B2 [B3 [B4 [B5 [B6 B7]]]]]].
  split; [eapply went_trans; eauto|]. split; [eapply same_clock_trans; eauto|]. split; [eapply frame'_trans; eauto|].
  split; [congruence|]. split; [congruence|]. split; [congruence|]. intros k. rewrite B7. apply A7.
Qed.
Lemma looked_reach : forall e e', looked e e' -> reachable e'.
Proof. intros e e' [H _]. apply (w_reach _ _ H). Qed.

Lemma touch_at : forall e k j, aug_at (touch_aug e k) j = aug_at e j.
Proof.
  intros e k j. unfold aug_at, touch_aug. cbn. unfold mtouch, mget.
  destruct (mfind k (s_aug (e_state e))) eqn:E; [reflexivity|].
  destruct (Nat.eq_dec j k) as [->|H].
  - rewrite mfind_mset_eq, E. reflexivity.
  - rewrite mfind_mset_neq by congruence. reflexivity.
Qed.

Lemma touch_looked : forall e k, reachable e -> own_window e k -> looked e (touch_aug e k).
Proof.
  intros e k Hr Ho.
  assert (E : exists a, GetAugState e k 0 0 = OK (a, touch_aug e k)).
  { unfold GetAugState. destruct Ho as [H|[H ->]]; rewrite H; cbn [orb andb]; rewrite ?Nat.eqb_refl; eauto. }
  destruct E as [a E].
  split; [apply (went_step e (OGetAug k 0 0)); auto; try exact Logic.I; [left; exact Ho|cbn [step]; rewrite E; reflexivity]|].
  split; [repeat split|]. split; [repeat split|]. split; [reflexivity|]. split; [reflexivity|]. split; [reflexivity|].
  intros j. apply touch_at.
Qed.

Lemma aug_looked : forall e id f t a e', reachable e -> GetAugState e id f t = OK (a, e') -> looked e e'.
Proof.
  intros e id f t a e' Hr E. unfold GetAugState in E.
  destruct (_ || _) eqn:B.
  - injection E as <- <-. apply touch_looked; auto. unfold own_window. destruct (p_aug (e_par e)); cbn in B; try discriminate; auto.
    right. split; [reflexivity|]. apply Nat.eqb_eq in B. exact B.
  - set (key := match p_aug (e_par e) with APrimary => e_primary e | _ => 0 end) in E. cbv zeta in E.
    rewrite touch_at in E.
    destruct (vnth (aug_at e key) 0) as [x|] eqn:V; [|discriminate]. cbn [bind] in E.
    assert (T : touch_aug e key = e).
    { unfold touch_aug. rewrite mtouch_present.
      - replace (state_with_aug (e_state e) (s_aug (e_state e))) with (e_state e) by (destruct (e_state e); reflexivity).
        apply with_state_id.
      - intro N. unfold aug_at, mget in V. rewrite N in V. discriminate. }
    rewrite T in E. destruct (back (aug_at e key)) as [y|]; [|discriminate]. cbn [bind] in E.
    match type of E with (let '(_, _) := ?p in _) = _ => destruct p as [[al s0] s1] end.
    destruct al as [al|]; [|discriminate]. cbn [bind] in E. injection E as _ <-. apply looked_refl; exact Hr.
Qed.

Lemma set_block_shape : forall T (m : mat T) i j p q b m', set_block m i j p q b = OK m' -> nr m' = nr m /\ nc m' = nc m.
Proof.
  intros T m a b c d m1 m' Hs. unfold set_block, guard in Hs. destruct (_ && _ && _ && _); [|discriminate].
  injection Hs as <-. split; reflexivity.
Qed.

Section Cb.
Variable solve : mat R -> V3 -> V3.

Lemma tri_rows_looked : forall l u k pc ac a0 e A b A' b' e', reachable e ->
  tri_rows u k pc ac a0 e l A b = OK (A', b', e') -> looked e e'.
Proof.
  induction l as [|f l IH]; intros u k pc ac a0 e A b A' b' e' Hr E.
  - cbn in E. injection E as _ _ <-. apply looked_refl; exact Hr.
  - cbn [tri_rows] in E. destruct (GetAugState e (mu_id u) (fp_frame f) (fp_time f)) as [[ai e1]|] eqn:E1; [|discriminate].
    pose proof (aug_looked _ _ _ _ _ _ Hr E1) as L. cbn [bind] in E. cbv zeta in E.
    destruct (undo_pixel k (fp_kp f)) as [[x y]|]; [|discriminate]. cbn [bind] in E.
    destruct (rdiv 1 _) as [s|]; [|discriminate]. cbn [bind] in E.
    apply looked_trans with e1; [exact L|]. eapply IH; [|exact E]. eapply looked_reach; eauto.
Qed.

Lemma triangulate_looked : forall u k pc ac e t p e', reachable e ->
  TriangulateFeature solve u k pc ac e t = OK (p, e') -> looked e e'.
Proof.
  intros u k pc ac e t p e' Hr E. unfold TriangulateFeature in E.
  destruct (vnth (ft_track t) 0) as [f0|]; [|discriminate]. cbn [bind] in E.
  destruct (GetAugState e (mu_id u) (fp_frame f0) (fp_time f0)) as [[a0 e1]|] eqn:E1; [|discriminate]. cbn [bind] in E.
  pose proof (aug_looked _ _ _ _ _ _ Hr E1) as L.
  destruct (tri_rows u k pc ac a0 e1 (ft_track t) (mzero 3 3) v0) as [[[A b] e2]|] eqn:E2; [|discriminate]. cbn [bind] in E.
  pose proof (tri_rows_looked _ _ _ _ _ _ _ _ _ _ _ _ (looked_reach _ _ L) E2) as L2.
  assert (X : e' = e2).
  { destruct (mu_use_true u); [destruct (ft_true t); [injection E as _ <-; reflexivity|discriminate]|].
    destruct (_ || _); injection E as _ <-; reflexivity. }
  subst e'. eapply looked_trans; eauto.
Qed.

Ltac peel E :=
  match type of E with
  | bind ?x _ = OK _ => let m := fresh "m" in let X := fresh "X" in
      destruct x as [m|] eqn:X; [|discriminate E]; cbn [bind] in E
  end.

Lemma feature_row_looked : forall u k pc ac n ci pf e i f rf Hf Hc rf' Hf' Hc' e', reachable e ->
  feature_row u k pc ac n ci pf e i f rf Hf Hc = OK (rf', Hf', Hc', e') ->
  looked e e' /\ nr rf' = nr rf /\ nc rf' = nc rf /\ nr Hf' = nr Hf /\ nc Hf' = nc Hf /\ nr Hc' = nr Hc /\ nc Hc' = nc Hc.
Proof.
  intros u k pc ac n ci pf e i f rf Hf Hc rf' Hf' Hc' e' Hr E. unfold feature_row in E.
  destruct (GetAugState e (mu_id u) (fp_frame f) (fp_time f)) as [[ai e1]|] eqn:E1; [|discriminate].
  pose proof (aug_looked _ _ _ _ _ _ Hr E1) as L. cbn [bind] in E. cbv zeta in E.
  destruct (Project _) as [[px py]|]; [|discriminate]. cbn [bind] in E.
  destruct (undo_pixel k (fp_kp f)) as [[mx my]|]; [|discriminate]. cbn [bind] in E.
  peel E. apply set_block_shape in X. peel E. clear X0. peel E. apply set_block_shape in X0.
  match type of E with bind ?x _ = _ => destruct x as [m3|] eqn:Y; [|discriminate E] end. cbn [bind] in E.
  assert (Y' : nr m3 = nr Hc /\ nc m3 = nc Hc).
  { destruct (mu_ext u); [|injection Y as <-; auto]. peel Y. apply set_block_shape in X1. apply set_block_shape in Y.
    destruct X1, Y. split; congruence. }
  clear Y. rename Y' into Y.
  match type of E with bind ?x _ = _ => destruct x as [m4|] eqn:Z; [|discriminate E] end. cbn [bind] in E.
  assert (Z' : nr m4 = nr m3 /\ nc m4 = nc m3).
  { destruct (negb _).
    - peel Z. apply set_block_shape in X1. destruct (Nat.ltb _ _).
      + peel Z. peel Z. peel Z. apply set_block_shape in X4. apply set_block_shape in Z. destruct X1, X4, Z. split; congruence.
      + apply set_block_shape in Z. destruct X1, Z. split; congruence.
    - apply set_block_shape in Z. exact Z. }
  clear Z. rename Z' into Z. injection E as <- <- <- <-. destruct X, X0, Y, Z. split; [exact L|]. repeat split; congruence.
Qed.

Lemma feature_rows_looked : forall l u k pc ac n ci pf e i rf Hf Hc rf' Hf' Hc' e', reachable e ->
  feature_rows u k pc ac n ci pf e i l rf Hf Hc = OK (rf', Hf', Hc', e') ->
  looked e e' /\ nr rf' = nr rf /\ nc rf' = nc rf /\ nr Hf' = nr Hf /\ nc Hf' = nc Hf /\ nr Hc' = nr Hc /\ nc Hc' = nc Hc.
Proof.
  induction l as [|f l IH]; intros u k pc ac n ci pf e i rf Hf Hc rf' Hf' Hc' e' Hr E.
  - cbn in E. injection E as <- <- <- <-. split; [apply looked_refl; exact Hr|]. repeat split.
  - cbn [feature_rows] in E.
    destruct (feature_row u k pc ac n ci pf e i f rf Hf Hc) as [[[[r1 f1] c1] e1]|] eqn:E1; [|discriminate]. cbn [bind] in E.
    destruct (feature_row_looked _ _ _ _ _ _ _ _ _ _ _ _ _ _ _ _ _ Hr E1) as [L1 H1].
    destruct (IH _ _ _ _ _ _ _ _ _ _ _ _ _ _ _ _ (looked_reach _ _ L1) E) as [L2 H2].
    split; [eapply looked_trans; eauto|]. decompose [and] H1. decompose [and] H2. repeat split; congruence.
Qed.

Lemma track_rows_looked : forall l u k pc ac n ci e ct Hx rx Hx' rx' ct' e', reachable e ->
  track_rows solve u k pc ac n ci e l ct Hx rx = OK (Hx', rx', ct', e') ->
  looked e e' /\ nr Hx' = nr Hx /\ nc Hx' = nc Hx /\ nr rx' = nr rx /\ nc rx' = nc rx.
Proof.
  induction l as [|t l IH]; intros u k pc ac n ci e ct Hx rx Hx' rx' ct' e' Hr E.
  - cbn in E. injection E as <- <- <- <-. split; [apply looked_refl; exact Hr|]. repeat split.
  - cbn [track_rows] in E.
    destruct (TriangulateFeature solve u k pc ac e t) as [[p e1]|] eqn:E1; [|discriminate]. cbn [bind] in E.
    pose proof (triangulate_looked _ _ _ _ _ _ _ _ Hr E1) as L1. pose proof (looked_reach _ _ L1) as R1.
    destruct p as [pf|].
    2:{ destruct (IH _ _ _ _ _ _ _ _ _ _ _ _ _ _ R1 E) as [L2 H2]. split; [eapply looked_trans; eauto|exact H2]. }
    cbv zeta in E. destruct (feature_rows u k pc ac n ci pf e1 0 (ft_track t) _ _ _) as [[[[r2 f2] c2] e2]|] eqn:E2; [|discriminate].
    cbn [bind] in E. destruct (feature_rows_looked _ _ _ _ _ _ _ _ _ _ _ _ _ _ _ _ _ R1 E2) as [L2 _].
    destruct (ApplyLeftNullspace f2 c2 r2) as [[c3 r3]|]; [|discriminate]. cbn [bind] in E.
    peel E. apply set_block_shape in X. peel E. apply set_block_shape in X0.
    destruct (IH _ _ _ _ _ _ _ _ _ _ _ _ _ _ (looked_reach _ _ L2) E) as [L3 H3].
    split; [eapply looked_trans; [exact L1|]; eapply looked_trans; eauto|].
    decompose [and] H3. destruct X, X0. repeat split; congruence.
Qed.

Definition msame (u u' : msckf_updater) : Prop :=
  mu_id u' = mu_id u /\ mu_ext u' = mu_ext u /\ mu_min_dist u' = mu_min_dist u /\ mu_max_dist u' = mu_max_dist u /\
  mu_use_true u' = mu_use_true u.

Record msckf_done (u : msckf_updater) (e : ekf) (t : R) (u' : msckf_updater) (e' : ekf) : Prop := mkMsckfDone {
  md_went : went e e';
  md_brought : brought e t e';
  md_u : msame u u';
  md_grav : e_gravity e' = e_gravity e;
  md_lla : e_lla_init e' = e_lla_init e }.

Lemma msckf_sound : forall u e t tracks px u' e' ext, reachable e -> has_cam e (mu_id u) ext ->
  msckf_UpdateEKF solve u e t tracks px = OK (u', e') -> msckf_done u e t u' e'.
Proof.
  intros u e t tracks px u' e' ext Hr [c [HK HE]] E. unfold msckf_UpdateEKF in E. rewrite local_of_split in E.
  destruct (local_went e t Hr) as [W0 [L0 [T0 [I0 [F0 [S0 [LL0 GG0]]]]]]].
  set (e0 := snd (CalculateLocalTime e t)) in *. rewrite L0 in E. clearbody e0.
  destruct (predict_went e0 (local_of e t) (w_reach _ _ W0)) as [e1 [E1 [W1 [T1 [T2 [T3 F1]]]]]].
  rewrite E1 in E. cbn [bind] in E. unfold frame' in F1. cbn in F1. decompose [and] F1. clear F1.
  assert (W : went e e1) by (eapply went_trans; eauto). pose proof (w_reach _ _ W) as Hr1.
  assert (D : forall u2 e2, msame u u2 -> went e1 e2 -> same_clock e1 e2 -> frame' e1 e2 -> msckf_done u e t u2 e2).
  { intros u2 e2 M W2 [Sa [Sb Sc]] F. unfold frame' in F. decompose [and] F. constructor; try congruence.
    - eapply went_trans; eauto.
    - apply (clock_brought e t e0); auto; congruence. }
  destruct tracks as [|tr trs].
  { injection E as <- <-. apply D; [repeat split|apply went_refl; exact Hr1|apply same_clock_refl|repeat split]. }
  destruct (w_keeps _ _ W) as [_ [_ [KC _]]]. destruct (KC _ _ HK) as [c1 [HK1 _]].
  rewrite (get_cam_same _ _ _ HK1) in E.
  set (uu := if negb (p_fej (e_par e1)) || mu_first u then mkMU (mu_id u) (mu_ext u) false (Some (c_intr c1, c_pos c1, c_ang c1))
               (mu_min_dist u) (mu_max_dist u) (mu_use_true u) else u).
  assert (EU : (if negb (p_fej (e_par e1)) || mu_first u then
         (mkMU (mu_id u) (mu_ext u) false (Some (c_intr c1, c_pos c1, c_ang c1))
               (mu_min_dist u) (mu_max_dist u) (mu_use_true u), e1)
       else (u, e1)) = (uu, e1)) by (unfold uu; destruct (_ || _); reflexivity).
  rewrite EU in E. assert (M : msame u uu) by (unfold uu; destruct (_ || _); repeat split).
  clearbody uu. clear EU. destruct (mu_poses uu) as [[[k pc] ac]|]; [|discriminate].
  replace (mu_id uu) with (mu_id u) in E by (symmetry; apply M). rewrite (get_cam_same _ _ _ HK1) in E. cbv zeta in E.
  destruct (track_rows solve uu k pc ac (e_size e1) (c_index c1) e1 (tr :: trs) 0 _ _) as [[[[Hx rx] ct] e2]|] eqn:E2; [|discriminate].
  cbn [bind] in E. destruct (track_rows_looked _ _ _ _ _ _ _ _ _ _ _ _ _ _ _ Hr1 E2) as [[L1 [L2 [L3 [L4 [L5 L6]]]]] [N1 [N2 [N3 N4]]]].
  cbn in N1, N2, N3, N4. pose proof (w_reach _ _ L1) as Hr2.
  destruct (Nat.eqb ct 0); [injection E as <- <-; apply D; auto|].
  destruct (CompressMeasurements Hx rx) as [[H' r']|] eqn:E3; [|discriminate]. cbn [bind] in E.
  destruct (compress_shape _ _ _ _ E3) as [C1 [C2 C3]]; [congruence|congruence|].
  destruct (Nat.leb (nr r') 1); [injection E as <- <-; apply D; auto|].
  assert (PX : (0 < Rmax px (1 / 2))%R) by (pose proof (Rmax_r px (1 / 2)); lra).
  match type of E with bind (KalmanUpdate _ _ _ ?n) _ = _ => destruct (kalman_went e2 H' r' n Hr2) as [e3 [E4 [W3 [S3 F3]]]] end.
  { apply (noise_meas _ (nr r')); [|congruence|congruence|reflexivity|exact C3].
    apply (diag_noise_ok _ _ _ (fun _ => (Rmax px (1 / 2) * Rmax px (1 / 2))%R)); [reflexivity|reflexivity|intros; nra|].
    intros a b Ha Hb. cbn. unfold mscal, idm, diagm. destruct (Nat.eqb a b); ring. }
  rewrite E4 in E. cbn [bind] in E. injection E as <- <-.
  apply D; [exact M|eapply went_trans; eauto|eapply same_clock_trans; eauto|eapply frame'_trans; eauto].
Qed.
End Cb.
