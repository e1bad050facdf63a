(** Statements about whole calls and histories assembled from the lemmas. *)
From Coq Require Import Reals List Arith Bool Lia Lra.
From Verif Require Import Base.Res Base.Mat Base.RDec Base.RSum Base.LinAlg Base.Geom Base.AMap Base.RMat
  Model.TypeHelper Model.Types Model.MathHelperMat Model.Ekf Model.Updater Model.Ops
  Spec.Layout Spec.History Spec.Contract Spec.Correct Spec.Named Spec.Same Spec.KF Spec.Motion
  Proofs.MatSurgery Proofs.Refresh Proofs.Wf Proofs.Register Proofs.Augment Proofs.Predict Proofs.Kalman Proofs.CovGood
  Proofs.PlusVec Proofs.Invariant Proofs.Named Proofs.Clones Proofs.Same Proofs.Update
  Proofs.Sizes Proofs.Scalars Proofs.Clock Proofs.Effects Proofs.Windows Proofs.Pruning Proofs.CloneFacts Proofs.Demo Proofs.RegRefute.
Import ListNotations.
Open Scope nat_scope.

(** *** Covariances *)
Lemma psd_entry : forall n P i, psd n P -> i < n -> (0 <= P i i)%R.
Proof.
  intros n P i [_ H] Hi. specialize (H (fun k => if Nat.eqb k i then 1%R else 0%R)).
  rewrite qf_expand in H. rewrite (rsum_single n i) in H; auto.
  - rewrite (rsum_single n i) in H; auto.
    + rewrite Nat.eqb_refl in H. lra.
    + intros k Hk Hki. apply Nat.eqb_neq in Hki. rewrite Hki. ring.
  - intros k Hk Hki. apply rsum_0. intros j _. apply Nat.eqb_neq in Hki. rewrite Hki. ring.
Qed.

Lemma covariance_psd : forall e, inv e -> psd (e_size e) (covariance e).
Proof.
  intros e [W G]. unfold covariance, stands_for, is_root, good in *. destruct (p_root (e_par e)); [|exact G].
  apply psd_gram.
Qed.

(** *** Insert after insert *)
Lemma Insert_Insert_comm : forall T (z : T) (m s t : mat T) p q,
  nr m = nc m -> nr s = nc s -> nr t = nc t -> p <= q -> q <= nr m ->
  exists a b c d,
    InsertInMatrix z t m q q = OK a /\ InsertInMatrix z s a p p = OK b /\
    InsertInMatrix z s m p p = OK c /\ InsertInMatrix z t c (q + nr s) (q + nr s) = OK d /\
    meq b d.
Proof.
  intros T z m s t p q Hm Hs Ht Hpq Hq.
  destruct (Insert_spec T z t m q q) as [a [Ea [A1 [A2 A3]]]]; try lia.
  destruct (Insert_spec T z s a p p) as [b [Eb [B1 [B2 B3]]]]; try lia.
  destruct (Insert_spec T z s m p p) as [c [Ec [C1 [C2 C3]]]]; try lia.
  destruct (Insert_spec T z t c (q + nr s) (q + nr s)) as [d [Ed [D1 [D2 D3]]]]; try lia.
  exists a, b, c, d. do 4 (split; [assumption|]). split; [lia|]. split; [lia|].
  intros i j Hi Hj. rewrite B3, D3 by lia. unfold insert_entry.
  assert (U : forall pos len i, unshift pos len i = if i <? pos then Some i else if i <? pos + len then None else Some (i - len))
    by reflexivity.
  rewrite <- Hs, <- Ht in *.
  assert (KA : forall x y, x < nr m + nr t -> y < nr m + nr t -> ent a x y = insert_entry z t m q q x y) by (intros; apply A3; lia).
  assert (KC : forall x y, x < nr m + nr s -> y < nr m + nr s -> ent c x y = insert_entry z s m p p x y) by (intros; apply C3; lia).
  unfold insert_entry in *. rewrite <- Hs, <- Ht in *. rewrite !U.
  repeat match goal with |- context [?x <? ?y] => destruct (Nat.ltb_spec x y); try lia end;
    rewrite ?KA, ?KC by lia; rewrite ?U;
    repeat match goal with |- context [?x <? ?y] => destruct (Nat.ltb_spec x y); try lia end;
    try reflexivity; f_equal; lia.
Qed.

(** *** Prediction *)
Lemma augment_bare : forall e e', wf e -> AugmentStateIfNeeded e = OK e' ->
  bare (state_with_aug (e_state e') []) = bare (state_with_aug (e_state e) []).
Proof.
  intros e e' W E. destruct (AugmentStateIfNeeded_ok e W) as [e2 [E2 [_ [H1 H2]]]]. rewrite E in E2. injection E2 as <-.
  destruct (timed_dec e) as [T|T]; [|rewrite (H1 T); reflexivity].
  destruct (H2 T) as [needed [em [_ [_ [_ [R [_ HC]]]]]]]. clear H1 H2.
  assert (HB : forall s m, bare (state_with_aug (ix_state (state_with_aug s m)) []) = bare (state_with_aug s [])).
  { intros s m. pose proof (bare_ix (state_with_aug s m)) as X. apply bare_parts in X.
    destruct X as [X1 [X2 [X3 [X4 [X5 _]]]]]. unfold bare. cbn [state_with_aug s_body s_imu s_gps s_cam s_fid s_aug] in *.
    rewrite X1, X2, X3, X4, X5. reflexivity. }
  assert (HR : forall a b, rems a b -> bare (state_with_aug (e_state b) []) = bare (state_with_aug (e_state a) [])).
  { intros a b Rb. induction Rb as [a|a i b c R1 _ IH]; [reflexivity|]. rewrite IH.
    destruct R1 as [_ [_ [S _]]]. rewrite S. apply HB. }
  assert (HM : bare (state_with_aug (e_state em) []) = bare (state_with_aug (e_state e) [])) by (rewrite (HR _ _ R); reflexivity).
  destruct (needed && e_frame_recv e); [|subst e'; exact HM].
  destruct HC as [_ [S _]]. rewrite S, HB. exact HM.
Qed.

Lemma predict_moves : forall e t, reachable e -> e_gravity e = true -> (e_time e <= t)%R ->
  exists e1 e', PredictModel e t = OK e' /\ AugmentStateIfNeeded e1 = OK e' /\ (~ timed e -> e' = e1) /\
    moved (e_zero_acc e) (t - e_time e) (s_body (e_state e)) (s_body (e_state e1)) /\
    e_state e1 = state_with_body (e_state e) (s_body (e_state e1)) /\
    bare (state_with_aug (e_state e') []) = bare (state_with_aug (e_state e1) []) /\
    frame (with_time e t) e1 /\ cam_frame e e1 /\ e_Q e1 = e_Q e /\ e_size e1 = e_size e /\
    (p_root (e_par e) = false ->
       eqm (e_size e) (e_size e) (covariance e1)
         (predicted (e_size e) (t - e_time e) (covariance e) (fun i => ent (e_Q e) i i))).
Proof.
  intros e t Hr Hg Ht. pose proof (reachable_inv e Hr) as I. pose proof (proj1 I) as W.
  destruct (step_inv e (OPredict t) I Logic.I) as [e' [E I']]. cbn [step] in E.
  destruct (predict_full e t e' I E) as [[X _]|[_ [e1 [H1 [I1 H2]]]]]; [lra|].
  exists e1, e'. split; [exact E|]. split; [exact H2|].
  unfold model_step in H1. rewrite Hg in H1. destruct H1 as [c [Ec ->]].
  split. { intros T. rewrite not_timed_augment in H2 by exact T. injection H2 as <-. reflexivity. }
  split.
  { constructor; cbn [e_state with_time with_cov with_state s_body state_with_body predict_body b_pos b_vel b_ang b_acc b_ang_vel b_ang_acc]; try reflexivity.
    - destruct (e_zero_acc e); [reflexivity|]. unfold earth_gravity, g_gravity. do 3 f_equal. f_equal. lra.
    - f_equal. f_equal. unfold vscale. f_equal; ring. }
  split; [reflexivity|]. split; [apply (augment_bare _ _ (proj1 I1) H2)|].
  split; [repeat split|]. split; [repeat split|]. split; [reflexivity|]. split; [reflexivity|].
  intros RT. destruct (predict_std_ok e (t - e_time e) RT (wf_nr _ W) (wf_nc _ W)) as [c' [Ec' [_ [_ H]]]].
  { apply (wf_Qr _ W). } { apply (wf_Qc _ W). } { apply size_ge. exact W. }
  rewrite Ec in Ec'. injection Ec' as <-. unfold covariance. cbn [e_par with_time with_cov with_state e_size e_cov].
  rewrite RT. exact H.
Qed.

Lemma predict_rests : forall e t, reachable e -> e_gravity e = false -> (e_time e <= t)%R ->
  exists e', PredictModel e t = OK e' /\ AugmentStateIfNeeded (with_time e t) = OK e' /\
    (~ timed e -> e' = with_time e t) /\
    bare (state_with_aug (e_state e') []) = bare (state_with_aug (e_state e) []).
Proof.
  intros e t Hr Hg Ht. pose proof (reachable_inv e Hr) as I.
  destruct (step_inv e (OPredict t) I Logic.I) as [e' [E I']]. cbn [step] in E.
  destruct (predict_full e t e' I E) as [[X _]|[_ [e1 [H1 [I1 H2]]]]]; [lra|].
  unfold model_step in H1. rewrite Hg in H1. subst e1.
  exists e'. split; [exact E|]. split; [exact H2|]. split.
  - intros T. rewrite not_timed_augment in H2 by exact T. injection H2 as <-. reflexivity.
  - rewrite (augment_bare _ _ (proj1 I1) H2). reflexivity.
Qed.

(** *** Update *)
Lemma segv_ext : forall d d' n i, (forall k, k < n -> ent d k 0 = ent d' k 0) -> i + 2 < n -> segv d i = segv d' i.
Proof. intros d d' n i H Hi. unfold segv. rewrite !H by lia. reflexivity. Qed.

Lemma map_snd_ext : forall A (f g : A -> A) m, (forall id x, In (id, x) m -> f x = g x) -> map (on_snd f) m = map (on_snd g) m.
Proof. intros A f g m H. apply map_ext_in. intros [id x] Hx. unfold on_snd. cbn. rewrite (H id x Hx). reflexivity. Qed.

Lemma correct_ext : forall s d d', index_fields_correct s ->
  (forall k, k < dim s -> ent d k 0 = ent d' k 0) -> correct d s = correct d' s.
Proof.
  intros s d d' [_ [H1 [H2 [H3 [H4 H5]]]]] H. unfold dim in H.
  assert (Hn : forall i lb, nth_error (layout s) i = Some lb -> i < length (layout s)) by (intros i lb X; apply nth_error_Some; congruence).
  assert (SE : forall i lb, nth_error (layout s) (i + 2) = Some lb -> segv d i = segv d' i).
  { intros i lb X. apply (segv_ext d d' (length (layout s))); [exact H|]. eapply Hn. exact X. }
  assert (L18 : forall k, k < 18 -> k < length (layout s)).
  { intros k Hk. unfold layout. rewrite app_length, map_length, seq_length. lia. }
  assert (SB : forall i, i + 2 < 18 -> segv d i = segv d' i).
  { intros i Hi. apply (segv_ext d d' (length (layout s))); [exact H|]. auto. }
  unfold correct. f_equal.
  - unfold correct_body. rewrite !SB by lia. reflexivity.
  - apply map_snd_ext. intros id x Hx. destruct (H1 id x Hx) as [A [B _]]. unfold correct_imu.
    assert (XA : i_ext x = true -> segv d (i_index_ext x) = segv d' (i_index_ext x) /\ segv d (i_index_ext x + 3) = segv d' (i_index_ext x + 3)).
    { intros X. split; eapply SE; [apply (A X 2); lia|]. rewrite <- Nat.add_assoc. apply (A X 5). lia. }
    assert (XB : i_int x = true -> segv d (i_index_int x) = segv d' (i_index_int x) /\ segv d (i_index_int x + 3) = segv d' (i_index_int x + 3)).
    { intros X. split; eapply SE; [apply (B X 2); lia|]. rewrite <- Nat.add_assoc. apply (B X 5). lia. }
    destruct (i_ext x); [destruct (XA eq_refl) as [-> ->]|];
      cbn [i_int i_index_int imu_with_pose]; (destruct (i_int x); [destruct (XB eq_refl) as [-> ->]|]; reflexivity).
  - apply map_snd_ext. intros id x Hx. unfold correct_gps. destruct (g_ext x) eqn:X; [|reflexivity].
    rewrite (SE _ _ (H2 id x Hx X 2 ltac:(lia))). reflexivity.
  - apply map_snd_ext. intros id x Hx. unfold correct_cam. destruct (c_ext x) eqn:X; [|reflexivity].
    rewrite (SE _ _ (H3 id x Hx X 2 ltac:(lia))). rewrite (SE (c_index x + 3) (LCam id 5)); [reflexivity|].
    rewrite <- Nat.add_assoc. apply (H3 id x Hx X 5). lia.
  - apply map_snd_ext. intros id x Hx. unfold correct_fid. destruct (f_ext x) eqn:X; [|reflexivity].
    rewrite (SE _ _ (H4 id x Hx X 2 ltac:(lia))). rewrite (SE (f_index x + 3) (LFid id 5)); [reflexivity|].
    rewrite <- Nat.add_assoc. apply (H4 id x Hx X 5). lia.
  - apply map_snd_ext. intros key l Hl. apply map_ext_in. intros a Ha. apply In_nth_error in Ha. destruct Ha as [pos Ha].
    unfold correct_aug. rewrite (SE _ _ (H5 key l pos a Hl Ha 2 ltac:(lia))).
    rewrite (SE (a_index a + 3) (LAug key pos 5)); [reflexivity|].
    rewrite <- Nat.add_assoc. apply (H5 key l pos a Hl Ha 5). lia.
Qed.

Lemma kalman_optimal : forall e jac y noise, reachable e -> p_root (e_par e) = false ->
  meas_arg false (dim (e_state e)) jac y noise ->
  let n := e_size e in let m := nr jac in
  exists e' K d, KalmanUpdate e jac y noise = OK e' /\
    is_gain n m (covariance e) (ent jac) (ent noise) K /\
    eqm n n (covariance e') (joseph n m (covariance e) (ent jac) (ent noise) K) /\
    eqm n n (covariance e') (msub (covariance e) (mm n (mm m K (ent jac)) (covariance e))) /\
    psd n (covariance e') /\ mle n (covariance e') (covariance e) /\
    (forall K', mle n (covariance e') (joseph n m (covariance e) (ent jac) (ent noise) K')) /\
    nr d = n /\ nc d = 1 /\ (forall i, i < n -> ent d i 0 = mm m K (ent y) i 0) /\
    e_state e' = correct d (e_state e) /\
    (exists c', e' = with_cov (with_state e (e_state e')) c').
Proof.
  intros e jac y noise Hr RT HM. cbv zeta. pose proof (reachable_inv e Hr) as I.
  assert (C : contract e (OKalman jac y noise)) by (cbn; rewrite RT; exact HM).
  destruct (kalman_full e jac y noise I C) as [e' [K [E [K1 [K2 [P1 [P2 [G1 [J1 [[d [D1 [D2 [D3 D4]]]] X]]]]]]]]]].
  rewrite (dim_size e (proj1 I)) in *. rewrite RT in *. cbn [noise_used] in *. set (n := e_size e) in *. set (m := nr jac) in *.
  exists e', (ent K), d. split; [exact E|]. split; [exact G1|]. split; [exact J1|].
  assert (PS : psd m (innov n (covariance e) (ent jac) (ent noise))) by (apply spd_psd; apply innov_spd; assumption).
  assert (SR : symm m (ent noise)) by apply P2. assert (SP : symm n (covariance e)) by apply P1.
  split. { rewrite J1. apply joseph_gain; assumption. }
  split. { eapply psd_ext; [symmetry; exact J1|]. apply joseph_psd; [exact P1|apply spd_psd; exact P2]. }
  split. { unfold mle. eapply psd_ext; [|apply (gain_decreases n m _ _ _ _ SP PS SR G1)]. rewrite J1. reflexivity. }
  split. { intros K'. unfold mle. eapply psd_ext; [|apply (gain_optimal n m _ _ _ _ K' SP PS SR G1)]. rewrite J1. reflexivity. }
  auto.
Qed.

Lemma mm_zero_r : forall m K y i, (forall k, k < m -> y k 0 = 0%R) -> mm m K y i 0 = 0%R.
Proof.
  intros m K y i H. unfold mm. rewrite (rsum_ext m _ (fun _ => 0%R)).
  - apply rsum_0. reflexivity.
  - intros k Hk. rewrite H by exact Hk. ring.
Qed.

Lemma zero_residual : forall e jac y noise e', reachable e -> contract e (OKalman jac y noise) ->
  (forall k, k < nr jac -> ent y k 0 = 0%R) -> KalmanUpdate e jac y noise = OK e' -> e_state e' = e_state e.
Proof.
  intros e jac y noise e' Hr C H E. pose proof (reachable_inv e Hr) as I.
  destruct (kalman_full e jac y noise I C) as [e2 [K [E2 [_ [_ [_ [_ [_ [_ [[d [D1 [D2 [D3 D4]]]] _]]]]]]]]]].
  rewrite E in E2. injection E2 as <-. rewrite D4.
  rewrite (correct_ext (e_state e) d (mkmat (nr d) 1 (fun _ _ => 0%R))).
  - apply correct_zero. reflexivity.
  - apply partition_ok. exact Hr.
  - intros k Hk. rewrite D3 by exact Hk. cbn [ent]. apply mm_zero_r. exact H.
Qed.

(** *** Square-root and covariance form side by side *)
Lemma root_agrees : forall es er jac y noise, reachable es -> reachable er ->
  p_root (e_par es) = false -> p_root (e_par er) = true -> e_state er = e_state es ->
  eqm (e_size es) (e_size es) (covariance er) (covariance es) ->
  meas_arg false (dim (e_state es)) jac y noise ->
  (forall i j, i < nr jac -> j < nr jac -> i <> j -> ent noise i j = 0%R) ->
  exists es' er', KalmanUpdate es jac y noise = OK es' /\ KalmanUpdate er jac y noise = OK er' /\
    e_state er' = e_state es' /\ eqm (e_size es) (e_size es) (covariance er') (covariance es').
Proof.
  intros es er jac y noise Rs Rr Ts Tr S HC HM HD.
  pose proof (reachable_inv es Rs) as Is. pose proof (reachable_inv er Rr) as Ir.
  destruct HM as [M1 [M2 [M3 [M4 [M5 M6]]]]].
  assert (Hn : forall i, i < nr jac -> (0 <= ent noise i i)%R).
  { intros i Hi. apply spd_psd in M6. apply (psd_entry (nr jac)); assumption. }
  pose proof (gram_sqrt_diag (nr jac) (ent noise) HD Hn) as GS.
  assert (Cs : contract es (OKalman jac y noise)).
  { cbn. rewrite Ts. repeat split; auto; apply M6. }
  assert (Cr : contract er (OKalman jac y noise)).
  { cbn. rewrite Tr, S. split; [exact M1|]. split; [exact M2|]. split; [exact M3|]. split; [exact M4|]. split; [exact M5|].
    split.
    - intros i j Hi Hj. destruct (Nat.eq_dec i j) as [->|X]; [auto|]. rewrite HD by auto. lra.
    - eapply spd_ext; [symmetry; exact GS|exact M6]. }
  destruct (kalman_full es jac y noise Is Cs) as [es' [Ks [Es [Ks1 [Ks2 [Ps1 [Ps2 [Gs [Js [[ds [Ds1 [Ds2 [Ds3 Ds4]]]] _]]]]]]]]]].
  destruct (kalman_full er jac y noise Ir Cr) as [er' [Kr [Er [Kr1 [Kr2 [Pr1 [Pr2 [Gr [Jr [[dr [Dr1 [Dr2 [Dr3 Dr4]]]] _]]]]]]]]]].
  rewrite S in *. rewrite (dim_size es (proj1 Is)) in *. rewrite Ts in *. rewrite Tr in *. cbn [noise_used] in *.
  set (n := e_size es) in *. set (m := nr jac) in *.
  exists es', er'. split; [exact Es|]. split; [exact Er|].
  assert (HI : eqm m m (innov n (covariance er) (ent jac) (gram m (fun i j => sqrt (ent noise i j)))) (innov n (covariance es) (ent jac) (ent noise))).
  { unfold innov. apply madd_proper; [|exact GS]. apply mm_ext_l. apply mm_ext_r. exact HC. }
  assert (GK : is_gain n m (covariance es) (ent jac) (ent noise) (ent Kr)).
  { unfold is_gain in *. transitivity (mm n (covariance er) (tr (ent jac))).
    - rewrite <- Gr. apply mm_ext_r. symmetry. exact HI.
    - apply mm_ext_l. exact HC. }
  assert (KK : eqm n m (ent Ks) (ent Kr)).
  { apply (gain_unique n m (covariance es) (ent jac) (ent noise)); auto. apply innov_spd; assumption. }
  split.
  - rewrite Dr4, Ds4. apply correct_ext; [apply partition_ok; exact Rs|].
    rewrite (dim_size es (proj1 Is)). fold n. intros k Hk. rewrite Ds3, Dr3 by exact Hk.
    unfold mm. apply rsum_ext. intros l Hl. rewrite KK by auto. reflexivity.
  - rewrite Jr, Js. apply joseph_ext; [exact HC|exact GS|symmetry; exact KK].
Qed.

(** *** Histories *)
Lemma run_unit : forall p q pe a l e, noise_arg q -> respects (EKF_init p q pe a) l ->
  Forall unit_arg l -> run (EKF_init p q pe a) l = OK e -> all_unit (e_state e).
Proof.
  intros p q pe a l e Hq Hr Hu E.
  destruct (run_ind (fun x => all_unit (e_state x)) unit_arg l (EKF_init p q pe a) e) as [H _]; auto using init_inv.
  - intros. eapply step_unit; eauto.
  - repeat split; try constructor. cbn. apply qnorm2_id.
Qed.

Lemma qrot_length : forall q v, qnorm2 q = 1%R -> vnorm (qrot q v) = vnorm v.
Proof.
  intros q v H. unfold vnorm. f_equal. unfold qnorm2 in H. destruct q as [w x y z], v as [a b c].
  cbn in *. unfold vnorm2, vdot, qrot, vadd, vscale, vcross, qvec. cbn.
  assert (Hw : (w * w = 1 - x * x - y * y - z * z)%R) by lra.
  ring_simplify. 
  replace (w ^ 2)%R with (1 - x * x - y * y - z * z)%R by (rewrite <- Hw; ring).
  ring.
Qed.

Lemma window_fifo : forall p q pe a l e cam, noise_arg q -> respects (EKF_init p q pe a) l ->
  p_aug p = AAll -> run (EKF_init p q pe a) l = OK e ->
  suffix (map a_frame (aug_at e cam)) (frames_of cam l) /\ length (aug_at e cam) <= longest 20 l /\
  (Forall same_len l -> map a_frame (aug_at e cam) = last_n 20 (frames_of cam l)).
Proof.
  intros p q pe a l e cam Hq Hr HA E. pose proof (init_inv p q pe a Hq) as I.
  destruct (run_window l _ e cam [] 20 I Hr E HA) as [H1 H2]; [apply le_n|exists []; reflexivity|cbn; lia|].
  rewrite stamps_frames in H1. unfold stamps in H2. rewrite map_length in H2.
  split; [exact H1|]. split; [exact H2|]. intros Hs. rewrite <- stamps_frames.
  pose proof (run_window_exact l _ e cam [] I Hr E HA Hs) as H. cbn [e_max_len EKF_init] in H. rewrite H; [reflexivity|lia|reflexivity].
Qed.

(** *** The first local time resets the clock *)
Lemma local_time_reset_refuted : exists e t, reachable e /\ e_time_init e = false /\
  (e_time (snd (CalculateLocalTime e t)) < e_time e)%R.
Proof.
  destruct (predict_time (demo0 ANone false) 5 (demo0_reachable ANone false)) as [e' [E T]]; [cbn; lra|].
  exists e', 0%R.
  assert (R1 : reachable e') by (apply (reachable_step _ (OPredict 5) _ (demo0_reachable ANone false) Logic.I E)).
  split; [exact R1|].
  pose proof (step_frame' (demo0 ANone false) (OPredict 5) e' (reachable_inv _ (demo0_reachable ANone false)) Logic.I E) as F.
  destruct F as [_ [_ [_ [F _]]]]. cbn in F. split; [exact F|].
  unfold CalculateLocalTime. rewrite F, T. cbn. lra.
Qed.

Lemma run_psd : forall p q pe a l e,
  noise_arg q -> respects (EKF_init p q pe a) l -> run (EKF_init p q pe a) l = OK e ->
  psd (e_size e) (covariance e) /\ (p_root (e_par e) = false -> psd (e_size e) (ent (e_cov e))).
Proof.
  intros p q pe a l e Hq Hr E. assert (R : reachable e) by (exists p, q, pe, a, l; auto).
  pose proof (covariance_psd e (reachable_inv e R)) as H. split; [exact H|].
  intros RT. unfold covariance in H. rewrite RT in H. exact H.
Qed.

Lemma augment_clone : forall e e', reachable e -> p_root (e_par e) = false -> timed e ->
  AugmentStateIfNeeded e = OK e' ->
  exists d em, inherits e em (from_drops 0 d) /\ length (aug_at em 0) + d = length (aug_at e 0) /\
    (e' = em \/
     copies_body em e' 0 (length (aug_at em 0)) /\
     map bare_aug (aug_at e' 0) = map bare_aug (aug_at em 0) ++
       [mkAug 0 (e_time e) (b_pos (s_body (e_state e))) (b_ang (s_body (e_state e))) 0 0]).
Proof.
  intros e e' Hr RT T E. destruct (augment_named e e' (reachable_inv e Hr) RT T E) as [d [em [H1 [_ [H2 H3]]]]].
  exists d, em. auto.
Qed.

Lemma window_exact : forall l e e' cam base, reachable e -> respects e l -> run e l = OK e' ->
  p_aug (e_par e) = AAll -> Forall same_len l ->
  map a_frame (aug_at e cam) = last_n (e_max_len e) base ->
  map a_frame (aug_at e' cam) = last_n (e_max_len e) (base ++ frames_of cam l).
Proof.
  intros l e e' cam base Hr Hs E HA Hl HB. pose proof (reachable_inv e Hr) as I.
  rewrite <- stamps_frames. apply (run_window_exact l e e' cam base I Hs E HA Hl).
  - apply (pre_len _ (wf_pre _ (proj1 I))). left. exact HA.
  - rewrite stamps_frames. exact HB.
Qed.
