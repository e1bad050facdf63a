(** A filter with a camera and clones at two places, and a feature seen from
    both. *)
From Coq Require Import Reals List Arith Bool Lia Lra.
From Verif Require Import Base.Res Base.Mat Base.RDec Base.RSum Base.LinAlg Base.Geom Base.AMap Base.RMat
  Model.TypeHelper Model.Types Model.MathHelper Model.Ekf Model.Ops Model.MsckfUpdater
  Spec.Layout Spec.History Spec.Contract Spec.Correct Spec.Named Spec.Callback Spec.Unused Spec.Deriv Spec.Triangulation Spec.CamTrack Spec.ByName Spec.Unsure
  Proofs.Invariant Proofs.Demo Proofs.Named Proofs.Sizes Proofs.Follows Proofs.Unused Proofs.MsckfCallback Proofs.CamTrackRun Proofs.CamTrackDemo
  Proofs.ByName Proofs.ByNameRun Proofs.Unsure Proofs.UnsureRun Proofs.UnsureFinal Proofs.UnsureTrack Proofs.UnsureSeen.
Import ListNotations.
Open Scope R_scope.

Definition at_z (z : R) : BodyState := mkBody (mkV3 0 0 z) v0 v0 qid v0 v0 0.
Definition seen_rest : list op := [OFrame 2 7; OInit 0 (at_z (1 / 12)); OFrame 2 8].
Definition seen_ops : list op := ORegCam 2 lens_cam (demo_cov 6) :: seen_rest.
Lemma seen_respects : respects (demo0 AAll false) seen_ops.
Proof.
  unfold seen_ops, seen_rest. cbn [respects]. pose proof e9_pos.
  split. { cbn [contract]. intros _. split; [reflexivity|]. split; [apply demo_cov_arg|]. cbn. auto. }
  intros e1 _. split; [exact I|]. intros e2 _. split; [reflexivity|]. intros e3 _. split; [exact I|]. intros e4 _. exact I.
Qed.
Definition seen_e : ekf :=
  match (let* e := reg_at (1 / 1) (demo0 AAll false) 2 lens_cam (demo_cov 6) in run e seen_rest) with
  | OK e => e | UB => demo0 AAll false end.
Lemma seen_run : run (demo0 AAll false) seen_ops = OK seen_e.
Proof.
  assert (E : run (demo0 AAll false) seen_ops = let* e := reg_at (1 / 1) (demo0 AAll false) 2 lens_cam (demo_cov 6) in run e seen_rest).
  { unfold seen_ops. cbn [run step]. unfold RegisterCamera, reg_at. destruct (mfind 2 _); [reflexivity|].
    replace (rdiv 1 (c_rate lens_cam)) with (@OK R (1 / 1)) by (symmetry; apply rdiv_ok; cbn; lra). reflexivity. }
  destruct (run_dims (demo_par AAll false) demo_noise v0 0 seen_ops demo_noise_arg seen_respects) as [e [E2 _]].
  fold (demo0 AAll false) in E2. rewrite E2 in E |- *. unfold seen_e. rewrite <- E. reflexivity.
Qed.
Lemma seen_reachable : reachable seen_e.
Proof.
  exists (demo_par AAll false), demo_noise, v0, 0, seen_ops. split; [apply demo_noise_arg|]. split; [apply seen_respects|]. apply seen_run.
Qed.
Lemma seen_clones : exists a b, aug_at seen_e 2 = [a; b] /\ (a_ang a = qid /\ a_pos a = mkV3 0 0 0 /\ a_frame a = 7%nat /\ a_alpha a = 0) /\
  a_ang b = qid /\ a_pos b = mkV3 0 0 (1 / 12) /\ a_frame b = 8%nat /\ a_alpha b = 0.
Proof. do 2 eexists. split; [vm_compute; reflexivity|]. repeat split. Qed.
Lemma seen_cam : exists c, mfind 2 (s_cam (e_state seen_e)) = Some c /\ c_intr c = lens /\ c_pos c = v0 /\ c_ang c = qid /\ c_ext c = true.
Proof. eexists. split; [vm_compute; reflexivity|]. repeat split. Qed.
Lemma seen_flags : e_gravity seen_e = false /\ p_aug (e_par seen_e) = AAll /\ p_fej (e_par seen_e) = false /\ p_root (e_par seen_e) = false.
Proof. repeat split. Qed.

(** *** Its covariance *)
Definition seen_names : byname := nm_frame AAll (nm_clock (nm_frame AAll (nm_cam (nm_init demo_noise) 2 lens_cam (demo_cov 6)) 2) 0 true) 2.
Lemma after_twin : forall e5, run (demo0 AAll false) seen_ops = OK e5 -> twin e5 seen_names.
Proof.
  intros e5 E. unfold seen_ops, seen_rest in E. cbn [run] in E.
  pose proof seen_respects as RS. unfold seen_ops, seen_rest in RS. cbn [respects] in RS. destruct RS as [C1 RS].
  assert (R0 : reachable (demo0 AAll false)).
  { exists (demo_par AAll false), demo_noise, v0, 0, []. split; [apply demo_noise_arg|]. split; [exact I|reflexivity]. }
  pose proof (init_twin (demo_par AAll false) demo_noise v0 0 demo_noise_arg eq_refl) as T0. fold (demo0 AAll false) in T0.
  assert (P0 : p_aug (e_par (demo0 AAll false)) = AAll) by reflexivity.
  generalize dependent (demo0 AAll false). intros e0 E C1 RS R0 T0 P0.
  destruct (step e0 _) as [e1|] eqn:E1; cbn [bind] in E; [|discriminate]. destruct (RS e1 eq_refl) as [C2 RS2]. clear RS.
  pose proof (step_twin e0 _ (Do (ORegCam 2 lens_cam (demo_cov 6))) e1 R0 T0 C1 ltac:(right; intros k []) I E1) as T1.
  pose proof (reachable_step _ _ _ R0 C1 E1) as R1. pose proof (par_step _ _ _ (reachable_inv _ R0) C1 E1) as P1.
  destruct (step e1 _) as [e2|] eqn:E2; cbn [bind] in E; [|discriminate]. destruct (RS2 e2 eq_refl) as [C3 RS3]. clear RS2.
  pose proof (step_twin e1 _ (Do (OFrame 2 7)) e2 R1 T1 C2 I I E2) as T2.
  pose proof (reachable_step _ _ _ R1 C2 E2) as R2. pose proof (par_step _ _ _ (reachable_inv _ R1) C2 E2) as P2.
  destruct (step e2 _) as [e3|] eqn:E3; cbn [bind] in E; [|discriminate]. destruct (RS3 e3 eq_refl) as [C4 _]. clear RS3.
  pose proof (step_twin e2 _ (Do (OInit 0 (at_z (1 / 12)))) e3 R2 T2 C3 I I E3) as T3.
  pose proof (reachable_step _ _ _ R2 C3 E3) as R3. pose proof (par_step _ _ _ (reachable_inv _ R2) C3 E3) as P3.
  destruct (step e3 _) as [e4|] eqn:E4; cbn [bind] in E; [|discriminate]. injection E as <-.
  pose proof (step_twin e3 _ (Do (OFrame 2 8)) e4 R3 T3 C4 I I E4) as T4.
  cbn [nm_step] in T4. rewrite P3, P2, P1, P0 in T4. unfold seen_names. exact T4.
Qed.
Lemma seen_twin : twin seen_e seen_names.
Proof. exact (after_twin seen_e seen_run). Qed.
Lemma seen_row : forall x, In x (n_names seen_names) -> n_cov seen_names (NBody 0) x = 1 / 100 * along 0 x.
Proof.
  apply Forall_forall. vm_compute. repeat constructor; ring.
Qed.
Lemma seen_cov : forall j, (j < e_size seen_e)%nat -> covariance seen_e 0%nat j = 1 / 100 * shift seen_e seen_names 0 j.
Proof.
  intros j Hj. pose proof seen_twin as T. rewrite <- (proj2 (proj2 (partition_inv seen_e (tw_inv _ _ T)))) in Hj. apply nth_error_Some in Hj.
  unfold shift. destruct (nth_error (layout (e_state seen_e)) j) as [x|] eqn:X; [|congruence]. clear Hj.
  rewrite (cov_at seen_e seen_names (LBody 0) x 0 j T (at_body _ 0 ltac:(lia)) X). change (nm (n_first seen_names) (LBody 0)) with (NBody 0).
  apply seen_row. apply (tw_in _ _ T). apply (nth_error_In _ _ X).
Qed.
Lemma seen_unsure : unsure seen_e (1 / 100).
Proof.
  apply (never_surer (demo_par AAll false) demo_noise v0 0 (map Do seen_ops) seen_e demo_noise_arg eq_refl).
  - exact seen_respects.
  - unfold seen_ops, seen_rest. cbn [map valid op_of]. split; [right; intros k []|]. split; [exact I|]. intros e1 _.
    repeat (split; [exact I|]; split; [exact I|]; intros ? _). exact I.
  - unfold seen_ops, seen_rest. cbn [map all_blind]. repeat (split; [exact I|]; intros ? _). exact I.
  - exact seen_run.
Qed.
Lemma any_seen : forall solve e t px w, reachable e -> e_gravity e = false -> p_aug (e_par e) = AAll -> p_fej (e_par e) = false ->
  (exists a b, aug_at e 2 = [a; b] /\ (a_ang a = qid /\ a_pos a = mkV3 0 0 0 /\ a_frame a = 7%nat /\ a_alpha a = 0) /\
     a_ang b = qid /\ a_pos b = mkV3 0 0 (1 / 12) /\ a_frame b = 8%nat /\ a_alpha b = 0) ->
  (exists c, mfind 2 (s_cam (e_state e)) = Some c /\ c_intr c = lens /\ c_pos c = v0 /\ c_ang c = qid /\ c_ext c = true) ->
  moved_along e (fun k => if Nat.eqb k 0 then 1 else 0) w -> (forall j, (j < e_size e)%nat -> covariance e 0%nat j = 1 / 100 * w j) ->
  exists u' e', msckf_UpdateEKF solve (msckf_updater_init 2 true 1) e t [seen_track] px = OK (u', e') /\ covariance e' 0%nat 0%nat < 1 / 100.
Proof.
  intros solve e t px w Hr G A FJ (a & b & W & (A1 & A2 & A3 & A4) & B1 & B2 & B3 & B4) (c & C1 & C2 & C3 & C4 & C5) M CW.
  destruct (CalculateLocalTime e t) as [lt e0] eqn:E0.
  destruct (predicted_split e t lt e0 E0) as [_ PS]. destruct (local_went e t Hr) as [W0 _]. rewrite E0 in W0. cbn [snd] in W0.
  destruct (predict_went e0 lt (w_reach _ _ W0)) as [e1 [E1 _]]. assert (P : only_predicted e t e1) by (apply PS; exact E1).
  destruct (calm_state _ _ _ G A P) as (S1 & S2 & _). destruct lens_real as (LR & ND & _ & _).
  assert (W1 : aug_at (touch_aug e1 2) 2 = [a; b]). { rewrite touch_at. unfold aug_at in *. rewrite S1. exact W. }
  assert (GA : forall f t, GetAugState e1 2 f t = OK (find_frame [a; b] f default_aug, touch_aug e1 2)).
  { intros f t0. unfold GetAugState. rewrite S2, A. cbn [orb]. cbv zeta. rewrite W1. reflexivity. }
  cbn [find_frame] in GA. rewrite A3, B3 in GA.
  assert (V7 : seen_at e1 2 7 0) by (intros t0; exists a; eexists; split; [apply GA|auto]).
  assert (V8 : seen_at e1 2 8 (1 / 12)) by (intros t0; exists b; eexists; split; [apply GA|auto]). clear GA W1.
  set (u := msckf_updater_init 2 true 1).
  destruct (tracks_run solve u e t e1 c [seen_track] px) as (u' & e' & E & _).
  - exact Hr.
  - left. exact FJ.
  - reflexivity.
  - exact P.
  - rewrite S1. exact C1.
  - exact C5.
  - rewrite C2. exact LR.
  - rewrite C3, C4. constructor; [|constructor]. split; [cbn; lia|]. exists seen_point. split; [reflexivity|].
    destruct (V7 0) as (a' & x & GA & X1 & X2). destruct (V8 0) as (b' & y & GB & Y1 & Y2).
    constructor; [|constructor; [|constructor]].
    + exists a', x. split; [exact GA|]. unfold in_picture. rewrite X1, X2. unfold mat_vec, vsub. cbn. lra.
    + exists b', y. split; [exact GB|]. unfold in_picture. rewrite Y1, Y2. unfold mat_vec, vsub. cbn. lra.
  - exists u', e'. split; [exact E|]. apply Rlt_le_trans with (covariance e 0%nat 0%nat).
    + apply (seen_less solve u e t e1 c px u' e' w); auto.
      * rewrite C2. exact LR.
      * rewrite C2. exact ND.
      * intros x Hx. change (mu_id u) with 2%nat in Hx. rewrite W in Hx. destruct Hx as [<-|[<-|[]]]; assumption.
    + rewrite CW by (pose proof (size_18 e Hr); lia). rewrite (proj1 M 0%nat) by lia. cbn. lra.
Qed.
Theorem tracks_surer : forall solve, exists e u t T px u' e', reachable e /\ p_root (e_par e) = false /\ unsure e (1 / 100) /\
  msckf_UpdateEKF solve u e t T px = OK (u', e') /\ covariance e' 0%nat 0%nat < 1 / 100.
Proof.
  intros solve. destruct seen_flags as (G & A & FJ & RT).
  destruct (any_seen solve seen_e 0 1 (shift seen_e seen_names 0) seen_reachable G A FJ seen_clones seen_cam (shift_moved seen_e seen_names 0 seen_twin ltac:(lia)) seen_cov) as (u' & e' & E & L).
  exists seen_e, (msckf_updater_init 2 true 1), 0, [seen_track], 1, u', e'.
  split; [exact seen_reachable|]. split; [exact RT|]. split; [exact seen_unsure|]. split; [exact E|exact L].
Qed.
(** Before the projection: the rows of the feature, and a combination of them
    in which its position cancels. *)
Definition cancels (r i : nat) : R := match i with 0%nat => 4 | 2%nat => -3 | _ => 0 end.
Lemma any_rows : forall e, reachable e -> p_aug (e_par e) = AAll ->
  (exists a b, aug_at e 2 = [a; b] /\ (a_ang a = qid /\ a_pos a = mkV3 0 0 0 /\ a_frame a = 7%nat /\ a_alpha a = 0) /\
     a_ang b = qid /\ a_pos b = mkV3 0 0 (1 / 12) /\ a_frame b = 8%nat /\ a_alpha b = 0) ->
  (exists c, mfind 2 (s_cam (e_state e)) = Some c /\ c_intr c = lens /\ c_pos c = v0 /\ c_ang c = qid /\ c_ext c = true) ->
  exists c rf Hf Hc e', (forall a, In a (aug_at e 2) -> a_alpha a = 0) /\ mfind 2 (s_cam (e_state e)) = Some c /\ c_ext c = true /\
    feature_rows (msckf_updater_init 2 true 1) lens v0 qid (e_size e) (c_index c) seen_point e 0 (ft_track seen_track)
      (mzero 4 1) (mzero 4 3) (mzero 4 (e_size e)) = OK (rf, Hf, Hc, e') /\
    (forall r j, (j < 3)%nat -> rsum 4 (fun i => cancels r i * ent Hf i j) = 0) /\ ent Hf 0%nat 0%nat = 3.
Proof.
  intros e Hr A (a & b & W & (A1 & A2 & A3 & A4) & B1 & B2 & B3 & B4) (c & C1 & C2 & C3 & C4 & C5). destruct lens_real as (LR & ND & _ & _).
  assert (W1 : aug_at (touch_aug e 2) 2 = [a; b]) by (rewrite touch_at; exact W).
  assert (GA : forall f t, GetAugState e 2 f t = OK (find_frame [a; b] f default_aug, touch_aug e 2)).
  { intros f t0. unfold GetAugState. rewrite A. cbn [orb]. cbv zeta. rewrite W1. reflexivity. }
  cbn [find_frame] in GA. rewrite A3, B3 in GA.
  assert (V7 : seen_at e 2 7 0) by (intros t0; exists a; eexists; split; [apply GA|auto]).
  assert (V8 : seen_at e 2 8 (1 / 12)) by (intros t0; exists b; eexists; split; [apply GA|auto]). clear GA W1.
  set (u := msckf_updater_init 2 true 1).
  destruct (rows_run (ft_track seen_track) u lens v0 qid (e_size e) (c_index c) seen_point e e 0 (mzero 4 1) (mzero 4 3) (mzero 4 (e_size e)) Hr (same_refl e) eq_refl LR)
    as (rf & Hf & Hc & e3 & ER & _); try reflexivity; try (cbn; lia).
  - intros _. destruct (partition_ok e Hr) as [(_ & _ & _ & PC & _) [_ LL]]. pose proof (PC _ _ (mfind_in _ _ _ _ C1) C5 5%nat ltac:(lia)) as Q.
    assert (c_index c + 5 < length (layout (e_state e)))%nat by (apply nth_error_Some; congruence). lia.
  - destruct (V7 0) as (a' & x & GA & X1 & X2). destruct (V8 0) as (b' & y & GB & Y1 & Y2).
    constructor; [|constructor; [|constructor]].
    + exists a', x. split; [exact GA|]. unfold in_picture. rewrite X1, X2. unfold mat_vec, vsub. cbn. lra.
    + exists b', y. split; [exact GB|]. unfold in_picture. rewrite Y1, Y2. unfold mat_vec, vsub. cbn. lra.
  - exists c, rf, Hf, Hc, e3. split; [intros x Hx; rewrite W in Hx; destruct Hx as [<-|[<-|[]]]; assumption|]. split; [exact C1|]. split; [exact C5|]. split; [exact ER|].
    pose proof (two_jac u lens (e_size e) (c_index c) e e rf Hf Hc e3 (same_refl e) ND V7 V8 ER) as ((J1 & J2 & J3) & (J4 & J5 & J6) & (J7 & J8 & J9) & (J10 & J11 & J12)).
    split; [|exact J1]. intros r j Hj. cbn [rsum cancels]. destruct j as [|[|[|j]]]; [| | |lia]; rewrite ?J1, ?J2, ?J3, ?J7, ?J8, ?J9; ring.
Qed.
Lemma seen_rows : exists c rf Hf Hc e', (forall a, In a (aug_at seen_e 2) -> a_alpha a = 0) /\ mfind 2 (s_cam (e_state seen_e)) = Some c /\ c_ext c = true /\
    feature_rows (msckf_updater_init 2 true 1) lens v0 qid (e_size seen_e) (c_index c) seen_point seen_e 0 (ft_track seen_track)
      (mzero 4 1) (mzero 4 3) (mzero 4 (e_size seen_e)) = OK (rf, Hf, Hc, e') /\
    (forall r j, (j < 3)%nat -> rsum 4 (fun i => cancels r i * ent Hf i j) = 0) /\ ent Hf 0%nat 0%nat = 3.
Proof. destruct seen_flags as (_ & A & _). exact (any_rows seen_e seen_reachable A seen_clones seen_cam). Qed.
