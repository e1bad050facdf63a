(** A filter with a camera and two clones, and a feature seen from both. *)
From Coq Require Import Reals List Arith Bool Lia Lra.
From Verif Require Import Base.Res Base.Mat Base.RDec Base.RSum Base.LinAlg Base.Inverse Base.Geom Base.AMap Base.RMat
  Model.TypeHelper Model.Types Model.MathHelperMat Model.QR Model.MathHelper Model.Matrix3 Model.Ekf Model.Updater Model.Ops Model.MsckfUpdater
  Spec.Layout Spec.History Spec.Contract Spec.Correct Spec.Named Spec.Same Spec.Callback Spec.KF Spec.Unused Spec.Towards Spec.Deriv Spec.Triangulation Spec.Chance Spec.CamTrack
  Proofs.Invariant Proofs.Demo Proofs.Named Proofs.Sizes Proofs.Follows Proofs.TowardsImu Proofs.Unused Proofs.MsckfCallback Proofs.Chance Proofs.ChanceExists Proofs.SimNoise Proofs.CamTrack Proofs.CamTrackFinal Proofs.CamTrackRun.
Import ListNotations.
Open Scope R_scope.

Definition lens : Intrinsics := mkIntrinsics (1 / 100) (1 / 100) 0 0 0 0 640 480 (1 / 200000).
Definition lens_cam : CamState := cam_SetIsExtrinsic true (mkCam e9 e9 v0 qid lens 1 0 0 false).
Definition track_regs : list op := [ORegCam 2 lens_cam (demo_cov 6); OFrame 2 7; OFrame 2 8].
Lemma track_respects : respects (demo0 AAll false) track_regs.
Proof.
  unfold track_regs. cbn [respects]. pose proof e9_pos.
  split. { cbn [contract]. intros _. split; [reflexivity|]. split; [apply demo_cov_arg|]. cbn. auto. }
  intros e1 _. split; [exact I|]. intros e2 _. split; [exact I|]. intros e3 _. exact I.
Qed.
(** The registration with the division already done. *)
Definition reg_at (period : R) (e : ekf) (id : nat) (st : CamState) (covariance : mat R) : res ekf :=
  match mfind id (s_cam (e_state e)) with
  | Some _ => OK e
  | None =>
      let fp := Rmax (e_frame_period e) period in
      let e := with_periods e fp (fp * INR (e_max_len e + 1)) (Rmin (e_min_aug e) period) in
      let cam_state_end := (g_body_state_size + e_imu_size e + e_gps_size e + e_cam_size e)%nat in
      let e := if Nat.eqb (e_primary e) 0 then with_primary e id else e in
      let e := with_state e (state_with_cam (e_state e) (mset id st (s_cam (e_state e)))) in
      let* e :=
        (if c_ext st then
           let* b := block covariance 0 0 (c_size st) (c_size st) in
           let* c := InsertInMatrix 0 b (e_cov e) cam_state_end cam_state_end in
           OK (with_cam_sizes (with_cov e c) (e_size e + g_cam_extrinsic_state_size)
                 (e_cam_size e + g_cam_extrinsic_state_size))
         else OK e) in
      RefreshIndices e
  end.
Definition track_e : ekf :=
  match (let* e := reg_at (1 / 1) (demo0 AAll false) 2 lens_cam (demo_cov 6) in run e [OFrame 2 7; OFrame 2 8]) with
  | OK e => e | UB => demo0 AAll false end.
Lemma track_run : run (demo0 AAll false) track_regs = OK track_e.
Proof.
  assert (E : run (demo0 AAll false) track_regs = let* e := reg_at (1 / 1) (demo0 AAll false) 2 lens_cam (demo_cov 6) in run e [OFrame 2 7; OFrame 2 8]).
  { unfold track_regs. cbn [run step]. unfold RegisterCamera, reg_at. destruct (mfind 2 _); [reflexivity|].
    replace (rdiv 1 (c_rate lens_cam)) with (@OK R (1 / 1)) by (symmetry; apply rdiv_ok; cbn; lra). reflexivity. }
  destruct (run_dims (demo_par AAll false) demo_noise v0 0 track_regs demo_noise_arg track_respects) as [e [E2 _]].
  fold (demo0 AAll false) in E2. rewrite E2 in E |- *. unfold track_e. rewrite <- E. reflexivity.
Qed.
Lemma track_reachable : reachable track_e.
Proof.
  exists (demo_par AAll false), demo_noise, v0, 0, track_regs. split; [apply demo_noise_arg|]. split; [apply track_respects|]. apply track_run.
Qed.
Lemma track_size : e_size track_e = 36%nat.
Proof. vm_compute. reflexivity. Qed.
Definition one_track (p : V3) : FeatureTrack := mkFT [mkFP 7 0 (mkKP 320 240 1); mkFP 8 0 (mkKP 320 240 1)] (Some p).
Definition at_origin (a : AugState) : Prop := a_pos a = v0 /\ a_ang a = qid.
Lemma track_clones : exists a b, aug_at track_e 2 = [a; b] /\ at_origin a /\ at_origin b /\ a_frame a = 7%nat /\ a_frame b = 8%nat.
Proof. do 2 eexists. split; [vm_compute; reflexivity|]. repeat split. Qed.
Lemma track_cam : exists c, mfind 2 (s_cam (e_state track_e)) = Some c /\ c_intr c = lens /\ c_pos c = v0 /\ c_ang c = qid /\ c_ext c = true.
Proof. eexists. split; [vm_compute; reflexivity|]. repeat split. Qed.
Lemma track_rest : e_gravity track_e = false /\ p_aug (e_par track_e) = AAll /\ p_fej (e_par track_e) = false.
Proof. repeat split. Qed.
Lemma calm_state : forall e t e1, e_gravity e = false -> p_aug (e_par e) = AAll -> only_predicted e t e1 -> e_state e1 = e_state e /\ e_par e1 = e_par e /\ e_size e1 = e_size e.
Proof.
  intros e t e1 G A P. destruct (CalculateLocalTime e t) as [lt e0] eqn:E0. destruct (predicted_split e t lt e0 E0) as [_ PS]. apply PS in P.
  assert (K : e_state e0 = e_state e /\ e_par e0 = e_par e /\ e_size e0 = e_size e /\ e_gravity e0 = e_gravity e).
  { unfold CalculateLocalTime in E0. destruct (e_time_init e); injection E0 as <- <-; auto. }
  destruct K as (K1 & K2 & K3 & K4). unfold PredictModel in P. destruct (Rltb _ _); [injection P as <-; auto|].
  rewrite K4, G in P. cbn [bind] in P. unfold AugmentStateIfNeeded in P. cbn [with_time e_par] in P. rewrite K2, A in P. injection P as <-. cbn. auto.
Qed.
Lemma lens_real : has_lens lens /\ no_distortion lens /\ 1 / (in_f_x lens / in_pixel_size lens) = 1 / 2000 /\ 1 / (in_f_y lens / in_pixel_size lens) = 1 / 2000.
Proof. unfold has_lens, no_distortion, lens. cbn. repeat split; try lra; field. Qed.

Lemma track_view : forall e t e1 z, z <> 0 -> e_gravity e = false -> p_aug (e_par e) = AAll ->
  (exists a b, aug_at e 2 = [a; b] /\ at_origin a /\ at_origin b /\ a_frame a = 7%nat /\ a_frame b = 8%nat) ->
  only_predicted e t e1 -> clear_view e1 2 v0 qid (one_track (mkV3 0 0 z)).
Proof.
  intros e t e1 z Hz G A (a & b & W & OA & OB & FA & FB) P. destruct (calm_state _ _ _ G A P) as (S1 & S2 & _).
  split; [cbn; lia|]. exists (mkV3 0 0 z). split; [reflexivity|].
  assert (W1 : aug_at (touch_aug e1 2) 2 = [a; b]). { rewrite touch_at. unfold aug_at in *. rewrite S1. exact W. }
  assert (IP : forall x, at_origin x -> vz (in_picture v0 qid x (mkV3 0 0 z)) <> 0).
  { intros x [X1 X2]. unfold in_picture. rewrite X1, X2. replace (vz _) with z; [exact Hz|]. cbn. ring. }
  assert (GA : forall f t, GetAugState e1 2 f t = OK (find_frame [a; b] f default_aug, touch_aug e1 2)).
  { intros f t0. unfold GetAugState. rewrite S2, A. cbn [orb]. cbv zeta. rewrite W1. reflexivity. }
  cbn [find_frame] in GA. rewrite FA, FB in GA. clear W W1 FA FB.
  constructor; [exists a; eexists; split; [apply GA|apply IP; exact OA]|].
  constructor; [exists b; eexists; split; [apply GA|apply IP; exact OB]|constructor].
Qed.
Lemma any_runs : forall solve e t px z, reachable e -> z <> 0 -> e_gravity e = false -> p_aug (e_par e) = AAll ->
  (exists a b, aug_at e 2 = [a; b] /\ at_origin a /\ at_origin b /\ a_frame a = 7%nat /\ a_frame b = 8%nat) ->
  (exists c, mfind 2 (s_cam (e_state e)) = Some c /\ c_intr c = lens /\ c_pos c = v0 /\ c_ang c = qid /\ c_ext c = true) -> exists u' e',
  msckf_UpdateEKF solve (msckf_updater_init 2 true 1) e t [one_track (mkV3 0 0 z)] px = OK (u', e') /\ mu_poses u' = Some (lens, v0, qid).
Proof.
  intros solve e t px z Hr Hz G A CL (c & C1 & C2 & C3 & C4 & C5). destruct (CalculateLocalTime e t) as [lt e0] eqn:E0.
  destruct (predicted_split e t lt e0 E0) as [_ PS]. destruct (local_went e t Hr) as [W0 _]. rewrite E0 in W0. cbn [snd] in W0.
  destruct (predict_went e0 lt (w_reach _ _ W0)) as [e1 [E1 _]]. assert (P : only_predicted e t e1) by (apply PS; exact E1).
  destruct (calm_state _ _ _ G A P) as (S1 & S2 & _).
  destruct (tracks_run solve (msckf_updater_init 2 true 1) e t e1 c [one_track (mkV3 0 0 z)] px) as (u' & e' & E & M).
  - exact Hr.
  - right. reflexivity.
  - reflexivity.
  - exact P.
  - rewrite S1. exact C1.
  - exact C5.
  - rewrite C2. apply lens_real.
  - rewrite C3, C4. constructor; [|constructor]. apply (track_view e t); assumption.
  - exists u', e'. split; [exact E|]. rewrite C2, C3, C4 in M. apply M. discriminate.
Qed.
Lemma track_runs : forall solve t px z, z <> 0 -> exists u' e',
  msckf_UpdateEKF solve (msckf_updater_init 2 true 1) track_e t [one_track (mkV3 0 0 z)] px = OK (u', e') /\ mu_poses u' = Some (lens, v0, qid).
Proof.
  intros solve t px z Hz. destruct track_rest as (G & A & FJ).
  exact (any_runs solve track_e t px z track_reachable Hz G A track_clones track_cam).
Qed.
Lemma coin_blur : forall n, (0 < n)%nat -> blurred (coins n) n (fun a i => coin n i a) 1.
Proof. intros n Hn i j Hi Hj. change (spread (coins n) (coin n i) (coin n j) = if Nat.eqb i j then 1 * 1 else 0). rewrite (coin_spread n i j Hi Hj). destruct (Nat.eqb i j); ring. Qed.

(** A blur of one pixel, told as one pixel, is taken for more than four
    million times its variance. *)
Lemma units_refuted : forall solve, exists (A : Type) (L : law A) (p : A -> nat -> R) u e t T u' e2 H (y : A -> mat R),
  chances L /\ reachable e /\ blurred L (pixels T) p 1 /\ (1 < nr H)%nat /\
  (forall a, exists d e'', msckf_UpdateEKF solve u e t (seen (p a) 0 T) 1 = OK (u', e'') /\ moved_by e2 H (y a) (in_pixels 1 (nr H)) d e'') /\
  forall i, (i < nr H)%nat -> 4000000 * spread L (fun a => column (y a) i) (fun a => column (y a) i) <= ent (in_pixels 1 (nr H)) i i.
Proof.
  intros solve. set (T := [one_track (mkV3 0 0 3)]). destruct (track_runs solve 0 1 3 ltac:(lra)) as (u' & e' & E & M). fold T in E.
  destruct lens_real as (_ & ND & G1 & G2). destruct track_cam as (c & C1 & _ & _ & _ & C5).
  assert (PB : forall x, x = 1 / 2000 -> Rabs x <= 1 / 2000) by (intros x ->; rewrite Rabs_right by lra; lra).
  destruct (tracks_noise solve outcome (coins 4) (coins_chances 4 ltac:(lia)) (msckf_updater_init 2 true 1) track_e 0 T 1 u' e' true lens v0 qid (1 / 2000) 1
    (fun a i => coin 4 i a) track_reachable (ex_intro _ c (conj C1 C5)) ltac:(discriminate) eq_refl E M ND ltac:(lra) (PB _ G1) (PB _ G2) (coin_blur 4 ltac:(lia)))
    as (e1 & e2 & P & S & [[Z _]|(H & y & N1 & RU & NO)]).
  - destruct track_rest as (G & A & _). destruct (calm_state _ _ _ G A P) as (_ & _ & SZ). rewrite SZ, track_size in Z. cbn in Z. lia.
  - exists outcome, (coins 4), (fun a i => coin 4 i a), (msckf_updater_init 2 true 1), track_e, 0, T, u', e2, H, y.
    split; [apply coins_chances; lia|]. split; [exact track_reachable|]. split; [exact (coin_blur 4 ltac:(lia))|]. split; [exact N1|].
    split; [intros a; apply (RU a)|]. intros i Hi. specialize (NO (fun j => if Nat.eqb j i then 1 else 0)).
    assert (L1 : length2 (nr H) (fun j => if Nat.eqb j i then 1 else 0) = 1).
    { unfold length2. rewrite (rsum_single (nr H) i); [rewrite Nat.eqb_refl; ring|exact Hi|]. intros k Hk NK. rewrite (proj2 (Nat.eqb_neq k i)) by exact NK. ring. }
    rewrite L1 in NO. unfold qf, dot, mv in NO. rewrite (rsum_single (nr H) i) in NO; [|exact Hi|intros k Hk NK; rewrite (proj2 (Nat.eqb_neq k i)) by exact NK; ring].
    rewrite (rsum_single (nr H) i) in NO; [|exact Hi|intros k Hk NK; rewrite (proj2 (Nat.eqb_neq k i)) by exact NK; ring].
    rewrite Nat.eqb_refl in NO. replace (ent (in_pixels 1 (nr H)) i i) with 1; [lra|].
    cbn. unfold mscal, idm. rewrite Nat.eqb_refl, Rmax_left by lra. ring.
Qed.
