(** A lens that stretches, and a feature at the side of the picture. *)
From Coq Require Import Reals List Arith Bool Lia Lra.
From Verif Require Import Base.Res Base.Mat Base.RDec Base.RSum Base.LinAlg Base.Inverse Base.Geom Base.AMap Base.RMat
  Model.TypeHelper Model.Types Model.MathHelperMat Model.QR Model.MathHelper Model.Matrix3 Model.Ekf Model.Updater Model.Ops Model.MsckfUpdater
  Spec.Layout Spec.History Spec.Contract Spec.Correct Spec.Named Spec.Callback Spec.KF Spec.Unused Spec.Towards Spec.Deriv Spec.Triangulation Spec.CamTrack Spec.Lens
  Proofs.Invariant Proofs.MsckfCallback Proofs.Unused Proofs.CamTrack Proofs.CamTrackRun Proofs.CamTrackDemo Proofs.Lens.
Import ListNotations.
Open Scope R_scope.

Definition stretch : Intrinsics := mkIntrinsics (1 / 100) (1 / 100) (1 / 10) 0 0 0 640 480 (1 / 200000).
Lemma stretch_lens : has_lens stretch /\ stretches stretch.
Proof. unfold has_lens, stretches, stretch. cbn. lra. Qed.
(** The feature at (1/10, 0, 1), seen in both frames. *)
Definition side_points : list FeaturePoint :=
  [mkFP 7 0 (mkKP (5202 / 10) 240 1); mkFP 8 0 (mkKP (5202 / 10) 240 1)].
Definition side : V3 := mkV3 (1 / 10) 0 1.
Lemma v3_by : forall a b, vx a = vx b -> vy a = vy b -> vz a = vz b -> a = b.
Proof. intros [] []. cbn. congruence. Qed.
Lemma origin_view : forall x, at_origin x -> in_picture v0 qid x side = side.
Proof. intros x [X1 X2]. unfold in_picture. rewrite X1, X2. apply v3_by; unfold side; cbn; field. Qed.
Lemma side_pixel : through stretch side = (5202 / 10, 240).
Proof. unfold through, bent, stretch, side. cbn. f_equal; field. Qed.
Lemma gen_aug : forall e a b, p_aug (e_par e) = AAll -> aug_at e 2 = [a; b] ->
  forall f t, GetAugState e 2 f t = OK (find_frame [a; b] f default_aug, touch_aug e 2).
Proof. intros e a b A W f t. unfold GetAugState. rewrite A. cbn [orb]. cbv zeta. rewrite touch_at. unfold aug_at in W |- *. rewrite W. reflexivity. Qed.
Lemma side_gen : forall e a b, p_aug (e_par e) = AAll -> aug_at e 2 = [a; b] -> at_origin a -> at_origin b -> a_frame a = 7%nat -> a_frame b = 8%nat ->
  Forall (fun f => exists x e', GetAugState e 2 (fp_frame f) (fp_time f) = OK (x, e') /\ at_origin x) side_points.
Proof.
  intros e a b A W OA OB FA FB. pose proof (gen_aug e a b A W) as GA. cbn [find_frame] in GA. rewrite FA, FB in GA.
  constructor; [exists a; eexists; split; [apply GA|exact OA]|]. constructor; [exists b; eexists; split; [apply GA|exact OB]|constructor].
Qed.
Lemma side_views : Forall (fun f => exists x e', GetAugState track_e 2 (fp_frame f) (fp_time f) = OK (x, e') /\ at_origin x) side_points.
Proof. destruct track_clones as (a & b & W & OA & OB & FA & FB). destruct track_rest as (_ & A & _). exact (side_gen track_e a b A W OA OB FA FB). Qed.
Lemma side_seen : exactly_seen track_e 2 stretch v0 qid side side_points.
Proof.
  pose proof side_views as V. unfold exactly_seen. rewrite Forall_forall in V |- *. intros f Hf. destruct (V f Hf) as (x & e' & G & O).
  exists x, e'. split; [exact G|]. rewrite (origin_view x O), side_pixel. destruct Hf as [<-|[<-|[]]]; reflexivity.
Qed.
Lemma side_off : ~ always_middle track_e 2 v0 qid side side_points.
Proof.
  intros M. pose proof side_views as V. unfold always_middle in M. rewrite Forall_forall in M, V.
  destruct (V _ (or_introl eq_refl)) as (x & e' & G & O). destruct (M _ (or_introl eq_refl)) as (y & e2 & G2 & X & _).
  rewrite G in G2. injection G2 as <- _. rewrite (origin_view x O) in X. unfold side in X. cbn in X. lra.
Qed.
Lemma side_run : exists rf Hf Hc e', feature_rows (msckf_updater_init 2 true 1) stretch v0 qid (e_size track_e) 18 side track_e 0 side_points
  (mzero (2 * length side_points) 1) (mzero 4 3) (mzero 4 (e_size track_e)) = OK (rf, Hf, Hc, e').
Proof.
  destruct (rows_run side_points (msckf_updater_init 2 true 1) stretch v0 qid (e_size track_e) 18 side track_e track_e 0
    (mzero (2 * length side_points) 1) (mzero 4 3) (mzero 4 (e_size track_e))) as (rf & Hf & Hc & e' & E & _).
  - exact track_reachable.
  - apply same_refl.
  - reflexivity.
  - exact (proj1 stretch_lens).
  - intros _. rewrite track_size. lia.
  - pose proof side_views as V. rewrite Forall_forall in V |- *. intros f Hf. destruct (V f Hf) as (x & e' & G & O).
    exists x, e'. split; [exact G|]. rewrite (origin_view x O). unfold side. cbn. lra.
  - cbn. lia.
  - reflexivity.
  - cbn. lia.
  - reflexivity.
  - cbn. lia.
  - reflexivity.
  - exists rf, Hf, Hc, e'. exact E.
Qed.

(** On the axis, through a lens without distortion. *)
Lemma axis_through : forall k z, through k (mkV3 0 0 z) = (in_width k / 2, in_height k / 2).
Proof.
  intros k z. unfold through. cbn [vx vy vz]. replace (0 / z) with 0 by (unfold Rdiv; ring).
  assert (B : bent k 0 0 = (0, 0)) by (unfold bent; cbv zeta; f_equal; ring). rewrite B. cbn [fst snd]. f_equal; ring.
Qed.
Lemma axis_view : forall x z, at_origin x -> in_picture v0 qid x (mkV3 0 0 z) = mkV3 0 0 z.
Proof. intros x z [X1 X2]. unfold in_picture. rewrite X1, X2. apply v3_by; cbn; ring. Qed.
Lemma axis_pixel : in_width lens / 2 = 320 /\ in_height lens / 2 = 240.
Proof. unfold lens. cbn [in_width in_height]. lra. Qed.
Lemma axis_gen : forall e t e1 z, e_gravity e = false -> p_aug (e_par e) = AAll ->
  (exists a b, aug_at e 2 = [a; b] /\ at_origin a /\ at_origin b /\ a_frame a = 7%nat /\ a_frame b = 8%nat) ->
  only_predicted e t e1 -> exactly_seen e1 2 lens v0 qid (mkV3 0 0 z) (ft_track (one_track (mkV3 0 0 z))).
Proof.
  intros e t e1 z G A (a & b & W & OA & OB & FA & FB) P. destruct (calm_state _ _ _ G A P) as (S1 & S2 & _).
  assert (A1 : p_aug (e_par e1) = AAll) by (rewrite S2; exact A).
  assert (W1 : aug_at e1 2 = [a; b]) by (unfold aug_at in *; rewrite S1; exact W).
  pose proof (gen_aug e1 a b A1 W1) as GA. cbn [find_frame] in GA. rewrite FA, FB in GA.
  assert (T : forall x, at_origin x -> through lens (in_picture v0 qid x (mkV3 0 0 z)) = (320, 240)).
  { intros x O. rewrite (axis_view x z O), axis_through. destruct axis_pixel as [-> ->]. reflexivity. }
  constructor; [exists a; eexists; split; [apply GA|exact (T a OA)]|]. constructor; [exists b; eexists; split; [apply GA|exact (T b OB)]|constructor].
Qed.
Lemma axis_exact : forall solve t px, exists u' e', msckf_UpdateEKF solve (msckf_updater_init 2 true 1) track_e t [one_track (mkV3 0 0 3)] px = OK (u', e') /\
  mu_poses u' = Some (lens, v0, qid) /\ has_lens lens /\ no_distortion lens /\
  forall e1, only_predicted track_e t e1 -> forall tr p e2, In tr [one_track (mkV3 0 0 3)] ->
    TriangulateFeature solve u' lens v0 qid e1 tr = OK (Some p, e2) -> exactly_seen e1 2 lens v0 qid p (ft_track tr).
Proof.
  intros solve t px. destruct (track_runs solve t px 3 ltac:(lra)) as (u' & e' & E & M). exists u', e'. split; [exact E|]. split; [exact M|].
  destruct lens_real as (L1 & L2 & _). split; [exact L1|]. split; [exact L2|]. intros e1 P tr p e2 [<-|[]] T.
  apply true_position in T; [|exact (proj2 (kept_settings _ _ _ _ _ _ _ _ E))]. injection T as <-.
  destruct track_rest as (G & A & _). exact (axis_gen track_e t e1 3 G A track_clones P).
Qed.
