(** C71: Exact feature tracks change nothing, unless the lens distorts. *)
From Coq Require Import Reals List Arith Bool Lia Lra.
From Verif Require Import Base.Res Base.Mat Base.LinAlg Base.Geom Base.AMap Base.RMat
  Model.Types Model.MathHelper Model.Matrix3 Model.Ekf Model.Ops Model.MsckfUpdater
  Spec.Layout Spec.History Spec.Contract Spec.Named Spec.Callback Spec.Unused Spec.Towards Spec.Deriv Spec.Triangulation Spec.CamTrack Spec.Lens
  Proofs.CamTrackDemo Proofs.Lens Proofs.LensDemo.
Import ListNotations.
Open Scope R_scope.

(** Tracks of a moving body, seen without error through a lens without
    distortion: the estimates are those of the prediction. *)
Theorem C71_exact : forall solve u e t T px u' e' e1 ext k pc ac, reachable e -> has_cam e (mu_id u) ext -> T <> [] ->
  msckf_UpdateEKF solve u e t T px = OK (u', e') -> only_predicted e t e1 -> mu_poses u' = Some (k, pc, ac) -> has_lens k -> no_distortion k ->
  (forall tr p e2, In tr T -> TriangulateFeature solve u' k pc ac e1 tr = OK (Some p, e2) -> exactly_seen e1 (mu_id u) k pc ac p (ft_track tr)) ->
  exists e2, same_estimates e1 e2 /\ e_state e' = e_state e2.
Proof. exact exact_tracks. Qed.
Print Assumptions C71_exact.

(** With any lens the residual of an observation without error is what the
    lens does to the point of the picture. *)
Theorem C71_residual : forall l u k pc ac n ci pf e i rf Hf Hc rf' Hf' Hc' e' e1, has_lens k -> same_estimates e1 e ->
  exactly_seen e1 (mu_id u) k pc ac pf l ->
  feature_rows u k pc ac n ci pf e i l rf Hf Hc = OK (rf', Hf', Hc', e') ->
  (forall r, (r < 2 * i)%nat -> column rf' r = column rf r) /\
  forall j f, nth_error l j = Some f -> exists a x, GetAugState e1 (mu_id u) (fp_frame f) (fp_time f) = OK (a, x) /\
    let q := in_picture pc ac a pf in
    let b := bent k (vx q / vz q) (vy q / vz q) in
    column rf' (2 * (i + j)) = fst b - vx q / vz q /\ column rf' (2 * (i + j) + 1) = snd b - vy q / vz q.
Proof. exact rows_bent. Qed.
Print Assumptions C71_residual.

(** So with a lens that stretches towards the sides, the residual of exact
    observations is zero only for a feature in the middle of every picture. *)
Theorem C71_stretched : forall l u k pc ac n ci pf e Hf Hc rf' Hf' Hc' e', has_lens k -> stretches k ->
  exactly_seen e (mu_id u) k pc ac pf l ->
  feature_rows u k pc ac n ci pf e 0 l (mzero (2 * length l) 1) Hf Hc = OK (rf', Hf', Hc', e') ->
  ((forall r, (r < 2 * length l)%nat -> column rf' r = 0) <-> always_middle e (mu_id u) pc ac pf l).
Proof. exact stretched_rows. Qed.
Print Assumptions C71_stretched.

(** A feature on the axis of a camera without distortion. *)
Example C71_exact_case : forall solve t px, exists u' e',
  msckf_UpdateEKF solve (msckf_updater_init 2 true 1) track_e t [one_track (mkV3 0 0 3)] px = OK (u', e') /\
  mu_poses u' = Some (lens, v0, qid) /\ has_lens lens /\ no_distortion lens /\
  forall e1, only_predicted track_e t e1 -> forall tr p e2, In tr [one_track (mkV3 0 0 3)] ->
    TriangulateFeature solve u' lens v0 qid e1 tr = OK (Some p, e2) -> exactly_seen e1 2 lens v0 qid p (ft_track tr).
Proof. exact axis_exact. Qed.
(** A feature at the side of a camera with k1 = 1/10: pixel 520.2 instead of
    520. *)
Example C71_stretched_case : has_lens stretch /\ stretches stretch /\ exactly_seen track_e 2 stretch v0 qid side side_points /\
  (exists rf Hf Hc e', feature_rows (msckf_updater_init 2 true 1) stretch v0 qid (e_size track_e) 18 side track_e 0 side_points
    (mzero (2 * length side_points) 1) (mzero 4 3) (mzero 4 (e_size track_e)) = OK (rf, Hf, Hc, e')) /\
  ~ always_middle track_e 2 v0 qid side side_points.
Proof. exact (conj (proj1 stretch_lens) (conj (proj2 stretch_lens) (conj side_seen (conj side_run side_off)))). Qed.
