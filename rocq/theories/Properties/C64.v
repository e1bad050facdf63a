(** C64: what feature tracks do to the estimates, and which noise they are
    taken to have. *)
From Coq Require Import Reals List Arith Bool Lia Lra.
From Verif Require Import Base.Res Base.Mat Base.RDec Base.RSum Base.LinAlg Base.Geom Base.AMap
  Model.TypeHelper Model.Types Model.MathHelper Model.Ekf Model.Ops Model.MsckfUpdater
  Spec.History Spec.Contract Spec.Named Spec.Callback Spec.Unused Spec.Towards Spec.Deriv Spec.Triangulation Spec.Chance Spec.CamTrack
  Proofs.ChanceExists Proofs.CamTrackFinal Proofs.CamTrackRun Proofs.CamTrackDemo.
Import ListNotations.
Open Scope R_scope.

(** Tracks with two observations or more, with a known feature that is level
    with none of its cameras, are handled without undefined behaviour. *)
Theorem C64_runs : forall solve u e t e1 c T px, reachable e -> p_fej (e_par e) = false \/ mu_first u = true -> mu_use_true u = true ->
  only_predicted e t e1 -> mfind (mu_id u) (s_cam (e_state e1)) = Some c -> c_ext c = mu_ext u -> has_lens (c_intr c) ->
  Forall (clear_view e1 (mu_id u) (c_pos c) (c_ang c)) T ->
  exists u' e', msckf_UpdateEKF solve u e t T px = OK (u', e') /\ (T <> [] -> mu_poses u' = Some (c_intr c, c_pos c, c_ang c)).
Proof. exact tracks_run. Qed.
Print Assumptions C64_runs.

(** The estimates are predicted and then either kept or moved by one Kalman
    correction, whose residual is no longer than the reprojection errors of
    all tracks used. *)
Theorem C64_towards : forall solve u e t T px u' e' ext, reachable e -> has_cam e (mu_id u) ext -> T <> [] ->
  msckf_UpdateEKF solve u e t T px = OK (u', e') ->
  exists e1 k pc ac s, only_predicted e t e1 /\ mu_poses u' = Some (k, pc, ac) /\ all_misses solve u' e1 k pc ac T s /\
    (same_estimates e1 e' \/
     exists e2 H y d, same_estimates e1 e2 /\ reachable e2 /\ nr y = nr H /\ length2 (nr y) (column y) <= s /\ moved_by e2 H y (in_pixels px (nr y)) d e').
Proof. exact tracks_towards. Qed.
Print Assumptions C64_towards.

(** Let the pixels of the observations vary by chance with standard deviation
    [s], through a lens without distortion for which a pixel is at most [g]
    wide at distance 1. The same rows and the same assumed noise are used for
    all pixels; the residual varies with standard deviation at most [s * g]
    in every direction, while it is taken to vary by [Rmax px (1 / 2)]. *)
Theorem C64_noise : forall solve A (L : law A), chances L ->
  forall u e t T px u' e' ext k pc ac g s p, reachable e -> has_cam e (mu_id u) ext -> T <> [] ->
  mu_use_true u = true -> msckf_UpdateEKF solve u e t T px = OK (u', e') ->
  mu_poses u' = Some (k, pc, ac) -> no_distortion k -> 0 < g ->
  Rabs (1 / (in_f_x k / in_pixel_size k)) <= g -> Rabs (1 / (in_f_y k / in_pixel_size k)) <= g ->
  blurred L (pixels T) p s ->
  exists e1 e2, only_predicted e t e1 /\ same_estimates e1 e2 /\
    ((e_size e1 <= pixels T)%nat /\ (forall a, msckf_UpdateEKF solve u e t (seen (p a) 0 T) px = OK (u', e2)) \/
     exists H y, (1 < nr H)%nat /\ (forall a, nr (y a) = nr H /\ exists d e'', msckf_UpdateEKF solve u e t (seen (p a) 0 T) px = OK (u', e'') /\
         moved_by e2 H (y a) (in_pixels px (nr H)) d e'') /\
       forall x, qf (nr H) (fun i j => spread L (fun a => column (y a) i) (fun a => column (y a) j)) x <= (s * g) * (s * g) * length2 (nr H) x).
Proof. exact tracks_noise. Qed.
Print Assumptions C64_noise.

(** So the pixel error that is configured is not the noise that is used: with
    a focal length of 10 mm and pixels of 5 micrometres, a blur of one pixel
    told as one pixel is taken for four million times its variance. *)
Theorem C64_noise_refuted : forall solve, exists (A : Type) (L : law A) (p : A -> nat -> R) u e t T u' e2 H (y : A -> mat R),
  chances L /\ reachable e /\ blurred L (pixels T) p 1 /\ (1 < nr H)%nat /\
  (forall a, exists d e'', msckf_UpdateEKF solve u e t (seen (p a) 0 T) 1 = OK (u', e'') /\ moved_by e2 H (y a) (in_pixels 1 (nr H)) d e'') /\
  forall i, (i < nr H)%nat -> 4000000 * spread L (fun a => column (y a) i) (fun a => column (y a) i) <= ent (in_pixels 1 (nr H)) i i.
Proof. exact units_refuted. Qed.
Print Assumptions C64_noise_refuted.

(** A filter with a camera and clones of frames 7 and 8, and a feature seen
    in both frames. *)
Example C64_case : reachable track_e /\ has_lens lens /\ no_distortion lens /\ exists c,
  mfind 2 (s_cam (e_state track_e)) = Some c /\ c_intr c = lens /\ c_pos c = v0 /\ c_ang c = qid /\ c_ext c = true.
Proof. exact (conj track_reachable (conj (proj1 lens_real) (conj (proj1 (proj2 lens_real)) track_cam))). Qed.
Example C64_case_view : forall t e1, only_predicted track_e t e1 -> clear_view e1 2 v0 qid (one_track (mkV3 0 0 3)).
Proof. intros t e1. apply track_view; [lra|exact (proj1 track_rest)|exact (proj1 (proj2 track_rest))|exact track_clones]. Qed.
Example C64_case_runs : forall solve t px, exists u' e',
  msckf_UpdateEKF solve (msckf_updater_init 2 true 1) track_e t [one_track (mkV3 0 0 3)] px = OK (u', e') /\ mu_poses u' = Some (lens, v0, qid).
Proof. intros solve t px. apply track_runs. lra. Qed.
Example C64_case_blur : forall n, (0 < n)%nat -> chances (coins n) /\ blurred (coins n) n (fun a i => coin n i a) 1.
Proof. intros n H. exact (conj (coins_chances n H) (coin_blur n H)). Qed.
