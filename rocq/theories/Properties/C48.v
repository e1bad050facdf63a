(** C48: Camera data with nothing to use leads to no correction. *)
From Coq Require Import Reals List Arith Bool ZArith.
From Verif Require Import Base.Res Base.Mat Base.Geom Base.AMap
  Model.Types Model.Ekf Model.Ops Model.FiducialUpdater Model.MsckfUpdater Model.Sensors
  Spec.Layout Spec.History Spec.Contract Spec.Callback Spec.World Spec.Unused Proofs.Demo Proofs.Unused.
Import ListNotations.
Open Scope nat_scope.

(** A feature update without tracks is the prediction to its time. *)
Theorem C48_no_tracks : forall solve u e t px u' e',
  msckf_UpdateEKF solve u e t [] px = OK (u', e') <-> u' = u /\ only_predicted e t e'.
Proof. exact no_tracks. Qed.
Print Assumptions C48_no_tracks.

(** So is, up to empty clone windows, one whose tracks are all declined. *)
Theorem C48_all_declined : forall solve u e t tracks px u' e' e1, reachable e -> has_cam e (mu_id u) (mu_ext u) ->
  msckf_UpdateEKF solve u e t tracks px = OK (u', e') -> only_predicted e t e1 -> Forall (declined solve u' e1) tracks ->
  same_estimates e1 e'.
Proof. exact all_declined. Qed.
Print Assumptions C48_all_declined.

(** The updater as constructed never declines a track. *)
Theorem C48_never_declines : forall solve u e t, mu_use_true u = true -> ~ declined solve u e t.
Proof. exact never_declines. Qed.
Print Assumptions C48_never_declines.

(** A camera message without tracks and without visible boards predicts and
    clones the body pose, nothing else. *)
Theorem C48_camera_nothing : forall svd hull ecef_to_lla mat_quat solve w id t frame tracks boards w',
  lived svd hull ecef_to_lla mat_quat solve w -> addressed w (MCam id t frame tracks boards) ->
  Forall (fun x => snd x = []) tracks -> Forall (fun x => snd x = None) boards ->
  wstep svd hull ecef_to_lla mat_quat solve w (EMsg (MCam id t frame tracks boards)) = OK w' ->
  w_sensors w' = w_sensors w /\ w_cnt w' = w_cnt w /\
  run (w_ekf w) [OLocalTime t; OPredict (local_of (w_ekf w) t); OFrame id frame] = OK (w_ekf w').
Proof. exact camera_nothing. Qed.
Print Assumptions C48_camera_nothing.

(** Non-vacuity: a track that a stricter updater declines; a world with a
    camera to which any message can be sent. *)
Example C48_declined_case : forall root e, e_par e = demo_par AAll root ->
  declined (fun _ _ => v0) strict_updater e near_track.
Proof. exact declined_demo. Qed.
Example C48_camera_case : forall svd hull ecef_to_lla mat_quat solve, exists w,
  lived svd hull ecef_to_lla mat_quat solve w /\ forall t f tr b, addressed w (MCam 2 t f tr b).
Proof. exact camera_world. Qed.
