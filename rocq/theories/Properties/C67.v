(** C67: Measurements that cannot notice where everything is as a whole never
    make the filter surer of it. *)
From Coq Require Import Reals List Arith Bool.
From Verif Require Import Base.Res Base.Mat Base.RMat Base.RSum Base.LinAlg Base.Geom Base.AMap
  Model.Types Model.GpsHelper Model.Matrix3 Model.Ekf Model.Ops Model.MsckfUpdater Model.Sensors
  Spec.Layout Spec.Contract Spec.Named Spec.World Spec.ByName Spec.Unsure Spec.Apart
  Proofs.Demo Proofs.UnsureRun Proofs.UnsureFinal Proofs.UnsureWorld Proofs.CamTrackDemo Proofs.UnsureTrack Proofs.UnsureSeen Proofs.UnsureSeenDemo.
Import ListNotations.
Open Scope R_scope.

(** Whatever is registered, predicted, cloned, forgotten and measured, as long
    as no measurement notices that the body and all its clones are moved
    together: what the filter says of the common position is never better than
    what it said at construction. *)
Theorem C67_never_surer : forall p q pe an l e, noise_arg q -> p_root p = false ->
  respects (EKF_init p q pe an) (map op_of l) -> valid (p_aug p) (EKF_init p q pe an) (nm_init q) l -> all_blind (EKF_init p q pe an) l ->
  run (EKF_init p q pe an) (map op_of l) = OK e -> unsure e (1 / 100).
Proof. exact never_surer. Qed.
Print Assumptions C67_never_surer.

(** In particular no variance of a position of the body or of a clone falls
    below the one of the constructor. *)
Theorem C67_variances : forall p q pe an l e, noise_arg q -> p_root p = false ->
  respects (EKF_init p q pe an) (map op_of l) -> valid (p_aug p) (EKF_init p q pe an) (nm_init q) l -> all_blind (EKF_init p q pe an) l ->
  run (EKF_init p q pe an) (map op_of l) = OK e ->
  (forall k, (k < 3)%nat -> 1 / 100 <= covariance e k k) /\
  (forall cam c k, In c (aug_at e cam) -> (k < 3)%nat -> 1 / 100 <= covariance e (a_index c + k)%nat (a_index c + k)%nat).
Proof. exact positions_unsure. Qed.
Print Assumptions C67_variances.

(** Velocity measured, sensors and a board registered, predictions, clones,
    one of them forgotten. *)
Example C67_nonvacuous : respects (demo0 AAll false) (map op_of vel_calls) /\ valid AAll (demo0 AAll false) (nm_init demo_noise) vel_calls /\
  all_blind (demo0 AAll false) vel_calls /\ exists e, run (demo0 AAll false) (map op_of vel_calls) = OK e /\ unsure e (1 / 100).
Proof. split; [apply vel_respects|]. split; [apply vel_valid|]. split; [apply vel_all_blind|exact vel_history]. Qed.

(** So it is in every program whose sensors never look outside: any number of
    IMUs (ordinary and zero-acceleration updates), GPS receivers without a fix,
    cameras that see neither features nor boards, anything configured. *)
Theorem C67_imus_only : forall svd hull ecef_to_lla mat_quat solve p q pe a l w, noise_arg q -> p_root p = false ->
  events_ok svd hull ecef_to_lla mat_quat solve (world_init (EKF_init p q pe a)) l -> Forall apart l ->
  wrun svd hull ecef_to_lla mat_quat solve (world_init (EKF_init p q pe a)) l = OK w ->
  unsure (w_ekf w) (1 / 100) /\ (forall k, (k < 3)%nat -> 1 / 100 <= covariance (w_ekf w) k k) /\
  (forall cam c k, In c (aug_at (w_ekf w) cam) -> (k < 3)%nat -> 1 / 100 <= covariance (w_ekf w) (a_index c + k)%nat (a_index c + k)%nat).
Proof. exact alone_unsure. Qed.
Print Assumptions C67_imus_only.

(** Two IMUs and a camera. *)
Example C67_imus_only_nonvacuous : forall svd hull ecef_to_lla mat_quat solve,
  events_ok svd hull ecef_to_lla mat_quat solve (world_init (demo0 AAll false)) alone_events /\ Forall apart alone_events /\
  exists w, wrun svd hull ecef_to_lla mat_quat solve (world_init (demo0 AAll false)) alone_events = OK w.
Proof. intros. split; [apply alone_ok|]. split; [apply alone_apart|apply alone_runs]. Qed.

(** What a camera sees of a feature depends only on where the feature is
    relative to the camera: when everything estimated moves by [v], the rows
    of the MSCKF updater change as if the feature had moved by [-v]. *)
Theorem C67_before_projection : forall u k pc ac e c pf l rf Hf Hc e' v w, reachable e -> p_aug (e_par e) = AAll ->
  (forall a, In a (aug_at e (mu_id u)) -> a_alpha a = 0) -> mfind (mu_id u) (s_cam (e_state e)) = Some c -> (mu_ext u = true -> c_ext c = true) ->
  let n := (2 * length l)%nat in
  feature_rows u k pc ac (e_size e) (c_index c) pf e 0 l (mzero n 1) (mzero n 3) (mzero n (e_size e)) = OK (rf, Hf, Hc, e') -> moved_along e v w ->
  forall r, (r < n)%nat -> rsum (e_size e) (fun j => ent Hc r j * w j) = - rsum 3 (fun j => ent Hf r j * v j).
Proof. exact before_projection. Qed.
Print Assumptions C67_before_projection.

(** So every combination of the rows in which the position of the feature
    cancels is blind: with a left null space of [H_f], feature tracks would
    be among the measurements above. *)
Theorem C67_projected_blind : forall u k pc ac e c pf l rf Hf Hc e' m T, reachable e -> p_aug (e_par e) = AAll ->
  (forall a, In a (aug_at e (mu_id u)) -> a_alpha a = 0) -> mfind (mu_id u) (s_cam (e_state e)) = Some c -> (mu_ext u = true -> c_ext c = true) ->
  let n := (2 * length l)%nat in
  feature_rows u k pc ac (e_size e) (c_index c) pf e 0 l (mzero n 1) (mzero n 3) (mzero n (e_size e)) = OK (rf, Hf, Hc, e') ->
  (forall r j, (r < m)%nat -> (j < 3)%nat -> rsum n (fun i => T r i * ent Hf i j) = 0) ->
  blind e (mkmat m (e_size e) (mm n T (ent Hc))).
Proof. exact projected_blind. Qed.
Print Assumptions C67_projected_blind.

(** A feature seen from two places, and such a combination. *)
Example C67_projected_nonvacuous : reachable seen_e /\ p_aug (e_par seen_e) = AAll /\
  exists c rf Hf Hc e', (forall a, In a (aug_at seen_e 2) -> a_alpha a = 0) /\ mfind 2 (s_cam (e_state seen_e)) = Some c /\ c_ext c = true /\
    feature_rows (msckf_updater_init 2 true 1) lens v0 qid (e_size seen_e) (c_index c) seen_point seen_e 0 (ft_track seen_track)
      (mzero 4 1) (mzero 4 3) (mzero 4 (e_size seen_e)) = OK (rf, Hf, Hc, e') /\
    (forall r j, (j < 3)%nat -> rsum 4 (fun i => cancels r i * ent Hf i j) = 0) /\ ent Hf 0%nat 0%nat = 3.
Proof. split; [exact seen_reachable|]. split; [reflexivity|exact seen_rows]. Qed.

(** But the code takes rows of Q where the null space is spanned by columns
    ([ApplyLeftNullspace]), and one feature seen from two places makes the
    filter surer of where the body is than it was at construction. *)
Theorem C67_tracks_refuted : forall solve, exists e u t T px u' e', reachable e /\ p_root (e_par e) = false /\ unsure e (1 / 100) /\
  msckf_UpdateEKF solve u e t T px = OK (u', e') /\ covariance e' 0%nat 0%nat < 1 / 100.
Proof. exact tracks_surer. Qed.
Print Assumptions C67_tracks_refuted.
