(** C04: Re-registering a sensor id is refused without side effects. *)
From Coq Require Import Reals List Arith Bool Lia Lra Sorted.
From Verif Require Import Base.Res Base.Mat Base.LinAlg Base.Geom Base.AMap
  Model.TypeHelper Model.Types Model.MathHelperMat Model.Ekf Model.Updater Model.Ops
  Spec.Layout Spec.History Spec.Contract Spec.Correct Spec.Named Spec.Same Spec.KF Spec.Motion Spec.Surgery
  Proofs.MatSurgery Proofs.Invariant Proofs.Demo Proofs.DemoFilter Proofs.Named Proofs.Same Proofs.Update
  Proofs.Sizes Proofs.RegRefute Proofs.Clock Proofs.Effects Proofs.Windows Proofs.Pruning Proofs.CloneFacts Proofs.Finals.
Import ListNotations.
Open Scope nat_scope.

Theorem C04_duplicate : forall e,
  (forall id st c, mfind id (s_imu (e_state e)) <> None -> RegisterIMU e id st c = OK e) /\
  (forall id st c, mfind id (s_gps (e_state e)) <> None -> RegisterGPS e id st c = OK e) /\
  (forall id st c, mfind id (s_cam (e_state e)) <> None -> RegisterCamera e id st c = OK e) /\
  (forall st c, mfind (f_id st) (s_fid (e_state e)) <> None -> RegisterFiducial e st c = OK e).
Proof. exact (fun e => conj (reg_imu_dup e) (conj (reg_gps_dup e) (conj (reg_cam_dup e) (reg_fid_dup e)))). Qed.
Print Assumptions C04_duplicate.

(** A fresh id stores the supplied state (index members apart), leaves all
    other states of that kind and all other kinds as they were. *)
Theorem C04_fresh_imu : forall e id st c e', reachable e -> contract e (ORegImu id st c) ->
  mfind id (s_imu (e_state e)) = None -> RegisterIMU e id st c = OK e' ->
  stores bare_imu (s_imu (e_state e)) (s_imu (e_state e')) id st /\
  bare (state_with_imu (e_state e') []) = bare (state_with_imu (e_state e) []) /\ frame e e' /\ cam_frame e e'.
Proof. exact (fun e id st c e' Hr => reg_imu_fresh e id st c e' (reachable_inv e Hr)). Qed.
Print Assumptions C04_fresh_imu.

Theorem C04_fresh_gps : forall e id st c e', reachable e -> contract e (ORegGps id st c) ->
  mfind id (s_gps (e_state e)) = None -> RegisterGPS e id st c = OK e' ->
  stores bare_gps (s_gps (e_state e)) (s_gps (e_state e')) id st /\
  bare (state_with_gps (e_state e') []) = bare (state_with_gps (e_state e) []) /\ frame e e' /\ cam_frame e e'.
Proof. exact (fun e id st c e' Hr => reg_gps_fresh e id st c e' (reachable_inv e Hr)). Qed.
Print Assumptions C04_fresh_gps.

Theorem C04_fresh_cam : forall e id st c e', reachable e -> contract e (ORegCam id st c) ->
  mfind id (s_cam (e_state e)) = None -> RegisterCamera e id st c = OK e' ->
  stores bare_cam (s_cam (e_state e)) (s_cam (e_state e')) id st /\
  bare (state_with_cam (e_state e') []) = bare (state_with_cam (e_state e) []) /\ frame e e'.
Proof. exact (fun e id st c e' Hr => reg_cam_fresh e id st c e' (reachable_inv e Hr)). Qed.
Print Assumptions C04_fresh_cam.

Theorem C04_fresh_fid : forall e st c e', reachable e -> contract e (ORegFid st c) ->
  mfind (f_id st) (s_fid (e_state e)) = None -> RegisterFiducial e st c = OK e' ->
  stores bare_fid (s_fid (e_state e)) (s_fid (e_state e')) (f_id st) st /\
  bare (state_with_fid (e_state e') []) = bare (state_with_fid (e_state e) []) /\ frame e e' /\ cam_frame e e'.
Proof. exact (fun e st c e' Hr => reg_fid_fresh e st c e' (reachable_inv e Hr)). Qed.
Print Assumptions C04_fresh_fid.

Example C04_hypotheses : reachable (demo_e AAll false) /\
  mfind 1 (s_imu (e_state (demo_e AAll false))) <> None /\ mfind 0 (s_imu (e_state (demo_e AAll false))) = None /\
  contract (demo_e AAll false) (ORegImu 0 demo_imu (demo_cov 12)) /\
  match RegisterIMU (demo_e AAll false) 0 demo_imu (demo_cov 12) with OK e' => length (s_imu (e_state e')) = 2 | UB => False end.
Proof.
  split; [apply demo_e_reachable|]. split; [vm_compute; discriminate|]. split; [vm_compute; reflexivity|]. split.
  { intros _. split; [reflexivity|]. split; [apply demo_cov_arg|]. cbn. pose proof e9_pos. auto. }
  vm_compute. reflexivity.
Qed.
