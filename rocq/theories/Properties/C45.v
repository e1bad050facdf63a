(** C45: Reading the state of a sensor. *)
From Coq Require Import Reals List Arith Bool Lia Lra.
From Verif Require Import Base.Res Base.Mat Base.LinAlg Base.Geom Base.AMap
  Model.Types Model.Ekf Model.Ops Spec.Layout Spec.History Spec.Contract Spec.Callback Spec.Unused
  Proofs.Demo Proofs.DemoFilter Proofs.Follows Proofs.Phantom.
Import ListNotations.
Open Scope nat_scope.

(** The reads answer the stored state of a registered sensor and change
    nothing at all. *)
Theorem C45_registered : forall e id,
  (forall s, mfind id (s_imu (e_state e)) = Some s -> GetImuState e id = (s, e)) /\
  (forall s, mfind id (s_gps (e_state e)) = Some s -> GetGpsState e id = (s, e)) /\
  (forall s, mfind id (s_cam (e_state e)) = Some s -> GetCamState e id = (s, e)).
Proof. exact (fun e id => conj (fun s => get_imu_same e id s) (conj (fun s => get_gps_same e id s) (fun s => get_cam_same e id s))). Qed.
Print Assumptions C45_registered.

(** Reading a clone changes no estimate. *)
Theorem C45_clone : forall e cam frame t s e', GetAugState e cam frame t = OK (s, e') -> same_estimates e e'.
Proof. exact read_clone. Qed.
Print Assumptions C45_clone.

(** Reading an unknown sensor stores a default state without error states;
    every later registration of that id is refused. *)
Theorem C45_unknown_imu : forall e id, mfind id (s_imu (e_state e)) = None -> let e1 := snd (GetImuState e id) in
  fst (GetImuState e id) = default_imu /\ mfind id (s_imu (e_state e1)) = Some default_imu /\
  e_cov e1 = e_cov e /\ layout (e_state e1) = layout (e_state e) /\
  forall st c, RegisterIMU e1 id st c = OK e1.
Proof. exact phantom_imu. Qed.
Print Assumptions C45_unknown_imu.
Theorem C45_unknown_gps : forall e id, mfind id (s_gps (e_state e)) = None -> let e1 := snd (GetGpsState e id) in
  fst (GetGpsState e id) = default_gps /\ mfind id (s_gps (e_state e1)) = Some default_gps /\
  e_cov e1 = e_cov e /\ layout (e_state e1) = layout (e_state e) /\
  forall st c, RegisterGPS e1 id st c = OK e1.
Proof. exact phantom_gps. Qed.
Print Assumptions C45_unknown_gps.
Theorem C45_unknown_cam : forall e id, mfind id (s_cam (e_state e)) = None -> let e1 := snd (GetCamState e id) in
  fst (GetCamState e id) = default_cam /\ mfind id (s_cam (e_state e1)) = Some default_cam /\
  e_cov e1 = e_cov e /\ layout (e_state e1) = layout (e_state e) /\
  forall st c, RegisterCamera e1 id st c = OK e1.
Proof. exact phantom_cam. Qed.
Print Assumptions C45_unknown_cam.

(** Non-vacuity: a filter with one registered and one unknown IMU; without
    the read the registration of the unknown one is accepted. *)
Example C45_hypotheses : mfind 1 (s_imu (e_state (demo_e AAll false))) <> None /\
  mfind 0 (s_imu (e_state (demo_e AAll false))) = None /\
  match RegisterIMU (demo_e AAll false) 0 demo_imu (demo_cov 12) with OK e' => length (s_imu (e_state e')) = 2 /\ dim (e_state e') = 63 | UB => False end.
Proof. split; [vm_compute; discriminate|]. split; [vm_compute; reflexivity|]. vm_compute. split; reflexivity. Qed.
Example C45_clone_case : match GetAugState (demo_e AAll false) 2 8 0 with OK (s, _) => a_frame s = 8 | UB => False end.
Proof. vm_compute. reflexivity. Qed.
