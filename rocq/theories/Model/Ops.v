(** The filter as a state machine: one constructor per public member function
    of EKF that changes the object (/repo/src/ekf/ekf.hpp 68-388),
    Updater::KalmanUpdate (/repo/src/ekf/update/updater.hpp), and the direct
    assignments of the IMU updater to the body state.  Every sensor
    callback of the program is a sequence of these calls. *)
From Coq Require Import Reals List Arith Bool.
From Verif Require Import Base.Res Base.Mat Base.Geom Model.Types Model.Ekf Model.Updater.
Import ListNotations.
Open Scope R_scope.

Inductive op : Type :=
| ORegImu (id : nat) (st : ImuState) (cov : mat R)
| ORegGps (id : nat) (st : GpsState) (cov : mat R)
| ORegCam (id : nat) (st : CamState) (cov : mat R)
| ORegFid (st : FidState) (cov : mat R)
| OPredict (t : R)
| OFrame (cam frame : nat)
| OAugment
| ORefresh
| OKalman (jac residual noise : mat R)
| OGetImu (id : nat)
| OGetGps (id : nat)
| OGetCam (id : nat)
| OGetAug (cam frame : nat) (t : R)
| OInit (t : R) (b : BodyState)
| OSetNoise (q : mat R)
| OSetLen (n : nat)
| OSetGps (p : V3) (a : R)
| OSetZero (b : bool)
| OBodyRates (acc ang_vel ang_acc : V3)
| OInitGravity
| OLocalTime (t : R)
| OGpsSample (lla_to_ecef : V3 -> V3) (align : list V3 -> list V3 -> option (V3 * R)) (t : R) (lla : V3).

Definition step (e : ekf) (o : op) : res ekf :=
  match o with
  | ORegImu id st c => RegisterIMU e id st c
  | ORegGps id st c => RegisterGPS e id st c
  | ORegCam id st c => RegisterCamera e id st c
  | ORegFid st c => RegisterFiducial e st c
  | OPredict t => PredictModel e t
  | OFrame cam f => AugmentStateFrame e cam f
  | OAugment => AugmentStateIfNeeded e
  | ORefresh => RefreshIndices e
  | OKalman jac residual noise => KalmanUpdate e jac residual noise
  | OGetImu id => OK (snd (GetImuState e id))
  | OGetGps id => OK (snd (GetGpsState e id))
  | OGetCam id => OK (snd (GetCamState e id))
  | OGetAug cam f t => let* (_, e) := GetAugState e cam f t in OK e
  | OInit t b => OK (Initialize e t b)
  | OSetNoise q => OK (SetBodyProcessNoise e q)
  | OSetLen n => OK (SetMaxTrackLength e n)
  | OSetGps p a => OK (SetGpsReference e p a)
  | OSetZero b => OK (SetZeroAcceleration e b)
  | OBodyRates a w wd => OK (SetBodyRates e a w wd)
  | OInitGravity => OK (InitializeGravity e)
  | OLocalTime t => OK (snd (CalculateLocalTime e t))
  | OGpsSample f align t lla => OK (AttemptGpsInitialization f align e t lla)
  end.

Fixpoint run (e : ekf) (l : list op) : res ekf :=
  match l with
  | [] => OK e
  | o :: t => let* e := step e o in run e t
  end.
