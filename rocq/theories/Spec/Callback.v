(** What a sensor callback may do to the filter. *)
From Coq Require Import Reals List Arith Bool.
From Verif Require Import Base.Res Base.Mat Base.LinAlg Base.Geom Base.AMap
  Model.Types Model.Ekf Model.Ops Model.FiducialUpdater Spec.Layout Spec.Contract.
Import ListNotations.
Open Scope R_scope.

(** The filter knows a sensor, calibrating what is said. *)
Definition has_imu (e : ekf) (id : nat) (ext int : bool) : Prop :=
  exists s, mfind id (s_imu (e_state e)) = Some s /\ i_ext s = ext /\ i_int s = int.
Definition has_gps (e : ekf) (id : nat) (ext : bool) : Prop :=
  exists s, mfind id (s_gps (e_state e)) = Some s /\ g_ext s = ext.
Definition has_cam (e : ekf) (id : nat) (ext : bool) : Prop :=
  exists s, mfind id (s_cam (e_state e)) = Some s /\ c_ext s = ext.
Definition has_fid (e : ekf) (id : nat) (ext : bool) : Prop :=
  exists s, mfind id (s_fid (e_state e)) = Some s /\ f_ext s = ext.

(** An updater may leave out a calibration the filter makes room for, not
    the other way round. *)
Definition at_most (b ext : bool) : Prop := b = true -> ext = true.

(** Calls a callback makes: no registration, no re-initialisation, no
    change of configuration. *)
Definition callback_op (o : op) : Prop :=
  match o with
  | ORegImu _ _ _ | ORegGps _ _ _ | ORegCam _ _ _ | ORegFid _ _ | OInit _ _ | OSetNoise _ | OSetLen _
  | OSetGps _ _ => False
  | _ => True
  end.

(** [e'] arises from [e] by such calls, each within its contract. *)
Definition follows (e e' : ekf) : Prop :=
  exists l, Forall callback_op l /\ respects e l /\ run e l = OK e'.

(** A measurement noise matrix the update can work with. *)
Definition noise_ok (root : bool) (n : nat) (N : mat R) : Prop :=
  nr N = n /\ nc N = n /\
  (if root then
     (forall i j, (i < n)%nat -> (j < n)%nat -> 0 <= ent N i j) /\
     spd n (gram n (fun i j => sqrt (ent N i j)))
   else spd n (ent N)).

(** The clock after a measurement stamped [t]: its local time, or unchanged
    when that lies in the past.  The first stamp of all starts the clock. *)
Definition local_of (e : ekf) (t : R) : R := if e_time_init e then t - e_ref_time e else 0.
Definition clock_of (e : ekf) : R := if e_time_init e then e_time e else 0.
Definition brought (e : ekf) (t : R) (e' : ekf) : Prop :=
  e_time e' = Rmax (local_of e t) (clock_of e) /\ e_time_init e' = true /\
  (e_time_init e = true -> e_ref_time e' = e_ref_time e) /\
  (e_time_init e = false -> e_ref_time e' = t).

(** A board detection with positive error variances. *)
Definition errors_positive (b : BoardDetection) : Prop :=
  (0 < vx (bd_pos_error b) /\ 0 < vy (bd_pos_error b) /\ 0 < vz (bd_pos_error b) /\
   0 < vx (bd_ang_error b) /\ 0 < vy (bd_ang_error b) /\ 0 < vz (bd_ang_error b))%R.
