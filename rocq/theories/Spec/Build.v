(** What constructing a sensor should enter into the filter. *)
From Coq Require Import Reals List Arith Bool.
From Verif Require Import Base.Res Base.Mat Base.Geom Base.AMap Model.Types Model.Ekf Model.Sensors
  Spec.Layout Spec.Named.
Import ListNotations.
Open Scope R_scope.

Definition floored (v : list R) (k : nat) : R := Rmax (nth k v 0) (1 / 1000000).
(** The variances of the configuration, scalar by scalar. *)
Definition imu_spread (p : ImuParams) (a : label) : R :=
  match a with
  | LImuExt _ k => floored (ip_var p) k
  | LImuInt _ k => floored (ip_var p) (if ip_ext p then 6 + k else k)%nat
  | _ => 0
  end.
Definition gps_spread (p : GpsParams) (a : label) : R :=
  match a with LGps _ k => vget (gp_var p) k | _ => 0 end.
Definition cam_spread (p : CamParams) (a : label) : R :=
  match a with LCam _ k => floored (cp_var p) k | _ => 0 end.

(** Boards: the variances are not bounded from below. *)
Definition fid_spread (p : FidParams) (a : label) : R :=
  match a with LFid _ k => nth k (fp_var p) 0 | _ => 0 end.

(** The scalars [N] are new, with the spread given and uncorrelated; nothing
    else changed.  The square-root form takes the numbers for deviations. *)
Record enrolled (e e' : ekf) (N : list label) (spread : label -> R) : Prop := mkEnr {
  en_names : forall a, In a (layout (e_state e')) <-> In a (layout (e_state e)) \/ In a N;
  en_old : forall a b v, cov_is e a b v -> cov_is e' a b v;
  en_own : forall a, In a N -> cov_is e' a a (if p_root (e_par e) then spread a * spread a else spread a);
  en_apart : forall a b, In a N -> (In b N /\ a <> b) \/ In b (layout (e_state e)) ->
    cov_is e' a b 0 /\ cov_is e' b a 0 }.

Definition imu_scalars (id : nat) (ext int : bool) : list label :=
  (if ext then six (LImuExt id) else []) ++ (if int then six (LImuInt id) else []).
Definition imu_configured (p : ImuParams) (s : ImuState) : Prop :=
  i_pos s = ip_pos p /\ i_ang s = ip_ang p /\ i_acc_bias s = ip_acc_bias p /\ i_omg_bias s = ip_omg_bias p /\
  i_pos_stab s = ip_pos_stab p /\ i_ang_stab s = ip_ang_stab p /\ i_acc_stab s = ip_acc_stab p /\ i_omg_stab s = ip_omg_stab p /\
  i_ext s = ip_ext p /\ i_int s = ip_int p.
Definition gps_configured (p : GpsParams) (s : GpsState) : Prop :=
  g_pos s = gp_pos p /\ g_pos_stab s = gp_pos_stab p /\ g_ext s = gp_ext p.
Definition cam_configured (p : CamParams) (s : CamState) : Prop :=
  c_pos s = cp_pos p /\ c_ang s = cp_ang p /\ c_pos_stab s = cp_pos_stab p /\ c_ang_stab s = cp_ang_stab p /\
  c_intr s = cp_intr p /\ c_rate s = cp_rate p /\ c_ext s = cp_ext p.

Definition fid_configured (p : FidParams) (s : FidState) : Prop :=
  f_pos s = fp_pos p /\ f_ang s = fp_ang p /\ f_id s = fp_id p /\ f_ext s = fp_ext p.

(** The same IMU with other variances. *)
Definition with_variance (p : ImuParams) (v : list R) : ImuParams :=
  mkIP (ip_ext p) (ip_int p) (ip_pos_stab p) (ip_ang_stab p) (ip_acc_stab p) (ip_omg_stab p) (ip_pos p) (ip_ang p) (ip_acc_bias p) (ip_omg_bias p) v.
