(** What a caller of the filter has to respect: shapes of the arguments,
    non-negative noise intensities, and positive definite measurement noise.
    Nothing here speaks about the internal bookkeeping. *)
From Coq Require Import Reals List Arith Bool.
From Verif Require Import Base.Res Base.Mat Base.LinAlg Base.Geom Base.AMap
  Model.Types Model.Ekf Model.Ops Spec.Layout.
Import ListNotations.
Open Scope R_scope.

(** A covariance argument: at least [n] x [n]; in covariance form its leading
    block is a covariance, in square-root form it is upper triangular. *)
Definition cov_arg (root : bool) (n : nat) (c : mat R) : Prop :=
  (n <= nr c)%nat /\ (n <= nc c)%nat /\
  (if root then forall i j, (j < i < n)%nat -> ent c i j = 0 else psd n (ent c)).

Definition imu_arg (root : bool) (st : ImuState) (c : mat R) : Prop :=
  i_size st = length (imu_labels (0%nat, st)) /\ cov_arg root (i_size st) c /\
  (i_ext st = true -> 0 <= i_pos_stab st /\ 0 <= i_ang_stab st) /\
  (i_int st = true -> 0 <= i_acc_stab st /\ 0 <= i_omg_stab st).
Definition gps_arg (root : bool) (st : GpsState) (c : mat R) : Prop :=
  g_size st = length (gps_labels (0%nat, st)) /\ cov_arg root (g_size st) c /\
  (g_ext st = true -> 0 <= g_pos_stab st).
Definition cam_arg (root : bool) (st : CamState) (c : mat R) : Prop :=
  c_size st = length (cam_labels (0%nat, st)) /\ cov_arg root (c_size st) c /\
  (c_ext st = true -> 0 <= c_pos_stab st /\ 0 <= c_ang_stab st) /\ c_rate st <> 0.
Definition fid_arg (root : bool) (st : FidState) (c : mat R) : Prop :=
  f_size st = length (fid_labels (0%nat, st)) /\ cov_arg root (f_size st) c /\
  (f_ext st = true -> 0 <= f_pos_stab st /\ 0 <= f_ang_stab st).

(** A body process noise vector. *)
Definition noise_arg (q : mat R) : Prop :=
  nr q = 18%nat /\ forall i, (i < 18)%nat -> 0 <= ent q i 0.

(** A measurement: Jacobian m x n, residual m x 1, noise m x m.  The
    square-root form takes element-wise roots of the noise. *)
Definition meas_arg (root : bool) (n : nat) (jac residual noise : mat R) : Prop :=
  nc jac = n /\ nr residual = nr jac /\ nc residual = 1%nat /\
  nr noise = nr jac /\ nc noise = nr jac /\
  (if root then
     (forall i j, (i < nr jac)%nat -> (j < nr jac)%nat -> 0 <= ent noise i j) /\
     spd (nr jac) (gram (nr jac) (fun i j => sqrt (ent noise i j)))
   else spd (nr jac) (ent noise)).

(** A clone query is answered from the window of the camera itself, or by
    interpolation in a non-empty window of distinct times. *)
Fixpoint increasing_times (l : list AugState) : Prop :=
  match l with
  | a :: ((b :: _) as t) => a_time a < a_time b /\ increasing_times t
  | _ => True
  end.
Definition last_before (l : list AugState) (now : R) : Prop :=
  exists a l', l = l' ++ [a] /\ a_time a < now.
Definition own_window (e : ekf) (cam : nat) : Prop :=
  p_aug (e_par e) = AAll \/ (p_aug (e_par e) = APrimary /\ cam = e_primary e).
Definition query_window (e : ekf) : list AugState :=
  mget [] (match p_aug (e_par e) with APrimary => e_primary e | _ => 0%nat end) (s_aug (e_state e)).
Definition query_arg (e : ekf) (cam : nat) : Prop :=
  own_window e cam \/
  (increasing_times (query_window e) /\ last_before (query_window e) (e_time e)).

Definition contract (e : ekf) (o : op) : Prop :=
  match o with
  | ORegImu id st c => mfind id (s_imu (e_state e)) = None -> imu_arg (p_root (e_par e)) st c
  | ORegGps id st c => mfind id (s_gps (e_state e)) = None -> gps_arg (p_root (e_par e)) st c
  | ORegCam id st c => mfind id (s_cam (e_state e)) = None -> cam_arg (p_root (e_par e)) st c
  | ORegFid st c => mfind (f_id st) (s_fid (e_state e)) = None -> fid_arg (p_root (e_par e)) st c
  | OKalman jac residual noise =>
      meas_arg (p_root (e_par e)) (dim (e_state e)) jac residual noise
  | OGetAug cam _ _ => query_arg e cam
  | OInit _ b => b_index b = 0%nat
  | OSetNoise q => noise_arg q
  | OSetLen n => (1 <= n)%nat
  | _ => True
  end.

(** Every call of the sequence respects the contract in the state it meets. *)
Fixpoint respects (e : ekf) (l : list op) : Prop :=
  match l with
  | [] => True
  | o :: t => contract e o /\ forall e', step e o = OK e' -> respects e' t
  end.

(** Filter objects a program can arrive at: construct, then make calls that
    respect the contract. *)
Definition reachable (e : ekf) : Prop :=
  exists p q pe a l, noise_arg q /\ respects (EKF_init p q pe a) l /\ run (EKF_init p q pe a) l = OK e.
