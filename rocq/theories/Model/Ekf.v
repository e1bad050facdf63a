(** /repo/src/ekf/ekf.hpp and ekf.cpp: the filter object.  Data and debug
    loggers are modelled separately (Model/Loggers.v); execution timing is
    omitted. *)
From Coq Require Import Reals List Arith Bool.
From Verif Require Import Base.Res Base.Mat Base.RDec Base.Geom Base.AMap Base.RMat
  Model.TypeHelper Model.Types Model.MathHelperMat Model.QR.
Import ListNotations.
Open Scope R_scope.

(** ekf.hpp / types: augmentation and GPS initialisation types *)
Inductive AugType : Type := ANone | AAll | APrimary | ATime | AError.
Inductive GpsInitType : Type := GConstant | GBaseline | GError.

(** ekf.hpp 44-67: the parameters that are read after construction. *)
Record params : Type := mkParams {
  p_aug : AugType;
  p_aug_dt : R;
  p_aug_pos_err : R;
  p_aug_ang_err : R;
  p_gps_init : GpsInitType;
  p_gps_baseline : R;
  p_gps_pos_thresh : R;
  p_gps_ang_thresh : R;
  p_chi2 : R;
  p_imu_scale : R;
  p_root : bool;
  p_fej : bool }.

(** ekf.hpp 390-448.  [e_aug_prev] is [m_augmenting_prev_time], which the
    constructor leaves uninitialised ([None]). *)
Record ekf : Type := mkEkf {
  e_par : params;
  e_state : State;
  e_cov : mat R;
  e_size : nat;
  e_imu_size : nat;
  e_gps_size : nat;
  e_cam_size : nat;
  e_aug_size : nat;
  e_fid_size : nat;
  e_time : R;
  e_ref_time : R;
  e_time_init : bool;
  e_max_len : nat;
  e_Q : mat R;
  e_bodyQ : mat R;
  e_lla_init : bool;
  e_pos_e_in_g : V3;
  e_ang_l_to_e : R;
  e_gps_time : list R;
  e_gps_ecef : list V3;
  e_gps_xyz : list V3;
  e_aug_prev : option R;
  e_primary : nat;
  e_frame_period : R;
  e_track_dur : R;
  e_min_aug : R;
  e_imu_start : nat;
  e_gps_start : nat;
  e_cam_start : nat;
  e_aug_start : nat;
  e_fid_start : nat;
  e_gravity : bool;
  e_zero_acc : bool;
  e_frame_recv : bool }.

Definition with_state (e : ekf) (x0 : State) : ekf :=
  mkEkf (e_par e) x0 (e_cov e) (e_size e) (e_imu_size e) (e_gps_size e) (e_cam_size e)
    (e_aug_size e) (e_fid_size e) (e_time e) (e_ref_time e) (e_time_init e) (e_max_len e) (e_Q
    e) (e_bodyQ e) (e_lla_init e) (e_pos_e_in_g e) (e_ang_l_to_e e) (e_gps_time e) (e_gps_ecef
    e) (e_gps_xyz e) (e_aug_prev e) (e_primary e) (e_frame_period e) (e_track_dur e) (e_min_aug
    e) (e_imu_start e) (e_gps_start e) (e_cam_start e) (e_aug_start e) (e_fid_start e)
    (e_gravity e) (e_zero_acc e) (e_frame_recv e).
Definition with_cov (e : ekf) (x0 : mat R) : ekf :=
  mkEkf (e_par e) (e_state e) x0 (e_size e) (e_imu_size e) (e_gps_size e) (e_cam_size e)
    (e_aug_size e) (e_fid_size e) (e_time e) (e_ref_time e) (e_time_init e) (e_max_len e) (e_Q
    e) (e_bodyQ e) (e_lla_init e) (e_pos_e_in_g e) (e_ang_l_to_e e) (e_gps_time e) (e_gps_ecef
    e) (e_gps_xyz e) (e_aug_prev e) (e_primary e) (e_frame_period e) (e_track_dur e) (e_min_aug
    e) (e_imu_start e) (e_gps_start e) (e_cam_start e) (e_aug_start e) (e_fid_start e)
    (e_gravity e) (e_zero_acc e) (e_frame_recv e).
Definition with_time (e : ekf) (x0 : R) : ekf :=
  mkEkf (e_par e) (e_state e) (e_cov e) (e_size e) (e_imu_size e) (e_gps_size e) (e_cam_size e)
    (e_aug_size e) (e_fid_size e) x0 (e_ref_time e) (e_time_init e) (e_max_len e) (e_Q e)
    (e_bodyQ e) (e_lla_init e) (e_pos_e_in_g e) (e_ang_l_to_e e) (e_gps_time e) (e_gps_ecef e)
    (e_gps_xyz e) (e_aug_prev e) (e_primary e) (e_frame_period e) (e_track_dur e) (e_min_aug e)
    (e_imu_start e) (e_gps_start e) (e_cam_start e) (e_aug_start e) (e_fid_start e) (e_gravity
    e) (e_zero_acc e) (e_frame_recv e).
Definition with_Q (e : ekf) (x0 : mat R) : ekf :=
  mkEkf (e_par e) (e_state e) (e_cov e) (e_size e) (e_imu_size e) (e_gps_size e) (e_cam_size e)
    (e_aug_size e) (e_fid_size e) (e_time e) (e_ref_time e) (e_time_init e) (e_max_len e) x0
    (e_bodyQ e) (e_lla_init e) (e_pos_e_in_g e) (e_ang_l_to_e e) (e_gps_time e) (e_gps_ecef e)
    (e_gps_xyz e) (e_aug_prev e) (e_primary e) (e_frame_period e) (e_track_dur e) (e_min_aug e)
    (e_imu_start e) (e_gps_start e) (e_cam_start e) (e_aug_start e) (e_fid_start e) (e_gravity
    e) (e_zero_acc e) (e_frame_recv e).
Definition with_bodyQ (e : ekf) (x0 : mat R) : ekf :=
  mkEkf (e_par e) (e_state e) (e_cov e) (e_size e) (e_imu_size e) (e_gps_size e) (e_cam_size e)
    (e_aug_size e) (e_fid_size e) (e_time e) (e_ref_time e) (e_time_init e) (e_max_len e) (e_Q
    e) x0 (e_lla_init e) (e_pos_e_in_g e) (e_ang_l_to_e e) (e_gps_time e) (e_gps_ecef e)
    (e_gps_xyz e) (e_aug_prev e) (e_primary e) (e_frame_period e) (e_track_dur e) (e_min_aug e)
    (e_imu_start e) (e_gps_start e) (e_cam_start e) (e_aug_start e) (e_fid_start e) (e_gravity
    e) (e_zero_acc e) (e_frame_recv e).
Definition with_clock (e : ekf) (x0 : R) (x1 : R) (x2 : bool) : ekf :=
  mkEkf (e_par e) (e_state e) (e_cov e) (e_size e) (e_imu_size e) (e_gps_size e) (e_cam_size e)
    (e_aug_size e) (e_fid_size e) x0 x1 x2 (e_max_len e) (e_Q e) (e_bodyQ e) (e_lla_init e)
    (e_pos_e_in_g e) (e_ang_l_to_e e) (e_gps_time e) (e_gps_ecef e) (e_gps_xyz e) (e_aug_prev e)
    (e_primary e) (e_frame_period e) (e_track_dur e) (e_min_aug e) (e_imu_start e) (e_gps_start
    e) (e_cam_start e) (e_aug_start e) (e_fid_start e) (e_gravity e) (e_zero_acc e)
    (e_frame_recv e).
Definition with_imu_sizes (e : ekf) (x0 : nat) (x1 : nat) : ekf :=
  mkEkf (e_par e) (e_state e) (e_cov e) x0 x1 (e_gps_size e) (e_cam_size e) (e_aug_size e)
    (e_fid_size e) (e_time e) (e_ref_time e) (e_time_init e) (e_max_len e) (e_Q e) (e_bodyQ e)
    (e_lla_init e) (e_pos_e_in_g e) (e_ang_l_to_e e) (e_gps_time e) (e_gps_ecef e) (e_gps_xyz e)
    (e_aug_prev e) (e_primary e) (e_frame_period e) (e_track_dur e) (e_min_aug e) (e_imu_start
    e) (e_gps_start e) (e_cam_start e) (e_aug_start e) (e_fid_start e) (e_gravity e) (e_zero_acc
    e) (e_frame_recv e).
Definition with_gps_sizes (e : ekf) (x0 : nat) (x1 : nat) : ekf :=
  mkEkf (e_par e) (e_state e) (e_cov e) x0 (e_imu_size e) x1 (e_cam_size e) (e_aug_size e)
    (e_fid_size e) (e_time e) (e_ref_time e) (e_time_init e) (e_max_len e) (e_Q e) (e_bodyQ e)
    (e_lla_init e) (e_pos_e_in_g e) (e_ang_l_to_e e) (e_gps_time e) (e_gps_ecef e) (e_gps_xyz e)
    (e_aug_prev e) (e_primary e) (e_frame_period e) (e_track_dur e) (e_min_aug e) (e_imu_start
    e) (e_gps_start e) (e_cam_start e) (e_aug_start e) (e_fid_start e) (e_gravity e) (e_zero_acc
    e) (e_frame_recv e).
Definition with_cam_sizes (e : ekf) (x0 : nat) (x1 : nat) : ekf :=
  mkEkf (e_par e) (e_state e) (e_cov e) x0 (e_imu_size e) (e_gps_size e) x1 (e_aug_size e)
    (e_fid_size e) (e_time e) (e_ref_time e) (e_time_init e) (e_max_len e) (e_Q e) (e_bodyQ e)
    (e_lla_init e) (e_pos_e_in_g e) (e_ang_l_to_e e) (e_gps_time e) (e_gps_ecef e) (e_gps_xyz e)
    (e_aug_prev e) (e_primary e) (e_frame_period e) (e_track_dur e) (e_min_aug e) (e_imu_start
    e) (e_gps_start e) (e_cam_start e) (e_aug_start e) (e_fid_start e) (e_gravity e) (e_zero_acc
    e) (e_frame_recv e).
Definition with_fid_sizes (e : ekf) (x0 : nat) (x1 : nat) : ekf :=
  mkEkf (e_par e) (e_state e) (e_cov e) x0 (e_imu_size e) (e_gps_size e) (e_cam_size e)
    (e_aug_size e) x1 (e_time e) (e_ref_time e) (e_time_init e) (e_max_len e) (e_Q e) (e_bodyQ
    e) (e_lla_init e) (e_pos_e_in_g e) (e_ang_l_to_e e) (e_gps_time e) (e_gps_ecef e) (e_gps_xyz
    e) (e_aug_prev e) (e_primary e) (e_frame_period e) (e_track_dur e) (e_min_aug e)
    (e_imu_start e) (e_gps_start e) (e_cam_start e) (e_aug_start e) (e_fid_start e) (e_gravity
    e) (e_zero_acc e) (e_frame_recv e).
Definition with_aug_sizes (e : ekf) (x0 : nat) (x1 : nat) : ekf :=
  mkEkf (e_par e) (e_state e) (e_cov e) x0 (e_imu_size e) (e_gps_size e) (e_cam_size e) x1
    (e_fid_size e) (e_time e) (e_ref_time e) (e_time_init e) (e_max_len e) (e_Q e) (e_bodyQ e)
    (e_lla_init e) (e_pos_e_in_g e) (e_ang_l_to_e e) (e_gps_time e) (e_gps_ecef e) (e_gps_xyz e)
    (e_aug_prev e) (e_primary e) (e_frame_period e) (e_track_dur e) (e_min_aug e) (e_imu_start
    e) (e_gps_start e) (e_cam_start e) (e_aug_start e) (e_fid_start e) (e_gravity e) (e_zero_acc
    e) (e_frame_recv e).
Definition with_tracks (e : ekf) (x0 : nat) (x1 : R) : ekf :=
  mkEkf (e_par e) (e_state e) (e_cov e) (e_size e) (e_imu_size e) (e_gps_size e) (e_cam_size e)
    (e_aug_size e) (e_fid_size e) (e_time e) (e_ref_time e) (e_time_init e) x0 (e_Q e) (e_bodyQ
    e) (e_lla_init e) (e_pos_e_in_g e) (e_ang_l_to_e e) (e_gps_time e) (e_gps_ecef e) (e_gps_xyz
    e) (e_aug_prev e) (e_primary e) (e_frame_period e) x1 (e_min_aug e) (e_imu_start e)
    (e_gps_start e) (e_cam_start e) (e_aug_start e) (e_fid_start e) (e_gravity e) (e_zero_acc e)
    (e_frame_recv e).
Definition with_periods (e : ekf) (x0 : R) (x1 : R) (x2 : R) : ekf :=
  mkEkf (e_par e) (e_state e) (e_cov e) (e_size e) (e_imu_size e) (e_gps_size e) (e_cam_size e)
    (e_aug_size e) (e_fid_size e) (e_time e) (e_ref_time e) (e_time_init e) (e_max_len e) (e_Q
    e) (e_bodyQ e) (e_lla_init e) (e_pos_e_in_g e) (e_ang_l_to_e e) (e_gps_time e) (e_gps_ecef
    e) (e_gps_xyz e) (e_aug_prev e) (e_primary e) x0 x1 x2 (e_imu_start e) (e_gps_start e)
    (e_cam_start e) (e_aug_start e) (e_fid_start e) (e_gravity e) (e_zero_acc e) (e_frame_recv
    e).
Definition with_primary (e : ekf) (x0 : nat) : ekf :=
  mkEkf (e_par e) (e_state e) (e_cov e) (e_size e) (e_imu_size e) (e_gps_size e) (e_cam_size e)
    (e_aug_size e) (e_fid_size e) (e_time e) (e_ref_time e) (e_time_init e) (e_max_len e) (e_Q
    e) (e_bodyQ e) (e_lla_init e) (e_pos_e_in_g e) (e_ang_l_to_e e) (e_gps_time e) (e_gps_ecef
    e) (e_gps_xyz e) (e_aug_prev e) x0 (e_frame_period e) (e_track_dur e) (e_min_aug e)
    (e_imu_start e) (e_gps_start e) (e_cam_start e) (e_aug_start e) (e_fid_start e) (e_gravity
    e) (e_zero_acc e) (e_frame_recv e).
Definition with_starts (e : ekf) (x0 : nat) (x1 : nat) (x2 : nat) (x3 : nat) (x4 : nat) : ekf :=
  mkEkf (e_par e) (e_state e) (e_cov e) (e_size e) (e_imu_size e) (e_gps_size e) (e_cam_size e)
    (e_aug_size e) (e_fid_size e) (e_time e) (e_ref_time e) (e_time_init e) (e_max_len e) (e_Q
    e) (e_bodyQ e) (e_lla_init e) (e_pos_e_in_g e) (e_ang_l_to_e e) (e_gps_time e) (e_gps_ecef
    e) (e_gps_xyz e) (e_aug_prev e) (e_primary e) (e_frame_period e) (e_track_dur e) (e_min_aug
    e) x0 x1 x2 x4 x3 (e_gravity e) (e_zero_acc e) (e_frame_recv e).
Definition with_gps_ref (e : ekf) (x0 : V3) (x1 : R) (x2 : bool) : ekf :=
  mkEkf (e_par e) (e_state e) (e_cov e) (e_size e) (e_imu_size e) (e_gps_size e) (e_cam_size e)
    (e_aug_size e) (e_fid_size e) (e_time e) (e_ref_time e) (e_time_init e) (e_max_len e) (e_Q
    e) (e_bodyQ e) x2 x0 x1 (e_gps_time e) (e_gps_ecef e) (e_gps_xyz e) (e_aug_prev e)
    (e_primary e) (e_frame_period e) (e_track_dur e) (e_min_aug e) (e_imu_start e) (e_gps_start
    e) (e_cam_start e) (e_aug_start e) (e_fid_start e) (e_gravity e) (e_zero_acc e)
    (e_frame_recv e).
Definition with_gps_samples (e : ekf) (x0 : list R) (x1 : list V3) (x2 : list V3) : ekf :=
  mkEkf (e_par e) (e_state e) (e_cov e) (e_size e) (e_imu_size e) (e_gps_size e) (e_cam_size e)
    (e_aug_size e) (e_fid_size e) (e_time e) (e_ref_time e) (e_time_init e) (e_max_len e) (e_Q
    e) (e_bodyQ e) (e_lla_init e) (e_pos_e_in_g e) (e_ang_l_to_e e) x0 x1 x2 (e_aug_prev e)
    (e_primary e) (e_frame_period e) (e_track_dur e) (e_min_aug e) (e_imu_start e) (e_gps_start
    e) (e_cam_start e) (e_aug_start e) (e_fid_start e) (e_gravity e) (e_zero_acc e)
    (e_frame_recv e).
Definition with_aug_prev (e : ekf) (x0 : option R) : ekf :=
  mkEkf (e_par e) (e_state e) (e_cov e) (e_size e) (e_imu_size e) (e_gps_size e) (e_cam_size e)
    (e_aug_size e) (e_fid_size e) (e_time e) (e_ref_time e) (e_time_init e) (e_max_len e) (e_Q
    e) (e_bodyQ e) (e_lla_init e) (e_pos_e_in_g e) (e_ang_l_to_e e) (e_gps_time e) (e_gps_ecef
    e) (e_gps_xyz e) x0 (e_primary e) (e_frame_period e) (e_track_dur e) (e_min_aug e)
    (e_imu_start e) (e_gps_start e) (e_cam_start e) (e_aug_start e) (e_fid_start e) (e_gravity
    e) (e_zero_acc e) (e_frame_recv e).
Definition with_gravity (e : ekf) (x0 : bool) : ekf :=
  mkEkf (e_par e) (e_state e) (e_cov e) (e_size e) (e_imu_size e) (e_gps_size e) (e_cam_size e)
    (e_aug_size e) (e_fid_size e) (e_time e) (e_ref_time e) (e_time_init e) (e_max_len e) (e_Q
    e) (e_bodyQ e) (e_lla_init e) (e_pos_e_in_g e) (e_ang_l_to_e e) (e_gps_time e) (e_gps_ecef
    e) (e_gps_xyz e) (e_aug_prev e) (e_primary e) (e_frame_period e) (e_track_dur e) (e_min_aug
    e) (e_imu_start e) (e_gps_start e) (e_cam_start e) (e_aug_start e) (e_fid_start e) x0
    (e_zero_acc e) (e_frame_recv e).
Definition with_zero_acc (e : ekf) (x0 : bool) : ekf :=
  mkEkf (e_par e) (e_state e) (e_cov e) (e_size e) (e_imu_size e) (e_gps_size e) (e_cam_size e)
    (e_aug_size e) (e_fid_size e) (e_time e) (e_ref_time e) (e_time_init e) (e_max_len e) (e_Q
    e) (e_bodyQ e) (e_lla_init e) (e_pos_e_in_g e) (e_ang_l_to_e e) (e_gps_time e) (e_gps_ecef
    e) (e_gps_xyz e) (e_aug_prev e) (e_primary e) (e_frame_period e) (e_track_dur e) (e_min_aug
    e) (e_imu_start e) (e_gps_start e) (e_cam_start e) (e_aug_start e) (e_fid_start e)
    (e_gravity e) x0 (e_frame_recv e).
Definition with_frame_recv (e : ekf) (x0 : bool) : ekf :=
  mkEkf (e_par e) (e_state e) (e_cov e) (e_size e) (e_imu_size e) (e_gps_size e) (e_cam_size e)
    (e_aug_size e) (e_fid_size e) (e_time e) (e_ref_time e) (e_time_init e) (e_max_len e) (e_Q
    e) (e_bodyQ e) (e_lla_init e) (e_pos_e_in_g e) (e_ang_l_to_e e) (e_gps_time e) (e_gps_ecef
    e) (e_gps_xyz e) (e_aug_prev e) (e_primary e) (e_frame_period e) (e_track_dur e) (e_min_aug
    e) (e_imu_start e) (e_gps_start e) (e_cam_start e) (e_aug_start e) (e_fid_start e)
    (e_gravity e) (e_zero_acc e) x0.


Definition p_of (e : ekf) := e_par e.
Definition is_root (e : ekf) : bool := p_root (e_par e).

(** ekf.cpp 37-87 with the member initialisers of ekf.hpp 390-448.
    [process_noise] is the constructor parameter of the same name. *)
Definition EKF_init (p : params) (process_noise : mat R) (pos_e_in_g : V3) (ang_l_to_e : R) : ekf :=
  let c := mscale (1 / 100) (midm g_body_state_size g_body_state_size) in
  mkEkf p default_state (if p_root p then mmap sqrt c else c)
    g_body_state_size 0 0 0 0 0 0 0 false 20
    (mzero g_body_state_size g_body_state_size) process_noise
    (match p_gps_init p with GConstant => true | _ => false end)
    pos_e_in_g ang_l_to_e [] [] [] None 0 0 0 1 0 0 0 0 0 false true true.

(** *** RefreshIndices (ekf.cpp 680-757) *)

(** [Matrix3d::Identity() * s] written at (i, i). *)
Definition set_diag3 (Q : mat R) (i : nat) (s : R) : res (mat R) :=
  set_block Q i i 3 3 (mscale s (midm 3 3)).

(** ekf.cpp 691-709 *)
Fixpoint refresh_imus (m : amap ImuState) (cur : nat) (Q : mat R)
  : res (amap ImuState * nat * mat R) :=
  match m with
  | [] => OK ([], cur, Q)
  | (k, s) :: t =>
      let s0 := imu_with_index s cur (i_index_ext s) (i_index_int s) in
      let* (s1, cur1, Q1) :=
        (if i_ext s0 then
           let* Q := set_diag3 Q (cur + 0) (i_pos_stab s0) in
           let* Q := set_diag3 Q (cur + 3) (i_ang_stab s0) in
           OK (imu_with_index s0 (i_index s0) cur (i_index_int s0),
               (cur + g_imu_extrinsic_state_size)%nat, Q)
         else OK (s0, cur, Q)) in
      let* (s2, cur2, Q2) :=
        (if i_int s1 then
           let* Q := set_diag3 Q1 (cur1 + 0) (i_acc_stab s1) in
           let* Q := set_diag3 Q (cur1 + 3) (i_omg_stab s1) in
           OK (imu_with_index s1 (i_index s1) (i_index_ext s1) cur1,
               (cur1 + g_imu_intrinsic_state_size)%nat, Q)
         else OK (s1, cur1, Q1)) in
      let* (t', cur3, Q3) := refresh_imus t cur2 Q2 in
      OK ((k, s2) :: t', cur3, Q3)
  end.

(** ekf.cpp 712-719 *)
Fixpoint refresh_gpss (m : amap GpsState) (cur : nat) (Q : mat R)
  : res (amap GpsState * nat * mat R) :=
  match m with
  | [] => OK ([], cur, Q)
  | (k, s) :: t =>
      let s0 := gps_with_index s cur in
      let* (cur1, Q1) :=
        (if g_ext s0 then
           let* Q := set_diag3 Q cur (g_pos_stab s0) in
           OK ((cur + g_gps_extrinsic_state_size)%nat, Q)
         else OK (cur, Q)) in
      let* (t', cur2, Q2) := refresh_gpss t cur1 Q1 in
      OK ((k, s0) :: t', cur2, Q2)
  end.

(** ekf.cpp 722-731 *)
Fixpoint refresh_cams (m : amap CamState) (cur : nat) (Q : mat R)
  : res (amap CamState * nat * mat R) :=
  match m with
  | [] => OK ([], cur, Q)
  | (k, s) :: t =>
      let s0 := cam_with_index s cur in
      let* (cur1, Q1) :=
        (if c_ext s0 then
           let* Q := set_diag3 Q (cur + 0) (c_pos_stab s0) in
           let* Q := set_diag3 Q (cur + 3) (c_ang_stab s0) in
           OK ((cur + g_cam_extrinsic_state_size)%nat, Q)
         else OK (cur, Q)) in
      let* (t', cur2, Q2) := refresh_cams t cur1 Q1 in
      OK ((k, s0) :: t', cur2, Q2)
  end.

(** ekf.cpp 734-743 *)
Fixpoint refresh_fids (m : amap FidState) (cur : nat) (Q : mat R)
  : res (amap FidState * nat * mat R) :=
  match m with
  | [] => OK ([], cur, Q)
  | (k, s) :: t =>
      let s0 := fid_with_index s cur in
      let* (cur1, Q1) :=
        (if f_ext s0 then
           let* Q := set_diag3 Q (cur + 0) (f_pos_stab s0) in
           let* Q := set_diag3 Q (cur + 3) (f_ang_stab s0) in
           OK ((cur + g_fid_extrinsic_state_size)%nat, Q)
         else OK (cur, Q)) in
      let* (t', cur2, Q2) := refresh_fids t cur1 Q1 in
      OK ((k, s0) :: t', cur2, Q2)
  end.

(** ekf.cpp 748-751 *)
Fixpoint refresh_augv (l : list AugState) (cur : nat) : list AugState * nat :=
  match l with
  | [] => ([], cur)
  | s :: t =>
      let '(t', cur') := refresh_augv t (cur + g_aug_state_size) in
      (aug_with_index s cur :: t', cur')
  end.

(** ekf.cpp 746-752 *)
Fixpoint refresh_augs (m : amap (list AugState)) (cur : nat) : amap (list AugState) * nat :=
  match m with
  | [] => ([], cur)
  | (k, l) :: t =>
      let '(l', cur1) := refresh_augv l cur in
      let '(t', cur2) := refresh_augs t cur1 in
      ((k, l') :: t', cur2)
  end.

Definition body_with_index (b : BodyState) (ix : nat) : BodyState :=
  mkBody (b_pos b) (b_vel b) (b_acc b) (b_ang b) (b_ang_vel b) (b_ang_acc b) ix.

(** ekf.cpp 680-757 *)
Definition RefreshIndices (e : ekf) : res ekf :=
  let s := e_state e in
  let b := body_with_index (s_body s) 0 in
  let c0 := (0 + g_body_state_size)%nat in
  let Q0 := mzero (e_size e) (e_size e) in
  let* Q0 := set_block Q0 0 0 g_body_state_size g_body_state_size (mdiag (e_bodyQ e)) in
  let* (im, c1, Q1) := refresh_imus (s_imu s) c0 Q0 in
  let* (gm, c2, Q2) := refresh_gpss (s_gps s) c1 Q1 in
  let* (cm, c3, Q3) := refresh_cams (s_cam s) c2 Q2 in
  let* (fm, c4, Q4) := refresh_fids (s_fid s) c3 Q3 in
  let '(am, c5) := refresh_augs (s_aug s) c4 in
  let* Q5 := (if is_root e then msqrt Q4 else OK Q4) in
  OK (with_Q (with_starts (with_state e (mkState b im gm cm fm am)) c0 c1 c2 c3 c4) Q5).

(** *** Registration *)

Definition state_with_imu (s : State) (m : amap ImuState) : State :=
  mkState (s_body s) m (s_gps s) (s_cam s) (s_fid s) (s_aug s).
Definition state_with_gps (s : State) (m : amap GpsState) : State :=
  mkState (s_body s) (s_imu s) m (s_cam s) (s_fid s) (s_aug s).
Definition state_with_cam (s : State) (m : amap CamState) : State :=
  mkState (s_body s) (s_imu s) (s_gps s) m (s_fid s) (s_aug s).
Definition state_with_fid (s : State) (m : amap FidState) : State :=
  mkState (s_body s) (s_imu s) (s_gps s) (s_cam s) m (s_aug s).
Definition state_with_aug (s : State) (m : amap (list AugState)) : State :=
  mkState (s_body s) (s_imu s) (s_gps s) (s_cam s) (s_fid s) m.
Definition state_with_body (s : State) (b : BodyState) : State :=
  mkState b (s_imu s) (s_gps s) (s_cam s) (s_fid s) (s_aug s).

(** ekf.cpp 252-286 *)
Definition RegisterIMU (e : ekf) (id : nat) (st : ImuState) (covariance : mat R) : res ekf :=
  match mfind id (s_imu (e_state e)) with
  | Some _ => OK e
  | None =>
      let imu_state_end := (g_body_state_size + e_imu_size e)%nat in
      let e := with_state e (state_with_imu (e_state e) (mset id st (s_imu (e_state e)))) in
      let* e :=
        (if i_ext st || i_int st then
           let* b := block covariance 0 0 (i_size st) (i_size st) in
           let* c := InsertInMatrix 0 b (e_cov e) imu_state_end imu_state_end in
           OK (with_cov e c)
         else OK e) in
      let e := if i_ext st
               then with_imu_sizes e (e_size e + g_imu_extrinsic_state_size)
                      (e_imu_size e + g_imu_extrinsic_state_size)
               else e in
      let e := if i_int st
               then with_imu_sizes e (e_size e + g_imu_intrinsic_state_size)
                      (e_imu_size e + g_imu_intrinsic_state_size)
               else e in
      RefreshIndices e
  end.

(** ekf.cpp 288-315.  [covariance] is a Matrix3d. *)
Definition RegisterGPS (e : ekf) (id : nat) (st : GpsState) (covariance : mat R) : res ekf :=
  match mfind id (s_gps (e_state e)) with
  | Some _ => OK e
  | None =>
      let gps_state_end := (g_body_state_size + e_imu_size e + e_gps_size e)%nat in
      let e := with_state e (state_with_gps (e_state e) (mset id st (s_gps (e_state e)))) in
      let* e :=
        (if g_ext st then
           let* b := block covariance 0 0 (g_size st) (g_size st) in
           let* c := InsertInMatrix 0 b (e_cov e) gps_state_end gps_state_end in
           OK (with_gps_sizes (with_cov e c) (e_size e + g_gps_extrinsic_state_size)
                 (e_gps_size e + g_gps_extrinsic_state_size))
         else OK e) in
      RefreshIndices e
  end.

(** ekf.cpp 317-354.  A frame rate of 0 would store an infinite period. *)
Definition RegisterCamera (e : ekf) (id : nat) (st : CamState) (covariance : mat R) : res ekf :=
  match mfind id (s_cam (e_state e)) with
  | Some _ => OK e
  | None =>
      let* period := rdiv 1 (c_rate st) in
      let fp := Rmax (e_frame_period e) period in
      let e := with_periods e fp (fp * INR (e_max_len e + 1)) (Rmin (e_min_aug e) period) in
      let cam_state_end := (g_body_state_size + e_imu_size e + e_gps_size e + e_cam_size e)%nat in
      let e := if Nat.eqb (e_primary e) 0 then with_primary e id else e in
      let e := with_state e (state_with_cam (e_state e) (mset id st (s_cam (e_state e)))) in
      let* e :=
        (if c_ext st then
           let* b := block covariance 0 0 (c_size st) (c_size st) in
           let* c := InsertInMatrix 0 b (e_cov e) cam_state_end cam_state_end in
           OK (with_cam_sizes (with_cov e c) (e_size e + g_cam_extrinsic_state_size)
                 (e_cam_size e + g_cam_extrinsic_state_size))
         else OK e) in
      RefreshIndices e
  end.

(** ekf.cpp 356-379: inserts at [m_state_size], after any augmented states. *)
Definition RegisterFiducial (e : ekf) (st : FidState) (covariance : mat R) : res ekf :=
  match mfind (f_id st) (s_fid (e_state e)) with
  | Some _ => OK e
  | None =>
      let e := with_state e (state_with_fid (e_state e) (mset (f_id st) st (s_fid (e_state e)))) in
      let* e :=
        (if f_ext st then
           let* b := block covariance 0 0 (f_size st) (f_size st) in
           let* c := InsertInMatrix 0 b (e_cov e) (e_size e) (e_size e) in
           OK (with_fid_sizes (with_cov e c) (e_size e + g_fid_extrinsic_state_size)
                 (e_fid_size e + g_fid_extrinsic_state_size))
         else OK e) in
      RefreshIndices e
  end.

(** *** Augmentation *)

(** ekf.cpp 381-434 *)
Definition AugmentCovariance (root : bool) (in_cov : mat R) (index : nat) : res (mat R) :=
  let in_rows := nr in_cov in
  let in_cols := nc in_cov in
  let out_cols := (in_cols + g_aug_state_size)%nat in
  let o := mzero (in_rows + g_aug_state_size) out_cols in
  let* right_cols := usub in_cols index in
  if root then
    (* Left *)
    let* b := block in_cov 0 0 index index in
    let* o := set_block o 0 0 index index b in
    (* Middle *)
    let* b := block in_cov 0 0 3 3 in
    let* o := set_block o 0 index 3 3 b in
    let* b := block in_cov 0 9 12 3 in
    let* o := set_block o 0 (index + 3) 12 3 b in
    (* Right *)
    let* b := block in_cov 0 index in_rows right_cols in
    set_block o 0 (index + g_aug_state_size) in_rows right_cols b
  else
    let* below := usub in_rows index in
    (* Top-Left *)
    let* b := block in_cov 0 0 index index in
    let* o := set_block o 0 0 index index b in
    (* Top-Right *)
    let* b := block in_cov 0 index index right_cols in
    let* o := set_block o 0 (index + g_aug_state_size) index right_cols b in
    (* Bottom-Left *)
    let* b := block in_cov index 0 below index in
    let* o := set_block o (index + g_aug_state_size) 0 below index b in
    (* Bottom-Right *)
    let* b := block in_cov index index below right_cols in
    let* o := set_block o (index + g_aug_state_size) (index + g_aug_state_size) below right_cols b in
    (* Top Middle *)
    let* b := block in_cov 0 0 index 3 in
    let* o := set_block o 0 (index + 0) index 3 b in
    let* b := block in_cov 0 9 index 3 in
    let* o := set_block o 0 (index + 3) index 3 b in
    (* Bottom Middle *)
    let* b := block in_cov index 0 below 3 in
    let* o := set_block o (index + g_aug_state_size) (index + 0) below 3 b in
    let* b := block in_cov index 9 below 3 in
    let* o := set_block o (index + g_aug_state_size) (index + 3) below 3 b in
    (* Middle rows *)
    let* b := block o 0 0 3 out_cols in
    let* o := set_block o (index + 0) 0 3 out_cols b in
    let* b := block o 9 0 3 out_cols in
    set_block o (index + 3) 0 3 out_cols b.

(** [m_state.aug_states[k]]; a missing key reads as the empty vector. *)
Definition aug_at (e : ekf) (k : nat) : list AugState := mget [] k (s_aug (e_state e)).
Definition set_aug (e : ekf) (k : nat) (l : list AugState) : ekf :=
  with_state e (state_with_aug (e_state e) (mset k l (s_aug (e_state e)))).
(** The default insertion done by [operator[]]. *)
Definition touch_aug (e : ekf) (k : nat) : ekf :=
  with_state e (state_with_aug (e_state e) (mtouch [] k (s_aug (e_state e)))).

(** [v.back()]; undefined on an empty vector. *)
Fixpoint back {A} (l : list A) : res A :=
  match l with [] => UB | [x] => OK x | _ :: t => back t end.

(** [v[i]]; undefined when out of range. *)
Definition vnth {A} (l : list A) (i : nat) : res A :=
  match nth_error l i with Some x => OK x | None => UB end.

(** [v.erase(v.begin() + i)] *)
Definition erase {A} (i : nat) (l : list A) : list A := firstn i l ++ skipn (S i) l.

(** The clone of the current body pose (ekf.cpp 503-507, 536-540). *)
Definition clone_of (e : ekf) (frame : nat) : AugState :=
  mkAug frame (e_time e) (b_pos (s_body (e_state e))) (b_ang (s_body (e_state e))) 0 0.

(** ekf.cpp 448-479: is a new augmented state needed?  [abs] is the double
    overload. *)
Definition aug_needed (e : ekf) : res bool :=
  match aug_at e 0 with
  | [] => OK true
  | _ =>
      match p_aug (e_par e) with
      | ATime =>
          match e_aug_prev e with
          | None => UB
          | Some tp => OK (Rltb (p_aug_dt (e_par e)) (Rabs (e_time e - tp)))
          end
      | AError =>
          let* last := back (aug_at e 0) in
          if Rltb (e_track_dur e) (e_time e - a_time last) then OK true
          else if Rltb (e_min_aug e) (e_time e - a_time last) then
            let body := s_body (e_state e) in
            let dt := e_time e - a_time last in
            let delta_pos := vsub (vsub (b_pos body) (vscale dt (b_vel body))) (a_pos last) in
            let w := b_ang_vel body in
            let rot_vec := mkV3 (vx w * dt) (vy w * dt) (vz w * dt) in
            let delta_ang := QuatToRotVec
              (qmul (qmul (b_ang body) (qinv (RotVecToQuat rot_vec))) (qinv (a_ang last))) in
            OK (Rltb (p_aug_pos_err (e_par e)) (vnorm delta_pos) ||
                Rltb (p_aug_ang_err (e_par e)) (vnorm delta_ang))
          else OK false
      | _ => OK false
      end
  end.

(** ekf.cpp 482-498: the loop runs i = k-1, ..., 0. *)
Fixpoint prune (k : nat) (e : ekf) : res ekf :=
  match k with
  | O => OK e
  | S i =>
      let l := aug_at e 0 in
      let* nxt := vnth l (i + 1) in
      if Rltb (e_track_dur e) (e_time e - a_time nxt) && Nat.ltb i (length l) then
        let* sz := usub (e_size e) g_aug_state_size in
        let* asz := usub (e_aug_size e) g_aug_state_size in
        let* old := vnth l i in
        let aug_index := a_index old in
        let e := set_aug (with_aug_sizes e sz asz) 0 (erase i l) in
        let* c := RemoveFromMatrix 0 (e_cov e) aug_index aug_index g_aug_state_size in
        let* e := RefreshIndices (with_cov e c) in
        prune i e
      else prune i e
  end.

(** ekf.cpp 436-524: time/error based augmentation, called after every
    prediction. *)
Definition AugmentStateIfNeeded (e : ekf) : res ekf :=
  match p_aug (e_par e) with
  | ANone | AAll | APrimary => OK e
  | ATime | AError =>
      let e := touch_aug e 0 in
      let* needed := aug_needed e in
      let* e := prune (length (aug_at e 0) - 1) e in
      if needed && e_frame_recv e then
        let e := with_aug_prev e (Some (e_time e)) in
        let e := set_aug e 0 (aug_at e 0 ++ [clone_of e 0]) in
        let e := with_aug_sizes e (e_size e + g_aug_state_size) (e_aug_size e + g_aug_state_size) in
        let* e := RefreshIndices e in
        let* last := back (aug_at e 0) in
        let* c := AugmentCovariance (is_root e) (e_cov e) (a_index last) in
        OK (with_frame_recv (with_cov e c) false)
      else OK e
  end.

(** ekf.cpp 526-567: per-frame augmentation, called by the camera updaters. *)
Definition AugmentStateFrame (e : ekf) (camera_id frame_id : nat) : res ekf :=
  let e := with_frame_recv e true in
  if (match p_aug (e_par e) with AAll => true | _ => false end) ||
     ((match p_aug (e_par e) with APrimary => true | _ => false end) &&
      Nat.eqb camera_id (e_primary e))
  then
    let e := set_aug e camera_id (aug_at e camera_id ++ [clone_of e frame_id]) in
    let* e :=
      (if Nat.leb (length (aug_at e camera_id)) (e_max_len e) then
         OK (with_aug_sizes e (e_size e + g_aug_state_size) (e_aug_size e + g_aug_state_size))
       else
         let* first := vnth (aug_at e camera_id) 0 in
         let aug_start := a_index first in
         let e := set_aug e camera_id (erase 0 (aug_at e camera_id)) in
         let* c := RemoveFromMatrix 0 (e_cov e) aug_start aug_start g_aug_state_size in
         OK (with_cov e c)) in
    let* e := RefreshIndices e in
    let* last := back (aug_at e camera_id) in
    let* c := AugmentCovariance (is_root e) (e_cov e) (a_index last) in
    OK (with_cov e c)
  else OK e.

(** *** Prediction *)

(** ekf.cpp 89-95 *)
Definition GetStateTransition (dt : R) : res (mat R) :=
  set_block (midm g_body_state_size g_body_state_size) 0 3 3 3 (mscale dt (midm 3 3)).

(** ekf.cpp 133-154: body mean *)
Definition predict_body (e : ekf) (dt : R) : BodyState :=
  let b := s_body (e_state e) in
  let acc := if e_zero_acc e then v0 else vsub (b_acc b) g_gravity in
  let w := b_ang_vel b in
  let rot_vec := mkV3 (vx w * dt) (vy w * dt) (vz w * dt) in
  let vel := vadd (b_vel b) (vscale dt acc) in
  mkBody (vadd (b_pos b) (vscale dt vel)) vel (b_acc b)
    (qmul (RotVecToQuat rot_vec) (b_ang b)) (b_ang_vel b) (b_ang_acc b) (b_index b).

(** [m_cov.diagonal() += m_process_noise.diagonal() * delta_time] *)
Definition add_diag (c q : mat R) (dt : R) : res (mat R) :=
  if Nat.eqb (min (nr c) (nc c)) (min (nr q) (nc q)) then
    OK (mkmat (nr c) (nc c) (fun i j => if Nat.eqb i j then ent c i j + ent q i j * dt else ent c i j))
  else UB.

(** ekf.cpp 156-178: covariance *)
Definition predict_cov (e : ekf) (dt : R) : res (mat R) :=
  let n := g_body_state_size in
  let* F := GetStateTransition dt in
  let* alt := usub (e_size e) n in
  let c := e_cov e in
  if is_root e then
    let* b := block c 0 0 n n in
    let* b := mulc b (mtrans F) in
    let* c := set_block c 0 0 n n b in
    let* b := block c 0 n n alt in
    let* b := mulc F b in
    let* c := set_block c 0 n n alt b in
    QR_r c (mscale (sqrt dt) (e_Q e))
  else
    let* c := add_diag c (e_Q e) dt in
    let* b := block c 0 0 n n in
    let* b := mulc F b in
    let* b := mulc b (mtrans F) in
    let* c := set_block c 0 0 n n b in
    let* b := block c 0 n n alt in
    let* b := mulc F b in
    let* c := set_block c 0 n n alt b in
    let* b := block c n 0 alt n in
    let* b := mulc b (mtrans F) in
    set_block c n 0 alt n b.

(** ekf.cpp 120-188 *)
Definition PredictModel (e : ekf) (local_time : R) : res ekf :=
  if Rltb local_time (e_time e) then OK e
  else
    let* e :=
      (if e_gravity e then
         let dt := local_time - e_time e in
         let b := predict_body e dt in
         let* c := predict_cov e dt in
         OK (with_cov (with_state e (state_with_body (e_state e) b)) c)
       else OK e) in
    let e := with_time e local_time in
    AugmentStateIfNeeded e.

(** *** Getters that insert (ekf.cpp 195-208) *)
Definition GetImuState (e : ekf) (id : nat) : ImuState * ekf :=
  (mget default_imu id (s_imu (e_state e)),
   with_state e (state_with_imu (e_state e) (mtouch default_imu id (s_imu (e_state e))))).
Definition GetGpsState (e : ekf) (id : nat) : GpsState * ekf :=
  (mget default_gps id (s_gps (e_state e)),
   with_state e (state_with_gps (e_state e) (mtouch default_gps id (s_gps (e_state e))))).
Definition GetCamState (e : ekf) (id : nat) : CamState * ekf :=
  (mget default_cam id (s_cam (e_state e)),
   with_state e (state_with_cam (e_state e) (mtouch default_cam id (s_cam (e_state e))))).

(** ekf.cpp 210-238 *)
Definition GetImuCount (e : ekf) : nat := length (s_imu (e_state e)).
Definition GetGpsCount (e : ekf) : nat := length (s_gps (e_state e)).
Definition GetCamCount (e : ekf) : nat := length (s_cam (e_state e)).

(** ekf.cpp 245-250 *)
Definition Initialize (e : ekf) (t : R) (b : BodyState) : ekf :=
  with_state (with_clock e t (e_ref_time e) true) (state_with_body (e_state e) b).

(** ekf.cpp 569-572 *)
Definition SetBodyProcessNoise (e : ekf) (q : mat R) : ekf := with_bodyQ e q.

(** ekf.cpp 634-638 *)
Definition SetMaxTrackLength (e : ekf) (n : nat) : ekf := with_tracks e n (e_frame_period e * INR n).

(** ekf.cpp 640-645 *)
Definition SetGpsReference (e : ekf) (p : V3) (a : R) : ekf := with_gps_ref e p a true.

(** ekf.cpp 647-650 *)
Definition SetZeroAcceleration (e : ekf) (b : bool) : ekf := with_zero_acc e b.

(** The assignments the IMU updater makes to the public member
    [m_state.body_state] (imu_updater.cpp 101-103, 243-245): acceleration,
    angular rate and angular acceleration. *)
Definition SetBodyRates (e : ekf) (acc ang_vel ang_acc : V3) : ekf :=
  let b := s_body (e_state e) in
  with_state e (state_with_body (e_state e)
    (mkBody (b_pos b) (b_vel b) acc (b_ang b) ang_vel ang_acc (b_index b))).

(** ekf.cpp 675-678 *)
Definition InitializeGravity (e : ekf) : ekf := with_gravity e true.

(** ekf.cpp 865-879: the local time and the filter with its clock set. *)
Definition CalculateLocalTime (e : ekf) (t : R) : R * ekf :=
  if e_time_init e then (t - e_ref_time e, e)
  else (0, with_clock e 0 t true).

(** ekf.cpp 759-800.  [lla_to_ecef] is a parameter, and [align] stands for lines 768-790: it
    receives all samples collected so far and answers the reference to set
    ([None] when the initialisation criterion is not met).  The theorems
    about this function hold for every [align]. *)
Definition AttemptGpsInitialization (lla_to_ecef : V3 -> V3)
  (align : list V3 -> list V3 -> option (V3 * R)) (e : ekf) (time : R) (gps_lla : V3) : ekf :=
  let e := with_gps_samples e (e_gps_time e ++ [time]) (e_gps_ecef e ++ [lla_to_ecef gps_lla])
             (e_gps_xyz e ++ [b_pos (s_body (e_state e))]) in
  if Nat.leb 4 (length (e_gps_time e)) then
    match align (e_gps_xyz e) (e_gps_ecef e) with
    | Some (p, a) => SetGpsReference e p a
    | None => e
    end
  else e.

(** *** GetAugState (ekf.cpp 574-632) *)

(** ekf.cpp 581-585: the last clone with the frame id wins. *)
Fixpoint find_frame (l : list AugState) (frame : nat) (acc : AugState) : AugState :=
  match l with
  | [] => acc
  | s :: t => find_frame t frame (if Nat.eqb (a_frame s) frame then s else acc)
  end.

(** ekf.cpp 601-611: the last matching interval wins; [alpha] may be NaN
    ([UB]) and be overwritten by a later match. *)
Fixpoint find_interval (l : list AugState) (time : R) (acc : res R * AugState * AugState)
  : res R * AugState * AugState :=
  match l with
  | s0 :: ((s1 :: _) as t) =>
      find_interval t time
        (if Rleb (a_time s0) time && Rleb time (a_time s1)
         then (rdiv (time - a_time s0) (a_time s1 - a_time s0), s0, s1) else acc)
  | _ => acc
  end.

(** The result, and the filter (the reads insert missing keys). *)
Definition GetAugState (e : ekf) (camera_id frame_id : nat) (time : R) : res (AugState * ekf) :=
  if (match p_aug (e_par e) with AAll => true | _ => false end) ||
     ((match p_aug (e_par e) with APrimary => true | _ => false end) &&
      Nat.eqb camera_id (e_primary e))
  then
    let e := touch_aug e camera_id in
    OK (find_frame (aug_at e camera_id) frame_id default_aug, e)
  else
    let key := match p_aug (e_par e) with APrimary => e_primary e | _ => 0%nat end in
    let e := touch_aug e key in
    let l := aug_at e key in
    let* first := vnth l 0 in
    let* last := back l in
    let '(alpha, s0, s1) :=
      if Rltb time (a_time first) then (OK 0, first, default_aug)
      else if Rltb time (a_time last) then
        find_interval l time (OK 0, default_aug, default_aug)
      else
        (rdiv (time - a_time last) (e_time e - a_time last), last,
         mkAug 0 0 (b_pos (s_body (e_state e))) (b_ang (s_body (e_state e))) 0 0) in
    let* alpha := alpha in
    let pos_delta := vsub (a_pos s1) (a_pos s0) in
    OK (mkAug 0 time (vadd (a_pos s0) (vscale alpha pos_delta))
          (qslerp (a_ang s0) alpha (a_ang s1)) (a_index s0) alpha, e).
