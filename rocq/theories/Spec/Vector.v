(** The state as one vector: what each named scalar is worth, which scalars
    the vector holds, and what reading a vector back means. *)
From Coq Require Import Reals List Arith Bool.
From Verif Require Import Base.Mat Base.Geom Base.AMap Model.TypeHelper Model.Types Spec.Layout Spec.Correct.
Import ListNotations.
Open Scope nat_scope.

(** Scalar [k] of a position and an orientation (as a rotation vector), and
    of two vectors. *)
Definition pose_scalar (p : V3) (q : quat) (k : nat) : R :=
  if k <? 3 then vget p k else vget (QuatToRotVec q) (k - 3).
Definition pair_scalar (a b : V3) (k : nat) : R := if k <? 3 then vget a k else vget b (k - 3).

(** The current estimate of a named scalar. *)
Definition estimate (s : State) (a : label) : R :=
  match a with
  | LBody k =>
      let b := s_body s in
      if k <? 6 then pair_scalar (b_pos b) (b_vel b) k
      else if k <? 12 then pose_scalar (b_acc b) (b_ang b) (k - 6)
      else pair_scalar (b_ang_vel b) (b_ang_acc b) (k - 12)
  | LImuExt id k => match mfind id (s_imu s) with Some x => pose_scalar (i_pos x) (i_ang x) k | None => 0%R end
  | LImuInt id k => match mfind id (s_imu s) with Some x => pair_scalar (i_acc_bias x) (i_omg_bias x) k | None => 0%R end
  | LGps id k => match mfind id (s_gps s) with Some x => vget (g_pos x) k | None => 0%R end
  | LCam id k => match mfind id (s_cam s) with Some x => pose_scalar (c_pos x) (c_ang x) k | None => 0%R end
  | LFid id k => match mfind id (s_fid s) with Some x => pose_scalar (f_pos x) (f_ang x) k | None => 0%R end
  | LAug key pos k =>
      match nth_error (mget [] key (s_aug s)) pos with Some a => pose_scalar (a_pos a) (a_ang a) k | None => 0%R end
  end.

(** Intrinsic scalars of an IMU whose pose is not estimated. *)
Definition bias_only (s : State) (a : label) : bool :=
  match a with
  | LImuInt id _ => match mfind id (s_imu s) with Some x => negb (i_ext x) | None => false end
  | _ => false
  end.
Definition no_bias_only (s : State) : Prop := forall id x, mfind id (s_imu s) = Some x -> i_int x = true -> i_ext x = true.

(** What is written, in order. *)
Definition written (s : State) : list label := filter (fun a => negb (bias_only s a)) (layout s).

(** Clones, and windows, in the state. *)
Definition clone_count (s : State) : nat := length (flat_map snd (s_aug s)).
Definition window_count (s : State) : nat := length (s_aug s).

(** Every estimate but the clones takes the entries at its own index. *)
Definition assign_body (v : mat R) (b : BodyState) : BodyState :=
  mkBody (segv v 0) (segv v 3) (segv v 6) (RotVecToQuat (segv v 9)) (segv v 12) (segv v 15) (b_index b).
Definition assign_imu (v : mat R) (s : ImuState) : ImuState :=
  let s := if i_ext s then imu_with_pose s (segv v (i_index_ext s)) (RotVecToQuat (segv v (i_index_ext s + 3))) else s in
  if i_int s then imu_with_bias s (segv v (i_index_int s)) (segv v (i_index_int s + 3)) else s.
Definition assign_gps (v : mat R) (s : GpsState) : GpsState :=
  if g_ext s then gps_with_pos s (segv v (g_index s)) else s.
Definition assign_cam (v : mat R) (s : CamState) : CamState :=
  if c_ext s then cam_with_pose s (segv v (c_index s)) (RotVecToQuat (segv v (c_index s + 3))) else s.
Definition assign_fid (v : mat R) (s : FidState) : FidState :=
  if f_ext s then fid_with_pose s (segv v (f_index s)) (RotVecToQuat (segv v (f_index s + 3))) else s.
Definition assign (v : mat R) (s : State) : State :=
  mkState (assign_body v (s_body s)) (map (on_snd (assign_imu v)) (s_imu s)) (map (on_snd (assign_gps v)) (s_gps s))
    (map (on_snd (assign_cam v)) (s_cam s)) (map (on_snd (assign_fid v)) (s_fid s)) (s_aug s).

(** Orientations that survive the way through their rotation vector. *)
Definition canonical (q : quat) : Prop :=
  qnorm2 q = 1%R /\ (0 <= qw q)%R /\ (q = qid \/ (1 / 1000000000 < vnorm (QuatToRotVec q))%R).
Definition all_canonical (s : State) : Prop :=
  canonical (b_ang (s_body s)) /\
  (forall id x, mfind id (s_imu s) = Some x -> i_ext x = true -> canonical (i_ang x)) /\
  (forall id x, mfind id (s_cam s) = Some x -> c_ext x = true -> canonical (c_ang x)) /\
  (forall id x, mfind id (s_fid s) = Some x -> f_ext x = true -> canonical (f_ang x)).

(** Scalars that are corrected by addition, and the orientation that starts
    at a scalar. *)
Definition linear (a : label) : bool :=
  match a with
  | LBody k => negb ((9 <=? k) && (k <? 12))
  | LImuExt _ k | LCam _ k | LFid _ k | LAug _ _ k => k <? 3
  | LImuInt _ _ | LGps _ _ => true
  end.
Definition orientation (s : State) (a : label) : option quat :=
  match a with
  | LBody 9 => Some (b_ang (s_body s))
  | LImuExt id 3 => option_map i_ang (mfind id (s_imu s))
  | LCam id 3 => option_map c_ang (mfind id (s_cam s))
  | LFid id 3 => option_map f_ang (mfind id (s_fid s))
  | LAug key pos 3 => option_map a_ang (nth_error (mget [] key (s_aug s)) pos)
  | _ => None
  end.

(** What is not estimated is as before. *)
Definition fixed_untouched (s s' : State) : Prop :=
  (forall id x, mfind id (s_imu s) = Some x -> exists x', mfind id (s_imu s') = Some x' /\
     (i_ext x = false -> i_pos x' = i_pos x /\ i_ang x' = i_ang x) /\
     (i_int x = false -> i_acc_bias x' = i_acc_bias x /\ i_omg_bias x' = i_omg_bias x)) /\
  (forall id x, mfind id (s_gps s) = Some x -> g_ext x = false -> mfind id (s_gps s') = Some x) /\
  (forall id x, mfind id (s_cam s) = Some x -> c_ext x = false -> mfind id (s_cam s') = Some x) /\
  (forall id x, mfind id (s_fid s) = Some x -> f_ext x = false -> mfind id (s_fid s') = Some x).

(** The same state with every estimated sensor and body orientation taken
    through its rotation vector. *)
Definition through_vector (q : quat) : quat := RotVecToQuat (QuatToRotVec q).
Definition reoriented (s s' : State) : Prop :=
  s_body s' = mkBody (b_pos (s_body s)) (b_vel (s_body s)) (b_acc (s_body s)) (through_vector (b_ang (s_body s)))
                (b_ang_vel (s_body s)) (b_ang_acc (s_body s)) (b_index (s_body s)) /\
  s_imu s' = map (on_snd (fun x => if i_ext x then imu_with_pose x (i_pos x) (through_vector (i_ang x)) else x)) (s_imu s) /\
  s_gps s' = s_gps s /\
  s_cam s' = map (on_snd (fun x => if c_ext x then cam_with_pose x (c_pos x) (through_vector (c_ang x)) else x)) (s_cam s) /\
  s_fid s' = map (on_snd (fun x => if f_ext x then fid_with_pose x (f_pos x) (through_vector (f_ang x)) else x)) (s_fid s) /\
  s_aug s' = s_aug s.
