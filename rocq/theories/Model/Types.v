(** /repo/src/ekf/types.hpp and types.cpp: the EKF state and its operators.
    Members that no modelled function reads ([intrinsics] apart from what the
    MSCKF updater needs, [BodyState::size]) are omitted. *)
From Coq Require Import Reals List Arith Bool.
From Verif Require Import Base.Res Base.Mat Base.RDec Base.Geom Base.AMap Base.RMat Model.TypeHelper.
Import ListNotations.
Open Scope R_scope.

(** types.hpp 45-75 *)
Record Intrinsics : Type := mkIntrinsics {
  in_f_x : R; in_f_y : R; in_k_1 : R; in_k_2 : R; in_p_1 : R; in_p_2 : R;
  in_width : R; in_height : R; in_pixel_size : R }.

(** types.hpp 80-108 *)
Record BodyState : Type := mkBody {
  b_pos : V3; b_vel : V3; b_acc : V3; b_ang : quat; b_ang_vel : V3; b_ang_acc : V3;
  b_index : nat }.

(** types.hpp 113-172 *)
Record ImuState : Type := mkImu {
  i_pos_stab : R; i_ang_stab : R; i_acc_stab : R; i_omg_stab : R;
  i_pos : V3; i_ang : quat; i_acc_bias : V3; i_omg_bias : V3;
  i_size : nat; i_index : nat; i_index_int : nat; i_index_ext : nat;
  i_ext : bool; i_int : bool }.

(** types.hpp 177-207 *)
Record GpsState : Type := mkGps {
  g_pos : V3; g_pos_stab : R; g_size : nat; g_index : nat; g_ext : bool }.

(** types.hpp 212-230 *)
Record AugState : Type := mkAug {
  a_frame : nat; a_time : R; a_pos : V3; a_ang : quat; a_index : nat; a_alpha : R }.

(** types.hpp 235-274 *)
Record CamState : Type := mkCam {
  c_pos_stab : R; c_ang_stab : R; c_pos : V3; c_ang : quat; c_intr : Intrinsics;
  c_rate : R; c_size : nat; c_index : nat; c_ext : bool }.

(** types.hpp 317-356 *)
Record FidState : Type := mkFid {
  f_pos : V3; f_ang : quat; f_pos_stab : R; f_ang_stab : R;
  f_size : nat; f_index : nat; f_id : nat; f_ext : bool }.

(** types.hpp 362-394 *)
Record State : Type := mkState {
  s_body : BodyState;
  s_imu : amap ImuState;
  s_gps : amap GpsState;
  s_cam : amap CamState;
  s_fid : amap FidState;
  s_aug : amap (list AugState) }.

(** Default-constructed values (types.hpp member initialisers; 1e-9 is
    written 1/10^9). *)
Definition e9 : R := 1 / 1000000000.
Definition default_intrinsics : Intrinsics :=
  mkIntrinsics (1/100) (1/100) 0 0 0 0 1920 1080 (5 / 1000000).
Definition default_body : BodyState := mkBody v0 v0 g_gravity qid v0 v0 0.
Definition default_imu : ImuState :=
  mkImu e9 e9 e9 e9 v0 qid v0 v0 0 0 0 0 false false.
Definition default_gps : GpsState := mkGps v0 e9 0 0 false.
Definition default_aug : AugState := mkAug 0 0 v0 qid 0 0.
Definition default_cam : CamState := mkCam e9 e9 v0 qid default_intrinsics 1 0 0 false.
Definition default_state : State := mkState default_body [] [] [] [] [].

(** *** Setters (types.cpp 459-524: flags and size are kept in step) *)
(** types.cpp 489-494 *)
Definition imu_refresh_size (ext int : bool) : nat :=
  (if ext then g_imu_extrinsic_state_size else 0) + (if int then g_imu_intrinsic_state_size else 0).
(** types.cpp 459-463 *)
Definition imu_SetIsExtrinsic (x : bool) (s : ImuState) : ImuState :=
  mkImu (i_pos_stab s) (i_ang_stab s) (i_acc_stab s) (i_omg_stab s) (i_pos s) (i_ang s)
    (i_acc_bias s) (i_omg_bias s) (imu_refresh_size x (i_int s)) (i_index s) (i_index_int s)
    (i_index_ext s) x (i_int s).
(** types.cpp 483-487 *)
Definition imu_SetIsIntrinsic (x : bool) (s : ImuState) : ImuState :=
  mkImu (i_pos_stab s) (i_ang_stab s) (i_acc_stab s) (i_omg_stab s) (i_pos s) (i_ang s)
    (i_acc_bias s) (i_omg_bias s) (imu_refresh_size (i_ext s) x) (i_index s) (i_index_int s)
    (i_index_ext s) (i_ext s) x.
(** types.cpp 477-481, 502-506 *)
Definition gps_SetIsExtrinsic (x : bool) (s : GpsState) : GpsState :=
  mkGps (g_pos s) (g_pos_stab s) (if x then g_gps_extrinsic_state_size else 0) (g_index s) x.
(** types.cpp 465-469, 496-500 *)
Definition cam_SetIsExtrinsic (x : bool) (s : CamState) : CamState :=
  mkCam (c_pos_stab s) (c_ang_stab s) (c_pos s) (c_ang s) (c_intr s) (c_rate s)
    (if x then g_cam_extrinsic_state_size else 0) (c_index s) x.
(** types.cpp 508-512, 520-524 (uses the IMU constant) *)
Definition fid_SetIsExtrinsic (x : bool) (s : FidState) : FidState :=
  mkFid (f_pos s) (f_ang s) (f_pos_stab s) (f_ang_stab s)
    (if x then g_imu_extrinsic_state_size else 0) (f_index s) (f_id s) x.

(** *** Field updates used below *)
Definition imu_with_pose (s : ImuState) (p : V3) (q : quat) : ImuState :=
  mkImu (i_pos_stab s) (i_ang_stab s) (i_acc_stab s) (i_omg_stab s) p q
    (i_acc_bias s) (i_omg_bias s) (i_size s) (i_index s) (i_index_int s)
    (i_index_ext s) (i_ext s) (i_int s).
Definition imu_with_bias (s : ImuState) (a o : V3) : ImuState :=
  mkImu (i_pos_stab s) (i_ang_stab s) (i_acc_stab s) (i_omg_stab s) (i_pos s) (i_ang s)
    a o (i_size s) (i_index s) (i_index_int s) (i_index_ext s) (i_ext s) (i_int s).
Definition imu_with_index (s : ImuState) (ix ie ii : nat) : ImuState :=
  mkImu (i_pos_stab s) (i_ang_stab s) (i_acc_stab s) (i_omg_stab s) (i_pos s) (i_ang s)
    (i_acc_bias s) (i_omg_bias s) (i_size s) ix ii ie (i_ext s) (i_int s).
Definition gps_with_pos (s : GpsState) (p : V3) : GpsState :=
  mkGps p (g_pos_stab s) (g_size s) (g_index s) (g_ext s).
Definition gps_with_index (s : GpsState) (ix : nat) : GpsState :=
  mkGps (g_pos s) (g_pos_stab s) (g_size s) ix (g_ext s).
Definition cam_with_pose (s : CamState) (p : V3) (q : quat) : CamState :=
  mkCam (c_pos_stab s) (c_ang_stab s) p q (c_intr s) (c_rate s) (c_size s) (c_index s) (c_ext s).
Definition cam_with_index (s : CamState) (ix : nat) : CamState :=
  mkCam (c_pos_stab s) (c_ang_stab s) (c_pos s) (c_ang s) (c_intr s) (c_rate s) (c_size s) ix (c_ext s).
Definition fid_with_pose (s : FidState) (p : V3) (q : quat) : FidState :=
  mkFid p q (f_pos_stab s) (f_ang_stab s) (f_size s) (f_index s) (f_id s) (f_ext s).
Definition fid_with_index (s : FidState) (ix : nat) : FidState :=
  mkFid (f_pos s) (f_ang s) (f_pos_stab s) (f_ang_stab s) (f_size s) ix (f_id s) (f_ext s).
Definition aug_with_pose (s : AugState) (p : V3) (q : quat) : AugState :=
  mkAug (a_frame s) (a_time s) p q (a_index s) (a_alpha s).
Definition aug_with_index (s : AugState) (ix : nat) : AugState :=
  mkAug (a_frame s) (a_time s) (a_pos s) (a_ang s) ix (a_alpha s).

(** *** operator+= *)

(** types.cpp 26-36 *)
Definition body_plus_body (l r : BodyState) : BodyState :=
  mkBody (vadd (b_pos l) (b_pos r)) (vadd (b_vel l) (b_vel r)) (vadd (b_acc l) (b_acc r))
    (qmul (b_ang r) (b_ang l)) (vadd (b_ang_vel l) (b_ang_vel r))
    (vadd (b_ang_acc l) (b_ang_acc r)) (b_index l).

(** types.cpp 38-48 *)
Definition body_plus_vec (l : BodyState) (r : mat R) : res BodyState :=
  let* d0 := seg3 r 0 in
  let* d3 := seg3 r 3 in
  let* d6 := seg3 r 6 in
  let* d9 := seg3 r 9 in
  let* d12 := seg3 r 12 in
  let* d15 := seg3 r 15 in
  OK (mkBody (vadd (b_pos l) d0) (vadd (b_vel l) d3) (vadd (b_acc l) d6)
       (qmul (b_ang l) (RotVecToQuat d9)) (vadd (b_ang_vel l) d12)
       (vadd (b_ang_acc l) d15) (b_index l)).

(** types.cpp 100-112 (also the body of 170-190): returns the new map and the
    advanced index. *)
Fixpoint imus_plus_vec (m : amap ImuState) (r : mat R) (idx : nat) : res (amap ImuState * nat) :=
  match m with
  | [] => OK ([], idx)
  | (k, s) :: t =>
      let* (s1, idx1) :=
        (if i_ext s then
           let* dp := seg3 r (idx + 0) in
           let* da := seg3 r (idx + 3) in
           OK (imu_with_pose s (vadd (i_pos s) dp) (qmul (i_ang s) (RotVecToQuat da)),
               (idx + g_imu_extrinsic_state_size)%nat)
         else OK (s, idx)) in
      let* (s2, idx2) :=
        (if i_int s then
           let* da := seg3 r (idx1 + 0) in
           let* dw := seg3 r (idx1 + 3) in
           OK (imu_with_bias s1 (vadd (i_acc_bias s1) da) (vadd (i_omg_bias s1) dw),
               (idx1 + g_imu_intrinsic_state_size)%nat)
         else OK (s1, idx1)) in
      let* (t', idx3) := imus_plus_vec t r idx2 in
      OK ((k, s2) :: t', idx3)
  end.

(** types.cpp 114-119 *)
Fixpoint gpss_plus_vec (m : amap GpsState) (r : mat R) (idx : nat) : res (amap GpsState * nat) :=
  match m with
  | [] => OK ([], idx)
  | (k, s) :: t =>
      let* (s1, idx1) :=
        (if g_ext s then
           let* dp := seg3 r idx in
           OK (gps_with_pos s (vadd (g_pos s) dp), (idx + g_gps_extrinsic_state_size)%nat)
         else OK (s, idx)) in
      let* (t', idx2) := gpss_plus_vec t r idx1 in
      OK ((k, s1) :: t', idx2)
  end.

(** types.cpp 121-128 *)
Fixpoint cams_plus_vec (m : amap CamState) (r : mat R) (idx : nat) : res (amap CamState * nat) :=
  match m with
  | [] => OK ([], idx)
  | (k, s) :: t =>
      let* (s1, idx1) :=
        (if c_ext s then
           let* dp := seg3 r (idx + 0) in
           let* da := seg3 r (idx + 3) in
           OK (cam_with_pose s (vadd (c_pos s) dp) (qmul (c_ang s) (RotVecToQuat da)),
               (idx + g_cam_extrinsic_state_size)%nat)
         else OK (s, idx)) in
      let* (t', idx2) := cams_plus_vec t r idx1 in
      OK ((k, s1) :: t', idx2)
  end.

(** types.cpp 130-137 *)
Fixpoint fids_plus_vec (m : amap FidState) (r : mat R) (idx : nat) : res (amap FidState * nat) :=
  match m with
  | [] => OK ([], idx)
  | (k, s) :: t =>
      let* (s1, idx1) :=
        (if f_ext s then
           let* dp := seg3 r idx in
           let* da := seg3 r (idx + 3) in
           OK (fid_with_pose s (vadd (f_pos s) dp) (qmul (f_ang s) (RotVecToQuat da)),
               (idx + g_fid_extrinsic_state_size)%nat)
         else OK (s, idx)) in
      let* (t', idx2) := fids_plus_vec t r idx1 in
      OK ((k, s1) :: t', idx2)
  end.

(** types.cpp 141-146 (also 207-218) *)
Fixpoint augv_plus_vec (l : list AugState) (r : mat R) (idx : nat) : res (list AugState * nat) :=
  match l with
  | [] => OK ([], idx)
  | s :: t =>
      let* dp := seg3 r (idx + 0) in
      let* da := seg3 r (idx + 3) in
      let s1 := aug_with_pose s (vadd (a_pos s) dp) (qmul (a_ang s) (RotVecToQuat da)) in
      let* (t', idx2) := augv_plus_vec t r (idx + g_aug_state_size) in
      OK (s1 :: t', idx2)
  end.

(** types.cpp 139-147 *)
Fixpoint augs_plus_vec (m : amap (list AugState)) (r : mat R) (idx : nat)
  : res (amap (list AugState) * nat) :=
  match m with
  | [] => OK ([], idx)
  | (k, l) :: t =>
      let* (l', idx1) := augv_plus_vec l r idx in
      let* (t', idx2) := augs_plus_vec t r idx1 in
      OK ((k, l') :: t', idx2)
  end.

(** types.cpp 94-150: [State & operator+=(State &, const VectorXd &)]. *)
Definition state_plus_vec (l : State) (r : mat R) : res State :=
  let* rb := block r 0 0 g_body_state_size 1 in
  let* b := body_plus_vec (s_body l) rb in
  let* (im, i1) := imus_plus_vec (s_imu l) r g_body_state_size in
  let* (gm, i2) := gpss_plus_vec (s_gps l) r i1 in
  let* (cm, i3) := cams_plus_vec (s_cam l) r i2 in
  let* (fm, i4) := fids_plus_vec (s_fid l) r i3 in
  let* (am, i5) := augs_plus_vec (s_aug l) r i4 in
  OK (mkState b im gm cm fm am).

(** types.cpp 170-190: map of IMU states += vector. *)
Definition imu_map_plus_vec (m : amap ImuState) (r : mat R) : res (amap ImuState) :=
  let* (m', _) := imus_plus_vec m r 0 in OK m'.

(** types.cpp 192-204: map of camera states += vector; [idx] is never
    advanced and the extrinsic flag is not tested. *)
Fixpoint cam_map_plus_vec (m : amap CamState) (r : mat R) : res (amap CamState) :=
  match m with
  | [] => OK []
  | (k, s) :: t =>
      let* dp := seg3 r 0 in
      let* da := seg3 r 3 in
      let* t' := cam_map_plus_vec t r in
      OK ((k, cam_with_pose s (vadd (c_pos s) dp) (qmul (c_ang s) (RotVecToQuat da))) :: t')
  end.

(** types.cpp 207-218 *)
Definition aug_vec_plus_vec (l : list AugState) (r : mat R) : res (list AugState) :=
  let* (l', _) := augv_plus_vec l r 0 in OK l'.

(** *** Sizes *)

Definition imu_len (s : ImuState) : nat :=
  ((if i_ext s then g_imu_extrinsic_state_size else 0) +
   (if i_int s then g_imu_intrinsic_state_size else 0))%nat.
Definition gps_len (s : GpsState) : nat := if g_ext s then g_gps_extrinsic_state_size else 0%nat.
Definition cam_len (s : CamState) : nat := if c_ext s then g_cam_extrinsic_state_size else 0%nat.
Definition fid_len (s : FidState) : nat := if f_ext s then g_fid_extrinsic_state_size else 0%nat.

Definition sum_len {A} (f : A -> nat) (m : amap A) : nat :=
  fold_right (fun x acc => (f (snd x) + acc)%nat) 0%nat m.

(** types.cpp 386-420: note that augmented states are counted per map key
    ([g_aug_state_size * aug_states.size()]). *)
Definition GetStateSize (s : State) : nat :=
  (g_body_state_size + sum_len imu_len (s_imu s) + sum_len gps_len (s_gps s) +
   sum_len cam_len (s_cam s) + sum_len fid_len (s_fid s) +
   g_aug_state_size * length (s_aug s))%nat.

(** *** ToVector *)

(** Write a Vector3d in a VectorXd: [v.segment<3>(i) = a]. *)
Definition set_seg3 (v : mat R) (i : nat) (a : V3) : res (mat R) := set_block v i 0 3 1 (v3mat a).

(** types.cpp 220-232 *)
Definition body_ToVector (b : BodyState) : res (mat R) :=
  let o := mzero g_body_state_size 1 in
  let* o := set_seg3 o 0 (b_pos b) in
  let* o := set_seg3 o 3 (b_vel b) in
  let* o := set_seg3 o 6 (b_acc b) in
  let* o := set_seg3 o 9 (QuatToRotVec (b_ang b)) in
  let* o := set_seg3 o 12 (b_ang_vel b) in
  set_seg3 o 15 (b_ang_acc b).

(** types.cpp 234-252 *)
Definition pose_ToVector (p : V3) (q : quat) : res (mat R) :=
  let o := mzero 6 1 in
  let* o := set_seg3 o 0 p in
  set_seg3 o 3 (QuatToRotVec q).

(** types.cpp 254-271 *)
Definition imu_ToVector (s : ImuState) : res (mat R) :=
  let o := mzero (i_size s) 1 in
  let* (o, idx) :=
    (if i_ext s then
       let* o := set_seg3 o 0 (i_pos s) in
       let* o := set_seg3 o 3 (QuatToRotVec (i_ang s)) in
       OK (o, g_imu_extrinsic_state_size)
     else OK (o, 0%nat)) in
  if i_int s then
    let* o := set_seg3 o (idx + 0) (i_acc_bias s) in
    set_seg3 o (idx + 3) (i_omg_bias s)
  else OK o.

(** types.cpp 278-288 *)
Definition fid_ToVector (s : FidState) : res (mat R) :=
  let o := mzero (f_size s) 1 in
  if f_ext s then
    let* o := set_seg3 o 0 (f_pos s) in
    set_seg3 o 3 (QuatToRotVec (f_ang s))
  else OK o.

(** types.cpp 308-314: the test is [GetIsExtrinsic() || GetIsExtrinsic()]. *)
Fixpoint imus_ToVector (m : amap ImuState) (o : mat R) (idx : nat) : res (mat R * nat) :=
  match m with
  | [] => OK (o, idx)
  | (_, s) :: t =>
      if i_ext s || i_ext s then
        let* tv := imu_ToVector s in
        let* o' := set_block o idx 0 (nr tv) 1 tv in
        imus_ToVector t o' (idx + nr tv)
      else imus_ToVector t o idx
  end.

(** types.cpp 316-321 *)
Fixpoint gpss_ToVector (m : amap GpsState) (o : mat R) (idx : nat) : res (mat R * nat) :=
  match m with
  | [] => OK (o, idx)
  | (_, s) :: t =>
      if g_ext s then
        let* o' := set_seg3 o idx (g_pos s) in
        gpss_ToVector t o' (idx + g_gps_extrinsic_state_size)
      else gpss_ToVector t o idx
  end.

(** types.cpp 323-328 *)
Fixpoint cams_ToVector (m : amap CamState) (o : mat R) (idx : nat) : res (mat R * nat) :=
  match m with
  | [] => OK (o, idx)
  | (_, s) :: t =>
      if c_ext s then
        let* tv := pose_ToVector (c_pos s) (c_ang s) in
        let* o' := set_block o idx 0 g_cam_extrinsic_state_size 1 tv in
        cams_ToVector t o' (idx + g_cam_extrinsic_state_size)
      else cams_ToVector t o idx
  end.

(** types.cpp 330-335 *)
Fixpoint fids_ToVector (m : amap FidState) (o : mat R) (idx : nat) : res (mat R * nat) :=
  match m with
  | [] => OK (o, idx)
  | (_, s) :: t =>
      if f_ext s then
        let* tv := fid_ToVector s in
        let* o' := set_block o (idx + 0) 0 g_fid_extrinsic_state_size 1 tv in
        fids_ToVector t o' (idx + g_fid_extrinsic_state_size)
      else fids_ToVector t o idx
  end.

(** types.cpp 338-341 *)
Fixpoint augv_ToVector (l : list AugState) (o : mat R) (idx : nat) : res (mat R * nat) :=
  match l with
  | [] => OK (o, idx)
  | s :: t =>
      let* tv := pose_ToVector (a_pos s) (a_ang s) in
      let* o' := set_block o idx 0 g_aug_state_size 1 tv in
      augv_ToVector t o' (idx + g_aug_state_size)
  end.

(** types.cpp 337-342 *)
Fixpoint augs_ToVector (m : amap (list AugState)) (o : mat R) (idx : nat) : res (mat R * nat) :=
  match m with
  | [] => OK (o, idx)
  | (_, l) :: t =>
      let* (o', idx') := augv_ToVector l o idx in
      augs_ToVector t o' idx'
  end.

(** types.cpp 301-345 *)
Definition ToVector (s : State) : res (mat R) :=
  let o := mzero (GetStateSize s) 1 in
  let* bv := body_ToVector (s_body s) in
  let* o := set_block o 0 0 g_body_state_size 1 bv in
  let* (o, i1) := imus_ToVector (s_imu s) o g_body_state_size in
  let* (o, i2) := gpss_ToVector (s_gps s) o i1 in
  let* (o, i3) := cams_ToVector (s_cam s) o i2 in
  let* (o, i4) := fids_ToVector (s_fid s) o i3 in
  let* (o, i5) := augs_ToVector (s_aug s) o i4 in
  OK o.

(** *** SetState *)

(** types.cpp 290-298 *)
Definition body_SetState (b : BodyState) (v : mat R) : res BodyState :=
  let* d0 := seg3 v 0 in
  let* d3 := seg3 v 3 in
  let* d6 := seg3 v 6 in
  let* d9 := seg3 v 9 in
  let* d12 := seg3 v 12 in
  let* d15 := seg3 v 15 in
  OK (mkBody d0 d3 d6 (RotVecToQuat d9) d12 d15 (b_index b)).

(** types.cpp 353-362 with 422-432 *)
Fixpoint imus_SetState (m : amap ImuState) (v : mat R) (idx : nat) : res (amap ImuState * nat) :=
  match m with
  | [] => OK ([], idx)
  | (k, s) :: t =>
      let* (s1, idx1) :=
        (if i_ext s then
           let* b := block v idx 0 g_imu_extrinsic_state_size 1 in
           let* p := seg3 b 0 in
           let* a := seg3 b 3 in
           OK (imu_with_pose s p (RotVecToQuat a), (idx + g_imu_extrinsic_state_size)%nat)
         else OK (s, idx)) in
      let* (s2, idx2) :=
        (if i_int s then
           let* b := block v idx1 0 g_imu_intrinsic_state_size 1 in
           let* a := seg3 b 0 in
           let* w := seg3 b 3 in
           OK (imu_with_bias s1 a w, (idx1 + g_imu_intrinsic_state_size)%nat)
         else OK (s1, idx1)) in
      let* (t', idx3) := imus_SetState t v idx2 in
      OK ((k, s2) :: t', idx3)
  end.

(** types.cpp 364-369 *)
Fixpoint gpss_SetState (m : amap GpsState) (v : mat R) (idx : nat) : res (amap GpsState * nat) :=
  match m with
  | [] => OK ([], idx)
  | (k, s) :: t =>
      let* (s1, idx1) :=
        (if g_ext s then
           let* p := seg3 v idx in
           OK (gps_with_pos s p, (idx + g_gps_extrinsic_state_size)%nat)
         else OK (s, idx)) in
      let* (t', idx2) := gpss_SetState t v idx1 in
      OK ((k, s1) :: t', idx2)
  end.

(** types.cpp 371-376 with 471-475 *)
Fixpoint cams_SetState (m : amap CamState) (v : mat R) (idx : nat) : res (amap CamState * nat) :=
  match m with
  | [] => OK ([], idx)
  | (k, s) :: t =>
      let* (s1, idx1) :=
        (if c_ext s then
           let* b := block v idx 0 g_cam_extrinsic_state_size 1 in
           let* p := seg3 b 0 in
           let* a := seg3 b 3 in
           OK (cam_with_pose s p (RotVecToQuat a), (idx + g_cam_extrinsic_state_size)%nat)
         else OK (s, idx)) in
      let* (t', idx2) := cams_SetState t v idx1 in
      OK ((k, s1) :: t', idx2)
  end.

(** types.cpp 378-383 with 514-518 *)
Fixpoint fids_SetState (m : amap FidState) (v : mat R) (idx : nat) : res (amap FidState * nat) :=
  match m with
  | [] => OK ([], idx)
  | (k, s) :: t =>
      let* (s1, idx1) :=
        (if f_ext s then
           let* b := block v idx 0 g_fid_extrinsic_state_size 1 in
           let* p := seg3 b 0 in
           let* a := seg3 b 3 in
           OK (fid_with_pose s p (RotVecToQuat a), (idx + g_fid_extrinsic_state_size)%nat)
         else OK (s, idx)) in
      let* (t', idx2) := fids_SetState t v idx1 in
      OK ((k, s1) :: t', idx2)
  end.

(** types.cpp 347-384: the augmented states are left as they are. *)
Definition SetState (s : State) (v : mat R) : res State :=
  let* bb := block v 0 0 g_body_state_size 1 in
  let* b := body_SetState (s_body s) bb in
  let* (im, i1) := imus_SetState (s_imu s) v g_body_state_size in
  let* (gm, i2) := gpss_SetState (s_gps s) v i1 in
  let* (cm, i3) := cams_SetState (s_cam s) v i2 in
  let* (fm, i4) := fids_SetState (s_fid s) v i3 in
  OK (mkState b im gm cm fm (s_aug s)).
