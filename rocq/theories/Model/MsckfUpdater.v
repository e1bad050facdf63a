(** /repo/src/ekf/update/msckf_updater.hpp and msckf_updater.cpp.  The log rows
    are modelled in [Model.LogRows]; log lines and timing are omitted.
    Parameter [solve]: Eigen's [colPivHouseholderQr().solve] on 3 x 3 systems. *)
From Coq Require Import Reals List Arith Bool ZArith.
From Verif Require Import Base.Res Base.Mat Base.RDec Base.RSum Base.LinAlg Base.Geom Base.AMap Base.RMat
  Model.TypeHelper Model.Types Model.MathHelper Model.Matrix3 Model.Ekf Model.Updater.
Import ListNotations.
Open Scope R_scope.

(** cv::KeyPoint: [pt.x], [pt.y], [class_id]. *)
Record KeyPoint : Type := mkKP { kp_x : R; kp_y : R; kp_class : Z }.
(** types.hpp 279-284 *)
Record FeaturePoint : Type := mkFP { fp_frame : nat; fp_time : R; fp_kp : KeyPoint }.
(** types.hpp 289-294.  [None]: the position was never assigned. *)
Record FeatureTrack : Type := mkFT { ft_track : list FeaturePoint; ft_true : option V3 }.

(** msckf_updater.hpp 110-121; [mu_poses] is uninitialised before the first
    update. *)
Record msckf_updater : Type := mkMU {
  mu_id : nat; mu_ext : bool; mu_first : bool; mu_poses : option (Intrinsics * V3 * quat);
  mu_min_dist : R; mu_max_dist : R; mu_use_true : bool }.

(** msckf_updater.cpp 38-69 *)
Definition msckf_updater_init (cam_id : nat) (ext : bool) (min_feat_dist : R) : msckf_updater :=
  mkMU cam_id ext true None min_feat_dist 100 true.

(** 102-107, 324-328: pixel to normalised coordinates. *)
Definition undo_pixel (k : Intrinsics) (p : KeyPoint) : res (R * R) :=
  let* fx := rdiv (in_f_x k) (in_pixel_size k) in
  let* fy := rdiv (in_f_y k) (in_pixel_size k) in
  let* x := rdiv (kp_x p - in_width k / 2) fx in
  let* y := rdiv (kp_y p - in_height k / 2) fy in
  OK (x, y).

(** 160-172 *)
Definition ProjectionJacobian (p : V3) : res (mat R) :=
  let* iz := rdiv 1 (vz p) in
  let* jx := rdiv (- vx p) (vz p * vz p) in
  let* jy := rdiv (- vy p) (vz p * vz p) in
  OK (mkmat 2 3 (fun i j => match i, j with
    | 0%nat, 0%nat => iz | 0%nat, 1%nat => 0 | 0%nat, _ => jx
    | _, 0%nat => 0 | _, 1%nat => iz | _, _ => jy end)).

(** 174-219 *)
Definition DistortionJacobian (x y : R) (k : Intrinsics) : mat R :=
  let r := sqrt (x * x + y * y) in
  let r_2 := r * r in
  let r_4 := r_2 * r_2 in
  let x_2 := x * x in
  let y_2 := y * y in
  let x_y := x * y in
  let off := 2 * in_k_1 k * x_y + 4 * in_k_2 k * x_y * r_2 + 2 * in_p_1 k * x + 2 * in_p_2 k * y in
  mkmat 2 2 (fun i j => match i, j with
    | 0%nat, 0%nat => (1 + in_k_1 k * r_2 + in_k_2 k * r_4) + (2 * in_k_1 k * x_2 + 4 * in_k_2 k * x_2 * r_2)
                      + 2 * in_p_1 k * y + 2 * in_p_2 k * x + 4 * in_p_2 k * x
    | 0%nat, _ => off
    | _, 0%nat => off
    | _, _ => (1 + in_k_1 k * r_2 + in_k_2 k * r_4) + 2 * in_k_1 k * y_2 + 4 * in_k_2 k * y_2 * r_2
              + 2 * in_p_2 k * x + 2 * in_p_1 k * y + 4 * in_p_1 k * y end).

(** 221-227 *)
Definition Project (p : V3) : res (R * R) :=
  let* x := rdiv (vx p) (vz p) in
  let* y := rdiv (vy p) (vz p) in
  OK (x, y).

(** 229-246 *)
Definition Distort (x y : R) (k : Intrinsics) : R * R :=
  let x2 := x * x in
  let y2 := y * y in
  let r2 := x2 + y2 in
  (x * (1 + in_k_1 k * r2 + in_k_1 k * r2 * r2) + 2 * in_p_1 k * x * y + in_p_2 k * (r2 + 2 * x2),
   y * (1 + in_k_1 k * r2 + in_k_1 k * r2 * r2) + 2 * in_p_2 k * x * y + in_p_1 k * (r2 + 2 * y2)).

Section Msckf.
Variable solve : mat R -> V3 -> V3.

(** 94-121: sums [A] and [b] over the observations. *)
Fixpoint tri_rows (u : msckf_updater) (k : Intrinsics) (pos_c : V3) (ang_c : quat) (a0 : AugState)
  (e : ekf) (l : list FeaturePoint) (A : mat R) (b : V3) : res (mat R * V3 * ekf) :=
  match l with
  | [] => OK (A, b, e)
  | f :: l' =>
      let* (ai, e) := GetAugState e (mu_id u) (fp_frame f) (fp_time f) in
      let rot_c := qmat ang_c in
      let w := m3mul (m3tr rot_c) (m3tr (qmat (a_ang a0))) in
      let rot_bi := qmat (a_ang ai) in
      let rot_ci_to_c0 := m3mul (m3mul w rot_bi) rot_c in
      let pos_ci := mat_vec w (vsub (vadd (mat_vec rot_bi pos_c) (a_pos ai))
                                    (vadd (mat_vec (qmat (a_ang a0)) pos_c) (a_pos a0))) in
      let* (x, y) := undo_pixel k (fp_kp f) in
      let d := mkV3 x y 1 in
      let* s := rdiv 1 (vnorm d) in
      let d := mat_vec rot_ci_to_c0 (vscale s d) in
      let sk := SkewSymmetric d in
      let Ai := m3mul (m3tr sk) sk in
      tri_rows u k pos_c ang_c a0 e l' (m3add A Ai) (vadd b (mat_vec Ai pos_ci))
  end.

(** 71-158: the feature position when triangulation succeeded. *)
Definition TriangulateFeature (u : msckf_updater) (k : Intrinsics) (pos_c : V3) (ang_c : quat)
  (e : ekf) (t : FeatureTrack) : res (option V3 * ekf) :=
  let* f0 := vnth (ft_track t) 0 in
  let* (a0, e) := GetAugState e (mu_id u) (fp_frame f0) (fp_time f0) in
  let* (A, b, e) := tri_rows u k pos_c ang_c a0 e (ft_track t) (mzero 3 3) v0 in
  let pos_f_in_c0 := solve A b in
  let far := Rltb (vz pos_f_in_c0) (mu_min_dist u) || Rltb (mu_max_dist u) (vz pos_f_in_c0) in
  let pos_tri := vadd (mat_vec (qmat (a_ang a0)) (vadd (qrot ang_c pos_f_in_c0) pos_c)) (a_pos a0) in
  if mu_use_true u then
    match ft_true t with
    | Some p => OK (Some p, e)
    | None => UB
    end
  else if far then OK (None, e) else OK (Some pos_tri, e).

(** 2 x 2 times 2 x 3 times 3 x n. *)
Definition dp (H_d H_p m : mat R) : mat R :=
  mkmat 2 (nc m) (mm 3 (mm 2 (ent H_d) (ent H_p)) (ent m)).
Definition neg2 (m : mat R) : mat R := mkmat 2 (nc m) (mopp (ent m)).
(** 3 x 6 block row: 345-348. *)
Definition H_t (a b : mat R) : mat R :=
  mkmat 3 6 (fun i j => if Nat.ltb j 3 then ent a i j else ent b i (j - 3)).

(** 303-375: one observation [i] of a track. *)
Definition feature_row (u : msckf_updater) (k : Intrinsics) (pos_c : V3) (ang_c : quat)
  (state_size cam_index : nat) (pos_f : V3) (e : ekf) (i : nat) (f : FeaturePoint)
  (res_f H_f H_c : mat R) : res (mat R * mat R * mat R * ekf) :=
  let* (ai, e) := GetAugState e (mu_id u) (fp_frame f) (fp_time f) in
  let rot_b_to_c := m3tr (qmat ang_c) in
  let rot_l_to_b := m3tr (qmat (a_ang ai)) in
  let rot_l_to_c := m3mul rot_b_to_c rot_l_to_b in
  let d := vsub pos_f (a_pos ai) in
  let pos_f_in_b := mat_vec rot_l_to_b d in
  let pos_f_in_c := mat_vec rot_b_to_c (vsub pos_f_in_b pos_c) in
  let* (px, py) := Project pos_f_in_c in
  let* (mx, my) := undo_pixel k (fp_kp f) in
  let* res_f := set_block res_f (2 * i) 0 2 1
    (mkmat 2 1 (fun r _ => match r with 0%nat => mx - px | _ => my - py end)) in
  let* H_p := ProjectionJacobian pos_f_in_c in
  let H_d := DistortionJacobian mx my k in
  let* H_f := set_block H_f (2 * i) 0 2 3 (dp H_d H_p rot_l_to_c) in
  let Ht := H_t (m3neg rot_l_to_c)
                (m3mul (m3mul rot_l_to_c (SkewSymmetric d)) (m3tr (QuaternionJacobian (a_ang ai)))) in
  let* H_c := (if mu_ext u then
      let* H_c := set_block H_c (2 * i) (cam_index + 0) 2 3 (neg2 (dp H_d H_p rot_b_to_c)) in
      set_block H_c (2 * i) (cam_index + 3) 2 3
        (dp H_d H_p (m3mul (m3mul rot_b_to_c (SkewSymmetric (vsub pos_f_in_b pos_c)))
                           (m3tr (QuaternionJacobian ang_c))))
    else OK H_c) in
  let H := dp H_d H_p Ht in
  let* H_c := (if negb (Reqb (a_alpha ai) 0) then
      let H_aug_0 := mscale (1 - a_alpha ai) H in
      let H_aug_1 := mscale (a_alpha ai) H in
      let* H_c := set_block H_c (2 * i) (a_index ai) 2 g_aug_state_size H_aug_0 in
      if Nat.ltb state_size (a_index ai + 2 * g_aug_state_size) then
        let* b0 := block H_aug_1 0 0 2 3 in
        let* b1 := block H_aug_1 0 3 2 3 in
        let* H_c := set_block H_c (2 * i) 0 2 3 b0 in
        set_block H_c (2 * i) 9 2 3 b1
      else set_block H_c (2 * i) (a_index ai + g_aug_state_size) 2 g_aug_state_size H_aug_1
    else set_block H_c (2 * i) (a_index ai) 2 g_aug_state_size H) in
  OK (res_f, H_f, H_c, e).

Fixpoint feature_rows (u : msckf_updater) (k : Intrinsics) (pos_c : V3) (ang_c : quat)
  (state_size cam_index : nat) (pos_f : V3) (e : ekf) (i : nat) (l : list FeaturePoint)
  (res_f H_f H_c : mat R) : res (mat R * mat R * mat R * ekf) :=
  match l with
  | [] => OK (res_f, H_f, H_c, e)
  | f :: l' =>
      let* (res_f, H_f, H_c, e) :=
        feature_row u k pos_c ang_c state_size cam_index pos_f e i f res_f H_f H_c in
      feature_rows u k pos_c ang_c state_size cam_index pos_f e (S i) l' res_f H_f H_c
  end.

(** 285-386: all tracks; result: Jacobian, residual, rows used. *)
Fixpoint track_rows (u : msckf_updater) (k : Intrinsics) (pos_c : V3) (ang_c : quat)
  (state_size cam_index : nat) (e : ekf) (l : list FeatureTrack) (ct : nat) (H_x res_x : mat R)
  : res (mat R * mat R * nat * ekf) :=
  match l with
  | [] => OK (H_x, res_x, ct, e)
  | t :: l' =>
      let* (p, e) := TriangulateFeature u k pos_c ang_c e t in
      match p with
      | None => track_rows u k pos_c ang_c state_size cam_index e l' ct H_x res_x
      | Some pos_f =>
          let n := (2 * length (ft_track t))%nat in
          let* (res_f, H_f, H_c, e) :=
            feature_rows u k pos_c ang_c state_size cam_index pos_f e 0 (ft_track t)
              (mzero n 1) (mzero n 3) (mzero n state_size) in
          let* (H_c, res_f) := ApplyLeftNullspace H_f H_c res_f in
          let* H_x := set_block H_x ct 0 (nr H_c) (nc H_c) H_c in
          let* res_x := set_block res_x ct 0 (nr res_f) 1 res_f in
          track_rows u k pos_c ang_c state_size cam_index e l' (ct + nr H_c) H_x res_x
      end
  end.

(** 275-278 *)
Definition max_meas_size (l : list FeatureTrack) : nat :=
  fold_left (fun n t => (n + 2 * length (ft_track t))%nat) l 0%nat.

(** 249-423 *)
Definition msckf_UpdateEKF (u : msckf_updater) (e : ekf) (time : R) (tracks : list FeatureTrack)
  (px_error : R) : res (msckf_updater * ekf) :=
  let '(local_time, e) := CalculateLocalTime e time in
  let* e := PredictModel e local_time in
  match tracks with
  | [] => OK (u, e)
  | _ :: _ =>
    let '(u, e) :=
      (if negb (p_fej (e_par e)) || mu_first u then
         let '(c, e) := GetCamState e (mu_id u) in
         (mkMU (mu_id u) (mu_ext u) false (Some (c_intr c, c_pos c, c_ang c))
               (mu_min_dist u) (mu_max_dist u) (mu_use_true u), e)
       else (u, e)) in
    match mu_poses u with
    | None => UB
    | Some (k, pos_c, ang_c) =>
      let state_size := e_size e in
      let '(c, e) := GetCamState e (mu_id u) in
      let m := max_meas_size tracks in
      let* (H_x, res_x, ct, e) :=
        track_rows u k pos_c ang_c state_size (c_index c) e tracks 0 (mzero m state_size) (mzero m 1) in
      if Nat.eqb ct 0 then OK (u, e)
      else
        let* (H_x, res_x) := CompressMeasurements H_x res_x in
        if Nat.leb (nr res_x) 1 then OK (u, e)
        else
          let px := Rmax px_error (1 / 2) in
          let* e := KalmanUpdate e H_x res_x (mscale (px * px) (midm (nr res_x) (nr res_x))) in
          OK (u, e)
    end
  end.
End Msckf.
