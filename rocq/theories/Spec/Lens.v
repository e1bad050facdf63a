(** Pictures taken through a lens. *)
From Coq Require Import Reals List Arith Bool.
From Verif Require Import Base.Res Base.Mat Base.RDec Base.Geom Base.AMap
  Model.Types Model.MathHelper Model.Matrix3 Model.Ekf Model.MsckfUpdater Spec.CamTrack.
Import ListNotations.
Open Scope R_scope.

(** Where the lens puts what a pinhole would put at [(x, y)], in a picture at
    distance 1: the four-coefficient model of cv::projectPoints, to which
    sim_feature_tracker.cpp 74-81 gives types.cpp 539-548. *)
Definition bent (k : Intrinsics) (x y : R) : R * R :=
  let r2 := x * x + y * y in
  let g := 1 + in_k_1 k * r2 + in_k_2 k * (r2 * r2) in
  (x * g + 2 * in_p_1 k * x * y + in_p_2 k * (r2 + 2 * (x * x)),
   y * g + in_p_1 k * (r2 + 2 * (y * y)) + 2 * in_p_2 k * x * y).
(** The pixel of a point given in camera coordinates. *)
Definition through (k : Intrinsics) (c : V3) : R * R :=
  let b := bent k (vx c / vz c) (vy c / vz c) in
  (in_f_x k / in_pixel_size k * fst b + in_width k / 2, in_f_y k / in_pixel_size k * snd b + in_height k / 2).

(** Every observation of the feature at [p] is where the lens puts it, for a
    camera at [pc], [ac] on a body at the pose of the clone. *)
Definition exactly_seen (e : ekf) (id : nat) (k : Intrinsics) (pc : V3) (ac : quat) (p : V3) (l : list FeaturePoint) : Prop :=
  Forall (fun f => exists a e', GetAugState e id (fp_frame f) (fp_time f) = OK (a, e') /\
    through k (in_picture pc ac a p) = (kp_x (fp_kp f), kp_y (fp_kp f))) l.
(** By how much the lens moves a point of the picture, squared. *)
Definition shift2 (k : Intrinsics) (x y : R) : R :=
  (fst (bent k x y) - x) * (fst (bent k x y) - x) + (snd (bent k x y) - y) * (snd (bent k x y) - y).
(** The same for all observations of a feature. *)
Fixpoint shifts (e : ekf) (id : nat) (k : Intrinsics) (pc : V3) (ac : quat) (p : V3) (l : list FeaturePoint) (s : R) : Prop :=
  match l with
  | [] => s = 0
  | f :: l' => exists a e' s', GetAugState e id (fp_frame f) (fp_time f) = OK (a, e') /\ shifts e id k pc ac p l' s' /\
      let q := in_picture pc ac a p in s = shift2 k (vx q / vz q) (vy q / vz q) + s'
  end.
(** The feature was in the middle of every picture. *)
Definition always_middle (e : ekf) (id : nat) (pc : V3) (ac : quat) (p : V3) (l : list FeaturePoint) : Prop :=
  Forall (fun f => exists a e', GetAugState e id (fp_frame f) (fp_time f) = OK (a, e') /\
    vx (in_picture pc ac a p) / vz (in_picture pc ac a p) = 0 /\ vy (in_picture pc ac a p) / vz (in_picture pc ac a p) = 0) l.
(** A lens that only stretches, growing outwards. *)
Definition stretches (k : Intrinsics) : Prop := 0 < in_k_1 k /\ 0 <= in_k_2 k /\ in_p_1 k = 0 /\ in_p_2 k = 0.
