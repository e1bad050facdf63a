(** Viewing rays of a feature track, the distance of a point from a ray, and
    what is expected of the solver of 3 x 3 systems. *)
From Coq Require Import Reals List Arith.
From Verif Require Import Base.Res Base.Mat Base.RDec Base.Geom
  Model.Types Model.MathHelper Model.Ekf Model.MsckfUpdater.
Import ListNotations.
Open Scope R_scope.

(** A straight line: a point on it and its direction. *)
Definition line : Type := (V3 * V3)%type.
(** The point of a line closest to [p], and the squared distance to it. *)
Definition foot (l : line) (p : V3) : V3 :=
  vadd (fst l) (vscale (vdot (vsub p (fst l)) (snd l) / vdot (snd l) (snd l)) (snd l)).
Definition line_dist2 (l : line) (p : V3) : R := vnorm2 (vsub p (foot l p)).
(** The sum of the squared distances of a point from several lines. *)
Definition miss (ls : list line) (p : V3) : R := fold_right (fun l s => line_dist2 l p + s) 0 ls.
(** Two of the lines are not parallel. *)
Definition spread_out (ls : list line) : Prop :=
  exists l1 l2, In l1 ls /\ In l2 ls /\ vcross (snd l1) (snd l2) <> v0.
Definition all_parallel (ls : list line) : Prop :=
  exists d, d <> v0 /\ Forall (fun l => snd l <> v0 /\ vcross (snd l) d = v0) ls.

(** A camera mounted at [pos_c], [ang_c] on a body with the pose of the clone
    [a]: where the point with camera coordinates [c] is. *)
Definition from_camera (pos_c : V3) (ang_c : quat) (a : AugState) (c : V3) : V3 :=
  vadd (a_pos a) (qrot (a_ang a) (vadd pos_c (qrot ang_c c))).
(** The line on which the feature seen at a pixel lies. *)
Definition view_line (k : Intrinsics) (pos_c : V3) (ang_c : quat) (f : FeaturePoint) (a : AugState) : line :=
  let x := (kp_x (fp_kp f) - in_width k / 2) / (in_f_x k / in_pixel_size k) in
  let y := (kp_y (fp_kp f) - in_height k / 2) / (in_f_y k / in_pixel_size k) in
  let o := from_camera pos_c ang_c a v0 in
  (o, vsub (from_camera pos_c ang_c a (mkV3 x y 1)) o).
Fixpoint view_lines (k : Intrinsics) (pos_c : V3) (ang_c : quat) (fs : list FeaturePoint) (l : list AugState) : list line :=
  match fs, l with
  | f :: fs', a :: l' => view_line k pos_c ang_c f a :: view_lines k pos_c ang_c fs' l'
  | _, _ => []
  end.
(** The feature at [p] is in front of the camera and its pinhole image is the pixel. *)
Definition sees (k : Intrinsics) (pos_c : V3) (ang_c : quat) (p : V3) (f : FeaturePoint) (a : AugState) : Prop :=
  exists c, 0 < vz c /\ p = from_camera pos_c ang_c a c /\
    kp_x (fp_kp f) = in_f_x k / in_pixel_size k * (vx c / vz c) + in_width k / 2 /\
    kp_y (fp_kp f) = in_f_y k / in_pixel_size k * (vy c / vz c) + in_height k / 2.
(** The focal lengths and the pixel size are not zero. *)
Definition has_lens (k : Intrinsics) : Prop := in_f_x k <> 0 /\ in_f_y k <> 0 /\ in_pixel_size k <> 0.

(** The clones from which a track was observed: looking them up changes nothing. *)
Definition observed_from (e : ekf) (cam : nat) (t : FeatureTrack) (l : list AugState) : Prop :=
  Forall2 (fun f a => GetAugState e cam (fp_frame f) (fp_time f) = OK (a, e) /\ qnorm2 (a_ang a) = 1) (ft_track t) l.

(** A solver that solves at least the positive definite symmetric systems. *)
Definition posdef (A : mat R) : Prop :=
  (forall x y, vdot x (mat_vec A y) = vdot (mat_vec A x) y) /\
  forall x, x <> v0 -> 0 < vdot x (mat_vec A x).
Definition solver (solve : mat R -> V3 -> V3) : Prop :=
  forall A b, posdef A -> mat_vec A (solve A b) = b.

(** A point with first-camera coordinates [c] is accepted. *)
Definition accepted (u : msckf_updater) (c : V3) : bool := Rleb (mu_min_dist u) (vz c) && Rleb (vz c) (mu_max_dist u).
