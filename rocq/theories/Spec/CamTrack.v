(** What feature tracks do to the estimates. *)
From Coq Require Import Reals List Arith Bool.
From Verif Require Import Base.Res Base.Mat Base.RDec Base.RSum Base.LinAlg Base.Geom Base.AMap Base.RMat
  Model.Types Model.MathHelper Model.Matrix3 Model.Ekf Model.MsckfUpdater Spec.Chance.
Import ListNotations.
Open Scope R_scope.

(** The same tracks, seen at other pixels: the numbers [p] are the coordinates
    of all observations, one after the other. *)
Fixpoint seen_at (p : nat -> R) (off : nat) (l : list FeaturePoint) : list FeaturePoint :=
  match l with
  | [] => []
  | f :: l' => mkFP (fp_frame f) (fp_time f) (mkKP (p off) (p (S off)) (kp_class (fp_kp f))) :: seen_at p (S (S off)) l'
  end.
Fixpoint seen (p : nat -> R) (off : nat) (l : list FeatureTrack) : list FeatureTrack :=
  match l with
  | [] => []
  | t :: l' => mkFT (seen_at p off (ft_track t)) (ft_true t) :: seen p (off + 2 * length (ft_track t)) l'
  end.
Definition pixels (l : list FeatureTrack) : nat := (2 * list_sum (map (fun t => length (ft_track t)) l))%nat.

(** A vector of [m] numbers, squared length. *)
Definition length2 (m : nat) (x : nat -> R) : R := rsum m (fun i => x i * x i).

(** The squared distances, in a picture at distance 1, between where a
    feature at [p] was seen and where the filter expects it. *)
Definition in_picture (pc : V3) (ac : quat) (a : AugState) (p : V3) : V3 :=
  mat_vec (m3tr (qmat ac)) (vsub (mat_vec (m3tr (qmat (a_ang a))) (vsub p (a_pos a))) pc).
Fixpoint misses (e : ekf) (id : nat) (k : Intrinsics) (pc : V3) (ac : quat) (p : V3) (l : list FeaturePoint) (s : R) : Prop :=
  match l with
  | [] => s = 0
  | f :: l' => exists a e' s', GetAugState e id (fp_frame f) (fp_time f) = OK (a, e') /\ misses e id k pc ac p l' s' /\
      let q := in_picture pc ac a p in
      let x := (kp_x (fp_kp f) - in_width k / 2) / (in_f_x k / in_pixel_size k) in
      let y := (kp_y (fp_kp f) - in_height k / 2) / (in_f_y k / in_pixel_size k) in
      s = (x - vx q / vz q) * (x - vx q / vz q) + (y - vy q / vz q) * (y - vy q / vz q) + s'
  end.
(** The same for all tracks that are used, each with the position the updater
    takes for its feature. *)
Fixpoint all_misses (solve : mat R -> V3 -> V3) (u : msckf_updater) (e : ekf) (k : Intrinsics) (pc : V3) (ac : quat)
  (l : list FeatureTrack) (s : R) : Prop :=
  match l with
  | [] => s = 0
  | t :: l' => exists o e' s1 s2, TriangulateFeature solve u k pc ac e t = OK (o, e') /\ all_misses solve u e k pc ac l' s2 /\
      match o with Some p => misses e (mu_id u) k pc ac p (ft_track t) s1 | None => s1 = 0 end /\ s = s1 + s2
  end.

(** Pixels that vary by chance, each by itself, with standard deviation [s]. *)
Definition blurred {A} (L : law A) (n : nat) (p : A -> nat -> R) (s : R) : Prop :=
  forall i j, (i < n)%nat -> (j < n)%nat -> spread L (fun a => p a i) (fun a => p a j) = if Nat.eqb i j then s * s else 0.

(** What the updater needs of a track: two observations, the true position of
    its feature, and for each observation a clone from which the feature is
    not level with the camera. *)
Definition clear_view (e : ekf) (id : nat) (pc : V3) (ac : quat) (t : FeatureTrack) : Prop :=
  (2 <= length (ft_track t))%nat /\ exists p, ft_true t = Some p /\
    Forall (fun f => exists a e', GetAugState e id (fp_frame f) (fp_time f) = OK (a, e') /\ vz (in_picture pc ac a p) <> 0) (ft_track t).

(** The noise the updater takes the residual to have: [m] numbers with
    the standard deviation of a pixel coordinate, at least half a pixel. *)
Definition in_pixels (px : R) (m : nat) : mat R := mscale (Rmax px (1 / 2) * Rmax px (1 / 2)) (midm m m).
