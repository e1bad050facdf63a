(** Rates of change along curves, at time 0, and linear maps given by
    matrices. *)
From Coq Require Import Reals.
From Verif Require Import Base.Mat Base.RSum Base.Geom Base.AMap Model.Types Model.Ekf.
Open Scope R_scope.

(** [f] changes with rate [d] at 0. *)
Definition moves (f : R -> R) (d : R) : Prop := derivable_pt_lim f 0 d.
Definition vmoves (f : R -> V3) (d : V3) : Prop :=
  moves (fun t => vx (f t)) (vx d) /\ moves (fun t => vy (f t)) (vy d) /\ moves (fun t => vz (f t)) (vz d).
(** For all times close to 0. *)
Definition near (P : R -> Prop) : Prop := exists h, 0 < h /\ forall t, Rabs t < h -> P t.

(** Row [i] of a matrix applied to a vector of matching length. *)
Definition apply_row (m : mat R) (x : nat -> R) (i : nat) : R := rsum (nc m) (fun k => ent m i k * x k).
(** The three entries of [x] from [i] on. *)
Definition slice (x : nat -> R) (i : nat) : V3 := mkV3 (x i) (x (i + 1)%nat) (x (i + 2)%nat).

(** The point [pf] in the frame of a camera mounted at [pc], [qc] on a body
    at [pb], [qb]; and where it appears on the normalised image plane. *)
Definition seen_from (pf pb : V3) (qb : quat) (pc : V3) (qc : quat) : V3 :=
  qrot (qinv qc) (vsub (qrot (qinv qb) (vsub pf pb)) pc).
Definition on_image (p : V3) : R * R := (vx p / vz p, vy p / vz p).
(** Three rows from [i] on, and a row of three entries. *)
Definition rows3 (j : mat R) (x : nat -> R) (i : nat) : V3 :=
  mkV3 (apply_row j x i) (apply_row j x (i + 1)) (apply_row j x (i + 2)).
Definition row3 (m : mat R) (i : nat) (v : V3) : R := ent m i 0 * vx v + ent m i 1 * vy v + ent m i 2 * vz v.
(** [J] is the derivative of the map [f] of the plane at [(x0, y0)]. *)
Definition plane_derivative (f : R -> R -> R * R) (J : mat R) (x0 y0 : R) : Prop :=
  forall x y dx dy, x 0 = x0 -> y 0 = y0 -> moves x dx -> moves y dy ->
  moves (fun t => fst (f (x t) (y t))) (ent J 0 0 * dx + ent J 0 1 * dy) /\
  moves (fun t => snd (f (x t) (y t))) (ent J 1 0 * dx + ent J 1 1 * dy).
(** A lens without distortion. *)
Definition no_distortion (k : Intrinsics) : Prop := in_k_1 k = 0 /\ in_k_2 k = 0 /\ in_p_1 k = 0 /\ in_p_2 k = 0.
(** Rotation vectors that are recovered from their quaternion. *)
Definition proper_turn (v : V3) : Prop := 1 / 1000000000 < vnorm v <= PI.
(** The filter's entry for a camera. *)
Definition cam_of (e : ekf) (id : nat) : CamState := mget default_cam id (s_cam (e_state e)).
