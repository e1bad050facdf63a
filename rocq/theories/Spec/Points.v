(** Point sets, means and planar rigid motions. *)
From Coq Require Import Reals List.
From Verif Require Import Base.Geom.
Import ListNotations.
Open Scope R_scope.

Definition total (l : list R) : R := fold_right Rplus 0 l.
(** Arithmetic mean of a coordinate over a list of points. *)
Definition mean_of {A} (f : A -> R) (l : list A) : R := total (map f l) / INR (length l).
Definition mean (l : list V3) : V3 := mkV3 (mean_of vx l) (mean_of vy l) (mean_of vz l).

(** Rotation about the vertical by [yaw], then translation by [t]. *)
Definition yawed (yaw : R) (v : V3) : V3 :=
  mkV3 (cos yaw * vx v - sin yaw * vy v) (sin yaw * vx v + cos yaw * vy v) (vz v).
Definition rigid (yaw : R) (t : V3) (v : V3) : V3 := vadd (yawed yaw v) t.

(** Not all points lie above one another. *)
Definition spread (l : list V3) : Prop :=
  exists p q, In p l /\ In q l /\ (vx p <> vx q \/ vy p <> vy q).
