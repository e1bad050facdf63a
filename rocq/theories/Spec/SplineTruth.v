(** The spline truth as its users see it. *)
From Coq Require Import Reals List.
From Verif Require Import Base.Res Base.Geom Model.TruthEngine Spec.Truth.
Open Scope R_scope.

(** The getter [g] reports, around time [t], a motion whose rate at [t] is
    [d]. *)
Definition reports_rate (g : R -> res V3) (t : R) (d : V3) : Prop :=
  exists f h, 0 < h /\ (forall u, Rabs (u - t) < h -> g u = OK (f u)) /\ rate_of f t d.
Definition reports_turn (g : R -> res quat) (t : R) (w : V3) : Prop :=
  exists f h, 0 < h /\ (forall u, Rabs (u - t) < h -> g u = OK (f u)) /\ turns f t w.
(** Times at which the spline is evaluated, and the parameter used. *)
Definition spline_time (s : spline_truth) (t : R) : Prop := 0 <= t - st_stationary_time s <= st_max_time s.
Definition spline_inside (s : spline_truth) (t : R) : Prop := 0 < t - st_stationary_time s < st_max_time s.
Definition spline_param (s : spline_truth) (t : R) : R :=
  (t - st_stationary_time s) / (st_max_time s - st_stationary_time s).
(** The reported derivatives of a curve are its derivatives, at [u]. *)
Definition true_derivatives (c : spline) (u : R) : Prop :=
  rate_of (spl_at c) u (spl_d1 c u) /\ rate_of (spl_d1 c) u (spl_d2 c u).
