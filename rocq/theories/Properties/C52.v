(** C52: Spline truth. *)
From Coq Require Import Reals List Lra.
From Verif Require Import Base.Res Base.Geom Model.MathHelper Model.TruthEngine Spec.Truth Spec.SplineTruth Proofs.SplineTruth.
Open Scope R_scope.

Theorem C52_velocity : forall s t, spline_inside s t -> st_max_time s <> st_stationary_time s ->
  spl_invalid (st_pos s) = false -> true_derivatives (st_pos s) (spline_param s t) ->
  exists v, st_GetBodyVelocity s t = OK v /\ reports_rate (st_GetBodyPosition s) t v.
Proof. exact spline_velocity. Qed.
Print Assumptions C52_velocity.

Theorem C52_acceleration : forall s t, spline_inside s t -> st_max_time s <> st_stationary_time s ->
  spl_invalid (st_pos s) = false -> true_derivatives (st_pos s) (spline_param s t) ->
  exists v, st_GetBodyAcceleration s t = OK v /\ reports_rate (st_GetBodyVelocity s) t v.
Proof. exact spline_acceleration. Qed.
Print Assumptions C52_acceleration.

(** The attitude turns with the transformed rate, not with the reported one. *)
Theorem C52_turn : forall s t, spline_inside s t -> st_max_time s <> st_stationary_time s ->
  spl_invalid (st_ang s) = false -> true_derivatives (st_ang s) (spline_param s t) ->
  exists w, st_GetBodyAngularRate s t = OK w /\
    reports_turn (st_GetBodyAngularPosition s) t
      (mat_vec (EulerDerivativeTransform (spl_at (st_ang s) (spline_param s t))) w).
Proof. exact spline_turn. Qed.
Print Assumptions C52_turn.

Theorem C52_angular_rate_refuted : exists s t w, spline_inside s t /\ st_stationary_time s < st_max_time s /\
  (forall u, true_derivatives (st_ang s) u) /\
  st_GetBodyAngularRate s t = OK w /\ ~ reports_turn (st_GetBodyAngularPosition s) t w.
Proof. exact spline_rate_refuted. Qed.
Print Assumptions C52_angular_rate_refuted.

(** Without a stationary phase the curve is evaluated where it is defined, *)
Theorem C52_within : forall s t, spl_invalid (st_pos s) = false -> st_stationary_time s <= 0 -> 0 < st_max_time s ->
  spline_time s t -> exists u, 0 <= u <= 1 /\ st_GetBodyPosition s t = OK (spl_at (st_pos s) u).
Proof. exact spline_within. Qed.
Print Assumptions C52_within.

(** with one it is evaluated beyond its end. *)
Theorem C52_beyond : forall s, spl_invalid (st_pos s) = false -> 0 < st_stationary_time s < st_max_time s ->
  exists t u, spline_time s t /\ 1 < u /\ st_GetBodyPosition s t = OK (spl_at (st_pos s) u).
Proof. exact spline_beyond. Qed.
Print Assumptions C52_beyond.

Example C52_curve : spline_inside side_truth (1 / 2) /\ st_max_time side_truth <> st_stationary_time side_truth /\
  spl_invalid (st_pos side_truth) = false /\ (forall u, true_derivatives (st_pos side_truth) u).
Proof.
  split; [unfold spline_inside; cbn; lra|]. split; [cbn; lra|]. split; [reflexivity|]. exact side_derivatives.
Qed.
