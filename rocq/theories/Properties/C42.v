(** C42: Cyclic truth. *)
From Coq Require Import Reals List Lra.
From Verif Require Import Base.Geom Model.TypeHelper Model.TruthEngine Spec.Truth Proofs.Cyclic.
Open Scope R_scope.

Theorem C42_velocity : forall c t, rate_of (cy_GetBodyPosition c) t (cy_GetBodyVelocity c t).
Proof. exact velocity_rate. Qed.
Print Assumptions C42_velocity.

Theorem C42_acceleration : forall c t, t <> cy_stationary_time c ->
  rate_of (cy_GetBodyVelocity c) t (cy_GetBodyAcceleration c t).
Proof. exact acceleration_rate. Qed.
Print Assumptions C42_acceleration.

(** The excluded instant: a moving body has no acceleration there. *)
Theorem C42_start_kink : forall c, cy_pos_amplitude c <> 0 -> cy_pos_frequency c <> v0 ->
  forall d, ~ rate_of (cy_GetBodyVelocity c) (cy_stationary_time c) d.
Proof. exact start_kink. Qed.
Print Assumptions C42_start_kink.

Theorem C42_continuous : forall c t, unbroken (cy_GetBodyPosition c) t.
Proof. exact position_unbroken. Qed.
Print Assumptions C42_continuous.

Theorem C42_rest : forall c t, t < cy_stationary_time c ->
  cy_GetBodyPosition c t = cy_pos_offset c /\ cy_GetBodyVelocity c t = v0 /\ cy_GetBodyAcceleration c t = v0 /\
  cy_GetBodyAngularPosition c t = qid /\ cy_GetBodyAngularRate c t = v0 /\ cy_GetBodyAngularAcceleration c t = v0.
Proof. exact at_rest. Qed.
Print Assumptions C42_rest.

(** The angular rate is the body's angular rate. *)
Theorem C42_angular_rate : forall c t, t <> cy_stationary_time c ->
  turns (cy_GetBodyAngularPosition c) t (cy_GetBodyAngularRate c t).
Proof. exact attitude_turns. Qed.
Print Assumptions C42_angular_rate.

Theorem C42_angular_rate_no_offset : forall c t, cy_ang_offset c = v0 ->
  turns (cy_GetBodyAngularPosition c) t (cy_GetBodyAngularRate c t).
Proof. exact attitude_turns_always. Qed.
Print Assumptions C42_angular_rate_no_offset.

(** The angular acceleration lacks the terms from the moving Euler axes. *)
Theorem C42_angular_acceleration : forall c t, cy_stationary_time c < t -> exists e',
  rate_of (cy_GetBodyRollPitchYaw c) t e' /\
  rate_of (cy_GetBodyAngularRate c) t
    (vadd (cy_GetBodyAngularAcceleration c t) (gyroscopic (cy_GetBodyRollPitchYaw c t) e')).
Proof. exact (fun c t L => ex_intro _ (rpy_rate c t) (conj (rpy_moves c t L) (angular_rate_rate c t L))). Qed.
Print Assumptions C42_angular_acceleration.

Theorem C42_angular_acceleration_refuted : exists c t, cy_stationary_time c < t /\
  ~ rate_of (cy_GetBodyAngularRate c) t (cy_GetBodyAngularAcceleration c t).
Proof. exact angular_acceleration_refuted. Qed.
Print Assumptions C42_angular_acceleration_refuted.

Theorem C42_attitude_jump : forall c, EigVecToQuat (cy_ang_offset c) <> qid ->
  ~ qunbroken (cy_GetBodyAngularPosition c) (cy_stationary_time c).
Proof. exact attitude_jump. Qed.
Print Assumptions C42_attitude_jump.

(** A moving body. *)
Example C42_moving : cy_pos_amplitude turning <> 0 /\ cy_pos_frequency turning <> v0 /\
  cy_stationary_time turning < 1 / 4 /\ vx (cy_GetBodyPosition turning (1 / 4)) = 1 / 2.
Proof.
  split; [cbn; lra|]. split; [cbn; intros E; injection E; lra|]. split; [cbn; lra|].
  unfold cy_GetBodyPosition. cbn. rewrite RDec.Rltb_ff by lra. cbn. unfold cyc. rewrite cos_quarter. lra.
Qed.
(** Half a turn of offset. *)
Example C42_offset : EigVecToQuat (cy_ang_offset offset_truth) <> qid.
Proof. exact offset_jumps. Qed.
