(** C66: Times in double precision. *)
From Coq Require Import Reals ZArith List Lia Lra.
From Verif Require Import Base.Res Base.Mat Base.Geom Base.RMat Base.LinAlg Base.AMap Model.TypeHelper Model.Types Model.Ekf Model.Ops
  Model.RosNode Model.Sensors Model.DoubleTime Spec.Contract Spec.World Spec.DoubleTime Proofs.Demo Proofs.DoubleTime.
Import ListNotations.
Open Scope R_scope.

(** The double made of a time stamp is at most 0.12 microseconds off, *)
Theorem C66_stamp : forall s, valid s -> Rabs (RosHeaderToTime_d s - RosHeaderToTime s) <= 12 / 100000000.
Proof. exact stamp_error. Qed.
Print Assumptions C66_stamp.
(** keeps the order of stamps, *)
Theorem C66_order : forall s s', valid s -> valid s' -> (nanos s <= nanos s')%Z -> RosHeaderToTime_d s <= RosHeaderToTime_d s'.
Proof. exact stamp_order. Qed.
Print Assumptions C66_order.
(** and tells stamps apart that differ by more than 240 ns. *)
Theorem C66_apart : forall s s', valid s -> valid s' -> (nanos s + 240 < nanos s')%Z -> RosHeaderToTime_d s < RosHeaderToTime_d s'.
Proof. exact stamp_apart. Qed.
Print Assumptions C66_apart.
(** It does not tell apart all stamps. *)
Theorem C66_nanoseconds_refuted : exists s s', recent s /\ recent s' /\ (nanos s' = nanos s + 100)%Z /\ RosHeaderToTime_d s' = RosHeaderToTime_d s.
Proof. exact stamps_refuted. Qed.
Print Assumptions C66_nanoseconds_refuted.

(** Stamps between 2004 and 2038 give dates, *)
Theorem C66_dates : forall s, recent s -> date (RosHeaderToTime_d s).
Proof. exact stamp_date. Qed.
Print Assumptions C66_dates.
(** for which the clock of the filter does no rounding at all, whatever has
    happened before: the local time of the next message and the length of the
    step to it are exact. *)
Theorem C66_clock : forall svd hull ecef_to_lla mat_quat solve p q pe a l w t, noise_arg q ->
  events_ok svd hull ecef_to_lla mat_quat solve (world_init (EKF_init p q pe a)) l -> Forall dated l ->
  wrun svd hull ecef_to_lla mat_quat solve (world_init (EKF_init p q pe a)) l = OK w ->
  e_time_init (w_ekf w) = true -> date t ->
  double (e_ref_time (w_ekf w)) /\ double (e_time (w_ekf w)) /\
  local_time_d t (e_ref_time (w_ekf w)) = t - e_ref_time (w_ekf w) /\
  (e_time (w_ekf w) <= t - e_ref_time (w_ekf w) ->
   delta_time_d (t - e_ref_time (w_ekf w)) (e_time (w_ekf w)) = t - e_ref_time (w_ekf w) - e_time (w_ekf w)).
Proof. exact exact_clock. Qed.
Print Assumptions C66_clock.
(** So local times are at most 0.24 microseconds off, however long it runs. *)
Theorem C66_elapsed : forall s s', recent s -> recent s' ->
  Rabs (local_time_d (RosHeaderToTime_d s') (RosHeaderToTime_d s) - (RosHeaderToTime s' - RosHeaderToTime s)) <= 24 / 100000000.
Proof. exact elapsed_error. Qed.
Print Assumptions C66_elapsed.

(** Simulated measurements: their times do not decrease, and there is at most
    one more than without rounding. *)
Theorem C66_sim_order : forall i j r init, (i <= j)%nat -> 0 < r -> message_time_d i r init <= message_time_d j r init.
Proof. exact times_order. Qed.
Print Assumptions C66_sim_order.
Theorem C66_sim_count : forall T r, 0 <= T * r < 2 ^ 52 ->
  (Int_part (T * r) <= num_measurements_d T r <= Int_part (T * r) + 1)%Z.
Proof. exact count_close. Qed.
Print Assumptions C66_sim_count.
(** For 0.7 seconds at 10 measurements per second there is one more. *)
Theorem C66_sim_count_refuted : exists T r, double T /\ double r /\ 0 <= T * r < 2 ^ 52 /\ num_measurements_d T r = (Int_part (T * r) + 1)%Z.
Proof. exact count_refuted. Qed.
Print Assumptions C66_sim_count_refuted.

(** 14 November 2023; a program with an inertial unit that measures then. *)
Example C66_case : recent (mkStamp 1700000000 500000000).
Proof. unfold recent, valid. cbn. lia. Qed.
Example C66_case_run : forall svd hull ecef_to_lla mat_quat solve s, recent s ->
  let w0 := world_init (EKF_init (demo_par AAll false) demo_noise v0 0) in
  noise_arg demo_noise /\ events_ok svd hull ecef_to_lla mat_quat solve w0 (once (RosHeaderToTime_d s)) /\ Forall dated (once (RosHeaderToTime_d s)) /\
  exists w, wrun svd hull ecef_to_lla mat_quat solve w0 (once (RosHeaderToTime_d s)) = OK w /\ e_time_init (w_ekf w) = true.
Proof. exact once_case. Qed.
