(** C49: The process noise follows the configuration. *)
From Coq Require Import Reals List Arith Bool Lia Lra.
From Verif Require Import Base.Res Base.Mat Base.LinAlg Base.Geom Base.AMap
  Model.Types Model.Ekf Model.Updater Model.Ops Spec.Layout Spec.History Spec.Contract Spec.Noise
  Proofs.Demo Proofs.DemoFilter Proofs.Finals Proofs.Noise.
Import ListNotations.
Open Scope nat_scope.

(** A first registration (or an explicit refresh) stores the configured
    noise. *)
Theorem C49_registration : forall e o e', reachable e -> contract e o -> refreshing e o -> step e o = OK e' -> configured e'.
Proof. exact refreshing_configured. Qed.
Print Assumptions C49_registration.

(** It stays the configured one in all further histories that do not set a
    new body noise: predictions, updates, clones, removals, reads. *)
Theorem C49_history : forall e o l e1 e', reachable e -> contract e o -> refreshing e o -> step e o = OK e1 ->
  respects e1 l -> Forall keeps_noise l -> run e1 l = OK e' -> configured e'.
Proof. exact configured_history. Qed.
Print Assumptions C49_history.

(** Before the first registration, frame or refresh it is zero, unless
    clones are made by time ... *)
Theorem C49_initial : forall p q pe a l e, noise_arg q -> ~ timed (EKF_init p q pe a) ->
  respects (EKF_init p q pe a) l -> Forall plain_call l -> run (EKF_init p q pe a) l = OK e -> silent e.
Proof. exact silent_history. Qed.
Print Assumptions C49_initial.

(** ... so the configured body noise has no influence on any estimate or
    covariance. *)
Theorem C49_ineffective : forall p q1 q2 pe a l e1 e2, noise_arg q1 -> ~ timed (EKF_init p q1 pe a) ->
  respects (EKF_init p q1 pe a) l -> Forall plain_call l ->
  run (EKF_init p q1 pe a) l = OK e1 -> run (EKF_init p q2 pe a) l = OK e2 ->
  e_state e2 = e_state e1 /\ e_cov e2 = e_cov e1.
Proof. exact noise_ineffective. Qed.
Print Assumptions C49_ineffective.

(** Non-vacuity: a registration in a filter with sensors and clones; a
    history of predictions and corrections without registration. *)
Example C49_hypotheses : reachable (demo_e AAll false) /\
  contract (demo_e AAll false) (ORegImu 0 demo_imu (demo_cov 12)) /\
  refreshing (demo_e AAll false) (ORegImu 0 demo_imu (demo_cov 12)) /\
  (exists e1, step (demo_e AAll false) (ORegImu 0 demo_imu (demo_cov 12)) = OK e1 /\ respects e1 [OInitGravity; OPredict 5; OFrame 2 9] /\
     Forall keeps_noise [OInitGravity; OPredict 5; OFrame 2 9]).
Proof.
  assert (C : contract (demo_e AAll false) (ORegImu 0 demo_imu (demo_cov 12))).
  { intros _. split; [reflexivity|]. split; [apply demo_cov_arg|]. cbn. pose proof e9_pos. auto. }
  split; [apply demo_e_reachable|]. split; [exact C|]. split; [vm_compute; reflexivity|].
  destruct (Invariant.step_inv (demo_e AAll false) _ (Named.reachable_inv _ (demo_e_reachable AAll false)) C) as [e1 [E _]].
  exists e1. split; [exact E|]. split; [cbn; auto|]. repeat constructor.
Qed.
Example C49_initial_case : forall root, ~ timed (demo0 ANone root) /\
  respects (demo0 ANone root) [OKalman demo_jac demo_res demo_meas_noise; OInitGravity; OPredict 1] /\
  Forall plain_call [OKalman demo_jac demo_res demo_meas_noise; OInitGravity; OPredict 1].
Proof.
  intros root. split; [intros [|]; discriminate|]. split; [|repeat constructor].
  cbn [respects contract]. split; [apply demo_meas|]. intros. split; [exact I|]. intros. split; [exact I|]. auto.
Qed.
