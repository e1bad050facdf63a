(** C13: Square-root update agrees with the standard update. *)
From Coq Require Import Reals List Arith Bool Lia Lra Sorted.
From Verif Require Import Base.Res Base.Mat Base.LinAlg Base.Geom Base.AMap
  Model.TypeHelper Model.Types Model.MathHelperMat Model.Ekf Model.Updater Model.Ops
  Spec.Layout Spec.History Spec.Contract Spec.Correct Spec.Named Spec.Same Spec.KF Spec.Motion Spec.Surgery
  Proofs.MatSurgery Proofs.Invariant Proofs.Demo Proofs.DemoFilter Proofs.Named Proofs.Same Proofs.Update
  Proofs.Sizes Proofs.RegRefute Proofs.Clock Proofs.Effects Proofs.Windows Proofs.Pruning Proofs.CloneFacts Proofs.Finals Proofs.RootForm.
Import ListNotations.
Open Scope nat_scope.

(** Two filters of the same estimates and the same covariance, one in each
    form, given the same measurement with diagonal noise. *)
Theorem C13_root_update_agrees : forall es er jac y noise, reachable es -> reachable er ->
  p_root (e_par es) = false -> p_root (e_par er) = true -> e_state er = e_state es ->
  eqm (e_size es) (e_size es) (covariance er) (covariance es) ->
  meas_arg false (dim (e_state es)) jac y noise ->
  (forall i j, i < nr jac -> j < nr jac -> i <> j -> ent noise i j = 0%R) ->
  exists es' er', KalmanUpdate es jac y noise = OK es' /\ KalmanUpdate er jac y noise = OK er' /\
    e_state er' = e_state es' /\ eqm (e_size es) (e_size es) (covariance er') (covariance es').
Proof. exact root_agrees. Qed.
Print Assumptions C13_root_update_agrees.

(** Non-diagonal noise: the posterior is not the one of any Kalman gain for
    the supplied noise. *)
Theorem C13_correlated_noise_refuted : exists e jac y noise e',
  reachable e /\ p_root (e_par e) = true /\ contract e (OKalman jac y noise) /\
  spd (nr jac) (ent noise) /\ KalmanUpdate e jac y noise = OK e' /\
  forall K, is_gain (e_size e) (nr jac) (covariance e) (ent jac) (ent noise) K ->
    ~ eqm (e_size e) (e_size e) (covariance e') (joseph (e_size e) (nr jac) (covariance e) (ent jac) (ent noise) K).
Proof. exact root_noise_refuted. Qed.
Print Assumptions C13_correlated_noise_refuted.

(** The two forms start with the same estimates and covariance. *)
Example C13_hypotheses : let es := demo0 ANone false in let er := demo0 ANone true in
  reachable es /\ reachable er /\ e_state er = e_state es /\
  eqm (e_size es) (e_size es) (covariance er) (covariance es) /\
  meas_arg false (dim (e_state es)) demo_jac demo_res demo_meas_noise.
Proof.
  cbv zeta. split; [apply demo0_reachable|]. split; [apply demo0_reachable|]. split; [reflexivity|]. split.
  - change (e_size (demo0 ANone false)) with 18. rewrite (demo0_cov ANone true), (demo0_cov ANone false). reflexivity.
  - apply (demo_meas false).
Qed.
