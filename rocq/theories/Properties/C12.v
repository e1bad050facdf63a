(** C12: Measurement update is the optimal linear update. *)
From Coq Require Import Reals List Arith Bool Lia Lra Sorted.
From Verif Require Import Base.Res Base.Mat Base.LinAlg Base.Geom Base.AMap
  Model.TypeHelper Model.Types Model.MathHelperMat Model.Ekf Model.Updater Model.Ops
  Spec.Layout Spec.History Spec.Contract Spec.Correct Spec.Named Spec.Same Spec.KF Spec.Motion Spec.Surgery
  Proofs.MatSurgery Proofs.Invariant Proofs.Demo Proofs.DemoFilter Proofs.Named Proofs.Same Proofs.Update
  Proofs.Sizes Proofs.RegRefute Proofs.Clock Proofs.Effects Proofs.Windows Proofs.Pruning Proofs.CloneFacts Proofs.Finals.
Import ListNotations.
Open Scope nat_scope.

Theorem C12_optimal_update : forall e jac y noise, reachable e -> p_root (e_par e) = false ->
  meas_arg false (dim (e_state e)) jac y noise ->
  let n := e_size e in let m := nr jac in
  exists e' K d, KalmanUpdate e jac y noise = OK e' /\
    is_gain n m (covariance e) (ent jac) (ent noise) K /\
    eqm n n (covariance e') (joseph n m (covariance e) (ent jac) (ent noise) K) /\
    eqm n n (covariance e') (msub (covariance e) (mm n (mm m K (ent jac)) (covariance e))) /\
    psd n (covariance e') /\ mle n (covariance e') (covariance e) /\
    (forall K', mle n (covariance e') (joseph n m (covariance e) (ent jac) (ent noise) K')) /\
    nr d = n /\ nc d = 1 /\ (forall i, i < n -> ent d i 0 = mm m K (ent y) i 0) /\
    e_state e' = correct d (e_state e) /\
    (exists c', e' = with_cov (with_state e (e_state e')) c').
Proof. exact kalman_optimal. Qed.
Print Assumptions C12_optimal_update.

(** The gain is determined by its defining equation. *)
Theorem C12_gain_unique : forall n m P H Rn K K', spd m (innov n P H Rn) ->
  is_gain n m P H Rn K -> is_gain n m P H Rn K' -> eqm n m K K'.
Proof. exact gain_unique. Qed.
Print Assumptions C12_gain_unique.

(** Either form: a zero residual leaves the estimates alone. *)
Theorem C12_zero_residual : forall e jac y noise e', reachable e -> contract e (OKalman jac y noise) ->
  (forall k, k < nr jac -> ent y k 0 = 0%R) -> KalmanUpdate e jac y noise = OK e' -> e_state e' = e_state e.
Proof. exact zero_residual. Qed.
Print Assumptions C12_zero_residual.

Example C12_hypotheses : reachable (demo0 AAll false) /\ p_root (e_par (demo0 AAll false)) = false /\
  meas_arg false (dim (e_state (demo0 AAll false))) demo_jac demo_res demo_meas_noise /\
  contract (demo0 AAll false) (OKalman demo_jac (mkmat 1 1 (fun _ _ => 0%R)) demo_meas_noise).
Proof.
  split; [apply demo0_reachable|]. split; [reflexivity|]. split; [apply (demo_meas false)|].
  pose proof (demo_meas false) as [H1 [_ [_ [H2 H3]]]]. split; [exact H1|]. split; [reflexivity|]. split; [reflexivity|]. split; [exact H2|exact H3].
Qed.
