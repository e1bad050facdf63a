(** C09: Time never runs backwards. *)
From Coq Require Import Reals List Arith Bool Lia Lra Sorted.
From Verif Require Import Base.Res Base.Mat Base.LinAlg Base.Geom Base.AMap
  Model.TypeHelper Model.Types Model.MathHelperMat Model.Ekf Model.Updater Model.Ops
  Spec.Layout Spec.History Spec.Contract Spec.Correct Spec.Named Spec.Same Spec.KF Spec.Motion Spec.Surgery
  Proofs.MatSurgery Proofs.Invariant Proofs.Demo Proofs.DemoFilter Proofs.Named Proofs.Same Proofs.Update
  Proofs.Sizes Proofs.RegRefute Proofs.Clock Proofs.Effects Proofs.Windows Proofs.Pruning Proofs.CloneFacts Proofs.Finals.
Import ListNotations.
Open Scope nat_scope.

Theorem C09_stale : forall e t, (t < e_time e)%R -> PredictModel e t = OK e.
Proof. exact predict_stale. Qed.
Print Assumptions C09_stale.

Theorem C09_reaches : forall e t, reachable e -> (e_time e <= t)%R ->
  exists e', PredictModel e t = OK e' /\ e_time e' = t.
Proof. exact predict_time. Qed.
Print Assumptions C09_reaches.

Theorem C09_monotone : forall e l e', reachable e -> respects e l -> run e l = OK e' ->
  Forall not_init l -> e_time_init e = true -> (e_time e <= e_time e')%R.
Proof. exact run_time. Qed.
Print Assumptions C09_monotone.

(** Before the clock is initialised, the first conversion of a sensor time
    sets it back to zero. *)
Theorem C09_first_local_time_refuted : exists e t, reachable e /\ e_time_init e = false /\
  (e_time (snd (CalculateLocalTime e t)) < e_time e)%R.
Proof. exact local_time_reset_refuted. Qed.
Print Assumptions C09_first_local_time_refuted.

Example C09_hypotheses : let e := Initialize (demo0 AAll false) 0 default_body in
  reachable e /\ e_time_init e = true /\ respects e [OPredict 1; OFrame 2 7; OPredict (1 / 2)] /\
  Forall not_init [OPredict 1; OFrame 2 7; OPredict (1 / 2)].
Proof.
  cbv zeta. split.
  { apply (reachable_step (demo0 AAll false) (OInit 0 default_body)); [apply demo0_reachable|reflexivity|reflexivity]. }
  repeat split; repeat constructor.
Qed.
