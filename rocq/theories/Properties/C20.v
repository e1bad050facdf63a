(** C20: Local time is a constant offset from sensor time. *)
From Coq Require Import Reals List Arith Bool Lia Lra Sorted.
From Verif Require Import Base.Res Base.Mat Base.LinAlg Base.Geom Base.AMap
  Model.TypeHelper Model.Types Model.MathHelperMat Model.Ekf Model.Updater Model.Ops
  Spec.Layout Spec.History Spec.Contract Spec.Correct Spec.Named Spec.Same Spec.KF Spec.Motion Spec.Surgery
  Proofs.MatSurgery Proofs.Invariant Proofs.Demo Proofs.DemoFilter Proofs.Named Proofs.Same Proofs.Update
  Proofs.Sizes Proofs.RegRefute Proofs.Clock Proofs.Effects Proofs.Windows Proofs.Pruning Proofs.CloneFacts Proofs.Finals.
Import ListNotations.
Open Scope nat_scope.

Theorem C20_local_time : forall e t1 x1 e1 l e2 t2 x2 e3, reachable e ->
  CalculateLocalTime e t1 = (x1, e1) -> respects e1 l -> run e1 l = OK e2 ->
  CalculateLocalTime e2 t2 = (x2, e3) ->
  (x2 - x1)%R = (t2 - t1)%R /\ e3 = e2 /\
  (e_time_init e = false -> x1 = 0%R) /\ (e_time_init e = true -> e1 = e).
Proof. exact local_time. Qed.
Print Assumptions C20_local_time.

Example C20_hypotheses : exists x1 e1, CalculateLocalTime (demo0 AAll false) 5 = (x1, e1) /\
  reachable (demo0 AAll false) /\ e_time_init (demo0 AAll false) = false /\ respects e1 [OPredict 1; OFrame 2 7].
Proof. eexists _, _. split; [reflexivity|]. split; [apply demo0_reachable|]. split; [reflexivity|]. repeat split. Qed.
