(** C32: Simulated measurement times. *)
From Coq Require Import Reals List Arith Bool Lia Lra ZArith Sorted Permutation.
From Verif Require Import Base.Res Base.Mat Base.LinAlg Base.Geom Base.AMap Base.RDec
  Model.TypeHelper Model.Types Model.MathHelper Model.GpsHelper Model.Ekf Model.Updater Model.Ops
  Model.ImuUpdater Model.GpsUpdater Model.FiducialUpdater Model.MsckfUpdater Model.Sensors Model.Simulation
  Spec.Layout Spec.History Spec.Contract Spec.Callback Spec.World Spec.Ids Spec.Replay
  Proofs.Demo Proofs.World Proofs.Ids Proofs.Sim Proofs.WorldFinals.
Import ListNotations.
Open Scope nat_scope.

Theorem C32_times : forall u noise T r, (0 < r)%R -> (0 <= T)%R ->
  exists l, GenerateMeasurementTimes true u noise T r = OK l /\
    (INR (length l) <= T * r < INR (length l) + 1)%R /\
    (forall t, nth_error l 0 = Some t -> t = 0%R) /\
    (forall i s t, nth_error l i = Some s -> nth_error l (S i) = Some t -> (t - s = 1 / r)%R /\ (s < t)%R) /\
    (forall t, In t l -> (0 <= t < T)%R).
Proof. exact measurement_times. Qed.
Print Assumptions C32_times.

Example C32_hypotheses : (0 < 10)%R /\ (0 <= 3)%R.
Proof. lra. Qed.
Example C32_case : forall u noise, exists l, GenerateMeasurementTimes true u noise 1 2 = OK l /\ l = [0; 1 / 2]%R.
Proof.
  intros u noise. destruct (measurement_times u noise 1 2 ltac:(lra) ltac:(lra)) as [l [E [L [F [S _]]]]].
  exists l. split; [exact E|]. destruct l as [|x [|y [|z l]]]; cbn [length] in L; rewrite ?S_INR in L; cbn [INR] in L.
  - lra.
  - lra.
  - rewrite (F x eq_refl) in *. destruct (S 0 0%R y eq_refl eq_refl) as [A _]. f_equal. f_equal. lra.
  - pose proof (pos_INR (length l)). lra.
Qed.
