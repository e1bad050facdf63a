(** C44: Message order is a strict weak order. *)
From Coq Require Import Reals List Arith Bool Lia Lra ZArith Sorted Permutation.
From Verif Require Import Base.Res Base.Mat Base.LinAlg Base.Geom Base.AMap Base.RDec
  Model.TypeHelper Model.Types Model.MathHelper Model.GpsHelper Model.Ekf Model.Updater Model.Ops
  Model.ImuUpdater Model.GpsUpdater Model.FiducialUpdater Model.MsckfUpdater Model.Sensors Model.Simulation
  Spec.Layout Spec.History Spec.Contract Spec.Callback Spec.World Spec.Ids Spec.Replay
  Proofs.Demo Proofs.World Proofs.Ids Proofs.Sim Proofs.WorldFinals.
Import ListNotations.
Open Scope nat_scope.

Theorem C44_order : strict_weak_order MessageCompare.
Proof. exact compare_swo. Qed.
Print Assumptions C44_order.

Theorem C44_time : forall a b, MessageCompare a b = true <-> (msg_time a < msg_time b)%R.
Proof. exact compare_time. Qed.
Print Assumptions C44_time.

Example C44_case : MessageCompare (MOther 1 1) (MOther 2 2) = true /\ MessageCompare (MOther 2 2) (MOther 1 1) = false /\
  MessageCompare (MOther 1 1) (MOther 2 1) = false.
Proof. unfold MessageCompare. cbn. repeat split; [apply Rltb_true|apply Rltb_ff|apply Rltb_ff]; lra. Qed.
