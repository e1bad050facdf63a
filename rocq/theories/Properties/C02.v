(** C02: Every calibrated quantity owns its own slice of the state vector. *)
From Coq Require Import Reals List Arith Bool Lia Lra Sorted.
From Verif Require Import Base.Res Base.Mat Base.LinAlg Base.Geom Base.AMap
  Model.TypeHelper Model.Types Model.MathHelperMat Model.Ekf Model.Updater Model.Ops
  Spec.Layout Spec.History Spec.Contract Spec.Correct Spec.Named Spec.Same Spec.KF Spec.Motion Spec.Surgery
  Proofs.MatSurgery Proofs.Invariant Proofs.Demo Proofs.DemoFilter Proofs.Named Proofs.Same Proofs.Update
  Proofs.Sizes Proofs.RegRefute Proofs.Clock Proofs.Effects Proofs.Windows Proofs.Pruning Proofs.CloneFacts Proofs.Finals.
Import ListNotations.
Open Scope nat_scope.

Theorem C02_partition : forall e, reachable e ->
  index_fields_correct (e_state e) /\ NoDup (layout (e_state e)) /\ length (layout (e_state e)) = e_size e.
Proof. exact partition_ok. Qed.
Print Assumptions C02_partition.

Example C02_hypotheses : reachable (demo_e AAll false) /\ length (layout (e_state (demo_e AAll false))) = 51 /\
  nth_error (layout (e_state (demo_e AAll false))) 30 = Some (LGps 3 0) /\
  nth_error (layout (e_state (demo_e AAll false))) 45 = Some (LAug 2 1 0).
Proof. split; [apply demo_e_reachable|]. vm_compute. auto. Qed.
