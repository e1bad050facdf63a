(** C22: Orientations remain rotations. *)
From Coq Require Import Reals List Arith Bool Lia Lra Sorted.
From Verif Require Import Base.Res Base.Mat Base.LinAlg Base.Geom Base.AMap
  Model.TypeHelper Model.Types Model.MathHelperMat Model.Ekf Model.Updater Model.Ops
  Spec.Layout Spec.History Spec.Contract Spec.Correct Spec.Named Spec.Same Spec.KF Spec.Motion Spec.Surgery
  Proofs.MatSurgery Proofs.Invariant Proofs.Demo Proofs.DemoFilter Proofs.Named Proofs.Same Proofs.Update
  Proofs.Sizes Proofs.RegRefute Proofs.Clock Proofs.Effects Proofs.Windows Proofs.Pruning Proofs.CloneFacts Proofs.Finals.
Import ListNotations.
Open Scope nat_scope.

Theorem C22_unit_quaternions : forall p q pe a l e, noise_arg q -> respects (EKF_init p q pe a) l ->
  Forall unit_arg l -> run (EKF_init p q pe a) l = OK e -> all_unit (e_state e).
Proof. exact run_unit. Qed.
Print Assumptions C22_unit_quaternions.

Theorem C22_rotation_preserves_length : forall q v, qnorm2 q = 1%R -> vnorm (qrot q v) = vnorm v.
Proof. exact qrot_length. Qed.
Print Assumptions C22_rotation_preserves_length.

Example C22_hypotheses : respects (demo0 AAll false) demo_ops /\ Forall unit_arg demo_ops.
Proof. split; [apply demo_respects|]. repeat (constructor; [cbn; try exact I; try (unfold qnorm2; cbn; ring)|]). constructor. Qed.
Example C22_length : qnorm2 (mkQ (3 / 5) 0 (4 / 5) 0) = 1%R.
Proof. unfold qnorm2. cbn. lra. Qed.
