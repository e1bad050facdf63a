(** C06: The covariance stays a covariance. *)
From Coq Require Import Reals List Arith Bool Lia Lra Sorted.
From Verif Require Import Base.Res Base.Mat Base.LinAlg Base.Geom Base.AMap
  Model.TypeHelper Model.Types Model.MathHelperMat Model.Ekf Model.Updater Model.Ops
  Spec.Layout Spec.History Spec.Contract Spec.Correct Spec.Named Spec.Same Spec.KF Spec.Motion Spec.Surgery
  Proofs.MatSurgery Proofs.Invariant Proofs.Demo Proofs.DemoFilter Proofs.Named Proofs.Same Proofs.Update
  Proofs.Sizes Proofs.RegRefute Proofs.Clock Proofs.Effects Proofs.Windows Proofs.Pruning Proofs.CloneFacts Proofs.Finals.
Import ListNotations.
Open Scope nat_scope.

Theorem C06_covariance_psd : forall p q pe a l e,
  noise_arg q -> respects (EKF_init p q pe a) l -> run (EKF_init p q pe a) l = OK e ->
  psd (e_size e) (covariance e) /\ (p_root (e_par e) = false -> psd (e_size e) (ent (e_cov e))).
Proof. exact run_psd. Qed.
Print Assumptions C06_covariance_psd.

Example C06_hypotheses : forall a root, noise_arg demo_noise /\ respects (demo0 a root) demo_ops.
Proof. intros. split; [apply demo_noise_arg|apply demo_respects]. Qed.
