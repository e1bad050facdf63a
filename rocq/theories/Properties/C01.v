(** C01: Filter dimensions never drift apart. *)
From Coq Require Import Reals List Arith Bool Lia Lra Sorted.
From Verif Require Import Base.Res Base.Mat Base.LinAlg Base.Geom Base.AMap
  Model.TypeHelper Model.Types Model.MathHelperMat Model.Ekf Model.Updater Model.Ops
  Spec.Layout Spec.History Spec.Contract Spec.Correct Spec.Named Spec.Same Spec.KF Spec.Motion Spec.Surgery
  Proofs.MatSurgery Proofs.Invariant Proofs.Demo Proofs.DemoFilter Proofs.Named Proofs.Same Proofs.Update
  Proofs.Sizes Proofs.RegRefute Proofs.Clock Proofs.Effects Proofs.Windows Proofs.Pruning Proofs.CloneFacts Proofs.Finals.
Import ListNotations.
Open Scope nat_scope.

Theorem C01_dimensions : forall p q pe a l,
  noise_arg q -> respects (EKF_init p q pe a) l ->
  exists e, run (EKF_init p q pe a) l = OK e /\
    nr (e_cov e) = e_size e /\ nc (e_cov e) = e_size e /\
    nr (e_Q e) = e_size e /\ nc (e_Q e) = e_size e /\
    e_size e = count_states (e_state e).
Proof. exact run_dims. Qed.
Print Assumptions C01_dimensions.

(** A history with measurements, registrations, predictions and frames meets
    the hypotheses in every augmentation mode and both covariance forms. *)
Example C01_hypotheses : forall a root, noise_arg demo_noise /\ respects (demo0 a root) demo_ops.
Proof. intros. split; [apply demo_noise_arg|apply demo_respects]. Qed.
Example C01_computed : match run (demo0 AAll false) demo_regs with
  | OK e => e_size e = 51 /\ nr (e_cov e) = 51 /\ count_states (e_state e) = 51 | UB => False end.
Proof. vm_compute. auto. Qed.
