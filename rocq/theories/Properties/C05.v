(** C05: The covariance follows the abstract, index-free filter for whole
    histories. *)
From Coq Require Import Reals List Arith Bool Lia Lra.
From Verif Require Import Base.Res Base.Mat Base.RDec Base.LinAlg Base.Geom Base.AMap Base.RMat
  Model.TypeHelper Model.Types Model.MathHelperMat Model.Ekf Model.Updater Model.Ops
  Spec.Layout Spec.History Spec.Contract Spec.Named Spec.ByName
  Proofs.Demo Proofs.ByName Proofs.ByNameRun Proofs.ByNameDemo.
Import ListNotations.
Open Scope nat_scope.

(** [valid] asks for ids in increasing order, fiducials before clones, and
    Jacobians with their columns at the indices the quantities are told to
    use.  [decisions] lists which clones were dropped or made where that
    depends on the motion (C17 says when); elsewhere it has no influence. *)
Theorem C05_history : forall p q pe an l e, noise_arg q -> p_root p = false ->
  respects (EKF_init p q pe an) (map op_of l) -> valid (p_aug p) (EKF_init p q pe an) (nm_init q) l ->
  run (EKF_init p q pe an) (map op_of l) = OK e ->
  agree e (nm_run (p_aug p) (nm_init q) (combine l (decisions (EKF_init p q pe an) l))).
Proof. exact history_agrees. Qed.
Print Assumptions C05_history.

(** Clones made per frame leave nothing to decide. *)
Theorem C05_no_decisions : forall mode a l ws, mode = ANone \/ mode = APrimary \/ mode = AAll -> length ws = length l ->
  nm_run mode a (combine l ws) = nm_run mode a (combine l (map (fun _ => (0, false)) l)).
Proof. exact no_decisions. Qed.
Print Assumptions C05_no_decisions.

(** A history with a measurement, all four kinds of sensors, a repeated
    registration, predictions, three frames and a window of two, for every
    clone type. *)
Example C05_history_case : forall m, noise_arg demo_noise /\ p_root (demo_par m false) = false /\
  respects (demo0 m false) (map op_of demo_calls) /\ valid m (demo0 m false) (nm_init demo_noise) demo_calls.
Proof. exact (fun m => conj demo_noise_arg (conj eq_refl (conj (demo_respects m false) (demo_valid m)))). Qed.
(** The clone the window had no room for is gone, two remain. *)
Example C05_history_case_window :
  let a := nm_run AAll (nm_init demo_noise) (combine demo_calls (map (fun _ => (0, false)) demo_calls)) in
  n_first a 2 = 1 /\ n_next a 2 = 3 /\ length (n_names a) = 57.
Proof. exact demo_window. Qed.

(** The square-root form parts ways at the first registration. *)
Theorem C05_root_refuted : exists p q pe an l e, noise_arg q /\ p_root p = true /\
  respects (EKF_init p q pe an) (map op_of l) /\ valid (p_aug p) (EKF_init p q pe an) (nm_init q) l /\
  run (EKF_init p q pe an) (map op_of l) = OK e /\
  ~ agree e (nm_run (p_aug p) (nm_init q) (combine l (decisions (EKF_init p q pe an) l))).
Proof. exact root_parts. Qed.
Print Assumptions C05_root_refuted.
