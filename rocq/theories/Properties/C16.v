(** C16: The sliding window is bounded and first-in first-out. *)
From Coq Require Import Reals List Arith Bool Lia Lra Sorted.
From Verif Require Import Base.Res Base.Mat Base.LinAlg Base.Geom Base.AMap
  Model.TypeHelper Model.Types Model.MathHelperMat Model.Ekf Model.Updater Model.Ops
  Spec.Layout Spec.History Spec.Contract Spec.Correct Spec.Named Spec.Same Spec.KF Spec.Motion Spec.Surgery Spec.WindowSize
  Proofs.MatSurgery Proofs.Invariant Proofs.Demo Proofs.DemoFilter Proofs.Named Proofs.Same Proofs.Update
  Proofs.Sizes Proofs.RegRefute Proofs.Clock Proofs.Effects Proofs.Windows Proofs.Pruning Proofs.CloneFacts Proofs.Finals Proofs.WindowSize.
Import ListNotations.
Open Scope nat_scope.

(** The constructor sets the maximum length to 20. *)
Theorem C16_window : forall p q pe a l e cam, noise_arg q -> respects (EKF_init p q pe a) l ->
  p_aug p = AAll -> run (EKF_init p q pe a) l = OK e ->
  suffix (map a_frame (aug_at e cam)) (frames_of cam l) /\ length (aug_at e cam) <= longest 20 l /\
  (Forall same_len l -> map a_frame (aug_at e cam) = last_n 20 (frames_of cam l)).
Proof. exact window_fifo. Qed.
Print Assumptions C16_window.

(** Any reachable filter, any maximum length set beforehand. *)
Theorem C16_window_exact : forall l e e' cam base, reachable e -> respects e l -> run e l = OK e' ->
  p_aug (e_par e) = AAll -> Forall same_len l ->
  map a_frame (aug_at e cam) = last_n (e_max_len e) base ->
  map a_frame (aug_at e' cam) = last_n (e_max_len e) (base ++ frames_of cam l).
Proof. exact window_exact. Qed.
Print Assumptions C16_window_exact.

(** A camera whose every frame is cloned (all cameras, or the primary one in the
    primary mode), with the maximum length changing at will: which clones are
    held, exactly. *)
Theorem C16_every_history : forall l e e' cam, reachable e -> respects e l -> run e l = OK e' -> cloned_each e cam ->
  map a_frame (aug_at e' cam) =
    last_n (window_size cam (e_max_len e) (length (aug_at e cam)) l) (map a_frame (aug_at e cam) ++ frames_of cam l) /\
  length (aug_at e' cam) = window_size cam (e_max_len e) (length (aug_at e cam)) l.
Proof. exact window_history. Qed.
Print Assumptions C16_every_history.

(** A window never shrinks; *)
Theorem C16_never_shrinks : forall l e e' cam, reachable e -> respects e l -> run e l = OK e' -> cloned_each e cam ->
  length (aug_at e cam) <= length (aug_at e' cam).
Proof. exact window_never_shrinks. Qed.
Print Assumptions C16_never_shrinks.

(** lowering the maximum length below it leaves its size for ever. *)
Theorem C16_lowered : forall l m e e' cam, reachable e -> respects e (OSetLen m :: l) -> run e (OSetLen m :: l) = OK e' ->
  cloned_each e cam -> Forall same_len l -> m <= length (aug_at e cam) ->
  length (aug_at e' cam) = length (aug_at e cam) /\
  map a_frame (aug_at e' cam) = last_n (length (aug_at e cam)) (map a_frame (aug_at e cam) ++ frames_of cam l).
Proof. exact window_lowered. Qed.
Print Assumptions C16_lowered.

(** In the primary mode no other camera's window changes. *)
Theorem C16_others : forall l e e' cam, reachable e -> respects e l -> run e l = OK e' -> p_aug (e_par e) = APrimary ->
  e_primary e <> 0 -> cam <> e_primary e -> stamps e' cam = stamps e cam.
Proof. exact window_others. Qed.
Print Assumptions C16_others.

(** With the maximum length 0 the first frame is undefined. *)
Theorem C16_zero_length : forall e cam frame, cloned_each e cam -> e_max_len e = 0 -> aug_at e cam = [] ->
  AugmentStateFrame e cam frame = UB.
Proof. exact window_zero'. Qed.
Print Assumptions C16_zero_length.

Example C16_hypotheses : noise_arg demo_noise /\ respects (demo0 AAll false) demo_ops /\ p_aug (demo_par AAll false) = AAll /\
  frames_of 2 demo_ops = [7; 8; 9] /\ longest 20 demo_ops = 20.
Proof. split; [apply demo_noise_arg|]. split; [apply demo_respects|]. vm_compute. auto. Qed.
Example C16_lowered_case : exists e e', reachable e /\ respects e [OSetLen 1; OFrame 2 10] /\ run e [OSetLen 1; OFrame 2 10] = OK e' /\
  cloned_each e 2 /\ map a_frame (aug_at e 2) = [8; 9] /\ map a_frame (aug_at e' 2) = [9; 10].
Proof. exact lowered_case. Qed.
Example C16_primary_case : exists e e', reachable e /\ respects e [OFrame 2 10; OFrame 3 11] /\ run e [OFrame 2 10; OFrame 3 11] = OK e' /\
  p_aug (e_par e) = APrimary /\ e_primary e = 2 /\ map a_frame (aug_at e' 2) = [10] /\ aug_at e' 3 = [].
Proof. exact primary_case. Qed.
Example C16_zero_case : cloned_each (SetMaxTrackLength (demo0 AAll false) 0) 2 /\ e_max_len (SetMaxTrackLength (demo0 AAll false) 0) = 0 /\
  aug_at (SetMaxTrackLength (demo0 AAll false) 0) 2 = [].
Proof. split; [left; reflexivity|]. split; reflexivity. Qed.
