(** C15: The state reports its own size correctly. *)
From Coq Require Import Reals List Arith Bool Lia Lra.
From Verif Require Import Base.Res Base.Mat Base.Geom Base.AMap
  Model.TypeHelper Model.Types Model.Ekf Model.Ops
  Spec.Layout Spec.History Spec.Contract Spec.Correct Spec.Vector
  Proofs.Wf Proofs.Demo Proofs.DemoFilter Proofs.Vector Proofs.VectorBack Proofs.VectorRefute.
Import ListNotations.
Open Scope nat_scope.

(** The reported size is right exactly when there are as many clones as
    windows. *)
Theorem C15_reported_size : forall e, reachable e ->
  e_size e + 6 * window_count (e_state e) = GetStateSize (e_state e) + 6 * clone_count (e_state e) /\
  (GetStateSize (e_state e) = e_size e <-> clone_count (e_state e) = window_count (e_state e)).
Proof. exact size_report. Qed.
Print Assumptions C15_reported_size.

(** The vector holds the estimates in the order of the layout, without the
    biases of an IMU whose pose is not estimated; it is as long as the
    reported size, the rest is zero, and writing more is out of bounds. *)
Theorem C15_vector : forall e, reachable e ->
  (length (written (e_state e)) <= GetStateSize (e_state e) ->
     exists v, ToVector (e_state e) = OK v /\ nr v = GetStateSize (e_state e) /\ nc v = 1 /\
       (forall i a, nth_error (written (e_state e)) i = Some a -> ent v i 0 = estimate (e_state e) a) /\
       (forall i, length (written (e_state e)) <= i -> ent v i 0 = 0%R)) /\
  (GetStateSize (e_state e) < length (written (e_state e)) -> ToVector (e_state e) = UB).
Proof. exact vector_of. Qed.
Print Assumptions C15_vector.

(** How many entries are written. *)
Theorem C15_written : forall e, reachable e ->
  length (written (e_state e)) +
  6 * length (filter (fun x => i_int (snd x) && negb (i_ext (snd x))) (s_imu (e_state e))) = e_size e.
Proof. exact vector_length. Qed.
Print Assumptions C15_written.

Example C15_case : let e := demo_e ANone false in reachable e /\ e_size e = 39 /\ GetStateSize (e_state e) = 39 /\
  clone_count (e_state e) = 0 /\ window_count (e_state e) = 0 /\ length (written (e_state e)) = 39.
Proof. split; [apply demo_e_reachable|]. vm_compute. auto 10. Qed.

(** Two clones of one camera. *)
Theorem C15_clones_refuted : exists e, reachable e /\ e_size e = 51 /\ GetStateSize (e_state e) = 45 /\
  ToVector (e_state e) = UB.
Proof. exact clones_refuted. Qed.
Print Assumptions C15_clones_refuted.

(** An IMU of which only the biases are estimated. *)
Theorem C15_bias_only_refuted : exists e, reachable e /\ e_size e = 24 /\ clone_count (e_state e) = 0 /\
  GetStateSize (e_state e) = 24 /\ exists x, mfind 1 (s_imu (e_state e)) = Some x /\ i_int x = true /\ i_ext x = false /\
  i_acc_bias x = mkV3 1 2 3 /\ i_index_int x = 18 /\ length (written (e_state e)) = 18.
Proof. exact biased_filter. Qed.
Print Assumptions C15_bias_only_refuted.
