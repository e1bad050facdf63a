(** C30: Identifiers are unique. *)
From Coq Require Import Reals List Arith Bool Lia Lra ZArith Sorted Permutation.
From Verif Require Import Base.Res Base.Mat Base.LinAlg Base.Geom Base.AMap Base.RDec
  Model.TypeHelper Model.Types Model.MathHelper Model.GpsHelper Model.Ekf Model.Updater Model.Ops
  Model.ImuUpdater Model.GpsUpdater Model.FiducialUpdater Model.MsckfUpdater Model.Sensors Model.Simulation
  Spec.Layout Spec.History Spec.Contract Spec.Callback Spec.World Spec.Ids Spec.Replay
  Proofs.Demo Proofs.World Proofs.Ids Proofs.Sim Proofs.WorldFinals.
Import ListNotations.
Open Scope nat_scope.

Theorem C30_generators : forall l g, given g (call_all counters_init l) =
  seq (match g with GSensor | GTracker => 1 | _ => 0 end) (length (filter (gen_eqb g) l)).
Proof. exact generator_ids. Qed.
Print Assumptions C30_generators.

Theorem C30_history : forall svd hull ecef_to_lla mat_quat solve e l w,
  wrun svd hull ecef_to_lla mat_quat solve (world_init e) l = OK w ->
  keys (w_sensors w) = seq 1 (total news l) /\ tracker_ids w = seq 1 (total new_trackers l).
Proof. exact history_ids. Qed.
Print Assumptions C30_history.

Theorem C30_frames : forall l w ms w', sim_build w l = OK (ms, w') ->
  frames_of ms = seq (n_frames (w_cnt w)) (camera_times l).
Proof. exact sim_build_frames. Qed.
Print Assumptions C30_frames.

Example C30_interleaved : call_all counters_init [GSensor; GFrame; GSensor; GTracker; GFrame; GFeature; GSensor] =
  [(GSensor, 1); (GFrame, 0); (GSensor, 2); (GTracker, 1); (GFrame, 1); (GFeature, 0); (GSensor, 3)].
Proof. reflexivity. Qed.
Example C30_hypotheses : forall svd hull ecef mq solve,
  exists w, wrun svd hull ecef mq solve (world_init (demo0 AAll false)) ex_events = OK w /\
  keys (w_sensors w) = [1; 2] /\ tracker_ids w = [1; 2].
Proof.
  intros svd hull ecef mq solve.
  destruct (callback_total svd hull ecef mq solve (demo_par AAll false) demo_noise v0 0 ex_events demo_noise_arg eq_refl) as [w E].
  - cbn. lra.
  - apply ex_ok.
  - apply ex_plain.
  - exists w. split; [exact E|]. exact (history_ids svd hull ecef mq solve _ _ _ E).
Qed.
Example C30_frames_hypotheses : camera_times ex_specs = 2.
Proof. reflexivity. Qed.
