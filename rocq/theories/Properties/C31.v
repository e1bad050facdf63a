(** C31: A simulation replays every message once, in time order, to its own sensor. *)
From Coq Require Import Reals List Arith Bool Lia Lra ZArith Sorted Permutation.
From Verif Require Import Base.Res Base.Mat Base.LinAlg Base.Geom Base.AMap Base.RDec
  Model.TypeHelper Model.Types Model.MathHelper Model.GpsHelper Model.Ekf Model.Updater Model.Ops
  Model.ImuUpdater Model.GpsUpdater Model.FiducialUpdater Model.MsckfUpdater Model.Sensors Model.Simulation
  Spec.Layout Spec.History Spec.Contract Spec.Callback Spec.World Spec.Ids Spec.Replay
  Proofs.Demo Proofs.World Proofs.Ids Proofs.Sim Proofs.WorldFinals.
Import ListNotations.
Open Scope nat_scope.

Theorem C31_replay : forall svd hull ecef_to_lla mat_quat solve p q pe a t0 b l,
  noise_arg q -> b_index b = 0 ->
  simspecs_ok (world_init (Initialize (EKF_init p q pe a) t0 b)) l ->
  exists ms w, sim_build (world_init (Initialize (EKF_init p q pe a) t0 b)) l = OK (ms, w) /\
    map msg_time ms = flat_map times_of l /\
    (forall m, In m ms -> exists j s x, nth_error l j = Some s /\ msg_id m = S j /\ produced_by s m /\
       mfind (S j) (w_sensors w) = Some x /\ object_of s x) /\
    forall sm, sort_result ms sm -> Permutation ms sm /\ chronological sm /\
      ((forall m, In m ms -> (t0 <= msg_time m)%R) -> in_step svd hull ecef_to_lla mat_quat solve w sm).
Proof. exact simulation_replay. Qed.
Print Assumptions C31_replay.

(** Such a sorted order exists for every list of messages. *)
Theorem C31_sort : forall ms, sort_result ms (sort_messages ms).
Proof. exact sort_exists. Qed.
Print Assumptions C31_sort.

Example C31_hypotheses : noise_arg demo_noise /\ b_index default_body = 0 /\
  simspecs_ok (world_init (Initialize (EKF_init (demo_par AAll false) demo_noise v0 0) 0 default_body)) ex_specs /\
  flat_map times_of ex_specs = [0; 1; 0; 1 / 2; 1]%R.
Proof. split; [apply demo_noise_arg|]. split; [reflexivity|]. split; [apply ex_specs_ok|reflexivity]. Qed.
