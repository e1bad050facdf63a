(** C51: Simulated feature tracks carry the position of the feature they show:
    every point of a track is the projection, in its frame, of the true
    position handed over with the track. *)
From Coq Require Import Reals List Arith ZArith Bool Lia Lra.
From Verif Require Import Base.Res Base.RDec Base.Geom Base.AMap Model.MsckfUpdater Model.Trackers
  Spec.Sub Spec.Matches Spec.Tracks Proofs.Tracks Proofs.SimTracks Proofs.TrackDemo.
Import ListNotations.
Open Scope nat_scope.

Theorem C51_truth : forall mn mx count ne f l, grown f -> ascending (map sf_frame l) ->
  forall outs s' f', sim_run (sim_tracker_new mn mx count ne) f l = OK (outs, s', f') ->
  forall T p, In T (concat outs) -> In p (ft_track T) -> exists x pos,
  In x l /\ ft_true T = Some pos /\ fp_frame p = sf_frame x /\ fp_time p = sf_time x /\
  visible (sf_view x) pos = true /\ nth_error (f_points f') (Z.to_nat (kp_class (fp_kp p))) = Some pos /\
  (kp_x (fp_kp p), kp_y (fp_kp p)) =
    (let px := vw_project (sf_view x) pos in if ne then px else (c_round (fst px), c_round (snd px))).
Proof. exact final_truth. Qed.
Print Assumptions C51_truth.

Example C51_case : exists f l outs s' f', grown f /\ ascending (map sf_frame l) /\
  sim_run (sim_tracker_new 1 5 0 true) f l = OK (outs, s', f') /\ map (@length _) outs = [0; 0; 1] /\
  map (fun T => frames (ft_track T)) (concat outs) = [[1; 2]].
Proof. exact demo_sim. Qed.
