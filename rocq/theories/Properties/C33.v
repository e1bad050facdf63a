(** C33: Feature tracks are runs of sightings of one feature, each sighting is
    handed over at most once, and tracks end when the feature is lost or the
    maximum length is reached. *)
From Coq Require Import Reals List Arith ZArith Bool Lia Lra.
From Verif Require Import Base.Res Base.RDec Base.Geom Base.AMap Model.MsckfUpdater Model.Trackers
  Spec.Sub Spec.Matches Spec.Tracks Proofs.Tracks Proofs.SimTracks Proofs.ImageTracks Proofs.TrackDemo.
Import ListNotations.
Open Scope nat_scope.

(** *** Simulated tracker *)
Theorem C33_sim_total : forall mn mx count ne f l, grown f -> ascending (map sf_frame l) ->
  exists outs s' f', sim_run (sim_tracker_new mn mx count ne) f l = OK (outs, s', f').
Proof. exact final_total. Qed.
Print Assumptions C33_sim_total.

(** The tracks of feature [k] are exactly its runs of uninterrupted sightings,
    cut at the maximum length, that reach the minimum length; the stored track
    is the run still open. *)
Theorem C33_sim_runs : forall mn mx count ne f l, grown f -> ascending (map sf_frame l) ->
  forall outs s' f', sim_run (sim_tracker_new mn mx count ne) f l = OK (outs, s', f') -> forall k,
  let r := runs mx [] (map (sighting k) (shown (sim_tracker_new mn mx count ne) f l)) in
  filter (about k) (map ft_track (concat outs)) = filter (fun t => Nat.leb mn (length t)) (fst r) /\
  mget [] k (st_map s') = snd r.
Proof. exact final_runs. Qed.
Print Assumptions C33_sim_runs.

Theorem C33_sim_tracks : forall mn mx count ne f l, grown f -> ascending (map sf_frame l) ->
  forall outs s' f', sim_run (sim_tracker_new mn mx count ne) f l = OK (outs, s', f') -> forall T, In T (concat outs) ->
  one_feature (ft_track T) /\ mn <= length (ft_track T) <= Nat.max 1 mx /\
  segment (frames (ft_track T)) (map sf_frame l).
Proof. exact final_tracks. Qed.
Print Assumptions C33_sim_tracks.

Theorem C33_sim_once : forall mn mx count ne f l, grown f -> ascending (map sf_frame l) ->
  forall outs s' f', sim_run (sim_tracker_new mn mx count ne) f l = OK (outs, s', f') ->
  NoDup (map label (concat (map ft_track (concat outs)))).
Proof. exact final_once. Qed.
Print Assumptions C33_sim_once.

(** A track is handed over in the frame that fills it or in the first frame
    that does not show its feature; what is stored is shorter than the maximum
    and ends in the latest frame. *)
Theorem C33_sim_timing : forall mn mx count ne f l, grown f -> ascending (map sf_frame l) ->
  forall outs s' f', sim_run (sim_tracker_new mn mx count ne) f l = OK (outs, s', f') ->
  forall x new s2 f2, Forall (fun y => sf_frame y < sf_frame x) l ->
  GenerateMessage s' (GenerateVisibleFeatures (sf_others x) f') (sf_time x) (sf_frame x) (sf_view x) = OK (new, s2, f2) ->
  let seen := fst (GetVisibleKeypoints (sim_tracker_new mn mx count ne) (sf_view x) (GenerateVisibleFeatures (sf_others x) f')) in
  (forall T, In T new ->
     (mx <= length (ft_track T) /\ back_frame (ft_track T) = sf_frame x) \/
     (back_frame (ft_track T) < sf_frame x /\ forall p q, In p (ft_track T) -> In q seen -> kp_class (fp_kp p) <> kp_class q)) /\
  (forall k t, In (k, t) (st_map s2) -> length t < mx /\ back_frame t = sf_frame x).
Proof. exact final_timing. Qed.
Print Assumptions C33_sim_timing.

(** *** Tracker on images *)
Theorem C33_image_total : forall mn mx h out n t now after frame im, imaged mn mx h out n t ->
  Forall (fun x => fst x < frame) h -> image_ok t im -> exists new n' t',
  Track t n now after frame im = OK (new, n', t').
Proof. exact image_total. Qed.
Print Assumptions C33_image_total.

(** No detected point and no (frame, feature) pair occurs twice in the tracks
    handed over and stored. *)
Theorem C33_image_once : forall mn mx h out n t, imaged mn mx h out n t ->
  NoDup (map place (concat (out ++ map snd (it_map t)))) /\ NoDup (map label (concat (out ++ map snd (it_map t)))).
Proof. exact image_once. Qed.
Print Assumptions C33_image_once.

Theorem C33_image_tracks : forall mn mx h out n t, imaged mn mx h out n t -> forall u, In u out ->
  one_feature u /\ mn <= length u <= Nat.max 2 mx /\ segment (frames u) (map fst h).
Proof. exact image_tracks. Qed.
Print Assumptions C33_image_tracks.

Theorem C33_image_seen : forall mn mx h out n t, imaged mn mx h out n t -> forall u p, In u out -> In p u ->
  exists pts q, In (fp_frame p, pts) h /\ In q pts /\ kp_x (fp_kp p) = kp_x q /\ kp_y (fp_kp p) = kp_y q.
Proof. exact image_seen. Qed.
Print Assumptions C33_image_seen.

Theorem C33_image_timing : forall mn mx h out n t now after frame im new n' t', imaged mn mx h out n t ->
  Forall (fun x => fst x < frame) h -> image_ok t im -> it_prev t <> [] -> current_points im <> [] ->
  Track t n now after frame im = OK (new, n', t') ->
  (forall u, In u new -> mx <= length u \/ back_frame u < frame) /\
  (forall k u, In (k, u) (it_map t') -> length u < mx /\ back_frame u = frame).
Proof. exact image_timing. Qed.
Print Assumptions C33_image_timing.

(** An image without described points, or after one, ends no track. *)
Theorem C33_image_idle : forall t n now after frame im, it_prev t = [] \/ current_points im = [] ->
  Track t n now after frame im = OK ([], n + im_ids im,
    mkIT (it_min t) (it_max t) (it_ratio t) (current_points im) frame after (it_map t)).
Proof. exact image_idle. Qed.
Print Assumptions C33_image_idle.

(** Ten points that move by one pixel make ten tracks of two points. *)
Example C33_image_case : exists out n t,
  imaged 1 2 [(1, demo_line 1 0 10); (2, demo_line 2 0 10)] out n t /\ length out = 10 /\ Forall (fun u => length u = 2) out.
Proof. exact demo_imaged. Qed.

(** One feature seen in two frames and lost in the third. *)
Example C33_sim_case : exists f l outs s' f', grown f /\ ascending (map sf_frame l) /\
  sim_run (sim_tracker_new 1 5 0 true) f l = OK (outs, s', f') /\ map (@length _) outs = [0; 0; 1] /\
  map (fun T => frames (ft_track T)) (concat outs) = [[1; 2]].
Proof. exact demo_sim. Qed.
