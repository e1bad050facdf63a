(** C17: Time-window pruning keeps what interpolation needs. *)
From Coq Require Import Reals List Arith Bool Lia Lra Sorted.
From Verif Require Import Base.Res Base.Mat Base.LinAlg Base.Geom Base.AMap
  Model.TypeHelper Model.Types Model.MathHelperMat Model.Ekf Model.Updater Model.Ops
  Spec.Layout Spec.History Spec.Contract Spec.Correct Spec.Named Spec.Same Spec.KF Spec.Motion Spec.Surgery
  Proofs.MatSurgery Proofs.Invariant Proofs.Demo Proofs.DemoFilter Proofs.Named Proofs.Same Proofs.Update
  Proofs.Sizes Proofs.RegRefute Proofs.Clock Proofs.Effects Proofs.Windows Proofs.Pruning Proofs.CloneFacts Proofs.Finals.
Import ListNotations.
Open Scope nat_scope.

(** The window after a call: the [d] oldest clones are gone, at most one clone
    of the current body is appended; what is gone was older than the track
    duration even without the clone that follows it. *)
Theorem C17_pruned_window : forall e e', reachable e -> timed e -> AugmentStateIfNeeded e = OK e' ->
  exists d new,
    map bare_aug (aug_at e' 0) = map bare_aug (skipn d (aug_at e 0)) ++ new /\
    (new = [] \/ new = [mkAug 0 (e_time e) (b_pos (s_body (e_state e))) (b_ang (s_body (e_state e))) 0 0]) /\
    (aug_at e 0 <> [] -> d < length (aug_at e 0)) /\
    (0 < d -> exists a, nth_error (aug_at e 0) d = Some a /\ (e_track_dur e < e_time e - a_time a)%R) /\
    (forall i a, d < i -> nth_error (aug_at e 0) i = Some a -> (e_time e - a_time a <= e_track_dur e)%R) /\
    (forall k, k <> 0 -> stamps e' k = stamps e k).
Proof. exact (fun e e' Hr => augment_window e e' (proj1 (reachable_inv e Hr))). Qed.
Print Assumptions C17_pruned_window.

(** An instant within the track duration keeps its bracketing clones. *)
Theorem C17_brackets : forall e e' i a b t, reachable e -> timed e -> AugmentStateIfNeeded e = OK e' ->
  StronglySorted Rle (map a_time (aug_at e 0)) ->
  nth_error (aug_at e 0) i = Some a -> nth_error (aug_at e 0) (S i) = Some b ->
  (a_time a <= t)%R /\ (t <= a_time b)%R -> (e_time e - e_track_dur e <= t)%R ->
  exists j, nth_error (map bare_aug (aug_at e' 0)) j = Some (bare_aug a) /\
            nth_error (map bare_aug (aug_at e' 0)) (S j) = Some (bare_aug b).
Proof. exact (fun e e' i a b t Hr => augment_brackets e e' i a b t (proj1 (reachable_inv e Hr))). Qed.
Print Assumptions C17_brackets.

(** Clones stay ordered by time over whole histories. *)
Theorem C17_ordered : forall e l e' k, reachable e -> respects e l -> run e l = OK e' -> Forall not_init l ->
  e_time_init e = true -> ordered e k -> ordered e' k.
Proof. exact run_ordered. Qed.
Print Assumptions C17_ordered.

Example C17_hypotheses : let e := Initialize (demo0 ATime false) 0 default_body in
  reachable e /\ timed e /\ e_time_init e = true /\ ordered e 0.
Proof.
  cbv zeta. split.
  { apply (reachable_step (demo0 ATime false) (OInit 0 default_body)); [apply demo0_reachable|reflexivity|reflexivity]. }
  split; [left; reflexivity|]. split; [reflexivity|]. split; constructor.
Qed.
