(** C19: Clone lookup never aliases another quantity. *)
From Coq Require Import Reals List Arith Bool Lia Lra Sorted.
From Verif Require Import Base.Res Base.Mat Base.RDec Base.LinAlg Base.Geom Base.AMap
  Model.TypeHelper Model.Types Model.Ekf Model.Ops Spec.Layout Spec.History Spec.Contract Spec.Lookup
  Proofs.Invariant Proofs.Demo Proofs.DemoFilter Proofs.Named Proofs.Finals Proofs.Lookup Proofs.LookupFinal.
Import ListNotations.
Open Scope nat_scope.

(** A stored frame: the six scalars at the index are those of a clone of the
    camera. *)
Theorem C19_stored : forall e cam frame time, reachable e -> per_frame e cam = true ->
  In frame (map a_frame (aug_at e cam)) ->
  exists a e', GetAugState e cam frame time = OK (a, e') /\ a_frame a = frame /\ clone_index e cam (a_index a).
Proof. exact frame_index. Qed.
Print Assumptions C19_stored.

(** Lookup by time: always the index of a clone. *)
Theorem C19_by_time : forall e cam frame time before last, reachable e -> per_frame e cam = false ->
  aug_at e (shared_key e) = before ++ [last] -> ordered e (shared_key e) -> (a_time last < e_time e)%R ->
  exists a e', GetAugState e cam frame time = OK (a, e') /\ clone_index e (shared_key e) (a_index a).
Proof. exact interp_index. Qed.
Print Assumptions C19_by_time.

(** Frames as recent as the window is long are stored. *)
Theorem C19_recent : forall l e e' cam base frame time, reachable e -> respects e l -> run e l = OK e' ->
  p_aug (e_par e) = AAll -> Forall same_len l ->
  map a_frame (aug_at e cam) = last_n (e_max_len e) base ->
  In frame (last_n (e_max_len e) (base ++ frames_of cam l)) ->
  exists a e'', GetAugState e' cam frame time = OK (a, e'') /\ a_frame a = frame /\ clone_index e' cam (a_index a).
Proof. exact recent_frame. Qed.
Print Assumptions C19_recent.

(** A frame not in the window: the origin, with the index of the body. *)
Theorem C19_missing : forall e cam frame time, reachable e -> per_frame e cam = true ->
  ~ In frame (map a_frame (aug_at e cam)) ->
  exists a e', GetAugState e cam frame time = OK (a, e') /\ a_pos a = v0 /\ a_ang a = qid /\
    forall k, k < 6 -> nth_error (layout (e_state e)) (a_index a + k) = Some (LBody k).
Proof. exact missing_frame. Qed.
Print Assumptions C19_missing.

Example C19_hypotheses : reachable (demo_e AAll false) /\ per_frame (demo_e AAll false) 2 = true /\
  map a_frame (aug_at (demo_e AAll false) 2) = [7; 8] /\ ~ In 6 [7; 8].
Proof. split; [apply demo_e_reachable|]. split; [vm_compute; reflexivity|]. split; [apply demo_e_window|]. cbn. lia. Qed.
Example C19_by_time_example : reachable two_clones /\ per_frame two_clones 1 = false /\ shared_key two_clones = 0 /\
  map a_time (aug_at two_clones 0) = [1%R; 2%R] /\ ordered two_clones 0 /\ (2 < e_time two_clones)%R.
Proof.
  destruct two_clones_times as [A [B [C [D _]]]]. split; [apply two_clones_reachable|].
  split. { unfold per_frame. rewrite C, D. reflexivity. } split. { unfold shared_key. rewrite C, D. reflexivity. }
  split; [exact A|]. rewrite B. split; [|lra]. split; [rewrite A; repeat constructor; lra|].
  rewrite <- (Forall_map a_time (fun t => (t <= e_time two_clones)%R)), A, B. repeat constructor; lra.
Qed.
Example C19_recent_example : last_n 20 ([7; 8] ++ frames_of 2 [OFrame 2 9; OFrame 3 10]) = [7; 8; 9].
Proof. reflexivity. Qed.
