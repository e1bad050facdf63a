(** C14: Corrections land on the right quantities. *)
From Coq Require Import Reals List Arith Bool Lia Lra.
From Verif Require Import Base.Res Base.Mat Base.Geom Base.AMap
  Model.TypeHelper Model.Types Model.Ekf Model.Ops
  Spec.Layout Spec.History Spec.Contract Spec.Correct Spec.Vector
  Proofs.Wf Proofs.Demo Proofs.DemoFilter Proofs.Vector Proofs.VectorBack Proofs.VectorRefute.
Import ListNotations.
Open Scope nat_scope.

(** [State += r]: every named scalar moves by the entry at its own position,
    every orientation is turned by the three entries at its own position,
    what is not estimated keeps its value. *)
Theorem C14_correction : forall e r, reachable e -> nc r = 1 -> e_size e <= nr r ->
  exists s', state_plus_vec (e_state e) r = OK s' /\ layout s' = layout (e_state e) /\
    (forall i a, nth_error (layout (e_state e)) i = Some a -> linear a = true ->
       estimate s' a = (estimate (e_state e) a + ent r i 0)%R) /\
    (forall i a q, nth_error (layout (e_state e)) i = Some a -> orientation (e_state e) a = Some q ->
       orientation s' a = Some (qmul q (RotVecToQuat (segv r i)))) /\
    fixed_untouched (e_state e) s'.
Proof. exact plus_lands. Qed.
Print Assumptions C14_correction.

Example C14_correction_case : reachable (demo_e AAll false) /\
  nth_error (layout (e_state (demo_e AAll false))) 47 = Some (LAug 2 1 2) /\ linear (LAug 2 1 2) = true /\
  nth_error (layout (e_state (demo_e AAll false))) 36 = Some (LFid 4 3) /\
  orientation (e_state (demo_e AAll false)) (LFid 4 3) = Some qid.
Proof. split; [apply demo_e_reachable|]. vm_compute. auto. Qed.

(** Nothing beyond the filter's own entries is read. *)
Theorem C14_entries_read : forall e r r', reachable e -> nc r = 1 -> nc r' = 1 -> e_size e <= nr r -> e_size e <= nr r' ->
  (forall i, i < e_size e -> ent r i 0 = ent r' i 0) -> state_plus_vec (e_state e) r = state_plus_vec (e_state e) r'.
Proof. exact plus_reads. Qed.
Print Assumptions C14_entries_read.

Example C14_body_only : e_size (demo0 ANone false) = 18.
Proof. reflexivity. Qed.

(** The vector form and back: only the representation of the estimated
    orientations can change, and not that of a canonical one. *)
Theorem C14_vector_and_back : forall e v, reachable e -> no_bias_only (e_state e) -> ToVector (e_state e) = OK v ->
  exists s', SetState (e_state e) v = OK s' /\ reoriented (e_state e) s'.
Proof. exact vector_and_back. Qed.
Print Assumptions C14_vector_and_back.

Theorem C14_vector_identity : forall e v, reachable e -> no_bias_only (e_state e) -> all_canonical (e_state e) ->
  ToVector (e_state e) = OK v -> SetState (e_state e) v = OK (e_state e).
Proof. exact vector_identity. Qed.
Print Assumptions C14_vector_identity.

Example C14_identity_case : let s := e_state (demo_e ANone false) in
  reachable (demo_e ANone false) /\ all_canonical s /\ no_bias_only s /\ exists v, ToVector s = OK v /\ nr v = 39.
Proof.
  destruct all_canonical_demo as [H1 [H2 [H3 H4]]]. split; [apply demo_e_reachable|]. split; [exact H1|]. split; [exact H2|].
  destruct (proj1 (vector_of _ (demo_e_reachable ANone false))) as [v [V1 [V2 _]]].
  - rewrite H3, H4. apply le_n.
  - exists v. split; [exact V1|]. rewrite V2. exact H4.
Qed.

(** Not so with an IMU of which only the biases are estimated: they come
    back as zero. *)
Theorem C14_bias_only_refuted : exists e x v s' x', reachable e /\ clone_count (e_state e) = 0 /\
  GetStateSize (e_state e) = e_size e /\
  mfind 1 (s_imu (e_state e)) = Some x /\ i_int x = true /\ i_acc_bias x = mkV3 1 2 3 /\
  ToVector (e_state e) = OK v /\ length (written (e_state e)) < nr v /\
  SetState (e_state e) v = OK s' /\ mfind 1 (s_imu s') = Some x' /\ i_acc_bias x' = v0.
Proof. exact biases_lost. Qed.
Print Assumptions C14_bias_only_refuted.

(** The separate [map<unsigned int, CamState> += vector] gives every camera
    the entries of the first. *)
Theorem C14_camera_map_refuted : exists r m' x, nc r = 1 /\ nr r = 12 /\ (forall i, i < 6 -> ent r i 0 = 0%R) /\
  ent r 6 0 = 1%R /\ cam_map_plus_vec two_cams r = OK m' /\ mfind 2 m' = Some x /\ c_pos x = c_pos demo_cam.
Proof. exact cam_map_refuted. Qed.
Print Assumptions C14_camera_map_refuted.
