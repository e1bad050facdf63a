(** C07: A clone starts as an exact statistical copy of the body pose. *)
From Coq Require Import Reals List Arith Bool Lia Lra Sorted.
From Verif Require Import Base.Res Base.Mat Base.LinAlg Base.Geom Base.AMap
  Model.TypeHelper Model.Types Model.MathHelperMat Model.Ekf Model.Updater Model.Ops
  Spec.Layout Spec.History Spec.Contract Spec.Correct Spec.Named Spec.Same Spec.KF Spec.Motion Spec.Surgery
  Proofs.MatSurgery Proofs.Invariant Proofs.Demo Proofs.DemoFilter Proofs.Named Proofs.Same Proofs.Update
  Proofs.Sizes Proofs.RegRefute Proofs.Clock Proofs.Effects Proofs.Windows Proofs.Pruning Proofs.CloneFacts Proofs.Finals Spec.RootDrop Proofs.RootDrop.
Import ListNotations.
Open Scope nat_scope.

(** Window not full: either covariance form. *)
Theorem C07_frame_clone : forall e cam f e', reachable e -> per_frame e cam = true ->
  length (aug_at e cam) < e_max_len e -> AugmentStateFrame e cam f = OK e' ->
  copies_body e e' cam (length (aug_at e cam)) /\
  map bare_aug (aug_at e' cam) = map bare_aug (aug_at e cam) ++
    [mkAug f (e_time e) (b_pos (s_body (e_state e))) (b_ang (s_body (e_state e))) 0 0] /\
  bare (state_with_aug (e_state e') []) = bare (state_with_aug (e_state e) []) /\
  (forall k, k <> cam -> map bare_aug (aug_at e' k) = map bare_aug (aug_at e k)) /\
  frame (with_frame_recv e true) e' /\ cam_frame e e'.
Proof. exact frame_copies. Qed.
Print Assumptions C07_frame_clone.

(** Window full, covariance form: the oldest clone goes, everything else is
    inherited, the newest position copies the body. *)
Theorem C07_frame_clone_full : forall e cam f e', reachable e -> per_frame e cam = true ->
  p_root (e_par e) = false -> e_max_len e <= length (aug_at e cam) -> AugmentStateFrame e cam f = OK e' ->
  inherits e e' (fun a => from_drop cam 0 (from_clone cam (length (aug_at e cam) - 1) a)) /\
  map bare_aug (aug_at e' cam) = tl (map bare_aug (aug_at e cam)) ++
    [mkAug f (e_time e) (b_pos (s_body (e_state e))) (b_ang (s_body (e_state e))) 0 0] /\
  bare (state_with_aug (e_state e') []) = bare (state_with_aug (e_state e) []) /\
  (forall k, k <> cam -> map bare_aug (aug_at e' k) = map bare_aug (aug_at e k)) /\
  layout (e_state e') = layout (e_state e).
Proof. exact frame_shifts. Qed.
Print Assumptions C07_frame_clone_full.

(** Window full, square-root form: the rows of the factor that lie where the
    oldest clone lay go too, and what they carried is missing afterwards.
    Covariances of the body and of the sensors do not suffer; variances only
    shrink. *)
Theorem C07_frame_clone_full_root : forall e cam f e', reachable e -> per_frame e cam = true ->
  p_root (e_par e) = true -> e_max_len e <= length (aug_at e cam) -> AugmentStateFrame e cam f = OK e' ->
  let g := fun a => from_drop cam 0 (from_clone cam (length (aug_at e cam) - 1) a) in
  exists x, nth_error (layout (e_state e)) x = Some (LAug cam 0 0) /\ forgets e e' g x /\
    (forall a b v, In a (layout (e_state e')) -> In b (layout (e_state e')) -> not_clone (g a) ->
       cov_is e (g a) (g b) v -> cov_is e' a b v) /\
    (forall a v, In a (layout (e_state e')) -> cov_is e (g a) (g a) v -> exists v', cov_is e' a a v' /\ (v' <= v)%R).
Proof. exact frame_shifts_root. Qed.
Print Assumptions C07_frame_clone_full_root.

(** With two cameras the clones of one lose variance when a clone of the
    other is dropped. *)
Theorem C07_full_root_refuted : exists e cam f e', reachable e /\ per_frame e cam = true /\ p_root (e_par e) = true /\
  e_max_len e <= length (aug_at e cam) /\ AugmentStateFrame e cam f = OK e' /\
  ~ inherits e e' (fun a => from_drop cam 0 (from_clone cam (length (aug_at e cam) - 1) a)).
Proof. exact root_drop_refuted. Qed.
Print Assumptions C07_full_root_refuted.

(** Clones made by time, covariance form: [d] oldest clones are dropped, then
    possibly one clone of the body is added. *)
Theorem C07_timed_clone : forall e e', reachable e -> p_root (e_par e) = false -> timed e ->
  AugmentStateIfNeeded e = OK e' ->
  exists d em, inherits e em (from_drops 0 d) /\ length (aug_at em 0) + d = length (aug_at e 0) /\
    (e' = em \/
     copies_body em e' 0 (length (aug_at em 0)) /\
     map bare_aug (aug_at e' 0) = map bare_aug (aug_at em 0) ++
       [mkAug 0 (e_time e) (b_pos (s_body (e_state e))) (b_ang (s_body (e_state e))) 0 0]).
Proof. exact augment_clone. Qed.
Print Assumptions C07_timed_clone.

Example C07_hypotheses : reachable (demo_e AAll false) /\ per_frame (demo_e AAll false) 2 = true /\
  length (aug_at (demo_e AAll false) 2) < e_max_len (demo_e AAll false) /\
  match AugmentStateFrame (demo_e AAll false) 2 9 with OK e' => length (aug_at e' 2) = 3 | UB => False end.
Proof. split; [apply demo_e_reachable|]. split; [vm_compute; reflexivity|]. split; [vm_compute; lia|]. vm_compute. reflexivity. Qed.

Example C07_full_hypotheses : let e := SetMaxTrackLength (demo_e AAll false) 2 in
  reachable e /\ per_frame e 2 = true /\ p_root (e_par e) = false /\ e_max_len e <= length (aug_at e 2) /\
  match AugmentStateFrame e 2 9 with OK e' => map a_frame (aug_at e' 2) = [8; 9] | UB => False end.
Proof.
  cbv zeta. split. { eapply (reachable_step (demo_e AAll false) (OSetLen 2)); [apply demo_e_reachable|cbn; lia|reflexivity]. }
  split; [vm_compute; reflexivity|]. split; [vm_compute; reflexivity|]. split; [vm_compute; lia|]. vm_compute. reflexivity.
Qed.

Example C07_full_root_hypotheses : exists e cam f e', reachable e /\ per_frame e cam = true /\ p_root (e_par e) = true /\
  e_max_len e <= length (aug_at e cam) /\ AugmentStateFrame e cam f = OK e'.
Proof. destruct root_drop_refuted as (e & cam & f & e' & H1 & H2 & H3 & H4 & H5 & _). exists e, cam, f, e'. auto. Qed.
