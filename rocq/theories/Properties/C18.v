(** C18: Clone lookup returns the right pose. *)
From Coq Require Import Reals List Arith Bool Lia Lra Sorted.
From Verif Require Import Base.Res Base.Mat Base.RDec Base.LinAlg Base.Geom Base.AMap
  Model.TypeHelper Model.Types Model.Ekf Model.Ops Spec.Layout Spec.History Spec.Contract Spec.Lookup
  Proofs.Invariant Proofs.Demo Proofs.DemoFilter Proofs.Named Proofs.Finals Proofs.Lookup Proofs.LookupFinal.
Import ListNotations.
Open Scope nat_scope.

(** Cameras whose frames are cloned: the lookup goes by frame id. *)
Theorem C18_frame : forall e cam frame time, per_frame e cam = true ->
  exists a e', GetAugState e cam frame time = OK (a, e') /\ (forall k, aug_at e' k = aug_at e k) /\
    (forall c, youngest (aug_at e cam) frame c -> a = c) /\
    ((forall c, In c (aug_at e cam) -> a_frame c <> frame) -> a_pos a = v0 /\ a_ang a = qid /\ a_index a = 0).
Proof. exact lookup_frame. Qed.
Print Assumptions C18_frame.

(** Otherwise it goes by time. Before the oldest clone: the oldest clone. *)
Theorem C18_before : forall e cam frame time first rest, per_frame e cam = false ->
  aug_at e (shared_key e) = first :: rest -> (time < a_time first)%R ->
  exists a e', GetAugState e cam frame time = OK (a, e') /\ pose_of first a /\ a_index a = a_index first /\ a_alpha a = 0%R.
Proof. exact lookup_before. Qed.
Print Assumptions C18_before.

(** Between clones: on the way from one clone to the next, the two being those
    around the time. *)
Theorem C18_between : forall e cam frame time first rest last, per_frame e cam = false ->
  aug_at e (shared_key e) = first :: rest -> StronglySorted Rle (map a_time (first :: rest)) ->
  (a_time first <= time)%R -> In last rest -> (time < a_time last)%R ->
  exists a e' l1 s0 s1 l2, GetAugState e cam frame time = OK (a, e') /\
    aug_at e (shared_key e) = l1 ++ s0 :: s1 :: l2 /\ (a_time s0 <= time)%R /\ (time < a_time s1)%R /\
    blend (a_pos s0) (a_ang s0) (a_pos s1) (a_ang s1) ((time - a_time s0) / (a_time s1 - a_time s0)) a /\
    (0 <= a_alpha a)%R /\ (a_alpha a < 1)%R /\ a_index a = a_index s0 /\ (time = a_time s0 -> pose_of s0 a).
Proof. exact lookup_inside. Qed.
Print Assumptions C18_between.

(** After the newest clone: on the way to the present body pose; beyond it for
    times in the future. *)
Theorem C18_after : forall e cam frame time before last, per_frame e cam = false ->
  aug_at e (shared_key e) = before ++ [last] -> StronglySorted Rle (map a_time (before ++ [last])) ->
  (a_time last <= time)%R -> (a_time last < e_time e)%R ->
  exists a e', GetAugState e cam frame time = OK (a, e') /\
    blend (a_pos last) (a_ang last) (b_pos (s_body (e_state e))) (b_ang (s_body (e_state e)))
      ((time - a_time last) / (e_time e - a_time last)) a /\
    (0 <= a_alpha a)%R /\ (time <= e_time e -> a_alpha a <= 1)%R /\ (e_time e < time -> 1 < a_alpha a)%R /\
    a_index a = a_index last /\ (time = a_time last -> pose_of last a) /\
    (time = e_time e -> a_pos a = b_pos (s_body (e_state e))).
Proof. exact lookup_after. Qed.
Print Assumptions C18_after.

(** A clone is found at its own time. *)
Theorem C18_own_time : forall e cam frame c, per_frame e cam = false -> In c (aug_at e (shared_key e)) ->
  StronglySorted Rlt (map a_time (aug_at e (shared_key e))) -> (a_time c < e_time e)%R ->
  exists a e', GetAugState e cam frame (a_time c) = OK (a, e') /\ pose_of c a /\ a_index a = a_index c.
Proof. exact own_time. Qed.
Print Assumptions C18_own_time.

(** The orientation moves along the arc: the angles to the two ends are [t] and
    [1 - t] of the angle between them. *)
Theorem C18_arc : forall a b t, qnorm2 a = 1%R -> qnorm2 b = 1%R -> (Rabs (qdot a b) < 1 - dbl_eps)%R ->
  qnorm2 (qslerp a t b) = 1%R /\ qdot a (qslerp a t b) = cos (t * acos (Rabs (qdot a b))) /\
  qdot b (qslerp a t b) = ((if Rltb (qdot a b) 0 then -1 else 1) * cos ((1 - t) * acos (Rabs (qdot a b))))%R.
Proof. exact slerp_arc. Qed.
Print Assumptions C18_arc.

(** The newest clone is as new as the filter: zero over zero. *)
Theorem C18_fresh_clone : forall e cam frame before last, per_frame e cam = false ->
  aug_at e (shared_key e) = before ++ [last] -> Forall (fun a => (a_time a <= e_time e)%R) (aug_at e (shared_key e)) ->
  a_time last = e_time e -> GetAugState e cam frame (e_time e) = UB.
Proof. exact lookup_fresh. Qed.
Print Assumptions C18_fresh_clone.

(** That is what a second camera meets at the time of a frame of the primary
    camera. *)
Theorem C18_second_camera : forall e f e' cam g, reachable e -> p_aug (e_par e) = APrimary -> cam <> e_primary e ->
  Forall (fun a => (a_time a <= e_time e)%R) (aug_at e (e_primary e)) -> step e (OFrame (e_primary e) f) = OK e' ->
  GetAugState e' cam g (e_time e') = UB.
Proof. exact primary_fresh. Qed.
Print Assumptions C18_second_camera.

Theorem C18_at_now_refuted : exists e cam frame, reachable e /\ aug_at e (shared_key e) <> [] /\
  GetAugState e cam frame (e_time e) = UB.
Proof. exact at_now_refuted. Qed.
Print Assumptions C18_at_now_refuted.

(** No clone at all. *)
Theorem C18_empty : forall e cam frame time, per_frame e cam = false -> aug_at e (shared_key e) = [] ->
  GetAugState e cam frame time = UB.
Proof. exact lookup_empty. Qed.
Print Assumptions C18_empty.

Example C18_frame_example : per_frame (demo_e AAll false) 2 = true /\ map a_frame (aug_at (demo_e AAll false) 2) = [7; 8].
Proof. vm_compute. auto. Qed.
(** Clones at times 1 and 2, the clock at 3: what the theorems above speak of. *)
Example C18_hypotheses : reachable two_clones /\ per_frame two_clones 1 = false /\ shared_key two_clones = 0 /\
  map a_time (aug_at two_clones 0) = [1%R; 2%R] /\ StronglySorted Rlt [1%R; 2%R] /\ e_time two_clones = 3%R.
Proof.
  destruct two_clones_times as [A [B [C [D _]]]]. split; [apply two_clones_reachable|].
  split. { unfold per_frame. rewrite C, D. reflexivity. } split. { unfold shared_key. rewrite C, D. reflexivity. }
  split; [exact A|]. split; [|exact B]. repeat constructor. lra.
Qed.
Example C18_arc_example : qnorm2 (mkQ 1 0 0 0) = 1%R /\ qnorm2 (mkQ (3 / 5) (4 / 5) 0 0) = 1%R /\
  qdot (mkQ 1 0 0 0) (mkQ (3 / 5) (4 / 5) 0 0) = (3 / 5)%R.
Proof. unfold qnorm2, qdot. cbn. lra. Qed.
Example C18_second_camera_example : reachable two_clones /\ p_aug (e_par two_clones) = APrimary /\ 1 <> e_primary two_clones /\
  Forall (fun a => (a_time a <= e_time two_clones)%R) (aug_at two_clones (e_primary two_clones)).
Proof.
  destruct two_clones_times as [A [B [C [D _]]]]. split; [apply two_clones_reachable|]. split; [exact C|]. rewrite D, B. split; [discriminate|].
  rewrite <- (Forall_map a_time (fun t => (t <= 3)%R)), A. repeat constructor; lra.
Qed.
