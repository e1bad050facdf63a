(** C68: Clones are taken exactly when they are due. *)
From Coq Require Import Reals List Arith Bool Lia Lra Sorted.
From Verif Require Import Base.Res Base.Mat Base.LinAlg Base.Geom Base.AMap
  Model.TypeHelper Model.Types Model.MathHelper Model.MathHelperMat Model.Ekf Model.Updater Model.Ops
  Spec.Layout Spec.History Spec.Contract Spec.Correct Spec.Named Spec.Same Spec.Due
  Proofs.Invariant Proofs.Demo Proofs.DemoFilter Proofs.Named Proofs.RegRefute Proofs.Pruning Proofs.WindowSize Proofs.Due.
Import ListNotations.
Open Scope nat_scope.

(** TIME and ERROR mode: a clone of the current body pose is appended exactly
    if a frame was announced since the last one and one is due, judged by the
    newest clone itself; taking it uses the announcement up. *)
Theorem C68_taken : forall e e', reachable e -> timed e -> AugmentStateIfNeeded e = OK e' ->
  exists d, (aug_at e 0 <> [] -> d < length (aug_at e 0)) /\
    ((e_frame_recv e = true /\ due e /\ e_frame_recv e' = false /\
      map bare_aug (aug_at e' 0) = map bare_aug (skipn d (aug_at e 0)) ++
        [mkAug 0 (e_time e) (b_pos (s_body (e_state e))) (b_ang (s_body (e_state e))) 0 0]) \/
     (~ (e_frame_recv e = true /\ due e) /\ e_frame_recv e' = e_frame_recv e /\
      map bare_aug (aug_at e' 0) = map bare_aug (skipn d (aug_at e 0)))).
Proof. exact clone_taken. Qed.
Print Assumptions C68_taken.

(** The remembered time is that of the newest clone, whatever was called. *)
Theorem C68_last_time : forall e a, reachable e -> timed e -> newest e = Some a ->
  e_aug_prev e = Some (a_time a).
Proof. exact last_time. Qed.
Print Assumptions C68_last_time.

(** TIME mode: neighbouring clones are more than the configured period apart. *)
Theorem C68_spacing : forall e l e', reachable e -> respects e l -> run e l = OK e' -> Forall not_init l ->
  p_aug (e_par e) = ATime -> e_time_init e = true -> aug_at e 0 = [] ->
  spaced (p_aug_dt (e_par e)) (map a_time (aug_at e' 0)).
Proof. exact run_spaced. Qed.
Print Assumptions C68_spacing.

(** At most one clone per announced frame, and the one taken before any. *)
Theorem C68_frames : forall p q pe a l e, noise_arg q -> respects (EKF_init p q pe a) l ->
  run (EKF_init p q pe a) l = OK e -> timed e -> length (aug_at e 0) <= S (frames l).
Proof. exact clones_bounded. Qed.
Print Assumptions C68_frames.

(** In the other modes predictions take no clones. *)
Theorem C68_untimed : forall e t e' k, reachable e -> ~ timed e -> PredictModel e t = OK e' ->
  stamps e' k = stamps e k.
Proof. exact untimed_predict. Qed.
Print Assumptions C68_untimed.

(** One frame, two clones, three predictions after the start: the first clone
    needs no frame, the second waits until its period has passed. *)
Example C68_history : respects (demo0 ATime false) due_ops /\ frames due_ops = 1 /\
  exists e', run (demo0 ATime false) due_ops = OK e' /\ reachable e' /\ timed e' /\
    stamps e' 0 = [(0, 1%R); (0, 3%R)] /\ e_frame_recv e' = false.
Proof.
  split; [apply due_respects|]. split; [reflexivity|].
  destruct (due_run (demo0 ATime false)) as (e' & E & S & F); [apply reachable_inv, demo0_reachable|reflexivity|reflexivity|reflexivity|reflexivity|].
  exists e'. split; [exact E|].
  assert (R : reachable e').
  {
    exists (demo_par ATime false), demo_noise, v0, 0%R, due_ops. split; [|split; [apply due_respects|exact E]].
    exact demo_noise_arg. }
  split; [exact R|]. split; [|auto]. left.
  rewrite (WindowSize.run_par due_ops (demo0 ATime false) e'); [reflexivity|apply reachable_inv, demo0_reachable|apply due_respects|exact E].
Qed.
Example C68_untimed_case : reachable (demo0 AAll false) /\ ~ timed (demo0 AAll false) /\
  exists e', PredictModel (demo0 AAll false) 1 = OK e'.
Proof.
  split; [apply demo0_reachable|]. split; [intros [H|H]; discriminate|].
  destruct (step_inv (demo0 AAll false) (OPredict 1) (reachable_inv _ (demo0_reachable AAll false)) Logic.I) as [e' [E _]].
  exists e'. exact E.
Qed.
