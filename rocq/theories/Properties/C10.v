(** C10: Prediction implements the constant-acceleration model. *)
From Coq Require Import Reals List Arith Bool Lia Lra Sorted.
From Verif Require Import Base.Res Base.Mat Base.LinAlg Base.Geom Base.AMap
  Model.TypeHelper Model.Types Model.MathHelperMat Model.Ekf Model.Updater Model.Ops
  Spec.Layout Spec.History Spec.Contract Spec.Correct Spec.Named Spec.Same Spec.KF Spec.Motion Spec.Surgery
  Proofs.MatSurgery Proofs.Invariant Proofs.Demo Proofs.DemoFilter Proofs.Named Proofs.Same Proofs.Update
  Proofs.Sizes Proofs.RegRefute Proofs.Clock Proofs.Effects Proofs.Windows Proofs.Pruning Proofs.CloneFacts Proofs.Finals.
Import ListNotations.
Open Scope nat_scope.

(** [e1] is the filter after the motion step; [e'] is [e1] unless clones are
    made by time, in which case a clone may be dropped or added afterwards. *)
Theorem C10_predict : forall e t, reachable e -> e_gravity e = true -> (e_time e <= t)%R ->
  exists e1 e', PredictModel e t = OK e' /\ AugmentStateIfNeeded e1 = OK e' /\ (~ timed e -> e' = e1) /\
    moved (e_zero_acc e) (t - e_time e) (s_body (e_state e)) (s_body (e_state e1)) /\
    e_state e1 = state_with_body (e_state e) (s_body (e_state e1)) /\
    bare (state_with_aug (e_state e') []) = bare (state_with_aug (e_state e1) []) /\
    frame (with_time e t) e1 /\ cam_frame e e1 /\ e_Q e1 = e_Q e /\ e_size e1 = e_size e /\
    (p_root (e_par e) = false ->
       eqm (e_size e) (e_size e) (covariance e1)
         (predicted (e_size e) (t - e_time e) (covariance e) (fun i => ent (e_Q e) i i))).
Proof. exact predict_moves. Qed.
Print Assumptions C10_predict.

(** Gravity unknown: only the time advances. *)
Theorem C10_predict_before_gravity : forall e t, reachable e -> e_gravity e = false -> (e_time e <= t)%R ->
  exists e', PredictModel e t = OK e' /\ AugmentStateIfNeeded (with_time e t) = OK e' /\
    (~ timed e -> e' = with_time e t) /\
    bare (state_with_aug (e_state e') []) = bare (state_with_aug (e_state e) []).
Proof. exact predict_rests. Qed.
Print Assumptions C10_predict_before_gravity.

Example C10_hypotheses : let e := InitializeGravity (demo_e AAll false) in
  reachable e /\ e_gravity e = true /\ (e_time e <= 1)%R /\ ~ timed e /\ p_root (e_par e) = false.
Proof.
  cbv zeta. split.
  { apply (reachable_step (demo_e AAll false) OInitGravity); [apply demo_e_reachable|exact I|reflexivity]. }
  split; [reflexivity|]. split; [vm_compute; lra|]. split; [intros [H|H]; vm_compute in H; discriminate|]. vm_compute. reflexivity.
Qed.
