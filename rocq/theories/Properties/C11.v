(** C11: Square-root prediction agrees with standard prediction. *)
From Coq Require Import Reals List Arith Bool Lia Lra.
From Verif Require Import Base.Res Base.Mat Base.LinAlg Base.Geom Base.AMap
  Model.TypeHelper Model.Types Model.Ekf Model.Ops
  Spec.Layout Spec.History Spec.Contract Spec.Named Spec.KF Spec.Noise Spec.RootPredict
  Proofs.Demo Proofs.RegRefute Proofs.Named Proofs.RootPredict.
Import ListNotations.
Open Scope R_scope.

(** [e1] is the filter after the motion step, before any clone. Its covariance
    is that of the bent factor plus the noise; the factor is bent rightly when
    the velocity rows do not reach beyond the body. *)
Theorem C11_root_predict : forall e t, reachable e -> p_root (e_par e) = true -> configured e ->
  e_gravity e = true -> (e_time e <= t) ->
  exists e1 e', PredictModel e t = OK e' /\ AugmentStateIfNeeded e1 = OK e' /\ (~ timed e -> e' = e1) /\
    e_size e1 = e_size e /\
    eqm (e_size e) (e_size e) (covariance e1)
      (madd (gram (e_size e) (bent (t - e_time e) (ent (e_cov e)))) (mscal (t - e_time e) (diagm (rate_at e)))) /\
    (uncoupled e -> eqm (e_size e) (e_size e) (covariance e1) (noise_last (e_size e) (t - e_time e) (covariance e) (rate_at e))).
Proof. exact root_predict. Qed.
Print Assumptions C11_root_predict.

(** Even then the position uncertainty is below that of the standard form
    whenever the velocity has process noise. *)
Theorem C11_noise_after_transition : forall e t, reachable e -> p_root (e_par e) = true -> configured e -> uncoupled e ->
  e_gravity e = true -> ~ timed e -> (e_time e < t) -> 0 < rate_at e 3 ->
  exists e', PredictModel e t = OK e' /\
    covariance e' 0%nat 0%nat < predicted (e_size e) (t - e_time e) (covariance e) (rate_at e) 0%nat 0%nat.
Proof. exact root_noise. Qed.
Print Assumptions C11_noise_after_transition.

Theorem C11_noise_refuted : exists e t e', reachable e /\ p_root (e_par e) = true /\ configured e /\ uncoupled e /\
  ~ timed e /\ e_gravity e = true /\ e_time e <= t /\ PredictModel e t = OK e' /\
  covariance e' 0%nat 0%nat <> predicted (e_size e) (t - e_time e) (covariance e) (rate_at e) 0%nat 0%nat.
Proof. exact noise_refuted. Qed.
Print Assumptions C11_noise_refuted.

(** After a measurement that couples the velocity to an antenna position, the
    covariance of body position and antenna is neither of the two. *)
Theorem C11_cross_term_refuted : exists e t e', reachable e /\ p_root (e_par e) = true /\ configured e /\ ~ timed e /\
  e_gravity e = true /\ e_time e <= t /\ PredictModel e t = OK e' /\
  covariance e' 0%nat 18%nat <> predicted (e_size e) (t - e_time e) (covariance e) (rate_at e) 0%nat 18%nat /\
  covariance e' 0%nat 18%nat <> noise_last (e_size e) (t - e_time e) (covariance e) (rate_at e) 0%nat 18%nat.
Proof. exact cross_refuted. Qed.
Print Assumptions C11_cross_term_refuted.

Example C11_hypotheses : exists e, reachable e /\ p_root (e_par e) = true /\ configured e /\ uncoupled e /\
  e_gravity e = true /\ ~ timed e /\ e_time e < 1 /\ 0 < rate_at e 3.
Proof.
  destruct (plain_gen (demo0 ANone true) (demo0_reachable ANone true) eq_refl eq_refl eq_refl eq_refl eq_refl eq_refl)
    as [e [_ [H1 [H2 [H3 [H4 [H5 [H6 [H7 H8]]]]]]]]].
  exists e. repeat (split; [first [assumption|lra]|]). lra.
Qed.
