(** C43: Sampled truth interpolation. *)
From Coq Require Import Reals List Arith Bool Lia Lra.
From Verif Require Import Base.Res Base.RDec Base.Geom Model.TypeHelper Model.TruthEngine
  Spec.Truth Spec.Sampled Proofs.Smoother Proofs.SmootherDemo.
Import ListNotations.
Open Scope R_scope.

(** Which configurations are accepted. *)
Theorem C43_builds : forall times poses angles pe ae stat maxt rate dp da,
  times <> [] -> increasing times ->
  (3 * length times <= length poses)%nat -> (3 * length times <= length angles)%nat ->
  length pe = 3%nat -> length ae = 3%nat -> 0 < rate -> 1 < maxt * rate ->
  is_ok (mk_smoother times poses angles pe ae stat maxt rate dp da).
Proof. exact engine_ok. Qed.
Print Assumptions C43_builds.

Theorem C43_count : forall s, built s -> exists n, (2 <= n)%nat /\
  sm_max_time s * sm_rate s <= INR n < sm_max_time s * sm_rate s + 1 /\
  forall l, In l (all_samples s) -> length l = n.
Proof. exact built_inv. Qed.
Print Assumptions C43_count.

(** Before the last sample interval the reads exist and the result lies
    between the neighbouring samples. *)
Theorem C43_inside : forall s get samples t, built s -> In (get, samples) vector_getters -> accepted s t -> 0 <= t ->
  t * sm_rate s < INR (length (sm_pos s)) - 1 ->
  exists k v, get s t = OK v /\ on_line (samples s) k (t * sm_rate s) v.
Proof. exact read_inside. Qed.
Print Assumptions C43_inside.

Theorem C43_attitude : forall s t, built s -> accepted s t -> 0 <= t ->
  t * sm_rate s < INR (length (sm_pos s)) - 1 ->
  exists k v, sm_GetBodyAngularPosition s t = OK (EigVecToQuat v) /\ on_line (sm_ang s) k (t * sm_rate s) v.
Proof. exact read_attitude. Qed.
Print Assumptions C43_attitude.

(** From then on they read past the end of the samples, *)
Theorem C43_past_end : forall s get samples t, built s -> In (get, samples) vector_getters -> accepted s t -> 0 <= t ->
  INR (length (sm_pos s)) - 1 <= t * sm_rate s -> get s t = UB.
Proof. exact read_past. Qed.
Print Assumptions C43_past_end.

Theorem C43_attitude_past_end : forall s t, built s -> accepted s t -> 0 <= t ->
  INR (length (sm_pos s)) - 1 <= t * sm_rate s -> sm_GetBodyAngularPosition s t = UB.
Proof. exact read_past_attitude. Qed.
Print Assumptions C43_attitude_past_end.

(** and every engine accepts such a time. *)
Theorem C43_last_interval : forall s get samples, built s -> 0 <= sm_stationary_time s ->
  In (get, samples) vector_getters ->
  exists t, accepted s t /\ t <= sm_stationary_time s + sm_max_time s /\ get s t = UB.
Proof. exact last_interval. Qed.
Print Assumptions C43_last_interval.

Theorem C43_outside : forall s get samples t, In (get, samples) vector_getters -> ~ accepted s t ->
  get s t = OK v0 /\ sm_GetBodyAngularPosition s t = OK qid.
Proof. exact read_outside. Qed.
Print Assumptions C43_outside.

(** The samples lie on the path through the control points, strictly
    between the first and the last control time, and are zero elsewhere. *)
Theorem C43_samples : forall times poses angles pe ae stat maxt rate dp da s,
  mk_smoother times poses angles pe ae stat maxt rate dp da = OK s -> 0 < rate ->
  exists pe3 ae3 cp ca, StdToEigVec pe = OK pe3 /\ StdToEigVec ae = OK ae3 /\
    (let size := (Nat.min (length poses) (length angles) / 3)%nat in
     (length cp = size /\ forall i, (i < size)%nat -> exists p, point_at poses i p /\
        nth_error cp i = Some (if (i =? 0)%nat then p else dp i p pe3)) /\
     (length ca = size /\ forall i, (i < size)%nat -> exists p, point_at angles i p /\
        nth_error ca i = Some (if (i =? 0)%nat then p else da i p ae3))) /\
    forall i first last, (i < length (sm_pos s))%nat -> nth_error times 0 = Some first ->
      nth_error times (length times - 1) = Some last ->
      let t := INR i / rate in
      exists v w, nth_error (sm_pos s) i = Some v /\ nth_error (sm_ang s) i = Some w /\
        if Rltb first t && Rltb t last then on_path times cp t v /\ on_path times ca t w else v = v0 /\ w = v0.
Proof. exact samples_on_path. Qed.
Print Assumptions C43_samples.

Theorem C43_rates : forall s l d i a b, built s -> In (l, d) (rates s) ->
  nth_error l i = Some a -> nth_error l (i + 1) = Some b ->
  nth_error d i = Some (vscale (sm_rate s) (vsub b a)).
Proof. exact rate_samples. Qed.
Print Assumptions C43_rates.

(** The truth does not start at its first control point. *)
Theorem C43_start_refuted : exists times poses angles pe ae stat maxt rate s p,
  mk_smoother times poses angles pe ae stat maxt rate exact_draw exact_draw = OK s /\ 0 < rate /\
  nth_error times 0 = Some 0 /\ point_at poses 0 p /\ p <> v0 /\ nth_error (sm_pos s) 0 = Some v0.
Proof. exact start_refuted. Qed.
Print Assumptions C43_start_refuted.

Example C43_demo : exists s, built s /\ accepted s 1 /\ sm_stationary_time s = 0 /\ sm_rate s = 2 /\
  length (sm_pos s) = 3%nat /\ nth_error (sm_pos s) 0 = Some v0 /\
  nth_error (sm_pos s) 1 = Some (mkV3 4 (17 / 4) (9 / 2)).
Proof. exact demo_engine. Qed.
