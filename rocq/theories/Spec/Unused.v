(** Camera data that leads to no correction. *)
From Coq Require Import Reals List Arith Bool.
From Verif Require Import Base.Res Base.Mat Base.Geom Base.AMap Model.Types Model.Ekf Model.Ops Model.MsckfUpdater
  Spec.Callback.
Import ListNotations.
Open Scope R_scope.

(** The filter after a measurement stamped [t] without any content. *)
Definition only_predicted (e : ekf) (t : R) (e' : ekf) : Prop :=
  run e [OLocalTime t; OPredict (local_of e t)] = OK e'.

(** Equal, except that clone windows which have never been used may have
    been created empty. *)
Definition same_estimates (e e' : ekf) : Prop :=
  exists m, e' = with_state e (state_with_aug (e_state e) m) /\ forall k, mget [] k m = mget [] k (s_aug (e_state e)).

(** The updater declines to use the track: its triangulation is out of the
    accepted range of distances. *)
Definition declined (solve : mat R -> V3 -> V3) (u : msckf_updater) (e : ekf) (t : FeatureTrack) : Prop :=
  exists k pos ang e', mu_poses u = Some (k, pos, ang) /\ TriangulateFeature solve u k pos ang e t = OK (None, e').
