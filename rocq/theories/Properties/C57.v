(** C57: Triangulation finds the point nearest to all viewing rays. *)
From Coq Require Import Reals List Arith Bool ZArith.
From Verif Require Import Base.Res Base.Mat Base.RDec Base.Geom
  Model.Types Model.MathHelper Model.Ekf Model.MsckfUpdater
  Spec.Triangulation Proofs.Triangulation Proofs.TriangulationFinals.
Import ListNotations.
Open Scope R_scope.

(** When two of the viewing rays are not parallel, the point found is the only
    one with the least sum of squared distances from the rays, whatever the
    pixels; it is dropped exactly if its depth in the first camera is out of
    range.  The filter is not changed. *)
Theorem C57_least_squares : forall solve u k pos_c ang_c e t a0 augs, solver solve -> mu_use_true u = false ->
  has_lens k -> qnorm2 ang_c = 1 -> observed_from e (mu_id u) t (a0 :: augs) ->
  spread_out (view_lines k pos_c ang_c (ft_track t) (a0 :: augs)) ->
  exists c, let p := from_camera pos_c ang_c a0 c in
    TriangulateFeature solve u k pos_c ang_c e t = OK (if accepted u c then Some p else None, e) /\
    forall q, q <> p -> miss (view_lines k pos_c ang_c (ft_track t) (a0 :: augs)) p <
                        miss (view_lines k pos_c ang_c (ft_track t) (a0 :: augs)) q.
Proof. exact triangulated. Qed.
Print Assumptions C57_least_squares.

(** Pixels that are the pinhole images of one point give that point. *)
Theorem C57_exact : forall solve u k pos_c ang_c e t a0 augs p, solver solve -> mu_use_true u = false ->
  has_lens k -> qnorm2 ang_c = 1 -> observed_from e (mu_id u) t (a0 :: augs) ->
  spread_out (view_lines k pos_c ang_c (ft_track t) (a0 :: augs)) ->
  Forall2 (sees k pos_c ang_c p) (ft_track t) (a0 :: augs) ->
  exists c, p = from_camera pos_c ang_c a0 c /\
    TriangulateFeature solve u k pos_c ang_c e t = OK (if accepted u c then Some p else None, e).
Proof. exact exact_track. Qed.
Print Assumptions C57_exact.

(** Two rays that are not parallel are needed: otherwise no point is nearest. *)
Theorem C57_parallel : forall ls, all_parallel ls -> forall p, exists q, q <> p /\ miss ls q = miss ls p.
Proof. exact parallel_blind. Qed.
Print Assumptions C57_parallel.

(** The updater as constructed uses the true position that the simulation put
    into the track: neither the pixels nor the clones nor the range matter. *)
Theorem C57_as_built : forall solve id ext min_dist k pos_c ang_c e t augs p, has_lens k -> qnorm2 ang_c = 1 ->
  observed_from e id t augs -> augs <> [] -> ft_true t = Some p ->
  TriangulateFeature solve (msckf_updater_init id ext min_dist) k pos_c ang_c e t = OK (Some p, e).
Proof. exact as_built. Qed.
Print Assumptions C57_as_built.

(** Non-vacuity: such a solver exists; two views, one metre apart, of a point
    two metres ahead satisfy all hypotheses; the point is found, or dropped by
    an updater whose maximal distance is less than two metres. *)
Example C57_solver : solver inv_solve.
Proof. exact inv_solver. Qed.
Example C57_case : forall p, has_lens tri_k /\ observed_from tri_e 2 (tri_track p) [tri_a0; tri_a1] /\
  spread_out (view_lines tri_k v0 qid (ft_track (tri_track p)) [tri_a0; tri_a1]) /\
  Forall2 (sees tri_k v0 qid (mkV3 0 0 2)) (ft_track (tri_track p)) [tri_a0; tri_a1].
Proof. intros p. exact (conj tri_lens (conj (tri_observed p) (conj (tri_spread p) (tri_sees p)))). Qed.
Example C57_found : forall far p, TriangulateFeature inv_solve (tri_u false far) tri_k v0 qid tri_e (tri_track p) =
  OK (if Rleb 2 far then Some (mkV3 0 0 2) else None, tri_e).
Proof. exact tri_found. Qed.
