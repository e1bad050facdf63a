(** C65: the origins of space and of time do not matter. *)
From Coq Require Import Reals List Arith Bool ZArith Lia Lra.
From Verif Require Import Base.Res Base.Mat Base.Geom Base.AMap Base.RMat Base.LinAlg
  Model.TypeHelper Model.Types Model.Ekf Model.Ops Model.MathHelper Model.FiducialUpdater Model.MsckfUpdater Model.Sensors
  Spec.History Spec.Contract Spec.Named Spec.Origin
  Proofs.CamTrackDemo Proofs.Origin Proofs.OriginRun Proofs.OriginFinal.
Import ListNotations.
Open Scope R_scope.

(** Any calls of the filter, every position given [v] further and every time
    given [c] later (a time stamp [c + d] later): the estimates of positions
    are [v] further, the clock is [c] later, and all else is the same. *)
Theorem C65_calls : forall v c d l e, clocked c e -> all_free v c d e l ->
  run (filter' v c d e) (map (op' v c d) l) = rmap (filter' v c d) (run e l).
Proof. exact run'. Qed.
Print Assumptions C65_calls.

(** The same for programs that make sensors and pass messages. *)
Theorem C65_program : forall svd hull ecef_to_lla mat_quat solve v c d l w, clocked c (w_ekf w) ->
  all_free_events v c d svd hull ecef_to_lla mat_quat solve w l ->
  wrun svd hull ecef_to_lla mat_quat solve (world' v c d w) (map (event' v c d) l)
  = rmap (world' v c d) (wrun svd hull ecef_to_lla mat_quat solve w l).
Proof. intros svd hull ecef_to_lla mat_quat solve v c d. exact (wrun' v c d svd hull ecef_to_lla mat_quat solve). Qed.
Print Assumptions C65_program.

(** From the constructor, if the filter is told the time and the pose first. *)
Theorem C65_told : forall svd hull ecef_to_lla mat_quat solve v c p q pe a t b l,
  (forall w, wstep svd hull ecef_to_lla mat_quat solve (world_init (EKF_init p q pe a)) (EConf (OInit t b)) = OK w ->
    all_free_events v c 0 svd hull ecef_to_lla mat_quat solve w l) ->
  wrun svd hull ecef_to_lla mat_quat solve (world_init (EKF_init p q pe a)) (EConf (OInit (t + c) (body' v b)) :: map (event' v c 0) l)
  = rmap (world' v c 0) (wrun svd hull ecef_to_lla mat_quat solve (world_init (EKF_init p q pe a)) (EConf (OInit t b) :: l)).
Proof. exact simulated. Qed.
Print Assumptions C65_told.

(** If it is not, the date of the recording does not matter at all, *)
Theorem C65_date : forall svd hull ecef_to_lla mat_quat solve d p q pe a l,
  Forall (fun x => match x with EConf (OInit _ _) => False | _ => True end) l ->
  wrun svd hull ecef_to_lla mat_quat solve (world_init (EKF_init p q pe a)) (map (event' v0 0 d) l)
  = rmap (world' v0 0 d) (wrun svd hull ecef_to_lla mat_quat solve (world_init (EKF_init p q pe a)) l).
Proof. exact dated. Qed.
Print Assumptions C65_date.
(** neither in the estimates nor in the covariance nor in the filter's clock. *)
Theorem C65_date_estimates : forall d w, w_cnt (world' v0 0 d w) = w_cnt w /\ e_cov (w_ekf (world' v0 0 d w)) = e_cov (w_ekf w) /\
  e_time (w_ekf (world' v0 0 d w)) = e_time (w_ekf w) /\ e_state (w_ekf (world' v0 0 d w)) = e_state (w_ekf w).
Proof. exact same_date. Qed.
Print Assumptions C65_date_estimates.

(** Clones are found where they are, if the frame is in the window. *)
Theorem C65_lookup : forall v c d e cam f t, found v c e cam f ->
  GetAugState (filter' v c d e) cam f (t + c) = rmap (fun x => (clone' v c (fst x), filter' v c d (snd x))) (GetAugState e cam f t).
Proof. exact get_aug'. Qed.
Print Assumptions C65_lookup.

(** A window of clones of each frame shows the last frames of its camera. *)
Theorem C65_recent : forall v c e id t frame trs tracks, reachable e -> p_aug (e_par e) = AAll ->
  respects e [OLocalTime t; OPredict (fst (CalculateLocalTime e t)); OFrame id frame] ->
  (length (aug_at e id) <= e_max_len e)%nat ->
  (forall k l tr, In (k, l) tracks -> mfind k trs = Some tr -> mu_id (tk_upd tr) = id /\
     forall x p, In x l -> In p (ft_track x) -> In (fp_frame p) (last_n (e_max_len e) (map a_frame (aug_at e id) ++ [frame]))) ->
  tracks_shown v c e id t frame trs tracks.
Proof. exact recent. Qed.
Print Assumptions C65_recent.

(** Not so a frame that is not in the window: it is taken to have been seen
    from the origin, wherever that is. *)
Theorem C65_lookup_refuted : exists e v, reachable e /\ e_time_init e = true /\
  exists a e1 e2, GetAugState e 2 9 0 = OK (a, e1) /\ GetAugState (filter' v 0 0 e) 2 9 (0 + 0) = OK (a, e2) /\
    a <> clone' v 0 a.
Proof. exact origin_refuted. Qed.
Print Assumptions C65_lookup_refuted.

(** A filter with clones of frames 7 and 8 is given frame 9, in which a feature
    ends that was seen in both. *)
Example C65_case : forall v c t trs k tr p, mfind k trs = Some tr -> mu_id (tk_upd tr) = 2%nat ->
  tracks_shown v c track_e 2 t 9 trs [(k, [one_track p])].
Proof. exact case_shown. Qed.
(** Measurements of inertial units never ask for clones. *)
Example C65_case_calls : forall v c e t1 t2, all_free v c 0 e [OLocalTime t1; OPredict t2; OFrame 2 9; OSetZero false].
Proof. intros v c e t1 t2. repeat (split; [exact I|]; intros ? _). exact I. Qed.
