(** C55: Self-alignment of the GPS reference. *)
From Coq Require Import Reals List Lra ZArith.
From Verif Require Import Base.Res Base.Mat Base.RMat Base.Geom Model.TypeHelper Model.Types Model.MathHelper Model.GpsHelper Model.Ekf Model.GpsUpdater
  Spec.Points Spec.Svd Spec.Earth Spec.SelfAlign Proofs.Svd2 Proofs.SelfAlign.
Import ListNotations.
Open Scope R_scope.

(** Fixes that fit the positions exactly never satisfy the error-threshold
    criterion, however many there are and whatever the thresholds: the filter
    stays without a reference. *)
Theorem C55_threshold_never : forall svd hull ecef_to_lla, (forall M, let '(U, V) := svd M in svd_of M U V) ->
  forall e time lla c yaw t ref enu, p_gps_init (e_par e) = GError -> lla_to_ecef lla = OK c ->
  length (e_gps_time e) = length (e_gps_ecef e) ->
  fits ecef_to_lla yaw t (e_gps_xyz e ++ [b_pos (s_body (e_state e))]) (e_gps_ecef e ++ [c]) ref enu ->
  exists e', AttemptGps svd hull ecef_to_lla e time lla = OK e' /\ e_lla_init e' = e_lla_init e /\
    e_pos_e_in_g e' = e_pos_e_in_g e /\ e_ang_l_to_e e' = e_ang_l_to_e e.
Proof. exact threshold_never. Qed.
Print Assumptions C55_threshold_never.

(** A filter in error-threshold mode that has stood at its origin while
    receiving the same fix reads an unset variable at the fourth fix. *)
Theorem C55_standing : forall svd hull ecef_to_lla e time lla c, p_gps_init (e_par e) = GError -> 0 < p_gps_pos_thresh (e_par e) ->
  lla_to_ecef lla = OK c -> lla_to_ecef (ecef_to_lla c) = OK c -> (3 <= length (e_gps_time e))%nat ->
  length (e_gps_ecef e) = length (e_gps_time e) -> length (e_gps_xyz e) = length (e_gps_time e) ->
  Forall (fun p => p = c) (e_gps_ecef e) -> Forall (fun x => x = v0) (e_gps_xyz e) -> b_pos (s_body (e_state e)) = v0 ->
  AttemptGps svd hull ecef_to_lla e time lla = UB.
Proof. exact standing. Qed.
Print Assumptions C55_standing.

(** The measured extent of the fixes: between whole metres, off by less than
    [2 sqrt 2] one way and [sqrt 2] the other. *)
Theorem C55_extent : forall hull pts, keeps_extent hull -> pts <> [] ->
  (forall a b, In a pts -> In b pts -> horizontal a b < maximum_distance hull pts + 2 * sqrt 2) /\
  exists a b, In a pts /\ In b pts /\ maximum_distance hull pts < horizontal a b + sqrt 2.
Proof. exact extent. Qed.
Print Assumptions C55_extent.

(** The baseline criterion. Fixes far enough apart set the reference: the
    point at [- t] in the frame of the fixes, and the size of the yaw. *)
Theorem C55_baseline : forall svd hull ecef_to_lla, (forall M, let '(U, V) := svd M in svd_of M U V) -> keeps_extent hull ->
  forall e time lla c yaw t ref enu a b, p_gps_init (e_par e) = GBaseline -> lla_to_ecef lla = OK c ->
  length (e_gps_time e) = length (e_gps_ecef e) ->
  fits ecef_to_lla yaw t (e_gps_xyz e ++ [b_pos (s_body (e_state e))]) (e_gps_ecef e ++ [c]) ref enu ->
  In a enu -> In b enu -> p_gps_baseline (e_par e) + 2 * sqrt 2 <= horizontal a b -> - PI <= yaw <= PI ->
  exists e' q, AttemptGps svd hull ecef_to_lla e time lla = OK e' /\ enu_to_ecef (vopp t) ref = OK q /\
    e_lla_init e' = true /\ e_pos_e_in_g e' = ecef_to_lla q /\ e_ang_l_to_e e' = Rabs yaw.
Proof. exact far_sets. Qed.
Print Assumptions C55_baseline.

(** Fixes too close together leave it unset. *)
Theorem C55_too_close : forall svd hull ecef_to_lla, (forall M, let '(U, V) := svd M in svd_of M U V) -> keeps_extent hull ->
  forall e time lla c yaw t ref enu, p_gps_init (e_par e) = GBaseline -> lla_to_ecef lla = OK c ->
  length (e_gps_time e) = length (e_gps_ecef e) ->
  fits ecef_to_lla yaw t (e_gps_xyz e ++ [b_pos (s_body (e_state e))]) (e_gps_ecef e ++ [c]) ref enu ->
  (forall a b, In a enu -> In b enu -> horizontal a b + sqrt 2 <= p_gps_baseline (e_par e)) ->
  exists e', AttemptGps svd hull ecef_to_lla e time lla = OK e' /\ e_lla_init e' = e_lla_init e /\
    e_pos_e_in_g e' = e_pos_e_in_g e /\ e_ang_l_to_e e' = e_ang_l_to_e e.
Proof. exact close_waits. Qed.
Print Assumptions C55_too_close.

(** The point that becomes the reference is then placed at the local origin.
    The fit has it there only if turning leaves the offset alone. *)
Theorem C55_reference : forall ecef_to_lla yaw t ref q, enu_to_ecef (vopp t) ref = OK q -> lla_to_ecef (ecef_to_lla q) = OK q ->
  (forall heading, placed_at (ecef_to_lla q) heading q v0) /\
  exists enu, ecef_to_enu q ref = OK enu /\ (rigid yaw t enu = v0 <-> yawed yaw t = t).
Proof. exact reference_fitted. Qed.
Print Assumptions C55_reference.

(** If the frames differ by a turn and a height only, every fix is then
    placed where the filter was when it came in. *)
Theorem C55_vertical : forall ecef_to_lla yaw h xyz ecef ref enu q, fits ecef_to_lla yaw (mkV3 0 0 h) xyz ecef ref enu ->
  enu_to_ecef (vopp (mkV3 0 0 h)) ref = OK q ->
  (forall p, vx p = vx ref -> vy p = vy ref -> lla_to_ecef p = OK q -> ecef_to_lla q = p) ->
  Forall2 (placed_at (ecef_to_lla q) yaw) ecef xyz.
Proof. exact vertical_placed. Qed.
Print Assumptions C55_vertical.

(** In general they are not, with the conversion of the code: four fixes on the equator fitting the positions
    exactly, after which the third is placed elsewhere. *)
Theorem C55_misplaced_refuted : exists svd hull p q pe a fixes yaw t ecef ref enu e',
  (forall M, let '(U, V) := svd M in svd_of M U V) /\ keeps_extent hull /\
  Forall2 (fun f c => lla_to_ecef (snd f) = OK c) fixes ecef /\ fits converted yaw t (map fst fixes) ecef ref enu /\
  survey svd hull converted (EKF_init p q pe a) fixes = OK e' /\ e_lla_init e' = true /\
  exists f c, In f fixes /\ lla_to_ecef (snd f) = OK c /\
    forall y, placed_at (e_pos_e_in_g e') (e_ang_l_to_e e') c y -> y <> fst f.
Proof. exact misplaced_run. Qed.
Print Assumptions C55_misplaced_refuted.

(** *** Cases *)
Example C55_fit : fits converted (PI / 2) (mkV3 1 0 0) (map (fun y => mkV3 1 y 0) [-3; -1; 1; 3]) (map (fun y => mkV3 g_wgs84_a y 0) [-3; -1; 1; 3])
  (mkV3 0 0 0) (map (fun y => mkV3 y 0 0) [-3; -1; 1; 3]).
Proof. exact eq_fit. Qed.
Example C55_svd : forall M, let '(U, V) := svd2 M in svd_of M U V.
Proof. exact svd2_ok. Qed.
Example C55_hull : keeps_extent (fun l => l).
Proof. exact id_extent. Qed.
Example C55_still : forall svd hull q pe a,
  survey svd hull converted (EKF_init still_par q pe a) (repeat (v0, eq_lla (mkV3 g_wgs84_a 0 0)) 4) = UB.
Proof. exact still_run. Qed.
Example C55_high : let t := mkV3 0 0 5 in let q := mkV3 (g_wgs84_a - 5) 0 0 in
  fits converted (PI / 2) t (map (fun y => mkV3 0 y 5) [-3; -1; 1; 3]) (map (fun y => mkV3 g_wgs84_a y 0) [-3; -1; 1; 3])
    (mkV3 0 0 0) (map (fun y => mkV3 y 0 0) [-3; -1; 1; 3]) /\
  enu_to_ecef (vopp t) (mkV3 0 0 0) = OK q /\
  (forall p, vx p = vx (mkV3 0 0 0) -> vy p = vy (mkV3 0 0 0) -> lla_to_ecef p = OK q -> converted q = p).
Proof. exact eq_high. Qed.
