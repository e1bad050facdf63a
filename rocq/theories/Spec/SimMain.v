(** The simulation program as a whole. *)
From Coq Require Import Reals List Arith Bool ZArith String Sorted.
From Verif Require Import Base.Res Base.Mat Base.RDec Base.Geom Base.AMap Model.TypeHelper Model.Types Model.Ekf
  Model.MathHelper Model.GpsHelper Model.GpsUpdater Model.ImuUpdater Model.FiducialUpdater Model.MsckfUpdater
  Model.Sensors Model.Trackers Model.TruthEngine Model.SimSensors Model.Simulation Model.SimMain
  Spec.History Spec.Same Spec.Rotation Spec.AtRest Spec.Contract Spec.Callback Spec.World.
Import ListNotations.
Open Scope R_scope.

(** *** Deliveries *)
Definition of_camera (id : nat) (m : message) : bool :=
  match m with MCam i _ _ _ _ => Nat.eqb i id | _ => false end.
(** Every camera measures at increasing times. *)
Definition in_order (ms : list message) : Prop :=
  forall id, StronglySorted Rlt (map msg_time (filter (of_camera id) ms)).

Section Deliveries.
Variable svd : m2 -> m2 * m2.
Variable hull : list (Z * Z) -> list (Z * Z).
Variable ecef_to_lla : V3 -> V3.
Variable mat_quat : mat R -> quat.
Variable solve : mat R -> V3 -> V3.
(** Whenever a message of the list is delivered, it and the program satisfy
    [P]. *)
Fixpoint each_delivery (P : world -> message -> Prop) (w : world) (l : list message) : Prop :=
  match l with
  | [] => True
  | m :: l => P w m /\ forall w', deliver svd hull ecef_to_lla mat_quat solve w m = OK w' -> each_delivery P w' l
  end.
End Deliveries.
(** All frames of all tracks of the message have a clone when the tracks are
    processed. *)
Definition tracks_stored (w : world) (m : message) : Prop :=
  match m with
  | MCam id _ frame tracks _ => per_frame (w_ekf w) id = true ->
      forall k l tr pt, In (k, l) tracks -> In tr l -> In pt (ft_track tr) -> In (fp_frame pt) (frames_after (w_ekf w) id frame)
  | _ => True
  end.

(** *** A configuration without errors for a body at rest *)
(** The fiducial ids of the boards in the order of their cameras. *)
Definition board_ids (c : sim_cfg) : list nat :=
  flat_map (fun x => match cc_board (fst x) with
                     | Some n => match named n (sc_boards c) with Some b => [fp_id (bc_par b)] | None => [] end
                     | None => []
                     end) (sc_cams c).
Record resting (ecef_to_lla : V3 -> V3) (p : V3) (q : quat) (c : sim_cfg) : Prop := mkResting {
  rs_engine : forall t, truth_of c = OK t -> still t p q;
  rs_start : at_rest p q (initial_state c);
  rs_chi2 : 0 <= p_chi2 (sc_par c);
  rs_window : (1 <= longest_track c)%nat;
  rs_imus : forall x, In x (sc_imus c) -> ic_no_errors (fst x) = true /\ qnorm2 (ip_ang (ic_par (fst x))) = 1 /\
    ip_acc_bias (ic_par (fst x)) = v0 /\ ip_omg_bias (ic_par (fst x)) = v0;
  rs_cams : forall x, In x (sc_cams c) -> cc_no_errors (fst x) = true /\ 0 < cp_rate (cc_par (fst x)) /\
    qnorm2 (cp_ang (cc_par (fst x))) = 1 /\
    forall n b, cc_board (fst x) = Some n -> named n (sc_boards c) = Some b -> qnorm2 (fp_ang (bc_par b)) = 1 /\
      representable (qmul (qmul (qinv (cp_ang (cc_par (fst x)))) (qinv q)) (fp_ang (bc_par b)));
  rs_boards : NoDup (board_ids c);
  rs_gps : forall x, In x (sc_gps c) -> gc_no_errors (fst x) = true /\ p_gps_init (sc_par c) = GConstant /\
    true_ref c = sc_ref c /\ true_heading c = sc_heading c /\
    forall y, enu_to_ecef (local_to_enu (vadd p (qrot q (gp_pos (gc_par (fst x))))) (sc_heading c)) (sc_ref c) = OK y ->
      lla_to_ecef (ecef_to_lla y) = OK y }.

(** *** The rows of body_truth.csv *)
Definition three (v : V3) : list R := [vx v; vy v; vz v].
Definition four (q : quat) : list R := [qw q; qx q; qy q; qz q].
(** The true pose and biases of a configured IMU: what its parameters say, or
    what was drawn around it. *)
Definition imu_columns (x : imu_cfg * draws) : list R :=
  let '(c, d) := x in let p := ic_par c in
  if ic_no_errors c then three (ip_pos p) ++ four (ip_ang p) ++ three (ip_acc_bias p) ++ three (ip_omg_bias p)
  else three (dr_new d (ip_pos p) (ic_pos_error c)) ++ four (QuatNormRand (dr_new_rot d) (ip_ang p)) ++
       three (dr_new d (ip_acc_bias p) (ic_acc_bias_error c)) ++ three (dr_new d (ip_omg_bias p) (ic_omg_bias_error c)).
Definition cam_columns (x : cam_cfg * draws) : list R :=
  let '(c, d) := x in let p := cc_par c in
  if cc_no_errors c then three (cp_pos p) ++ four (cp_ang p)
  else three (dr_new d (cp_pos p) (cc_pos_error c)) ++ four (QuatNormRand (dr_new_rot d) (cp_ang p)).
Definition gps_columns (x : gps_cfg * draws) : list R :=
  let '(c, d) := x in
  three (if gc_no_errors c then gp_pos (gc_par c) else dr_new d (gp_pos (gc_par c)) (gc_pos_error c)).
Definition sensor_columns (c : sim_cfg) : list R :=
  List.concat (map imu_columns (sc_imus c)) ++ List.concat (map cam_columns (sc_cams c)) ++ List.concat (map gps_columns (sc_gps c)) ++
  (match sc_gps c with [] => [] | _ => three (true_ref c) ++ [true_heading c] end).
(** The numbers of the body in a row. *)
Definition body_columns (b : body_truth) (time : R) (l : list R) : Prop :=
  exists p v a q w wa, bt_pos b time = OK p /\ bt_vel b time = OK v /\ bt_acc b time = OK a /\ bt_ang b time = OK q /\
    bt_rate b time = OK w /\ bt_ang_acc b time = OK wa /\
    l = three p ++ three v ++ three (vadd a g_gravity) ++ four q ++ three w ++ three wa.

(** *** Configurations the program can work with *)
Definition positive (v : V3) : Prop := 0 < vx v /\ 0 < vy v /\ 0 < vz v.
Definition on_earth (lla : V3) : Prop := -90 <= vx lla <= 90 /\ -180 <= vy lla <= 180.
Definition board_ok (b : board_cfg) : Prop :=
  (6 <= List.length (fp_var (bc_par b)))%nat /\ Forall (fun x => 0 <= x) (fp_var (bc_par b)).
Record sound_cfg (c : sim_cfg) : Prop := mkSound {
  so_engine : exists t, truth_of c = OK t /\ forall time, exists l, body_columns (tr_body t) time l;
  so_noise : noise_arg (sc_noise c);
  so_time : 0 <= sc_max_time c;
  so_window : (1 <= longest_track c)%nat;
  so_imus : forall x, In x (sc_imus c) -> imu_params_ok (ic_par (fst x)) /\ 0 < ic_rate (fst x);
  so_cams : forall x, In x (sc_cams c) -> cam_params_ok (cc_par (fst x)) /\ 0 < cp_rate (cc_par (fst x)) /\
    (forall n, cc_tracker (fst x) = Some n -> named n (sc_trackers c) <> None) /\
    (forall n, cc_board (fst x) = Some n -> exists b, named n (sc_boards c) = Some b /\ board_ok b);
  so_flags : forall n b n' b', named n (sc_boards c) = Some b -> named n' (sc_boards c) = Some b' ->
    fp_id (bc_par b) = fp_id (bc_par b') -> fp_ext (bc_par b) = fp_ext (bc_par b');
  so_gps : forall x, In x (sc_gps c) -> gps_params_ok (gc_par (fst x)) /\ 0 < gc_rate (fst x) /\ on_earth (true_ref c) }.
(** No GPS, no features, measurement noise everywhere. *)
Record quiet_cfg (c : sim_cfg) : Prop := mkQuiet {
  qu_root : p_root (sc_par c) = false;
  qu_scale : 0 < p_imu_scale (sc_par c);
  qu_gps : sc_gps c = [];
  qu_imus : forall x, In x (sc_imus c) -> positive (ic_acc_error (fst x)) /\ positive (ic_omg_error (fst x));
  qu_cams : forall x, In x (sc_cams c) -> cc_tracker (fst x) = None /\
    forall n b, cc_board (fst x) = Some n -> named n (sc_boards c) = Some b -> positive (bc_t_error b) /\ positive (bc_r_error b) }.
