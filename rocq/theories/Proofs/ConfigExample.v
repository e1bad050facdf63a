(** The example file; the node and the simulation on one file. *)
From Coq Require Import Reals List Arith Bool String Lia Lra.
From Verif Require Import Base.Res Base.Mat Base.RDec Base.LinAlg Base.Geom Base.AMap Base.RMat Model.TypeHelper Model.Types Model.Ekf Model.Sensors
  Model.TruthEngine Model.SimSensors Model.Simulation Model.RosNode Model.SimMain Model.SimConfig
  Spec.History Spec.Contract Spec.Callback Spec.World Spec.SimMain Spec.Ros Spec.Config Spec.ConfigRos Spec.ExampleFile
  Proofs.SimTotal Proofs.Config Proofs.ConfigKeys Proofs.ConfigNeeds.
Import ListNotations.
Open Scope R_scope.

Lemma example_asserts : forall fit rnd, read_config true fit example_file rnd = UB.
Proof. reflexivity. Qed.

Ltac in_list := match goal with |- forall x, In x _ -> _ => intros x [<-|[]]; cbn [fst snd ic_par ip_ext ip_int ip_var ic_rate cc_par cp_rate cp_ext cc_tracker cc_board gc_par gc_rate gp_ext] end.
Lemma example_sound : forall fit rnd,
  on_earth (mkV3 (rd_scalar rnd 2 0 (GpsHelper.wgs84_m_to_deg 1)) (rd_scalar rnd 3 0 (GpsHelper.wgs84_m_to_deg 1)) (rd_scalar rnd 4 0 1)) ->
  exists c, read_config false fit example_file rnd = OK c /\ sound_cfg c /\ sc_ang c = qid /\
    (forall x, In x (sc_gps c) -> gc_pos_error (fst x) = v0) /\ (forall x, In x (sc_trackers c) -> tc_min_dist (snd x) = 1).
Proof.
  intros fit rnd E. eexists. split; [lazy -[Rdiv Rmult Rmax IZR INR Ropp Rinv StdToEigQuat]; reflexivity|].
  split; [|split; [reflexivity|split; intros x [<-|[]]; reflexivity]]. constructor.
  - eexists. split; [reflexivity|]. intros time. eexists. do 6 eexists. repeat (split; [reflexivity|]). reflexivity.
  - split; [reflexivity|]. intros i L. cbn [sc_noise ent]. do 18 (destruct i as [|i]; [cbn; lra|]). lia.
  - cbn [sc_max_time]. lra.
  - unfold longest_track, board_max_len. cbn. lia.
  - in_list. split; [|lra]. repeat split; try discriminate. cbn. lia.
  - in_list.
    split; [split; [cbn; intros Z; lra|discriminate]|]. split; [lra|]. split; [intros n H; injection H as <-; discriminate|discriminate].
  - intros n b n' b' H H' _. cbn [sc_boards named] in H, H'. destruct (String.eqb "charuco" n); [|discriminate]. destruct (String.eqb "charuco" n'); [|discriminate].
    injection H as <-. injection H' as <-. reflexivity.
  - in_list. split; [intros H; discriminate|]. split; [lra|]. exact E.
Qed.
(** The same file with the extrinsic calibration of the IMU switched on. *)
Definition calibrating_file : ynode := put (part "imu" "imu_1" ["is_extrinsic"%string]) yes example_file.
Lemma calibrating_sound : forall fit rnd,
  on_earth (mkV3 (rd_scalar rnd 2 0 (GpsHelper.wgs84_m_to_deg 1)) (rd_scalar rnd 3 0 (GpsHelper.wgs84_m_to_deg 1)) (rd_scalar rnd 4 0 1)) ->
  exists c, read_config false fit calibrating_file rnd = OK c /\ sound_cfg c /\ forall x, In x (sc_imus c) -> ip_ext (ic_par (fst x)) = true.
Proof.
  intros fit rnd E. eexists. split; [lazy -[Rdiv Rmult Rmax IZR INR Ropp Rinv StdToEigQuat]; reflexivity|].
  split; [|intros x [<-|[]]; reflexivity]. constructor.
  - eexists. split; [reflexivity|]. intros time. eexists. do 6 eexists. repeat (split; [reflexivity|]). reflexivity.
  - split; [reflexivity|]. intros i L. cbn [sc_noise ent]. do 18 (destruct i as [|i]; [cbn; lra|]). lia.
  - cbn [sc_max_time]. lra.
  - unfold longest_track, board_max_len. cbn. lia.
  - in_list. split; [|lra]. split; [intros _; cbn; lra|]. split; [discriminate|cbn; lia].
  - in_list. split; [split; [cbn; intros Z; lra|discriminate]|]. split; [lra|]. split; [intros n H; injection H as <-; discriminate|discriminate].
  - intros n b n' b' H H' _. cbn [sc_boards named] in H, H'. destruct (String.eqb "charuco" n); [|discriminate]. destruct (String.eqb "charuco" n'); [|discriminate].
    injection H as <-. injection H' as <-. reflexivity.
  - in_list. split; [intros H; discriminate|]. split; [lra|]. exact E.
Qed.
Lemma sound_runs : forall asserts fit project g f rnd c, read_config asserts fit f rnd = OK c -> sound_cfg c ->
  exists r, simulation_setup asserts fit project g f rnd = OK r.
Proof.
  intros asserts fit project g f rnd c R S. unfold simulation_setup. rewrite R. cbn [bind].
  destruct (main_total (fun m => (m, m)) (fun l => l) g (fun _ => qid) (fun _ v => v) project c S) as [ms [w [t [H _]]]]. eauto.
Qed.
Lemma calibrating_runs : forall fit rnd project g,
  on_earth (mkV3 (rd_scalar rnd 2 0 (GpsHelper.wgs84_m_to_deg 1)) (rd_scalar rnd 3 0 (GpsHelper.wgs84_m_to_deg 1)) (rd_scalar rnd 4 0 1)) ->
  exists r, simulation_setup false fit project g calibrating_file rnd = OK r.
Proof. intros fit rnd project g E. destruct (calibrating_sound fit rnd E) as [c [R [S _]]]. eapply sound_runs; eauto. Qed.
Lemma calibrating_lists : names calibrating_file (top ["imu_list"%string]) ["imu_1"%string] /\
  yes_no calibrating_file (part "imu" "imu_1" ["is_extrinsic"%string]) = Some true.
Proof. split; [|reflexivity]. unfold names. cbn. constructor; [|constructor]. eexists. split; reflexivity. Qed.
(** A key that is looked at. *)
Lemma distance_matters : forall fit rnd, exists c, read_config false fit (put (part "tracker" "orb" ["min_feat_dist"%string]) (num 7) example_file) rnd = OK c /\
  forall x, In x (sc_trackers c) -> tc_min_dist (snd x) = 7.
Proof.
  intros fit rnd. eexists. split; [lazy -[Rdiv Rmult Rmax IZR INR Ropp Rinv StdToEigQuat]; reflexivity|]. intros x [<-|[]]. reflexivity.
Qed.
Theorem example_runs : forall fit rnd project g,
  on_earth (mkV3 (rd_scalar rnd 2 0 (GpsHelper.wgs84_m_to_deg 1)) (rd_scalar rnd 3 0 (GpsHelper.wgs84_m_to_deg 1)) (rd_scalar rnd 4 0 1)) ->
  exists r, simulation_setup false fit project g example_file rnd = OK r.
Proof.
  intros fit rnd project g E. destruct (example_sound fit rnd E) as [c [R [S _]]]. eapply sound_runs; eauto.
Qed.

(** *** The node *)
Lemma aug_number_inj : forall a b, aug_number a = aug_number b -> a = b.
Proof. destruct a, b; cbn; congruence. Qed.
Lemma init_number_inj : forall a b, init_number a = init_number b -> a = b.
Proof. destruct a, b; cbn; congruence. Qed.
Lemma dflt_same : forall A (d d' : A) o, o <> None -> dflt d o = dflt d' o.
Proof. intros A d d' [x|] H; [reflexivity|congruence]. Qed.
Lemma row_same : forall f p d l m, row f p d l -> row f p d m -> l = m.
Proof.
  intros f p d l m. unfold row. destruct (lookup p f) as [[| | |]|]; try congruence.
  apply forall2_same. intros a b c (s & -> & E1) (s' & E & E2). injection E as <-. congruence.
Qed.
Lemma map_nil : forall A B (g : A -> B) l, map g l = [] -> l = []. Proof. intros A B g [|x l] H; [reflexivity|discriminate]. Qed.
Theorem same_filter : forall asserts asserts' fit f rnd s junk c e, read_config asserts fit f rnd = OK s -> ros_says f c -> cloning_set f ->
  ros_Initialize asserts' junk c = OK e -> exists q, e = EKF_init (sim_params s) q (sc_ref s) (sc_heading s).
Proof.
  intros asserts asserts' fit f rnd s junk c e Hr Hs [C1 [C2 [C3 C4]]] He.
  destruct (config_read _ _ _ _ _ Hr) as [Fr [_ [Se _]]].
  unfold ros_Initialize in He. apply bind_OK in He. destruct He as [pb [_ He]]. apply bind_OK in He. destruct He as [pe [Hpe He]]. injection He as <-.
  exists (RosNode.LoadProcessNoise junk c).
  assert (P : pe = sc_ref s).
  { unfold to_V3 in Hpe. apply bind_OK in Hpe. destruct Hpe as [v [Hv Hpe]]. unfold StdToEigVecX in Hv. apply bind_OK in Hv. destruct Hv as [_ [_ Hv]]. injection Hv as <-.
    pose proof (row_same _ _ _ _ _ (rs_ref _ _ Hs) (fr_ref _ _ Fr)) as X. unfold get in Hpe. unfold dflt in X. rewrite X in Hpe.
    cbn in Hpe. injection Hpe as <-. destruct (sc_ref s). reflexivity. }
  assert (Hh : get (rc_ang_l_to_e c) 0 = sc_heading s) by (rewrite (rs_heading _ _ Hs), (fr_heading _ _ Fr); reflexivity).
  rewrite P, Hh. f_equal.
  assert (A : get (rc_aug c) ANone = p_aug (sc_par s)).
  { apply aug_number_inj. rewrite (fr_aug _ _ Fr). rewrite <- (rs_aug _ _ Hs) in C1 |- *. destruct (rc_aug c); [reflexivity|exfalso; apply C1; reflexivity]. }
  assert (T : (rc_trackers c = [] /\ sc_trackers s = []) \/ (rc_trackers c <> [] /\ sc_trackers s <> [])).
  { destruct (se_trackers _ _ _ Se) as [ns [N F2]]. pose proof (names_same _ _ _ _ N (rs_trackers _ _ Hs)) as X. subst ns.
    pose proof (F2_length _ _ _ _ _ F2) as L. rewrite map_length in L. destruct (rc_trackers c), (sc_trackers s); try discriminate; [left|right]; split; congruence. }
  assert (G : get (rc_gps_init c) GConstant = p_gps_init (sc_par s)).
  { apply init_number_inj. rewrite (fr_gps _ _ Fr). rewrite <- (rs_gps _ _ Hs). destruct (rc_gps_init c); reflexivity. }
  assert (Q : mkParams (p_aug (sc_par s)) (get (rc_aug_dt c) 0) (get (rc_aug_pos c) 0) (get (rc_aug_ang c) 0)
    (get (rc_gps_init c) GConstant) (get (rc_gps_baseline c) 1) (get (rc_gps_pos c) 1) (get (rc_gps_ang c) 1)
    (get (rc_chi2 c) 1) (get (rc_imu_scale c) 100) (get (rc_root c) true) (get (rc_fej c) false) = sc_par s).
  { rewrite G, (rs_aug_dt _ _ Hs), (rs_aug_pos _ _ Hs), (rs_aug_ang _ _ Hs), (rs_baseline _ _ Hs), (rs_pos_thresh _ _ Hs), (rs_ang_thresh _ _ Hs),
      (rs_chi2 _ _ Hs), (rs_scale _ _ Hs), (rs_root _ _ Hs), (rs_fej _ _ Hs).
    pose proof (fr_aug_dt _ _ Fr) as D1. pose proof (fr_aug_pos _ _ Fr) as D2. pose proof (fr_aug_ang _ _ Fr) as D3.
    rewrite (dflt_same _ 1 0 _ C2) in D1. rewrite (dflt_same _ (1 / 10) 0 _ C3) in D2. rewrite (dflt_same _ (1 / 10) 0 _ C4) in D3.
    pose proof (fr_baseline _ _ Fr) as D4. pose proof (fr_pos_thresh _ _ Fr) as D5. pose proof (fr_ang_thresh _ _ Fr) as D6. pose proof (fr_chi2 _ _ Fr) as D7.
    pose proof (fr_scale _ _ Fr) as D8. pose proof (fr_root _ _ Fr) as D9. pose proof (fr_fej _ _ Fr) as D10.
    destruct (sc_par s). cbn in *. unfold get, dflt in *. congruence. }
  unfold LoadFilterParameters, sim_params. destruct T as [[T1 T2]|[T1 T2]].
  - rewrite T1, T2. rewrite <- Q. reflexivity.
  - destruct (rc_trackers c); [congruence|]. destruct (sc_trackers s); [congruence|]. rewrite A. exact Q.
Qed.

(** Two lines: a tracker is listed, nothing else is said. *)
Definition bare_file : ynode := (YMap [("/EkfCalNode", YMap [("ros__parameters", YMap [("tracker_list", YSeq [word "t"])])])])%string.
Definition bare_ros : RosConfig :=
  mkRosConfig None None None None None None None None None None None None None None None None None None None
    [] [] [("t"%string, mkRawTracker None None None)] [] [].
Lemma bare_says : ros_says bare_file bare_ros.
Proof.
  constructor; try reflexivity. unfold names. cbn. constructor; [|constructor]. eexists. split; reflexivity.
Qed.
Theorem defaults_differ : exists f c, ros_says f c /\ forall fit rnd junk, exists s e,
  read_config false fit f rnd = OK s /\ ros_Initialize false junk c = OK e /\ p_aug (e_par e) = ANone /\ p_aug (sim_params s) = AAll.
Proof.
  exists bare_file, bare_ros. split; [exact bare_says|]. intros fit rnd junk. eexists. eexists. split; [reflexivity|]. split; [reflexivity|]. split; reflexivity.
Qed.
(** The example file as the node gets it. *)
Definition example_ros : RosConfig :=
  mkRosConfig (Some AAll) (Some 0) (Some (1 / 10)) (Some (1 / 10)) (Some 1) (Some (1 / 10)) (Some 1) (Some [0; 0; 0]) (Some [0; 0; 0])
    (Some [0; 0; 0]) (Some 0) (Some GConstant) (Some 100) (Some 1) (Some (1 / 10)) (Some 1) None (Some true) (Some true)
    [] [] [("orb"%string, mkRawTracker (Some (1 / 2)) None (Some 20%nat))] [] [].
Lemma example_says : ros_says example_file example_ros /\ cloning_set example_file.
Proof.
  split; [|repeat split; discriminate]. constructor; try reflexivity.
  - unfold row. cbn. repeat constructor; eexists; split; reflexivity.
  - unfold names. cbn. constructor; [|constructor]. eexists. split; reflexivity.
Qed.

(** *** The properties *)
Lemma settings : forall asserts fit f rnd c, read_config asserts fit f rnd = OK c -> filter_read f c /\ sim_read fit rnd f c /\ sensors_read rnd f c.
Proof. intros asserts fit f rnd c H. destruct (config_read _ _ _ _ _ H) as [A [B [C _]]]. auto. Qed.
Lemma alike_files : forall asserts fit rnd f g, alike file_keys f g -> read_config asserts fit f rnd = read_config asserts fit g rnd.
Proof. intros. apply config_alike. assumption. Qed.
Lemma ignored_keys : forall asserts fit rnd f p v, documented_only p -> read_config asserts fit (put p v f) rnd = read_config asserts fit f rnd.
Proof. intros. apply documented_ignored. assumption. Qed.
Lemma others : forall asserts fit project g f rnd r, simulation_setup asserts fit project g f rnd = OK r ->
  In (dflt "cyclic"%string (said f (sim "truth_type"))) ["cyclic"; "smoother"; "spline"]%string /\
  forall ns n, names f (top ["gps_list"%string]) ns -> In n ns -> dflt 1 (number f (part "gps" n ["rate"%string])) <> 0.
Proof. intros asserts fit project g f rnd r H. split; [eapply truth_known; eauto|eapply gps_rate; eauto]. Qed.
Lemma example_aborts : exists f, f = example_file /\ forall fit project g rnd, simulation_setup true fit project g f rnd = UB.
Proof. exists example_file. split; [reflexivity|]. intros. unfold simulation_setup. rewrite example_asserts. reflexivity. Qed.
