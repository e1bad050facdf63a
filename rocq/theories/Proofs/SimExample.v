(** A configuration of the simulation program: one IMU, one camera with a
    board, with or without feature tracking; the body does not move. *)
From Coq Require Import Reals List Arith Bool ZArith String Lia Lra Sorted.
From Verif Require Import Base.Res Base.Mat Base.RDec Base.Geom Base.AMap Model.TypeHelper Model.Types Model.Ekf
  Model.MathHelper Model.EigenQuat Model.GpsHelper Model.GpsUpdater Model.ImuUpdater Model.FiducialUpdater Model.MsckfUpdater
  Model.Sensors Model.Trackers Model.TruthEngine Model.SimSensors Model.Simulation Model.SimMain
  Spec.History Spec.Same Spec.Rotation Spec.AtRest Spec.Contract Spec.Callback Spec.World Spec.SimMain
  Proofs.Update Proofs.Rotations Proofs.Demo Proofs.WorldFinals Proofs.AtRestFinals Proofs.Sim Proofs.SimTotal.
Import ListNotations.
Open Scope R_scope.

Definition no_draws : draws := mkDraws 0 (fun _ => 0) (fun a _ => a) v0 (fun a _ => a) v0 (fun _ a _ => a) (fun _ => v0) (fun _ _ => []).
Definition ones : V3 := mkV3 1 1 1.
Definition sim_demo (a : AugType) (tk : option string) : sim_cfg :=
  mkSC (demo_par a false) demo_noise v0 0 v0 qid v0 v0 0 v0 (EngCyclic rest_engine) 1 2
    [(mkIC ex_imu 2 true ones ones v0 v0 v0, no_draws)] [("points"%string, mkTC 1 0 2 1 1 true)]
    [("board"%string, mkBC ex_fid v0 ones ones true)]
    [(mkCC ex_cam v0 true tk (Some "board"%string), no_draws)] [] (fun a _ => a) (fun _ m _ => m).
Definition listed (tk : option string) : Prop := tk = None \/ tk = Some "points"%string.
Lemma demo_sound : forall a tk, listed tk -> sound_cfg (sim_demo a tk).
Proof.
  intros a tk LT. constructor.
  - eexists. split; [reflexivity|]. intros time. eexists. do 6 eexists. repeat (split; [reflexivity|]). reflexivity.
  - apply demo_noise_arg.
  - cbn. lra.
  - unfold longest_track, sim_demo, board_max_len. cbn. lia.
  - intros x [<-|[]]. split; [apply ex_imu_ok|cbn; lra].
  - intros x [<-|[]]. cbn [fst cc_par cc_tracker cc_board]. split; [apply ex_cam_ok|]. split; [cbn; lra|]. split.
    + intros n E. destruct LT as [->| ->]; [discriminate|]. injection E as <-. discriminate.
    + intros n E. injection E as <-. exists (mkBC ex_fid v0 ones ones true). split; [reflexivity|]. split; [cbn; lia|apply ten_ok].
  - intros n b n' b' E E' _. unfold sim_demo in E, E'. cbn [sc_boards named] in E, E'. destruct (String.eqb "board" n); [|discriminate]. destruct (String.eqb "board" n'); [|discriminate].
    injection E as <-. injection E' as <-. reflexivity.
  - intros x [].
Qed.
Lemma demo_quiet : forall a, quiet_cfg (sim_demo a None).
Proof.
  intros a. constructor.
  - reflexivity.
  - cbn. lra.
  - reflexivity.
  - intros x [<-|[]]. cbn. unfold positive. cbn. lra.
  - intros x [<-|[]]. cbn [fst cc_tracker cc_board]. split; [reflexivity|]. intros n b E E'. injection E as <-. cbn in E'. injection E' as <-. unfold positive. cbn. lra.
Qed.
Lemma demo_resting : forall a tk g, resting g v0 qid (sim_demo a tk).
Proof.
  intros a tk g. constructor.
  - intros t E. injection E as <-. apply (cyclic_still rest_engine); reflexivity.
  - unfold at_rest, initial_state, sim_demo. cbn [b_pos b_vel b_acc b_ang b_ang_vel b_ang_acc sc_vec sc_scalar sc_pos sc_pos_error sc_ang sc_ang_error].
    repeat (split; [reflexivity|]). split; [|split; reflexivity].
    unfold angle_axis_quat. rewrite Rmult_0_r, cos_0, sin_0. unfold qmul, qid. cbn. f_equal; ring.
  - cbn. lra.
  - unfold longest_track, sim_demo, board_max_len. cbn. lia.
  - intros x [<-|[]]. split; [reflexivity|]. split; [unfold qnorm2; cbn; ring|]. split; reflexivity.
  - intros x [<-|[]]. cbn [fst cc_par cc_no_errors cc_board]. split; [reflexivity|]. split; [cbn; lra|]. split; [unfold qnorm2; cbn; ring|].
    intros n b E E'. injection E as <-. cbn in E'. injection E' as <-. split; [unfold qnorm2; cbn; ring|].
    change (cp_ang ex_cam) with qid. cbn [bc_par]. change (fp_ang ex_fid) with qid. rewrite qid_inv, qid_mul, qid_mul. left. rewrite quat_rotvec_id. apply vnorm_0.
  - cbn. constructor; [intros []|constructor].
  - intros x [].
Qed.
Lemma demo_cameras : forall a tk x, In x (sc_cams (sim_demo a tk)) -> cc_no_errors (fst x) = true /\ 0 < cp_rate (cc_par (fst x)).
Proof. intros a tk x [<-|[]]. split; [reflexivity|cbn; lra]. Qed.
Lemma demo_whole : forall svd hull g mat_quat solve a, exists ms w t rows w', sim_setup pinhole g (sim_demo a None) = OK (ms, w, t) /\
  sim_main svd hull g mat_quat solve pinhole (sim_demo a None) (sort_messages ms) = OK (rows, w') /\ List.length rows = 4%nat.
Proof.
  intros svd hull g mat_quat solve a.
  destruct (main_total svd hull g mat_quat solve pinhole _ (demo_sound a None (or_introl eq_refl))) as [ms [w [t [E H]]]].
  destruct (H (demo_quiet a)) with (sm := sort_messages ms) as [rows [w' R]]; [cbn; lra|apply Proofs.Sim.sort_exists|].
  exists ms, w, t, rows, w'. split; [exact E|]. split; [exact R|].
  destruct (truth_file _ _ _ _ _ _ _ _ _ _ R) as [_ [L _]]. destruct L as [L1 L2]; [cbn; lra|].
  assert (Q : (sc_max_time (sim_demo a None) + 1) * sc_log_rate (sim_demo a None) = INR 4) by (cbn; lra). rewrite Q in L1, L2.
  apply INR_le in L1. rewrite <- S_INR in L2. apply INR_lt in L2. lia.
Qed.
(** The same without trackers. *)
Lemma main_replay : forall svd hull g mat_quat solve project c ms w t sm rows w', sim_setup project g c = OK (ms, w, t) ->
  sim_main svd hull g mat_quat solve project c sm = OK (rows, w') -> replay svd hull g mat_quat solve w sm = OK w'.
Proof.
  intros svd hull g mat_quat solve project c ms w t sm rows w' E R. unfold sim_main in R. rewrite E in R. cbn [bind] in R.
  destruct (if Reqb _ _ then _ else _); [|discriminate]. cbn [bind] in R.
  destruct (replay _ _ _ _ _ _ _) as [u|] eqn:Q; [|discriminate]. cbn [bind] in R. injection R as _ <-. reflexivity.
Qed.
Definition bare_demo (a : AugType) : sim_cfg :=
  mkSC (demo_par a false) demo_noise v0 0 v0 qid v0 v0 0 v0 (EngCyclic rest_engine) 1 2
    [(mkIC ex_imu 2 true ones ones v0 v0 v0, no_draws)] []
    [("board"%string, mkBC ex_fid v0 ones ones true)]
    [(mkCC ex_cam v0 true None (Some "board"%string), no_draws)] [] (fun a _ => a) (fun _ m _ => m).
Lemma bare_whole : forall svd hull g mat_quat solve a, exists ms w t w', sc_trackers (bare_demo a) = [] /\
  sim_setup pinhole g (bare_demo a) = OK (ms, w, t) /\ replay svd hull g mat_quat solve w (sort_messages ms) = OK w'.
Proof.
  intros svd hull g mat_quat solve a.
  assert (SO : sound_cfg (bare_demo a)).
  { constructor.
    - eexists. split; [reflexivity|]. intros time. eexists. do 6 eexists. repeat (split; [reflexivity|]). reflexivity.
    - apply demo_noise_arg.
    - cbn. lra.
    - unfold longest_track, bare_demo, board_max_len. cbn. lia.
    - intros x [<-|[]]. split; [apply ex_imu_ok|cbn; lra].
    - intros x [<-|[]]. cbn [fst cc_par cc_tracker cc_board]. split; [apply ex_cam_ok|]. split; [cbn; lra|]. split.
      + intros n E. discriminate.
      + intros n E. injection E as <-. exists (mkBC ex_fid v0 ones ones true). split; [reflexivity|]. split; [cbn; lia|apply ten_ok].
    - intros n b n' b' E E' _. unfold bare_demo in E, E'. cbn [sc_boards named] in E, E'. destruct (String.eqb "board" n); [|discriminate]. destruct (String.eqb "board" n'); [|discriminate].
      injection E as <-. injection E' as <-. reflexivity.
    - intros x []. }
  assert (QU : quiet_cfg (bare_demo a)).
  { constructor.
    - reflexivity.
    - cbn. lra.
    - reflexivity.
    - intros x [<-|[]]. cbn. unfold positive. cbn. lra.
    - intros x [<-|[]]. cbn [fst cc_tracker cc_board]. split; [reflexivity|]. intros n b E E'. injection E as <-. cbn in E'. injection E' as <-. unfold positive. cbn. lra. }
  destruct (main_total svd hull g mat_quat solve pinhole _ SO) as [ms [w [t [E H]]]].
  destruct (H QU) with (sm := sort_messages ms) as [rows [w' R]]; [cbn; lra|apply Proofs.Sim.sort_exists|].
  exists ms, w, t, w'. split; [reflexivity|]. split; [exact E|]. exact (main_replay _ _ _ _ _ _ _ _ _ _ _ _ _ E R).
Qed.
