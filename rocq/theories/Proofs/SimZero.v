(** A maximum track length of 0 in the simulation program. *)
From Coq Require Import Reals List Arith Bool ZArith String Lia Lra Sorted Permutation.
From Verif Require Import Base.Res Base.Mat Base.RDec Base.Geom Base.AMap Model.TypeHelper Model.Types Model.Ekf
  Model.MathHelper Model.GpsHelper Model.GpsUpdater Model.ImuUpdater Model.FiducialUpdater Model.MsckfUpdater
  Model.Sensors Model.Trackers Model.TruthEngine Model.SimSensors Model.Simulation Model.SimMain
  Spec.History Spec.Same Spec.Rotation Spec.Tracks Spec.AtRest Spec.Contract Spec.SimMain
  Proofs.Same Proofs.Follows Proofs.ZeroStep Proofs.RestLookup Proofs.Windows Proofs.SteadyFrames Proofs.SimGen Proofs.SimMain Proofs.WindowSize
  Proofs.Demo Proofs.WorldFinals Proofs.AtRestFinals Proofs.SimTotal Proofs.SimExample.
Import ListNotations.
Open Scope nat_scope.

Section Zero.
Variable svd : m2 -> m2 * m2.
Variable hull : list (Z * Z) -> list (Z * Z).
Variable ecef_to_lla : V3 -> V3.
Variable mat_quat : mat R -> quat.
Variable solve : mat R -> V3 -> V3.
Lemma camera_zero : forall w id t frame tracks boards, mfind id (w_sensors w) <> None -> p_aug (e_par (w_ekf w)) = AAll ->
  e_max_len (w_ekf w) = 0 -> frames_at (w_ekf w) id = [] ->
  deliver svd hull ecef_to_lla mat_quat solve w (MCam id t frame tracks boards) = UB.
Proof.
  intros w id t frame tracks boards N A M F. unfold deliver. cbn [msg_id]. destruct (mfind id (w_sensors w)) as [s|]; [clear N|congruence].
  destruct s as [u|u|trs fids]; try reflexivity. unfold sim_camera_Callback.
  destruct (CalculateLocalTime (w_ekf w) t) as [lt e0] eqn:EL.
  destruct (PredictModel e0 lt) as [e1|] eqn:EP; [|reflexivity]. cbn [bind].
  destruct (steady_trans _ _ _ _ (steady_local id _ _ _ _ EL) (steady_predict id _ _ _ EP)) as [S1 [S2 [S3 S4]]].
  assert (PF : forall k, per_frame (w_ekf w) k = true) by (intros k; unfold per_frame; rewrite A; reflexivity).
  rewrite window_zero; [reflexivity| | |].
  - unfold per_frame. rewrite S1, A. reflexivity.
  - congruence.
  - apply (map_eq_nil a_frame). change (frames_at e1 id = []). rewrite S4 by (left; apply PF). exact F.
Qed.
Definition camera_message (m : message) : bool := match m with MCam _ _ _ _ _ => true | _ => false end.
Lemma replay_zero : forall sm w, Forall (fun m => mfind (msg_id m) (w_sensors w) <> None) sm -> p_aug (e_par (w_ekf w)) = AAll ->
  e_max_len (w_ekf w) = 0 -> (forall id, frames_at (w_ekf w) id = []) -> existsb camera_message sm = true ->
  replay svd hull ecef_to_lla mat_quat solve w sm = UB.
Proof.
  induction sm as [|m sm IH]; intros w I A M F X; [discriminate|]. inversion I as [|? ? I1 I2]; subst.
  cbn [replay]. destruct (deliver svd hull ecef_to_lla mat_quat solve w m) as [w'|] eqn:D; [|reflexivity]. cbn [bind].
  assert (NC : camera_message m = false).
  { destruct m; try reflexivity. rewrite (camera_zero w id t frame tracks boards I1 A M (F id)) in D. discriminate. }
  cbn [existsb] in X. rewrite NC in X. cbn [orb] in X.
  assert (DS := fun k => deliver_steady _ _ _ _ _ w m w' k D I1). destruct (DS 0) as [D1 [_ [D3 _]]].
  apply IH; try congruence.
  - eapply Forall_impl; [|exact I2]. cbv beta. intros x Q. eapply deliver_sensors; eauto.
  - intros id. destruct (DS id) as [_ [_ [_ D4]]]. rewrite D4 by (unfold per_frame; rewrite A; reflexivity).
    destruct m; cbn [own_frame]; try apply F. discriminate.
Qed.
Theorem length_zero : forall project c ms w t sm, sim_setup project ecef_to_lla c = OK (ms, w, t) -> longest_track c = 0 ->
  sc_trackers c <> [] -> p_aug (sc_par c) = AAll -> sort_result ms sm -> (exists id m, In m ms /\ of_camera id m = true) ->
  replay svd hull ecef_to_lla mat_quat solve w sm = UB.
Proof.
  intros project c ms w t sm H L T A [P _] X.
  destruct (setup_grows_any 1 _ _ _ _ _ _ ltac:(intros n a E; pose proof (longest_ge c n a E); lia) H) as [t0 [_ [_ [_ [[S1 S2] [_ [_ [I _]]]]]]]].
  destruct S2 as [S2 [_ [_ [_ S6]]]]. apply replay_zero.
  - apply Forall_forall. intros m Q. rewrite Forall_forall in I. apply I. eapply Permutation_in; [apply Permutation_sym; exact P|exact Q].
  - rewrite S1. cbn. unfold sim_params. destruct (sc_trackers c); [congruence|exact A].
  - rewrite S2. cbn. exact L.
  - intros id. rewrite S6. reflexivity.
  - destruct X as [id [m [X1 X2]]]. apply existsb_exists. exists m. split; [eapply Permutation_in; [exact P|exact X1]|].
    destruct m; try discriminate. reflexivity.
Qed.
End Zero.

(** *** A case *)
Open Scope R_scope.
Definition plain_cam : CamParams := mkCP false 10 1 1 v0 qid ex_intr ten.
Definition zero_demo : sim_cfg :=
  mkSC (demo_par AAll false) demo_noise v0 0 v0 qid v0 v0 0 v0 (EngCyclic rest_engine) 1 2
    [] [("points"%string, mkTC 1 0 0 1 1 true)] [] [(mkCC plain_cam v0 true None None, no_draws)] [] (fun a _ => a) (fun _ m _ => m).
Lemma bare_refresh : forall e id st, e_size e = 18%nat -> s_imu (e_state e) = [] -> s_gps (e_state e) = [] ->
  s_cam (e_state e) = [(id, st)] -> s_fid (e_state e) = [] -> is_root e = false -> c_ext st = false -> nr (e_bodyQ e) = 18%nat ->
  exists e', RefreshIndices e = OK e'.
Proof.
  intros e id st N I G K D Rt X B. unfold RefreshIndices. rewrite N, I, G, K, D, Rt.
  assert (E : exists Q, set_block (RMat.mzero 18 18) 0 0 g_body_state_size g_body_state_size (RMat.mdiag (e_bodyQ e)) = OK Q).
  { unfold set_block, RMat.mzero, mconst, RMat.mdiag. cbn [nr nc]. rewrite B. cbn. eauto. }
  destruct E as [Q E]. rewrite E. cbn [bind refresh_imus refresh_gpss refresh_cams refresh_fids].
  destruct st; cbn in X; subst; cbn [cam_with_index c_ext bind].
  destruct (refresh_augs (s_aug (e_state e)) (0 + g_body_state_size)) as [am c5]. eauto.
Qed.
Lemma bare_registers : forall e id st C, e_size e = 18%nat -> s_imu (e_state e) = [] ->
  s_gps (e_state e) = [] -> s_cam (e_state e) = [] -> s_fid (e_state e) = [] -> is_root e = false -> c_rate st <> 0 -> c_ext st = false ->
  nr (e_bodyQ e) = 18%nat -> exists e', RegisterCamera e id st C = OK e'.
Proof.
  intros e id st C N I G K D Rt Rd X B. unfold RegisterCamera. rewrite K. cbn [mfind]. unfold RMat.rdiv.
  assert (E1 : Reqb (c_rate st) 0 = false) by (unfold Reqb; destruct (Req_EM_T (c_rate st) 0); [contradiction|reflexivity]).
  rewrite E1, X. cbn [bind]. eapply bare_refresh with (id := id) (st := st).
  all: match goal with |- context [Nat.eqb ?a 0] => destruct (Nat.eqb a 0) | _ => idtac end.
  all: cbn [e_state e_size with_state with_primary with_periods state_with_cam s_imu s_gps s_cam s_fid s_aug e_bodyQ]; try assumption;
   try (rewrite K; reflexivity).
Qed.
Lemma plain_frames : forall project id d times cn t i, exists ms cn' t', 
  sim_frames project id d None cn t i None times = OK (ms, cn', t') /\ (forall x l, times = x :: l -> exists m l', ms = m :: l' /\ of_camera id m = true).
Proof.
  intros project id d. induction times as [|x times IH]; intros cn t i; cbn [sim_frames].
  - exists [], cn, t. split; [reflexivity|discriminate].
  - destruct (GenerateFrameID cn) as [f cn1]. cbn [bind]. destruct (IH cn1 t (S i)) as [ms [cn' [t' [E _]]]]. rewrite E. cbn [bind].
    eexists _, cn', t'. split; [reflexivity|]. intros y l Y. injection Y as <- <-. eexists _, ms. split; [reflexivity|]. cbn. apply Nat.eqb_refl.
Qed.
Lemma plain_added : forall project tks bds w t c d, e_size (w_ekf w) = 18%nat -> s_imu (e_state (w_ekf w)) = [] ->
  s_gps (e_state (w_ekf w)) = [] -> s_cam (e_state (w_ekf w)) = [] -> s_fid (e_state (w_ekf w)) = [] -> is_root (w_ekf w) = false ->
  nr (e_bodyQ (w_ekf w)) = 18%nat -> cp_ext (cc_par c) = false -> 0 < cp_rate (cc_par c) -> 1 <= tr_max_time t * cp_rate (cc_par c) -> 
  cc_tracker c = None -> cc_board c = None ->
  exists ms w' t', add_cam project tks bds w t (c, d) = OK (ms, w', t') /\ exists id m, In m ms /\ of_camera id m = true.
Proof.
  intros project tks bds w t c d N I G K D Rt B X Rp T T1 T2. unfold add_cam. rewrite T1, T2. cbn [chosen bind]. unfold camera_new, cam_new.
  destruct (new_sensor_id (w_cnt w)) as [id cn]. destruct (bare_registers (w_ekf w) id (cam_state_of (cc_par c)) (diag_of (MinBoundVector (cp_var (cc_par c)) (1 / 1000000)))) as [e' E];
    [assumption..| | |assumption|].
  { cbn. lra. } { destruct c as [[ ] ]; cbn in *; subst; reflexivity. }
  rewrite E. cbn [bind add_trackers add_fiducials].
  set (t1 := sim_cam_new t id (cc_no_errors c) (cc_par c) (cc_pos_error c) (dr_new d) (dr_new_rot d)).
  assert (TM : tr_max_time t1 = tr_max_time t) by (unfold t1, sim_cam_new; destruct (cc_no_errors c); reflexivity). rewrite TM. unfold GenerateMeasurementTimes, guard.
  assert (E1 : Reqb (cp_rate (cc_par c)) 0 = false) by (unfold Reqb; destruct (Req_EM_T (cp_rate (cc_par c)) 0); [lra|reflexivity]).
  assert (E2 : Rleb 0 (tr_max_time t * cp_rate (cc_par c)) = true) by (unfold Rleb; destruct (Rle_dec 0 (tr_max_time t * cp_rate (cc_par c))); [reflexivity|lra]).
  rewrite E1, E2. cbn [negb bind].
  assert (P : (1 <= Int_part (tr_max_time t * cp_rate (cc_par c)))%Z).
  { destruct (base_Int_part (tr_max_time t * cp_rate (cc_par c))) as [_ L]. assert (0 < IZR (Int_part (tr_max_time t * cp_rate (cc_par c)))) by lra. apply lt_IZR in H. lia. }
  destruct (Z.to_nat (Int_part (tr_max_time t * cp_rate (cc_par c)))) as [|n] eqn:EN; [lia|]. cbn [seq map].
  match goal with |- context [sim_frames project id d None ?cn0 t1 0 None ?l] => destruct (plain_frames project id d l cn0 t1 0) as [ms [cn' [t' [F1 F2]]]] end.
  rewrite F1. cbn [bind]. eexists _, _, _. split; [reflexivity|]. destruct (F2 _ _ eq_refl) as [m [l' [-> Z]]]. exists id, m. split; [left; reflexivity|exact Z].
Qed.
Lemma zero_setup : forall project ecef, exists ms w t, sim_setup project ecef zero_demo = OK (ms, w, t) /\ exists id m, In m ms /\ of_camera id m = true.
Proof.
  intros project ecef. unfold sim_setup. cbn [zero_demo sc_imus sc_cams sc_gps add_all truth_of sc_engine bind].
  match goal with |- context [add_cam project ?a ?b ?w ?t (?c, ?d)] => destruct (plain_added project a b w t c d) as [ms [w' [t' [E H]]]] end.
  all: cbn [w_ekf cc_par plain_cam cp_ext cp_rate cc_tracker cc_board]; try reflexivity; try lra.
  - cbn. lra.
  - rewrite E. cbn [bind app]. rewrite !app_nil_r. exists ms, w', t'. split; [reflexivity|exact H].
Qed.
Example zero_case : sc_trackers zero_demo <> [] /\ p_aug (sc_par zero_demo) = AAll /\ longest_track zero_demo = 0%nat /\
  forall project ecef, exists ms w t, sim_setup project ecef zero_demo = OK (ms, w, t) /\ exists id m, In m ms /\ of_camera id m = true.
Proof. split; [discriminate|]. split; [reflexivity|]. split; [reflexivity|]. exact zero_setup. Qed.
