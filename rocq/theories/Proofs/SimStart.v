(** The filter of the simulation when the first message is delivered. *)
From Coq Require Import Reals List Arith Bool ZArith String Lia Lra.
From Verif Require Import Base.Res Base.Mat Base.RDec Base.Geom Base.AMap Base.RMat Base.LinAlg Model.TypeHelper Model.Types Model.Ekf Model.Ops
  Model.MathHelper Model.ImuUpdater Model.GpsUpdater Model.FiducialUpdater Model.MsckfUpdater Model.Matrix3 Model.EigenQuat Model.Sensors Model.Simulation Model.Trackers
  Model.TruthEngine Model.SimSensors Model.SimMain Spec.AtRest Spec.SimMain Proofs.OriginWorld Proofs.SimMain.
Import ListNotations.
Open Scope R_scope.

(** Body and clock are kept, up to the index of the body. *)
Definition kept (e e' : ekf) : Prop :=
  body_with_index (s_body (e_state e')) 0 = body_with_index (s_body (e_state e)) 0 /\
  e_time e' = e_time e /\ e_time_init e' = e_time_init e /\ e_ref_time e' = e_ref_time e.
Lemma kept_trans : forall a b c, kept a b -> kept b c -> kept a c.
Proof. intros a b c (A1 & A2 & A3 & A4) (B1 & B2 & B3 & B4). repeat split; congruence. Qed.
Lemma kept_refl : forall a, kept a a.
Proof. repeat split. Qed.
Lemma refresh_kept : forall e e', RefreshIndices e = OK e' -> kept e e'.
Proof.
  intros e e' H. unfold RefreshIndices in H. cbv zeta in H.
  binv H. binv Hc. destruct a0 as [[im c1] Q1]. binv Hc0. destruct a0 as [[gm c2] Q2].
  binv Hc. destruct a0 as [[cm c3] Q3]. binv Hc0. destruct a0 as [[fm c4] Q4].
  destruct (refresh_augs (s_aug (e_state e)) c4) as [am c5]. binv Hc. injection Hc0 as <-. repeat split.
Qed.
Lemma reg_kept : forall e o e', match o with ORegImu _ _ _ | ORegGps _ _ _ | ORegCam _ _ _ | ORegFid _ _ => True | _ => False end ->
  step e o = OK e' -> kept e e'.
Proof.
  intros e o e' Ho H. destruct o; try contradiction; clear Ho; cbn [step] in H.
  - unfold RegisterIMU in H. destruct (mfind id (s_imu (e_state e))); [injection H as <-; repeat split|].
    cbv zeta in H. binv H. apply refresh_kept in Hc. eapply kept_trans; [|exact Hc].
    assert (Ha : kept e a).
    { destruct (i_ext st || i_int st); [binv Hb; binv Hc0; injection Hc1 as <-; repeat split|].
      injection Hb as <-. repeat split. }
    destruct (i_ext st), (i_int st); exact Ha.
  - unfold RegisterGPS in H. destruct (mfind id (s_gps (e_state e))); [injection H as <-; repeat split|].
    cbv zeta in H. binv H. apply refresh_kept in Hc. eapply kept_trans; [|exact Hc].
    destruct (g_ext st); [binv Hb; binv Hc0; injection Hc1 as <-; repeat split|injection Hb as <-; repeat split].
  - unfold RegisterCamera in H. destruct (mfind id (s_cam (e_state e))); [injection H as <-; repeat split|].
    binv H. cbv zeta in Hc. binv Hc. apply refresh_kept in Hc0. eapply kept_trans; [|exact Hc0].
    destruct (Nat.eqb _ 0) in Hb0;
      (destruct (c_ext st); [binv Hb0; binv Hc; injection Hc1 as <-; repeat split|injection Hb0 as <-; repeat split]).
  - unfold RegisterFiducial in H. destruct (mfind (f_id st) (s_fid (e_state e))); [injection H as <-; repeat split|].
    cbv zeta in H. binv H. apply refresh_kept in Hc. eapply kept_trans; [|exact Hc].
    destruct (f_ext st); [binv Hb; binv Hc0; injection Hc1 as <-; repeat split|injection Hb as <-; repeat split].
Qed.
Lemma fids_kept : forall ps cn e cam m x, add_fiducials cn e cam ps m = OK x -> kept e (snd x).
Proof.
  induction ps as [|p ps IH]; intros cn e cam m x H; cbn [add_fiducials] in H.
  - injection H as <-. apply kept_refl.
  - apply bind_OK in H. destruct H as ([[[id u] cn1] e1] & Hf & H). apply IH in H. eapply kept_trans; [|exact H].
    unfold fid_new in Hf. destruct (new_tracker_id cn) as [id2 cn2]. binv Hf. binv Hc. injection Hc0 as _ _ _ <-.
    apply (reg_kept e (ORegFid (fid_state_of p) (diag_of (fp_var p)))); [exact I|exact Hb0].
Qed.
Lemma add_all_kept : forall A (f : world -> truth -> A -> res (list message * world * truth)),
  (forall w t a ms w' t', f w t a = OK (ms, w', t') -> kept (w_ekf w) (w_ekf w')) ->
  forall l w t ms w' t', add_all f w t l = OK (ms, w', t') -> kept (w_ekf w) (w_ekf w').
Proof.
  intros A f Hf. induction l as [|a l IH]; intros w t ms w' t' H; cbn [add_all] in H.
  - injection H as _ <- _. apply kept_refl.
  - apply bind_OK in H. destruct H as ([[m1 w1] t1] & H1 & H). apply bind_OK in H. destruct H as ([[m2 w2] t2] & H2 & H).
    injection H as _ <- _. eapply kept_trans; [eapply Hf; exact H1|eapply IH; exact H2].
Qed.
Lemma started : forall project g c ms w t, sim_setup project g c = OK (ms, w, t) ->
  kept (Initialize (EKF_init (sim_params c) (sc_noise c) (sc_ref c) (sc_heading c)) 0 (initial_state c)) (w_ekf w).
Proof.
  intros project g c ms w t H. destruct (setup_inv _ _ _ _ _ _ H) as (t0 & m1 & w1 & t1 & m2 & w2 & t2 & m3 & T & A & B & C & _).
  eapply kept_trans; [|eapply kept_trans; [|eapply kept_trans; [|]]].
  - apply (add_all_kept _ _ ) in A; [exact A|]. clear. intros w t [c d] ms w' t' H. unfold add_imu in H.
    apply bind_OK in H. destruct H as ([[[id s] cn] e] & Hn & H). cbv zeta in H. do 2 (apply bind_OK in H; destruct H as (? & _ & H)).
    injection H as _ <- _. cbn [install w_ekf]. unfold imu_new in Hn. destruct (new_sensor_id (w_cnt w)) as [id2 cn2]. binv Hn. binv Hc.
    injection Hc0 as _ _ _ <-. apply (reg_kept _ (ORegImu id2 (imu_state_of (ic_par c)) a)); [exact I|exact Hb0].
  - assert (K : kept (w_ekf w1) (w_ekf (bump (longest_track c) w1))) by (repeat split). exact K.
  - apply (add_all_kept _ _ ) in B; [exact B|]. clear. intros w t [cc d] ms w' t' H. unfold add_cam in H.
    do 2 (apply bind_OK in H; destruct H as (? & _ & H)). cbv zeta in H.
    apply bind_OK in H. destruct H as ([[[id s] cn] e] & Hn & H). apply bind_OK in H. destruct H as (? & _ & H).
    apply bind_OK in H. destruct H as ([[ms2 cnt2] t2] & _ & H). injection H as _ <- _. cbn [install w_ekf].
    unfold camera_new, cam_new in Hn. destruct (new_sensor_id (w_cnt w)) as [id2 cn2].
    apply bind_OK in Hn. destruct Hn as ([[id3 cn3] e3] & Hr & Hn). binv Hr. injection Hc as <- <- <-.
    match type of Hn with context [add_trackers ?a ?b ?l ?m] => destruct (add_trackers a b l m) as [trs cn4] end.
    apply bind_OK in Hn. destruct Hn as ([[fids cn5] e5] & Hf & Hn).
    injection Hn as _ _ _ <-. apply fids_kept in Hf. cbn [snd] in Hf. eapply kept_trans; [|exact Hf].
    apply (reg_kept _ (ORegCam id2 (cam_state_of (cc_par cc)) (diag_of (MinBoundVector (cp_var (cc_par cc)) (1 / 1000000))))); [exact I|exact Hb].
  - apply (add_all_kept _ _ ) in C; [exact C|]. clear. intros w t [c d] ms w' t' H. unfold add_gps in H.
    apply bind_OK in H. destruct H as ([[[id s] cn] e] & Hn & H). cbv zeta in H. do 2 (apply bind_OK in H; destruct H as (? & _ & H)).
    injection H as _ <- _. cbn [install w_ekf]. unfold gps_new in Hn. destruct (new_sensor_id (w_cnt w)) as [id2 cn2]. binv Hn.
    injection Hc as _ _ _ <-. apply (reg_kept _ (ORegGps id2 (gps_state_of (gc_par c)) (mdiag (v3mat (gp_var (gc_par c)))))); [exact I|exact Hb].
Qed.
Lemma body_same : forall b b', body_with_index b' 0 = body_with_index b 0 ->
  b_pos b' = b_pos b /\ b_vel b' = b_vel b /\ b_acc b' = b_acc b /\ b_ang b' = b_ang b /\ b_ang_vel b' = b_ang_vel b /\ b_ang_acc b' = b_ang_acc b.
Proof. intros [] [] H. unfold body_with_index in H. cbn in *. injection H. intros. subst. repeat split. Qed.
Lemma sim_start_state : forall project g c ms w t, sim_setup project g c = OK (ms, w, t) ->
  e_time (w_ekf w) = 0 /\ e_time_init (w_ekf w) = true /\
  let b := s_body (e_state (w_ekf w)) in
  let x := sc_scalar c 0 0 (vx (sc_ang_error c)) in
  let y := sc_scalar c 1 0 (vy (sc_ang_error c)) in
  b_pos b = sc_vec c (sc_pos c) (sc_pos_error c) /\ b_vel b = mkV3 0 0 0 /\ b_acc b = mkV3 0 0 (980665 / 100000) /\
  b_ang_vel b = mkV3 0 0 0 /\ b_ang_acc b = mkV3 0 0 0 /\
  b_ang b = qmul (qmul (mkQ (cos (x / 2)) (sin (x / 2)) 0 0) (mkQ (cos (y / 2)) 0 (sin (y / 2)) 0)) (sc_ang c).
Proof.
  intros project g c ms w t H. destruct (started _ _ _ _ _ _ H) as (K & KT & KI & KR). apply body_same in K.
  destruct K as (K1 & K2 & K3 & K4 & K5 & K6). cbv zeta. rewrite K1, K2, K3, K4, K5, K6, KT, KI.
  unfold Initialize, initial_state. cbn [e_time e_ref_time e_time_init e_state with_state with_clock state_with_body s_body b_pos b_vel b_acc b_ang b_ang_vel b_ang_acc EKF_init].
  repeat split. unfold angle_axis_quat. cbn [vx vy vz].
  rewrite !Rmult_0_r, !Rmult_1_r. f_equal. f_equal; f_equal; f_equal; lra.
Qed.
