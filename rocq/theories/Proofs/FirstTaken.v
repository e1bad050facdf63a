(** The first use of a board or a tracker takes the poses of that time. *)
From Coq Require Import Reals ZArith List Arith Bool Lia Lra.
From Verif Require Import Base.Res Base.Mat Base.RDec Base.RSum Base.LinAlg Base.Geom Base.AMap Base.RMat
  Model.TypeHelper Model.Types Model.MathHelperMat Model.MathHelper Model.Matrix3 Model.QR Model.Ekf Model.Updater Model.Ops
  Model.FiducialUpdater Model.MsckfUpdater Model.Sensors
  Spec.Layout Spec.History Spec.Contract Spec.Named Spec.Callback Spec.Unused Spec.World Spec.FirstUse
  Proofs.Invariant Proofs.ZeroStep Proofs.SteadyFrames Proofs.Unused Proofs.FirstUse.
Import ListNotations.
Open Scope nat_scope.

Lemma cam_state_of_filter : forall e id c e', GetCamState e id = (c, e') ->
  c = mget default_cam id (s_cam (e_state e)) /\ s_fid (e_state e') = s_fid (e_state e) /\ e_par e' = e_par e.
Proof. intros e id c e' H. unfold GetCamState in H. injection H as <- <-. auto. Qed.

Lemma board_taken : forall mat_quat u e t b u' e', p_fej (e_par e) = true -> fu_first u = true ->
  fid_UpdateEKF mat_quat u e t b = OK (u', e') ->
  exists e1 f, only_predicted e t e1 /\ mfind (fu_id u) (s_fid (e_state e1)) = Some f /\
    let c := mget default_cam (fu_cam u) (s_cam (e_state e1)) in
    u' = mkFU (fu_id u) (fu_cam u) (fu_ext u) (fu_cam_ext u) false (Some (c_pos c, c_ang c, f_pos f, f_ang f)).
Proof.
  intros mq u e t b u' e' HJ F H. unfold fid_UpdateEKF in H.
  destruct (CalculateLocalTime e t) as [lt e0] eqn:EL. opn H. rename x into e1.
  destruct (predicted_split e t lt e0 EL) as [_ PS]. pose proof (proj1 (PS e1) B) as OP.
  pose proof (par_of _ _ (steady_trans _ _ _ _ (steady_local 0 _ _ _ _ EL) (steady_predict 0 _ _ _ B))) as S.
  assert (HJ1 : p_fej (e_par e1) = true) by (rewrite S; exact HJ).
  opn H. destruct x as [[[pp ap] u1] e2]. opn H. destruct x as [[j u2] e3]. opn H. opn H. injection H as <- _.
  unfold fid_PredictMeasurement in B0. opn B0. destruct x1 as [[[[[a b0] c] d] u3] e4]. injection B0 as _ _ <- <-.
  unfold fid_RefreshStates in B4. rewrite HJ1, F in B4. cbn [negb orb] in B4.
  destruct (GetCamState e1 (fu_cam u)) as [cs e5] eqn:EC. destruct (cam_state_of_filter _ _ _ _ EC) as [C1 [C2 C3]].
  opn B4. unfold fid_at in B0. rewrite C2 in B0. destruct (mfind (fu_id u) (s_fid (e_state e1))) as [f|] eqn:EF; [|discriminate].
  injection B0 as <-. injection B4 as _ _ _ _ <- <-.
  exists e1, f. split; [exact OP|]. split; [exact EF|]. cbv zeta. rewrite <- C1.
  unfold fid_GetMeasurementJacobian in B1. opn B1. destruct x1 as [[[[[a1 b1] c1] d1] u4] e6].
  assert (HJ5 : p_fej (e_par e5) = true) by (rewrite C3; exact HJ1).
  unfold fid_RefreshStates in B0. rewrite HJ5 in B0. cbn [negb orb fu_first fu_poses] in B0. injection B0 as _ _ _ _ <- <-.
  opn B1. opn B1. opn B1. opn B1. destruct x4 as [j4 e7]. opn B1. injection B1 as _ <- _. reflexivity.
Qed.

Lemma tracker_taken : forall solve u e t tracks px u' e', p_fej (e_par e) = true -> mu_first u = true -> tracks <> [] ->
  msckf_UpdateEKF solve u e t tracks px = OK (u', e') ->
  exists e1, only_predicted e t e1 /\
    let c := mget default_cam (mu_id u) (s_cam (e_state e1)) in
    u' = mkMU (mu_id u) (mu_ext u) false (Some (c_intr c, c_pos c, c_ang c)) (mu_min_dist u) (mu_max_dist u) (mu_use_true u).
Proof.
  intros solve u e t tracks px u' e' HJ F NE H. unfold msckf_UpdateEKF in H.
  destruct (CalculateLocalTime e t) as [lt e0] eqn:EL. opn H. rename x into e1.
  destruct (predicted_split e t lt e0 EL) as [_ PS]. pose proof (proj1 (PS e1) B) as OP.
  destruct tracks as [|tr tracks]; [congruence|].
  exists e1. split; [exact OP|]. cbv zeta.
  rewrite F, orb_true_r in H. destruct (GetCamState e1 (mu_id u)) as [cs e5] eqn:EC. destruct (cam_state_of_filter _ _ _ _ EC) as [C1 [C2 C3]].
  cbn [mu_poses mu_id] in H. cbv zeta in H. rewrite <- C1.
  destruct (GetCamState e5 (mu_id u)) as [c e3]. opn H. destruct x as [[[hx rx] ct] e4].
  destruct (Nat.eqb ct 0); [injection H as <- _; reflexivity|]. opn H. destruct x as [hx2 rx2].
  destruct (Nat.leb _ 1); [injection H as <- _; reflexivity|]. opn H. injection H as <- _. reflexivity.
Qed.
