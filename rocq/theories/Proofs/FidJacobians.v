(** The fiducial Jacobian, and Jacobians that are not derivatives. *)
From Coq Require Import Reals List Arith Bool Lia Lra.
From Verif Require Import Base.Res Base.Mat Base.RDec Base.RSum Base.LinAlg Base.Geom Base.AMap Base.RMat
  Model.TypeHelper Model.Types Model.MathHelper Model.Matrix3 Model.Ekf Model.Updater Model.GpsUpdater
  Model.ImuUpdater Model.FiducialUpdater Model.MsckfUpdater Spec.Rotation Spec.Deriv
  Proofs.Effects Proofs.Rotations Proofs.Deriv Proofs.RotDeriv Proofs.Jacobians Proofs.CamJacobians.
Import ListNotations.
Open Scope R_scope.

Lemma vadd_0_l : forall v, vadd v0 v = v.
Proof. intros [x y z]. unfold vadd, v0. cbn. f_equal; ring. Qed.
Lemma vadd_0_r : forall v, vadd v v0 = v.
Proof. intros [x y z]. unfold vadd, v0. cbn. f_equal; ring. Qed.

Lemma fid_rows : forall u e jac u' e' x f,
  p_fej (e_par e) = false ->
  fid_GetMeasurementJacobian u e = OK (jac, u', e') ->
  mfind (fu_id u) (s_fid (e_state e)) = Some f ->
  let c := cam_of e (fu_cam u) in
  let b := s_body (e_state e) in
  (fu_cam_ext u = true -> (18 <= c_index c)%nat) ->
  (fu_ext u = true -> (18 <= f_index f)%nat /\ (fu_cam_ext u = true -> (c_index c + 6 <= f_index f)%nat)) ->
  let rc := m3tr (qmat (c_ang c)) in
  let rb := m3tr (qmat (b_ang b)) in
  let rl := m3mul rc rb in
  rows3 jac x 0 =
   vadd (vadd (vadd (mat_vec (m3neg rl) (slice x 0))
      (mat_vec (m3mul (m3mul rl (SkewSymmetric (vsub (f_pos f) (b_pos b)))) (m3tr (QuaternionJacobian (b_ang b)))) (slice x 9)))
      (if fu_cam_ext u then
         vadd (mat_vec (m3neg rc) (slice x (c_index c)))
              (mat_vec (m3mul (m3mul rc (SkewSymmetric (vsub (mat_vec rb (vsub (f_pos f) (b_pos b))) (c_pos c)))) (m3tr (QuaternionJacobian (c_ang c)))) (slice x (c_index c + 3)))
       else v0))
      (if fu_ext u then slice x (f_index f) else v0).
Proof.
  intros u e jac u' e' x f Hf H Hm c b Hc Hfi rc rb rl.
  unfold fid_GetMeasurementJacobian, fid_RefreshStates in H. rewrite Hf in H. cbn [negb orb] in H.
  unfold GetCamState in H. unfold fid_at in H. cbn [e_state with_state state_with_cam s_fid s_body s_cam] in H.
  rewrite Hm in H. cbn [bind fu_cam_ext fu_ext fu_cam fu_id e_size with_state] in H.
  cbn [e_state with_state state_with_cam s_fid s_body s_cam] in H.
  fold (cam_of e (fu_cam u)) in H. fold c in H. fold b in H. fold rc in H. fold rb in H. fold rl in H.
  destruct (set_block _ 0 0 3 3 _) as [j1|] eqn:B1; [|discriminate]. cbn [bind] in H.
  destruct (set_block j1 0 9 3 3 _) as [j2|] eqn:B2; [|discriminate]. cbn [bind] in H.
  destruct (set_block j2 3 9 3 3 _) as [j3|] eqn:B3; [|discriminate]. cbn [bind] in H.
  assert (R3 : rows3 j3 x 0 = vadd (mat_vec (m3neg rl) (slice x 0))
      (mat_vec (m3mul (m3mul rl (SkewSymmetric (vsub (f_pos f) (b_pos b)))) (m3tr (QuaternionJacobian (b_ang b)))) (slice x 9))).
  { rewrite (rows3_other _ _ _ _ _ x 0 B3) by lia.
    rewrite (rows3_block _ _ _ _ _ x B2) by (intros; zi). rewrite (rows3_block _ _ _ _ _ x B1) by (intros; zi).
    rewrite rows3_zero, vadd_0_l. reflexivity. }
  destruct (fu_cam_ext u) eqn:Ec.
  - specialize (Hc eq_refl). cbv beta iota zeta in H. cbn [e_state with_state s_cam state_with_cam] in H.
    rewrite mget_touch in H. fold (cam_of e (fu_cam u)) in H. fold c in H.
    destruct (set_block j3 0 (c_index c + 0) 3 3 _) as [j4|] eqn:B4; [|discriminate]. cbn [bind] in H.
    destruct (set_block j4 0 (c_index c + 3) 3 3 _) as [j5|] eqn:B5; [|discriminate]. cbn [bind] in H.
    destruct (set_block j5 3 (c_index c + 3) 3 3 _) as [j6|] eqn:B6; [|discriminate]. cbn [bind] in H.
    assert (R6 : rows3 j6 x 0 = vadd (rows3 j3 x 0) (vadd (mat_vec (m3neg rc) (slice x (c_index c)))
              (mat_vec (m3mul (m3mul rc (SkewSymmetric (vsub (mat_vec rb (vsub (f_pos f) (b_pos b))) (c_pos c)))) (m3tr (QuaternionJacobian (c_ang c)))) (slice x (c_index c + 3))))).
    { rewrite (rows3_other _ _ _ _ _ x 0 B6) by lia.
      rewrite (rows3_block _ _ _ _ _ x B5) by (intros; zi). rewrite (rows3_block _ _ _ _ _ x B4) by (intros; zi).
      rewrite Nat.add_0_r. generalize (rows3 j3 x 0). intros V. unfold vadd. cbn [vx vy vz]. f_equal; ring. }
    destruct (fu_ext u) eqn:Ex.
    + destruct (Hfi eq_refl) as [F1 F2]. specialize (F2 eq_refl).
      cbn [e_state with_state s_fid state_with_cam] in H. rewrite Hm in H. cbn [bind] in H.
      destruct (set_block j6 0 (f_index f + 0) 3 3 _) as [j7|] eqn:B7; [|discriminate]. cbn [bind] in H.
      destruct (set_block j7 3 (f_index f + 3) 3 3 _) as [j8|] eqn:B8; [|discriminate]. cbn [bind] in H.
      injection H as <- <- <-. rewrite (rows3_other _ _ _ _ _ x 0 B8) by lia.
      rewrite (rows3_block _ _ _ _ _ x B7) by (intros; zi). rewrite R6, R3, m3id_vec, Nat.add_0_r. reflexivity.
    + injection H as <- <- <-. rewrite R6, R3, vadd_0_r. reflexivity.
  - cbn [bind] in H. destruct (fu_ext u) eqn:Ex.
    + destruct (Hfi eq_refl) as [F1 F2].
      cbn [e_state with_state s_fid state_with_cam] in H. rewrite Hm in H. cbn [bind] in H.
      destruct (set_block j3 0 (f_index f + 0) 3 3 _) as [j7|] eqn:B7; [|discriminate]. cbn [bind] in H.
      destruct (set_block j7 3 (f_index f + 3) 3 3 _) as [j8|] eqn:B8; [|discriminate]. cbn [bind] in H.
      injection H as <- <- <-. rewrite (rows3_other _ _ _ _ _ x 0 B8) by lia.
      rewrite (rows3_block _ _ _ _ _ x B7) by (intros; zi). rewrite R3, m3id_vec, Nat.add_0_r, vadd_0_r. reflexivity.
    + injection H as <- <- <-. rewrite R3, !vadd_0_r. reflexivity.
Qed.

Lemma fid_predict : forall mq u e f, p_fej (e_par e) = false -> mfind (fu_id u) (s_fid (e_state e)) = Some f ->
  exists a u' e', fid_PredictMeasurement mq u e =
    OK (in_camera (f_pos f) (b_pos (s_body (e_state e))) (b_ang (s_body (e_state e)))
          (c_pos (cam_of e (fu_cam u))) (c_ang (cam_of e (fu_cam u))), a, u', e').
Proof.
  intros mq u e f Hf Hm. unfold fid_PredictMeasurement, fid_RefreshStates. rewrite Hf. cbn [negb orb].
  unfold GetCamState, fid_at. cbn [e_state with_state state_with_cam s_fid s_body s_cam]. rewrite Hm. cbn [bind].
  eexists. eexists. eexists. reflexivity.
Qed.

Section Fid.
Variables (mq : mat R -> quat) (u u' : fid_updater) (c : R -> ekf) (e' : ekf) (jac : mat R) (x : nat -> R).
Variables (pos tb : R -> V3) (f : R -> FidState).
Hypothesis Hfej : forall t, p_fej (e_par (c t)) = false.
Hypothesis Hjac : fid_GetMeasurementJacobian u (c 0) = OK (jac, u', e').
Hypothesis Hboard : forall t, mfind (fu_id u) (s_fid (e_state (c t))) = Some (f t).
Hypothesis Hpred : forall t, exists a v e, fid_PredictMeasurement mq u (c t) = OK (pos t, a, v, e).
Hypothesis Hang : forall t, b_ang (s_body (e_state (c t))) = RotVecToQuat (tb t).
Hypothesis Hbig : 1 / 1000000000 < vnorm (tb 0) <= PI.
Hypothesis Hpos : vmoves (fun t => b_pos (s_body (e_state (c t)))) (slice x 0).
Hypothesis Htb : vmoves tb (slice x 9).

Lemma pos_is : forall t, pos t = in_camera (f_pos (f t)) (b_pos (s_body (e_state (c t)))) (RotVecToQuat (tb t))
          (c_pos (cam_of (c t) (fu_cam u))) (c_ang (cam_of (c t) (fu_cam u))).
Proof.
  intros t. destruct (Hpred t) as (a & v & e & E).
  destruct (fid_predict mq u (c t) (f t) (Hfej t) (Hboard t)) as (a2 & v2 & e2 & E2).
  rewrite E in E2. injection E2 as -> _ _ _. rewrite Hang. reflexivity.
Qed.

(** Camera and board are fixed parameters. *)
Lemma fid_jacobian_fixed : fu_cam_ext u = false -> fu_ext u = false ->
  (forall t, c_pos (cam_of (c t) (fu_cam u)) = c_pos (cam_of (c 0) (fu_cam u)) /\
             c_ang (cam_of (c t) (fu_cam u)) = c_ang (cam_of (c 0) (fu_cam u))) ->
  (forall t, f_pos (f t) = f_pos (f 0)) ->
  vmoves pos (rows3 jac x 0).
Proof.
  intros Hce Hfe Hc Hf.
  rewrite (fid_rows u (c 0) jac u' e' x (f 0) (Hfej 0) Hjac (Hboard 0)) by congruence.
  rewrite Hce, Hfe, !vadd_0_r. rewrite Hang.
  pose proof (seen_moves_fixed (fun _ => f_pos (f 0)) _ tb (c_pos (cam_of (c 0) (fu_cam u))) (c_ang (cam_of (c 0) (fu_cam u)))
     _ _ _ (vmoves_const _) Hpos Htb Hbig) as D. cbv beta zeta in D.
  eapply vmoves_loc; [|eapply vmoves_eq; [|exact D]].
  - exists 1. split; [lra|]. intros t _. cbv beta. rewrite pos_is. rewrite (Hf t), (proj1 (Hc t)), (proj2 (Hc t)). reflexivity.
  - set (P := m3mul _ _). assert (Z : mat_vec P v0 = v0) by (unfold mat_vec, v0; cbn; f_equal; ring).
    rewrite Z, vadd_0_l. reflexivity.
Qed.

(** The camera pose is part of the state. *)
Lemma fid_jacobian_cam : forall tc, fu_cam_ext u = true -> fu_ext u = false ->
  let ix := c_index (cam_of (c 0) (fu_cam u)) in
  (18 <= ix)%nat ->
  (forall t, c_ang (cam_of (c t) (fu_cam u)) = RotVecToQuat (tc t)) ->
  1 / 1000000000 < vnorm (tc 0) <= PI ->
  vmoves (fun t => c_pos (cam_of (c t) (fu_cam u))) (slice x ix) -> vmoves tc (slice x (ix + 3)) ->
  (forall t, f_pos (f t) = f_pos (f 0)) ->
  vmoves pos (rows3 jac x 0).
Proof.
  intros tc Hce Hfe ix Hix Hca Hbc Hcp Htc Hf.
  rewrite (fid_rows u (c 0) jac u' e' x (f 0) (Hfej 0) Hjac (Hboard 0)) by (try congruence; intros; exact Hix).
  rewrite Hce, Hfe, !vadd_0_r. rewrite Hang, Hca. fold ix.
  pose proof (seen_moves (fun _ => f_pos (f 0)) _ tb _ tc _ _ _ _ _ (vmoves_const _) Hpos Htb Hcp Hbig (conj Htc Hbc)) as D.
  cbv beta zeta in D.
  eapply vmoves_loc; [|eapply vmoves_eq; [|exact D]].
  - exists 1. split; [lra|]. intros t _. cbv beta. rewrite pos_is, (Hf t), Hca. reflexivity.
  - set (P := m3mul _ (m3tr (qmat (RotVecToQuat (tb 0))))). assert (Z : mat_vec P v0 = v0) by (unfold mat_vec, v0; cbn; f_equal; ring).
    rewrite Z, vadd_0_l. set (A := mat_vec _ _). set (B := mat_vec _ _). unfold vadd. cbn [vx vy vz]. f_equal; ring.
Qed.

(** The board position is part of the state: rate of the prediction. *)
Lemma fid_jacobian_board : fu_cam_ext u = false -> fu_ext u = true -> (18 <= f_index (f 0))%nat ->
  (forall t, c_pos (cam_of (c t) (fu_cam u)) = c_pos (cam_of (c 0) (fu_cam u)) /\
             c_ang (cam_of (c t) (fu_cam u)) = c_ang (cam_of (c 0) (fu_cam u))) ->
  vmoves (fun t => f_pos (f t)) (slice x (f_index (f 0))) ->
  let rl := m3mul (m3tr (qmat (c_ang (cam_of (c 0) (fu_cam u))))) (m3tr (qmat (b_ang (s_body (e_state (c 0)))))) in
  let d := slice x (f_index (f 0)) in
  vmoves pos (vadd (rows3 jac x 0) (vsub (mat_vec rl d) d)).
Proof.
  intros Hce Hfe Hfi Hc Hfm rl d.
  rewrite (fid_rows u (c 0) jac u' e' x (f 0) (Hfej 0) Hjac (Hboard 0)) by (first [congruence | intros; split; [exact Hfi|congruence]]).
  unfold rl. rewrite Hce, Hfe, !vadd_0_r. rewrite Hang.
  pose proof (seen_moves_fixed _ _ tb (c_pos (cam_of (c 0) (fu_cam u))) (c_ang (cam_of (c 0) (fu_cam u)))
     _ _ _ Hfm Hpos Htb Hbig) as D. cbv beta zeta in D.
  eapply vmoves_loc; [|eapply vmoves_eq; [|exact D]].
  - exists 1. split; [lra|]. intros t _. cbv beta. rewrite pos_is. rewrite (proj1 (Hc t)), (proj2 (Hc t)). reflexivity.
  - fold d. set (A := mat_vec _ d). set (B := mat_vec _ (slice x 0)). set (E := mat_vec _ (slice x 9)).
    clearbody A B E d. unfold vadd, vsub. cbn [vx vy vz]. f_equal; ring.
Qed.
End Fid.
